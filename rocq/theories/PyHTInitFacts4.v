(** When an electron cloud for PyHEADTAIL can be made, and its settings. *)
From Coq Require Import String Ascii Lia Bool.
From Verif Require Import Num ConfigVal Ckpt CkptFacts Config SpecConfig ConfigFacts ConfigFacts4 ConfigFacts5 Init SpecInit SpecInitParts InitFacts InitFacts2 InitFacts3 InitFacts4 InitFacts5 InitFacts6 InitFacts7
  PyHTInit SpecPyHTInit PyHTInitFacts PyHTInitFacts2 PyHTInitFacts3.
Local Open Scope string_scope.
Local Open Scope list_scope.

Lemma positions_spec l : forall r, mapM probe_xy l = Some r <-> Forall2 position l r.
Proof.
  induction l as [|d l IH]; intros r; cbn [mapM].
  - split; [intros H; injection H as <-; constructor|]. intros H. inversion H. reflexivity.
  - unfold probe_xy at 1. split.
    + destruct (dget d "x") as [x|] eqn:X; [|discriminate]. cbn [bind]. destruct (dget d "y") as [y|] eqn:Y; [|discriminate]. cbn [bind].
      destruct (mapM probe_xy l) as [r'|]; [|discriminate]. cbn [bind]. intros H. injection H as <-. constructor; [split; assumption|]. apply IH. reflexivity.
    + intros H. inversion H as [|? [x y] ? r' [X Y] F]; subst. cbn [fst snd] in X, Y. rewrite X. cbn [bind]. rewrite Y. cbn [bind]. apply IH in F. rewrite F. reflexivity.
Qed.
Lemma in_same (d : attrs) k v w : NoDup (map fst d) -> In (k, v) d -> In (k, w) d -> v = w.
Proof. intros N A B. apply in_dget in A; [|exact N]. apply in_dget in B; [|exact N]. congruence. Qed.
Lemma override_own ig kw : forall cfg, override ig kw cfg = override ig (without ig kw) cfg.
Proof.
  induction kw as [|[k v] kw IH]; intros cfg; [reflexivity|]. cbn [override without filter fst]. destruct (mem k ig) eqn:E; cbn [negb]; [apply IH|].
  cbn [override]. rewrite E. destruct (dhas cfg k); [apply IH|reflexivity].
Qed.
Lemma own_out ig k kw : without ig (filter (fun kv => negb (String.eqb (fst kv) k)) kw) = filter (fun kv => negb (String.eqb (fst kv) k)) (without ig kw).
Proof.
  unfold without. induction kw as [|[q v] kw IH]; [reflexivity|]. cbn [filter fst]. destruct (negb (String.eqb q k)) eqn:E, (negb (mem q ig)) eqn:F; cbn [filter fst]; rewrite ?E, ?F, IH; reflexivity.
Qed.

Section Coupling.
Variables m_e m_p qe c : R.
Variable files : string -> option attrs.
Variable folder : string.
Variable isfile : string -> bool.
Variable npass : R.
Variable subset : pval -> bool.
Variable sec_name : nat -> string.
Variable probe_list : pval -> option (list attrs).
Notation make := (make m_e m_p qe c files folder isfile npass subset sec_name probe_list).
Notation start := (start m_e m_p qe c files folder isfile npass subset sec_name).
Notation build := (build m_e qe c folder isfile npass subset sec_name).
Notation read_all := (read_all m_e m_p qe c files).
Notation descr := (cloud_descr_from_file m_e m_p qe files).
Notation found := (file_for folder isfile).

Lemma not_skipping a : ~ In "skip_spacech_ele" (map fst (ea_kw a)) -> skipping a = false /\ sim_kwargs a = ("filen_main_outp", outp_value (ea_outp a)) :: ea_kw a.
Proof.
  intros H. unfold skipping, kw_or, sim_kwargs. rewrite (proj2 (dget_none _ _) H). split; [reflexivity|]. f_equal.
  induction (ea_kw a) as [|[k v] kw IH]; [reflexivity|]. cbn [map fst In filter] in *. destruct (String.eqb_spec k "skip_spacech_ele"); [tauto|]. cbn [negb]. f_equal. apply IH. tauto.
Qed.
Lemma build_count sv sk g cc b sbs cl p : build sv sk g cc b sbs cl = Some p -> List.length (pl_clouds p) = List.length cl.
Proof.
  intros B. pose proof (build_is _ _ _ _ _ _ _ _ _ _ _ _ _ _ _ _ B) as X. cbv zeta in X. destruct X as (_ & _ & _ & _ & _ & F). apply len2 in F. rewrite <- F. clear.
  induction cl as [|x cl IH]; [reflexivity|]. destruct cl as [|y cl]; [reflexivity|]. change (lasts (x :: y :: cl)) with ((x, false) :: lasts (y :: cl)). cbn [List.length] in *. congruence.
Qed.
Lemma boris_spec cc : boris cc <-> tracker_is (dget cc) "Boris" \/ tracker_is (dget cc) "BorisMultipole".
Proof. unfold boris, tracker_is. split; [intros (m & -> & [->| ->]); auto|intros [H|H]; eauto]. Qed.
Lemma probes_spec kw : NoDup (map fst kw) -> (exists pr, probes probe_list kw = Some pr) <->
  forall v, In ("probes_position", v) kw -> exists l r, probe_list v = Some l /\ Forall2 position l r.
Proof.
  intros N. unfold probes. destruct (dget kw "probes_position") as [v|] eqn:E.
  - apply dget_in in E. split.
    + intros [pr H] w I. rewrite (in_same _ _ _ _ N I E). destruct (probe_list v) as [l|]; [|discriminate]. cbn [bind] in H. exists l. destruct (mapM probe_xy l) as [r|] eqn:M; [|discriminate].
      apply positions_spec in M. eauto.
    + intros H. destruct (H v E) as (l & r & L & F). rewrite L. cbn [bind]. apply positions_spec in F. rewrite F. cbn [bind]. eauto.
  - split; [|eauto]. intros _ v I. apply dget_none in E. destruct E. apply in_map_iff. exists ("probes_position", v). auto.
Qed.

Lemma accepted_iff fresh a : NoDup (map fst (ea_kw a)) -> ~ In "skip_spacech_ele" (map fst (ea_kw a)) ->
  (exists o, make fresh a = Some o) <->
  (forall k, In k taken -> ~ In k (map fst (ea_kw a))) /\
  (exists cc t, read_all true extra_allowed_kwargs (("filen_main_outp", outp_value (ea_outp a)) :: ea_kw a) cc None [] [t] /\
     (tracker_is (dget cc) "Boris" \/ tracker_is (dget cc) "BorisMultipole") /\
     chamber_set (dget cc) /\ (ea_sc a = None -> field_set (dget cc) None) /\ lifetime_set (dget cc) /\ cloud_set m_e qe (dget cc) found subset c None (dget t)) /\
  (forall v, In ("probes_position", v) (ea_kw a) -> exists l r, probe_list v = Some l /\ Forall2 position l r) /\
  (ea_slicemode a = true -> ea_slicer a = PNone).
Proof.
  intros N K. destruct (not_skipping a K) as [K1 K2]. rewrite <- K2. split.
  - intros [o H]. destruct (make_parts _ _ _ _ _ _ _ _ _ _ _ _ _ _ H) as (t & q & Ra & _). apply make_iff in H as (T & _ & cc & p & pr & C & P & B & E & L & S & ->). cbn [ec_cc object] in Ra.
    split; [exact T|]. split; [|split; [|exact S]].
    + exists cc, t. split; [exact Ra|]. split; [apply boris_spec, B|].
      destruct (proj1 (start_iff _ _ _ _ _ _ _ _ _ _ _ _ _ _ _ _ _ _ _ _ Ra) (ex_intro _ p P)) as (X1 & _ & X2 & X3 & X4).
      split; [exact X1|]. split; [intros Z; apply X2; rewrite Z; reflexivity|]. split; [exact X3|]. inversion X4; assumption.
    + apply probes_spec; [exact N|]. eauto.
  - intros (T & (cc & t & Ra & B & X1 & X2 & X3 & X4) & P & S).
    assert (St : exists p, start true (negb (is_some (ea_outp a))) false (is_some (ea_sc a)) extra_allowed_kwargs (sim_kwargs a) = Some p).
    { apply (start_iff _ _ _ _ _ _ _ _ _ _ _ _ _ _ _ _ _ _ _ _ Ra). split; [exact X1|]. split; [discriminate|]. split; [|split; [exact X3|constructor; [exact X4|constructor]]].
      cbn [orb]. destruct (ea_sc a); [discriminate|]. intros _. exact (X2 eq_refl). }
    destruct St as [p St]. apply probes_spec in P as [pr P]; [|exact N]. eexists. apply make_iff. split; [exact T|]. split; [exact K1|]. exists cc, p, pr.
    split; [apply Ra|]. split; [exact St|]. split; [apply boris_spec, B|]. split; [exact P|]. split; [|split; [exact S|reflexivity]].
    apply (start_build _ _ _ _ _ _ _ _ _ _ _ _ _ _ _ _ _ _ _ _ _ Ra) in St. apply build_count in St. rewrite St. cbn. lia.
Qed.

Lemma settings_are fresh a o : NoDup (map fst (ea_kw a)) -> make fresh a = Some o ->
  (ec_L o = ea_L a /\ ec_slicer o = ea_slicer a /\ ec_Dtref o = ea_Dtref a /\ ec_clean o = ea_clean a /\ ec_slicemode o = ea_slicemode a /\
   ec_kick o = ea_kick a /\ ec_monitor o = ea_monitor a /\ ec_verbose o = ea_verbose a /\ ec_outp o = ea_outp a /\ ec_reint o = ea_reint a /\ ec_kw o = ea_kw a) /\
  (keyword (ea_kw a) "x_beam_offset" (PNum 0) (ec_xoff o) /\ keyword (ea_kw a) "y_beam_offset" (PNum 0) (ec_yoff o) /\
   keyword (ea_kw a) "enable_kick_x" (PBool true) (ec_kx o) /\ keyword (ea_kw a) "enable_kick_y" (PBool true) (ec_ky o)) /\
  ec_sc o = (match ea_sc a with Some s => s | None => fresh end) /\
  (match ec_probes o with
   | None => forall v, ~ In ("probes_position", v) (ea_kw a)
   | Some r => exists v l, In ("probes_position", v) (ea_kw a) /\ probe_list v = Some l /\ Forall2 position l r
   end) /\
  (forall p v, In (p, v) (ea_kw a) -> ~ In p extra_allowed_kwargs -> p <> "skip_spacech_ele" -> dget (ec_cc o) p = Some v) /\
  dget (ec_cc o) "filen_main_outp" = Some (outp_value (ea_outp a)) /\ untouched o.
Proof.
  intros N H. pose proof (cc_of _ _ _ _ _ _ _ _ _ _ _ _ _ _ N H) as (cfg & _ & Cc). pose proof (cc_file _ _ _ _ _ _ _ _ _ _ _ _ _ _ N H) as Cf.
  apply make_iff in H as (T & _ & cc & p & pr & C & _ & _ & E & _ & _ & ->). cbn [ec_cc object] in Cc, Cf.
  split; [repeat split; reflexivity|]. split; [cbn; repeat split; apply kw_or_spec, N|]. split; [reflexivity|]. split.
  { cbn [object ec_probes]. unfold probes in E. destruct (dget (ea_kw a) "probes_position") as [v|] eqn:V.
    - apply dget_in in V. destruct (probe_list v) as [l|] eqn:L; [|discriminate]. cbn [bind] in E. destruct (mapM probe_xy l) as [r|] eqn:M; [|discriminate]. cbn [bind] in E. injection E as <-.
      apply positions_spec in M. exists v, l. auto.
    - injection E as <-. intros v I. apply dget_none in V. apply V. apply in_map_iff. exists ("probes_position", v). auto. }
  split; [|split; [exact Cf|repeat split; reflexivity]].
  intros q v I X1 X2. cbn [object ec_cc]. rewrite Cc. assert (Y : dget (sim_kwargs a) q = Some v).
  { apply in_dget; [apply kw_nodup; assumption|]. unfold sim_kwargs. right. apply filter_In. split; [exact I|]. cbn [fst]. destruct (String.eqb_spec q "skip_spacech_ele"); [contradiction|reflexivity]. }
  rewrite Y. destruct (mem q extra_allowed_kwargs) eqn:M; [apply mem_In in M; contradiction|reflexivity].
Qed.

Lemma extras_only fresh fresh' a a' o o' : make fresh a = Some o -> make fresh' a' = Some o' -> ea_outp a = ea_outp a' -> (ea_sc a = None <-> ea_sc a' = None) ->
  without extra_allowed_kwargs (ea_kw a) = without extra_allowed_kwargs (ea_kw a') -> ec_cc o = ec_cc o' /\ ec_plan o = ec_plan o'.
Proof.
  intros H H' O S E. apply make_iff in H as (_ & _ & cc & p & pr & C & P & _ & _ & _ & _ & ->). apply make_iff in H' as (_ & _ & cc' & p' & pr' & C' & P' & _ & _ & _ & _ & ->).
  cbn [object ec_cc ec_plan].
  assert (Rc : forall sk, read_config m_e m_p qe files sk extra_allowed_kwargs (sim_kwargs a) = read_config m_e m_p qe files sk extra_allowed_kwargs (sim_kwargs a')).
  { intros sk. unfold read_config. destruct (read_parameter_files m_e m_p qe files sk) as [cfg|]; [|reflexivity]. cbn [bind].
    rewrite (override_own _ (sim_kwargs a)), (override_own _ (sim_kwargs a')). f_equal. unfold sim_kwargs.
    change (without extra_allowed_kwargs (("filen_main_outp", outp_value (ea_outp a)) :: ?x)) with (("filen_main_outp", outp_value (ea_outp a)) :: without extra_allowed_kwargs x).
    rewrite O. cbn [without filter fst]. change (negb (mem "filen_main_outp" extra_allowed_kwargs)) with true. cbn [without]. fold (without extra_allowed_kwargs).
    f_equal. fold (without extra_allowed_kwargs (filter (fun kv => negb (String.eqb (fst kv) "skip_spacech_ele")) (ea_kw a))).
    fold (without extra_allowed_kwargs (filter (fun kv => negb (String.eqb (fst kv) "skip_spacech_ele")) (ea_kw a'))). rewrite !own_out, E. reflexivity. }
  assert (S' : is_some (ea_sc a) = is_some (ea_sc a')) by (destruct (ea_sc a), (ea_sc a'); cbn; try reflexivity; exfalso; [assert (X : Some n = None) by (apply S; reflexivity)|assert (X : Some n = None) by (apply S; reflexivity)]; discriminate).
  rewrite Rc in C. split; [congruence|]. unfold Init.start in P, P'. rewrite Rc, O, S' in P. congruence.
Qed.

Notation ops_do := (ops_do m_e m_p qe files).
Notation eop_do := (eop_do m_e m_p qe files).
Lemma ops_snoc l x : forall o, ops_do (l ++ [x]) o = (do (o1, w) <- ops_do l o ; do (o2, w2) <- eop_do x o1 ; Some (o2, w ++ [w2])).
Proof.
  induction l as [|y l IH]; intros o; cbn [app PyHTInit.ops_do bind].
  - destruct (eop_do x o) as [[o1 w]|]; reflexivity.
  - destruct (eop_do y o) as [[o1 w]|]; [|reflexivity]. cbn [bind]. rewrite IH. destruct (ops_do l o1) as [[o2 r]|]; [|reflexivity]. cbn [bind].
    destruct (eop_do x o2) as [[o3 r']|]; reflexivity.
Qed.
Lemma runs fresh a o conf f base l : NoDup (map fst (ea_kw a)) -> make fresh a = Some o -> ea_outp a = Some conf -> first_file (ec_cc o) conf f -> plain_name f base ->
  Forall (usable (ea_slicemode a)) l -> recorded l -> exists o1 w, ops_do l o = Some (o1, w).
Proof.
  intros N H A Ff Pl. induction l as [|x l IH] using rev_ind; intros U Re; [cbn; eauto|]. apply Forall_app in U as [U Ux]. inversion Ux as [|? ? V _]; subst.
  assert (Re1 : recorded l /\ x <> Replace /\ x <> Remove /\ x <> Once true).
  { destruct Re as (R1 & R2 & R3). rewrite in_app_iff in R1, R2, R3. cbn in R1, R2, R3. repeat split; try tauto; intros ->; tauto. }
  destruct Re1 as (Re1 & X1 & X2 & X3). destruct (IH U Re1) as (o1 & w & E). rewrite ops_snoc, E. cbn [bind].
  assert (Z : exists o2 w2, eop_do x o1 = Some (o2, w2)).
  { destruct x; try congruence; try (cbn; eauto; fail).
    - destruct (pass_file _ _ _ _ _ _ _ _ _ _ _ _ _ _ _ _ _ _ _ _ N H A Ff Pl V Re1 E) as [o2 Y]. eauto.
    - destruct (slice_file _ _ _ _ _ _ _ _ _ _ _ _ _ _ _ _ _ _ _ _ N H A Ff Pl V Re1 E) as [Y _]. eauto.
    - destruct (slice_file _ _ _ _ _ _ _ _ _ _ _ _ _ _ _ _ _ _ _ _ N H A Ff Pl V Re1 E) as [_ [o2 Y]]. eauto. }
  destruct Z as (o2 & w2 & Z). rewrite Z. cbn [bind]. eauto.
Qed.

Lemma recorder_op fresh a o l o1 w x o2 w2 s s2 : NoDup (map fst (ea_kw a)) -> make fresh a = Some o -> recorded l -> ops_do l o = Some (o1, w) ->
  x = Pass \/ x = Next -> eop_do x o1 = Some (o2, w2) -> ec_saver o = Some s -> ec_saver o2 = Some s2 ->
  (forall k, In k recorder_kept -> par s2 k = par s k) /\ (forall k v, In (k, v) recorder_lost -> par s2 k = Some v).
Proof.
  intros N H Re O X E S S2. destruct (ea_outp a) as [conf|] eqn:A; [|apply (no_output _ _ _ _ _ _ _ _ _ _ _ _ _ _ H) in A; congruence].
  destruct (first_exists _ _ _ _ _ _ _ _ _ _ _ _ _ _ _ N H A) as [f Ff]. destruct (good_make _ _ _ _ _ _ _ _ _ _ _ _ _ _ _ _ N H A Ff) as (G & _ & _). pose proof O as O'. destruct (good_ops _ _ _ _ folder isfile _ _ _ _ _ G Re O) as ((_ & M & On) & _).
  unfold PyHTInit.eop_do in E. rewrite M in E. destruct X as [->| ->].
  - destruct (ec_slicemode o1); [discriminate|]. rewrite On in E. cbn [andb] in E. destruct (reinit m_e m_p qe files o1) as [o3|] eqn:R; [|discriminate]. cbn [bind] in E. injection E as <- _. cbn in S2.
    exact (recorder_is _ _ _ _ _ _ _ _ _ _ _ _ _ _ _ _ _ _ _ _ N H Re O' R S S2).
  - destruct (negb (ec_slicemode o1)); [discriminate|]. destruct (reinit m_e m_p qe files o1) as [o3|] eqn:R; [|discriminate]. cbn [bind] in E. injection E as <- _.
    exact (recorder_is _ _ _ _ _ _ _ _ _ _ _ _ _ _ _ _ _ _ _ _ N H Re O' R S S2).
Qed.

Lemma unnamed fresh a o : NoDup (map fst (ea_kw a)) -> make fresh a = Some o -> ea_outp a = None -> dget (ec_cc o) "cloud_name" = Some PNone.
Proof.
  intros N H A. pose proof (cc_file _ _ _ _ _ _ _ _ _ _ _ _ _ _ N H) as Cf. rewrite A in Cf. cbn in Cf. destruct (make_parts _ _ _ _ _ _ _ _ _ _ _ _ _ _ H) as (t & q & _ & D & _).
  unfold cloud_descr_from_file in D. rewrite Cf in D. cbn [bind] in D. destruct (dget (ec_cc o) "cloud_name") as [v|] eqn:V; [|discriminate]. cbn [bind] in D. destruct v; try discriminate. reflexivity.
Qed.
End Coupling.
