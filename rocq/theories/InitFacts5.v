(** The whole simulation, and a setting without effect. *)
From Coq Require Import String Lia Bool Lra.
From Verif Require Import Num NumFacts ConfigVal ConfigTable Ckpt CkptFacts CkptFacts3 Config SpecConfig ConfigFacts Init SpecInit SpecInitParts InitFacts InitFacts2 InitFacts4.
Local Open Scope string_scope.
Local Open Scope list_scope.

Ltac one H B := rewrite (call_par _ _ _ _ _ _ _ _ _ H B); reflexivity.

Section Whole.
Variables m_e qe c : R.
Variable folder : string.
Variable isfile : string -> bool.
Variable npass : R.
Variable subset : pval -> bool.
Variable sec_name : nat -> string.
Variable cc : attrs.

Lemma non_unif_spec cl nu : mapM non_unif cl = Some nu ->
  (existsb (fun b => b) nu = true <-> exists t, In t (map dget cl) /\ (t "switch_model" = Some (PStr "ECLOUD_nunif") \/ t "switch_model" = Some (PStr "ECLOUD_nunif_charging"))).
Proof.
  revert nu. induction cl as [|t cl IH]; intros nu H; cbn [mapM map] in H |- *.
  - injection H as <-. split; [discriminate|intros (t & [] & _)].
  - destruct (non_unif t) as [u|] eqn:U; [|discriminate]. destruct (mapM non_unif cl) as [r|]; [|discriminate]. injection H as <-.
    cbn [existsb]. rewrite orb_true_iff, (IH r eq_refl). unfold non_unif in U. destruct (dget t "switch_model") as [m|] eqn:G; [|discriminate]. cbn [bind] in U.
    assert (Eu : u = py_in m [PStr "ECLOUD_nunif"; PStr "ECLOUD_nunif_charging"]) by congruence. rewrite Eu.
    rewrite py_in2, orb_true_iff, !py_eqb_str. split.
    + intros [E|(t' & I & E)].
      * exists (dget t). split; [left; reflexivity|]. rewrite G. destruct E as [->| ->]; auto.
      * exists t'. split; [right; exact I|exact E].
    + intros (t' & [<-|I] & E); [left; rewrite G in E; destruct E as [E|E]; injection E as ->; auto|right; eauto].
Qed.

Lemma chamber_is cl o : build_chamber folder isfile cc cl = Some o -> chamber_part (file_for folder isfile) (dget cc) (map dget cl) o.
Proof.
  intros H. unfold build_chamber in H. destruct (mapM non_unif cl) as [nu|] eqn:Nu; [|discriminate]. cbn [bind] in H.
  pose proof (non_unif_spec cl nu Nu) as Fl. set (fl := existsb (fun b => b) nu) in *.
  assert (Ff : forall o', par o' "flag_non_unif_sey" = Some (PBool fl) ->
    (par o' "flag_non_unif_sey" = Some (PBool true) /\ exists t, In t (map dget cl) /\ (t "switch_model" = Some (PStr "ECLOUD_nunif") \/ t "switch_model" = Some (PStr "ECLOUD_nunif_charging"))) \/
    (par o' "flag_non_unif_sey" = Some (PBool false) /\ ~ exists t, In t (map dget cl) /\ (t "switch_model" = Some (PStr "ECLOUD_nunif") \/ t "switch_model" = Some (PStr "ECLOUD_nunif_charging")))).
  { intros o' E. rewrite E. destruct fl; [left; split; [reflexivity|apply Fl; reflexivity]|right; split; [reflexivity|]]. intros X. apply Fl in X. discriminate. }
  destruct (dget cc "chamb_type") as [ty|] eqn:Gt; [|discriminate]. cbn [bind] in H. unfold chamber_part. rewrite Gt.
  destruct (py_eqb ty (PStr "ellip")) eqn:E1.
  { apply py_eqb_str in E1. subst ty. pose proof (call_name _ _ _ _ _ _ _ H) as N. cbn in N. rewrite N. bindof H B.
    split; [left; reflexivity|]. split; [intros _; mained H B|]. repeat split; try discriminate; congruence. }
  destruct (py_in ty [PStr "polyg"; PStr "polyg_cython"]) eqn:E2.
  { rewrite py_in2, orb_true_iff, !py_eqb_str in E2. destruct (dget cc "filename_chm") as [f|] eqn:Gf; [|discriminate]. cbn [bind] in H.
    destruct (find_file folder isfile f) as [w|] eqn:F; [|discriminate]. cbn [bind] in H. destruct (find_file_str folder isfile f w F) as (n & p & -> & -> & P).
    pose proof (call_name _ _ _ _ _ _ _ H) as N. cbn in N. rewrite N. bindof H B.
    split; [destruct E2 as [->| ->]; auto|]. split; [discriminate|]. split; [discriminate|]. split.
    - intros _. split; [mained H B|]. exists n, p. split; [reflexivity|]. split; [exact P|]. one H B.
    - intros _. apply Ff. one H B. }
  destruct (py_eqb ty (PStr "rect")) eqn:E3; [|discriminate].
  apply py_eqb_str in E3. subst ty. pose proof (call_name _ _ _ _ _ _ _ H) as N. cbn in N. rewrite N. bindof H B.
  split; [left; reflexivity|]. split; [discriminate|]. split; [intros _; mained H B|]. split; [discriminate|]. intros _. apply Ff. one H B.
Qed.

Lemma profile_is v : profile_part (file_for folder isfile) (Some v) (Some (profile_file folder isfile v)).
Proof.
  unfold profile_part, profile_file. split.
  - intros n E. injection E as ->. destruct (find_file_spec folder isfile n) as (p & F & P). rewrite F. eauto.
  - intros N. destruct (find_file folder isfile v) as [w|] eqn:F; [|reflexivity]. destruct (find_file_str folder isfile v w F) as (n & p & -> & _). destruct (N n eq_refl).
Qed.

Lemma beam_is b o : build_beam folder isfile cc b = Some o -> beam_part (file_for folder isfile) (dget cc) (dget b) o.
Proof.
  intros H. unfold build_beam in H. destruct (dget b "beam_long_prof_file") as [p|] eqn:Gp; [|discriminate]. cbn [bind] in H.
  destruct (dget cc "progress_path") as [g|] eqn:Gg; [|discriminate]. cbn [bind] in H. unfold beam_part. rewrite Gp, Gg.
  destruct (mapgen_file g) as [m|] eqn:M; [|discriminate]. cbn [bind] in H. pose proof (profile_is p) as Pf.
  set (w := profile_file folder isfile p) in *. bindof H B.
  split; [eapply call_beams; [exact H|exact B|vm_compute; reflexivity]|]. split; [mained H B|].
  split; [assert (E : par o "beam_long_prof_file" = Some w) by one H B; rewrite E; exact Pf|].
  split; [one H B|]. split; [one H B|].
  assert (E : par o "progress_mapgen_file" = Some m) by one H B. rewrite E.
  destruct g; try discriminate; cbn in M; injection M as <-; [left; auto|right; eauto].
Qed.
Lemma sec_beam_is b ii sb o : build_sec_beam folder isfile sec_name cc b ii sb = Some o ->
  sec_beam_part (dget cc) (dget sb) (sec_name ii) o /\
  exists v w, dget sb "beam_long_prof_file" = Some v /\ dget b "beam_long_prof_file" = Some w /\ par o "beam_long_prof_file" = Some (sec_profile_file folder isfile v w).
Proof.
  intros H. unfold build_sec_beam in H. destruct (dget sb "beam_long_prof_file") as [p|] eqn:Gp; [|discriminate]. cbn [bind] in H.
  destruct (dget b "beam_long_prof_file") as [p'|] eqn:Gp'; [|discriminate]. cbn [bind] in H.
  destruct (dget cc "progress_path") as [g|] eqn:Gg; [|discriminate]. cbn [bind] in H. unfold sec_beam_part. rewrite Gg.
  destruct g as [| | | |s| | |]; try discriminate. cbn [as_name bind] in H. set (w := sec_profile_file folder isfile p p') in *. bindof H B. split.
  - split; [eapply call_beams; [exact H|exact B|vm_compute; reflexivity]|]. split; [mained H B|]. split; [one H B|].
    split; [assert (E : par o "t_primary_beam" = Some (POther 8)) by one H B; rewrite E; discriminate|].
    exists s. split; [reflexivity|]. one H B.
  - exists p, p'. repeat split. one H B.
Qed.
Lemma sec_profile_same v w : (forall n m, v = PStr n -> w = PStr m -> isfile (folder ++ "/" ++ m ++ ".mat")%string = isfile (folder ++ "/" ++ n ++ ".mat")%string) ->
  (exists m, w = PStr m) -> profile_part (file_for folder isfile) (Some v) (Some (sec_profile_file folder isfile v w)).
Proof.
  intros S (m & ->). unfold profile_part, sec_profile_file. split.
  - intros n E. injection E as ->. cbn [as_name]. specialize (S n m eq_refl eq_refl). unfold file_for, in_folder. rewrite S.
    destruct (isfile (folder ++ "/" ++ n)%string) eqn:A; [eexists; split; [left; split; reflexivity|reflexivity]|].
    destruct (isfile (folder ++ "/" ++ n ++ ".mat")%string) eqn:B.
    + eexists; split; [right; left; repeat split; reflexivity|reflexivity].
    + eexists; split; [right; right; repeat split; reflexivity|reflexivity].
  - intros N. destruct (as_name v) as [n|] eqn:E; [|reflexivity]. apply as_name_spec in E. subst. destruct (N n eq_refl).
Qed.

Lemma sec_beams_is b ii sbs l : build_sec_beams folder isfile sec_name cc b ii sbs = Some l ->
  Forall2 (fun q o => sec_beam_part (dget cc) (dget (snd q)) (sec_name (fst q)) o /\
    exists v w, dget (snd q) "beam_long_prof_file" = Some v /\ dget b "beam_long_prof_file" = Some w /\ par o "beam_long_prof_file" = Some (sec_profile_file folder isfile v w))
   (combine (seq ii (length sbs)) sbs) l.
Proof.
  revert ii l. induction sbs as [|sb sbs IH]; intros ii l H; cbn [build_sec_beams] in H; cbn [length seq combine].
  - injection H as <-. constructor.
  - destruct (build_sec_beam folder isfile sec_name cc b ii sb) as [o|] eqn:E; [|discriminate]. cbn [bind] in H.
    destruct (build_sec_beams folder isfile sec_name cc b (S ii) sbs) as [r|] eqn:F; [|discriminate]. cbn [bind] in H. injection H as <-.
    constructor; [exact (sec_beam_is b ii sb o E)|exact (IH _ _ F)].
Qed.

Lemma sc_is skip given b g : build_sc skip given cc b = Some g ->
  (g = None <-> skip || given = true) /\ field_part (dget cc) (option_map dget b) g.
Proof.
  intros H. unfold build_sc in H. destruct (skip || given); [injection H as <-; split; [split; reflexivity|intros o X; discriminate]|].
  destruct (dget cc "sparse_solver") as [sol|] eqn:Gs; [|discriminate]. cbn [bind] in H.
  destruct (dget cc "flag_em_tracking") as [em|] eqn:Ge; [|discriminate]. cbn [bind] in H.
  match type of H with bind ?x _ = _ => destruct x as [o|] eqn:C; [|discriminate] end. cbn [bind] in H. injection H as <-.
  split; [split; discriminate|]. intros o' X. injection X as <-. rewrite Gs, Ge.
  assert (Es : (Some sol = Some (PStr "klu") -> Some (if py_eqb sol (PStr "klu") then PStr "PyKLU" else sol) = Some (PStr "PyKLU")) /\
    (Some sol <> Some (PStr "klu") -> Some (if py_eqb sol (PStr "klu") then PStr "PyKLU" else sol) = Some sol)).
  { destruct (py_eqb sol (PStr "klu")) eqn:K.
    - apply py_eqb_str in K. subst sol. split; [reflexivity|congruence].
    - split; [|reflexivity]. intros X. injection X as ->. discriminate K. }
  set (so := if py_eqb sol (PStr "klu") then PStr "PyKLU" else sol) in *. clearbody so. clear Gs. destruct Es as [Es1 Es2].
  destruct (truthy em) eqn:T.
  - apply truthy_yes in T. destruct b as [d|]; [|discriminate]. pose proof (call_name _ _ _ _ _ _ _ C) as N. cbn in N. rewrite N. bindof C B.
    split; [mained C B|]. assert (Ev : par o "sparse_solver" = Some so) by one C B. rewrite Ev. split; [exact Es1|]. split; [exact Es2|]. left. split; [eauto|]. split; [reflexivity|]. exists (dget d). split; [reflexivity|]. one C B.
  - pose proof (call_name _ _ _ _ _ _ _ C) as N. cbn in N. rewrite N. bindof C B.
    split; [mained C B|]. assert (Ev : par o "sparse_solver" = Some so) by one C B. rewrite Ev. split; [exact Es1|]. split; [exact Es2|]. right. split; [|reflexivity]. intros (v & V & Y). injection V as <-. apply truthy_yes in Y. congruence.
Qed.

Lemma clouds_are (beamed skip multiple sec cross : bool) b cl l :
  build_clouds m_e qe c folder isfile subset skip (if beamed then the_beam else Val PNone) multiple sec cross cc b cl = Some l ->
  Forall2 (fun q p => cloud_parts qe c (file_for folder isfile) (dget cc) (dget (fst q)) beamed skip (snd q) multiple sec cross (option_map dget b) p) (lasts cl) l.
Proof.
  revert l. induction cl as [|t cl IH]; intros l H; cbn [build_clouds] in H; [injection H as <-; constructor|].
  destruct (build_cloud m_e qe c folder isfile subset skip (if beamed then the_beam else Val PNone) (match cl with [] => true | _ => false end) multiple sec cross cc b t) as [p|] eqn:E; [|discriminate].
  cbn [bind] in H. destruct (build_clouds m_e qe c folder isfile subset skip (if beamed then the_beam else Val PNone) multiple sec cross cc b cl) as [r|] eqn:F; [|discriminate].
  cbn [bind] in H. injection H as <-. apply cloud_is in E. specialize (IH r eq_refl). destruct cl as [|t' cl].
  - constructor; [exact E|exact IH].
  - change (lasts (t :: t' :: cl)) with ((t, false) :: lasts (t' :: cl)). constructor; [exact E|exact IH].
Qed.

Lemma build_is skip_saver skip_sc given_sc b sbs cl p :
  build m_e qe c folder isfile npass subset sec_name skip_saver skip_sc given_sc cc b sbs cl = Some p ->
  let beamed := match b with None => false | Some _ => true end in
  let sec := beamed && negb (Nat.eqb (length sbs) 0) in
  chamber_part (file_for folder isfile) (dget cc) (map dget cl) (pl_chamb p) /\
  match b with
  | None => pl_beam p = None /\ pl_sec p = []
  | Some b0 =>
      (exists o, pl_beam p = Some o /\ beam_part (file_for folder isfile) (dget cc) (dget b0) o) /\
      Forall2 (fun q o => sec_beam_part (dget cc) (dget (snd q)) (sec_name (fst q)) o /\
        exists v w, dget (snd q) "beam_long_prof_file" = Some v /\ dget b0 "beam_long_prof_file" = Some w /\ par o "beam_long_prof_file" = Some (sec_profile_file folder isfile v w))
        (combine (seq 0 (length sbs)) sbs) (pl_sec p)
  end /\
  (pl_sc p = None <-> skip_sc || given_sc = true) /\ field_part (dget cc) (option_map dget b) (pl_sc p) /\
  (pl_cross p = false <-> dget cc "cross_ion_definitions" = Some PNone) /\
  Forall2 (fun q r => cloud_parts qe c (file_for folder isfile) (dget cc) (dget (fst q)) beamed skip_saver (snd q) (Nat.ltb 1 (length cl)) sec (pl_cross p) (option_map dget b) r)
    (lasts cl) (pl_clouds p).
Proof.
  intros H. cbv zeta. unfold build in H. destruct (build_chamber folder isfile cc cl) as [ch|] eqn:E1; [|discriminate]. cbn [bind] in H.
  match type of H with bind ?m _ = _ => destruct m as [[bo so]|] eqn:E2; [|discriminate] end. cbn [bind] in H.
  destruct (build_sc skip_sc given_sc cc b) as [sc|] eqn:E3; [|discriminate]. cbn [bind] in H.
  destruct (dget cc "cross_ion_definitions") as [x|] eqn:X; [|discriminate]. cbn [bind] in H.
  match type of H with bind ?m _ = _ => destruct m as [l|] eqn:E4; [|discriminate] end. cbn [bind] in H. injection H as <-.
  cbn [pl_chamb pl_beam pl_sec pl_sc pl_clouds pl_cross].
  split; [exact (chamber_is cl ch E1)|]. split.
  { destruct b as [d|]; [|injection E2 as <- <-; auto].
    destruct (build_beam folder isfile cc d) as [o|] eqn:F1; [|discriminate]. cbn [bind] in E2.
    destruct (check_passages npass cc) as [u|]; [|discriminate]. cbn [bind] in E2.
    destruct (build_sec_beams folder isfile sec_name cc d 0 sbs) as [r|] eqn:F2; [|discriminate]. cbn [bind] in E2. injection E2 as <- <-.
    split; [exists o; split; [reflexivity|exact (beam_is d o F1)]|exact (sec_beams_is d 0 sbs r F2)]. }
  destruct (sc_is skip_sc given_sc b sc E3) as [S1 S2]. split; [exact S1|]. split; [exact S2|].
  split; [destruct x; cbn; split; congruence|].
  apply (clouds_are (match b with None => false | Some _ => true end)). rewrite <- E4. destruct b; [destruct sbs; reflexivity|reflexivity].
Qed.
End Whole.

(** * A setting without effect *)
Section Ignored.
Variable k : string.
Definition agree (d d' : attrs) : Prop := forall p, p <> k -> dget d p = dget d' p.
Definition other (a : arg) : bool := match a with Own p | Main p => negb (String.eqb p k) | _ => true end.

Lemma call_ign cc cc' t t' b f pos kw : agree cc cc' -> agree t t' ->
  (forall l, bind_args f pos kw = Some l -> forallb (fun q => other (snd q)) l = true) -> call cc t b f pos kw = call cc' t' b f pos kw.
Proof.
  intros Hc Ht T. unfold call. destruct (bind_args f pos kw) as [l|]; [|reflexivity]. cbn [bind]. specialize (T l eq_refl).
  assert (E : mapM (fun q => do v <- eval cc t b (snd q) ; Some (fst q, v)) l = mapM (fun q => do v <- eval cc' t' b (snd q) ; Some (fst q, v)) l); [|rewrite E; reflexivity].
  induction l as [|[q a] l IH]; [reflexivity|]. cbn [forallb snd] in T. apply andb_true_iff in T as [Ta T]. cbn [mapM fst snd]. rewrite (IH T).
  assert (E : eval cc t b a = eval cc' t' b a); [|rewrite E; reflexivity].
  destruct a as [p|p|p|v]; cbn [other eval] in *; [apply Ht|apply Hc|reflexivity|reflexivity]; intros ->; rewrite String.eqb_refl in Ta; discriminate.
Qed.
End Ignored.

Section Regen.
Variables m_e qe c : R.
Variable folder : string.
Variable isfile : string -> bool.
Variable npass : R.
Variable subset : pval -> bool.
Variable sec_name : nat -> string.
Variables cc cc' : attrs.
Notation k := "t_ON_regen_low".
Hypothesis Hc : agree k cc cc'.

Ltac ag := apply (call_ign k); [assumption|assumption|intros l E; vm_compute in E; (discriminate || (injection E as <-; vm_compute; reflexivity))].
Ltac nil_ := intros ? ?; reflexivity.
Lemma agree_nil : agree k [] [].
Proof. intros p _. reflexivity. Qed.
Lemma agree_refl d : agree k d d.
Proof. intros p _. reflexivity. Qed.

Section One.
Variables t t' : attrs.
Hypothesis Ht : agree k t t'.

Lemma one_mp : build_mp m_e qe cc t = build_mp m_e qe cc' t'.
Proof. unfold build_mp. ag. Qed.
Lemma one_sey : build_sey folder isfile cc t = build_sey folder isfile cc' t'.
Proof.
  unfold build_sey. rewrite <- !Ht by discriminate. destruct (dget t "switch_model") as [m|]; cbn [bind]; [|reflexivity]. cbn [bind].
  destruct (py_eqb m (PStr "perfect_absorber")); [ag|]. destruct (dget t "E0") as [e0|]; cbn [bind]; [|reflexivity]. destruct (dget t "s_param") as [s|]; cbn [bind]; [|reflexivity]. cbn [bind].
  destruct (is_none e0), (is_none s), (is_ecloud m); cbn [bind app]; try reflexivity; try ag.
  all: destruct (py_in m [PNum 1; PStr "ACC_LOW"]); [ag|]; destruct (py_eqb m (PStr "ECLOUD_nunif")); [ag|];
    destruct (py_eqb m (PStr "ECLOUD_nunif_charging")); [ag|]; destruct (py_eqb m (PStr "cos_low_ene")); [ag|];
    destruct (py_eqb m (PStr "flat_low_ene")); [ag|]; destruct (py_eqb m (PStr "from_file"));
    [destruct (dget t "sey_file") as [f|]; cbn [bind]; [|reflexivity]; cbn [bind]; destruct (find_file folder isfile f) as [w|]; cbn [bind]; [|reflexivity]; cbn [bind]; ag|];
    destruct (py_eqb m (PStr "furman_pivi")); [ag|reflexivity].
Qed.
Lemma one_impact : build_impact cc t = build_impact cc' t'.
Proof.
  unfold build_impact. rewrite <- !Ht, <- !Hc by discriminate.
  destruct (dget t "flag_hist_impact_seg") as [sg|]; cbn [bind]; [|reflexivity]. destruct (dget cc "chamb_type") as [ty|]; cbn [bind]; [|reflexivity].
  destruct (dget cc "flag_lifetime_hist") as [lt|]; cbn [bind]; [|reflexivity]. destruct (dget cc "Nbin_lifetime_hist") as [n|]; cbn [bind]; [|reflexivity].
  destruct (dget cc "lifetime_hist_max") as [m|]; cbn [bind]; [|reflexivity]. destruct (dget cc "Dt_lifetime_hist") as [d|]; cbn [bind]; [|reflexivity]. cbn [bind].
  destruct (truthy lt && (is_none n || is_none m || is_none d)); [reflexivity|]. generalize (py_eqb sg (PNum 1) && negb (py_eqb ty (PStr "ellip"))) as fl. intros fl. ag.
Qed.
Lemma one_gas : build_gas cc t = build_gas cc' t'.
Proof.
  unfold build_gas. rewrite <- !Ht by discriminate. destruct (dget t "gas_ion_flag") as [g|]; cbn [bind]; [|reflexivity]. cbn [bind]. destruct (py_eqb g (PNum 1)); cbn [bind]; [|reflexivity].
  match goal with |- bind ?x _ = bind ?y _ => assert (x = y) as ->; [ag|reflexivity] end.
Qed.
Lemma one_photo bv : build_photo folder isfile subset (Val bv) cc t = build_photo folder isfile subset (Val bv) cc' t'.
Proof.
  unfold build_photo. rewrite <- !Ht by discriminate. destruct (dget t "photoem_flag") as [g|]; cbn [bind]; [|reflexivity]. cbn [bind].
  destruct (py_eqb g (PNum 1)); [match goal with |- bind ?x _ = bind ?y _ => assert (x = y) as ->; [ag|reflexivity] end|].
  destruct (py_in g [PNum 2; PStr "from_file"]); [match goal with |- bind ?x _ = bind ?y _ => assert (x = y) as ->; [ag|reflexivity] end|].
  destruct (py_in g [PNum 3; PStr "per_segment"]); cbn [bind]; [|reflexivity]. destruct (dget t "filename_chm_photoem") as [n|]; cbn [bind]; [|reflexivity]. cbn [bind].
  destruct (find_file folder isfile n) as [w|]; cbn [bind]; [|reflexivity]. cbn [bind]. destruct (subset w); cbn [bind]; [|reflexivity].
  match goal with |- bind ?x _ = bind ?y _ => assert (x = y) as ->; [ag|reflexivity] end.
Qed.
Lemma one_saver bv last multiple sec cross : build_saver (Val bv) last multiple sec cross cc t = build_saver (Val bv) last multiple sec cross cc' t'.
Proof.
  unfold build_saver. rewrite <- !Hc by discriminate. destruct (dget cc "Dh_electric_energy") as [d|]; cbn [bind]; [|reflexivity]. cbn [bind]. generalize (negb (is_none d)). intros e. ag.
Qed.
Lemma one_dyn b : build_dyn m_e qe c cc t b = build_dyn m_e qe c cc' t' b.
Proof.
  unfold build_dyn, is_electron, nget. rewrite <- !Hc, <- !Ht by discriminate.
  destruct (dget cc "track_method") as [m|]; cbn [bind]; [|reflexivity]. destruct (dget cc "flag_em_tracking") as [em|]; cbn [bind]; [|reflexivity]. cbn [bind].
  destruct (py_eqb m (PStr "Boris")).
  { destruct (py_eqb em (PBool true)); [reflexivity|]. destruct (dget cc "B0x") as [x|]; cbn [bind]; [|reflexivity]. destruct (dget cc "B0y") as [y|]; cbn [bind]; [|reflexivity].
    destruct (dget cc "B0z") as [z|]; cbn [bind]; [|reflexivity]. cbn [bind]. rewrite !or_zero_val. ag. }
  match goal with |- context [if negb ?x then _ else _] => idtac | |- _ => idtac end.
  set (el := (do q <- dget t "cloud_charge" ; do q0 <- num_of q ; do m0 <- dget t "cloud_mass" ; do m1 <- num_of m0 ;
     Some (Rltb (Rabs (q0 - - qe) / Rabs qe) (1 / 1000) && Rltb (Rabs (m1 - m_e) / m_e) (1 / 1000)))). clearbody el.
  destruct (py_eqb m (PStr "StrongBdip")).
  { destruct (py_eqb em (PBool true)); [reflexivity|]. destruct el as [[|]|]; [|reflexivity|reflexivity]. cbn [bind negb].
    destruct (dget cc "B") as [B|]; cbn [bind]; [|reflexivity]. cbn [bind]. destruct (py_eqb B (PNum (-1))); [|ag].
    destruct b as [d|]; cbn [bind]; [|reflexivity]. cbn [bind]. destruct (dget d "beta_rel") as [v1|]; cbn [bind]; [|reflexivity]. cbn [bind]. destruct (as_num v1) as [n1|]; cbn [bind]; [|reflexivity]. cbn [bind].
    destruct (dget d "energy_J") as [v2|]; cbn [bind]; [|reflexivity]. cbn [bind]. destruct (as_num v2) as [n2|]; cbn [bind]; [|reflexivity]. cbn [bind].
    destruct (dget cc "bm_totlen") as [v3|]; cbn [bind]; [|reflexivity]. cbn [bind]. destruct (as_num v3) as [n3|]; cbn [bind]; [|reflexivity]. cbn [bind]. destruct (Reqb (c * qe * n3) 0); [reflexivity|].
    generalize (2 * PI * n1 * n2 / (c * qe * n3)). intros r. ag. }
  destruct (py_eqb m (PStr "StrongBgen")).
  { destruct (py_eqb em (PBool true)); [reflexivity|]. destruct el as [[|]|]; [|reflexivity|reflexivity]. cbn [bind negb]. ag. }
  destruct (py_eqb m (PStr "BorisMultipole")); [ag|reflexivity].
Qed.
Lemma one_init : build_init cc t = build_init cc' t'.
Proof.
  unfold build_init. rewrite <- !Ht by discriminate.
  assert (E1 : forall pos, pos = [Own "Nel_init_unif"; Own "E_init_unif"; Own "x_max_init_unif"; Own "x_min_init_unif"; Own "y_max_init_unif"; Own "y_min_init_unif"] ->
    call cc t None fill_fn pos [] = call cc' t' None fill_fn pos []) by (intros pos ->; ag). rewrite (E1 _ eq_refl).
  match goal with |- context [call cc t None density_fn ?p ?q] => assert (call cc t None density_fn p q = call cc' t' None density_fn p q) as -> by ag end.
  match goal with |- context [call cc t None load_fn ?p ?q] => assert (call cc t None load_fn p q = call cc' t' None load_fn p q) as -> by ag end.
  reflexivity.
Qed.
Lemma one_cloud skip bv last multiple sec cross b :
  build_cloud m_e qe c folder isfile subset skip (Val bv) last multiple sec cross cc b t = build_cloud m_e qe c folder isfile subset skip (Val bv) last multiple sec cross cc' b t'.
Proof.
  unfold build_cloud. rewrite <- one_mp, <- one_sey, <- one_impact, <- one_gas, <- one_photo, <- one_saver, <- one_dyn, <- one_init.
  destruct (build_mp m_e qe cc t) as [mp|]; cbn [bind]; [|reflexivity]. destruct (build_sey folder isfile cc t) as [sey|]; cbn [bind]; [|reflexivity].
  destruct (build_impact cc t) as [im|]; cbn [bind]; [|reflexivity]. destruct (build_gas cc t) as [g|]; cbn [bind]; [|reflexivity]. cbn [bind].
  destruct (build_photo folder isfile subset (Val bv) cc t) as [ph|]; cbn [bind]; [|reflexivity]. cbn [bind].
  match goal with |- bind ?x _ = _ => destruct x as [sv|]; cbn [bind]; [|reflexivity] end. cbn [bind].
  destruct (build_dyn m_e qe c cc t b) as [dy|]; cbn [bind]; [|reflexivity]. cbn [bind]. destruct (build_init cc t) as [ini|]; cbn [bind]; [|reflexivity]. cbn [bind].
  match goal with |- bind ?x _ = bind ?y _ => assert (x = y) as ->; cbn [bind]; [|reflexivity] end.
  destruct skip, g, ph; ag.
Qed.
End One.

Lemma all_clouds skip bv multiple sec cross b cl cl' : Forall2 (agree k) cl cl' ->
  build_clouds m_e qe c folder isfile subset skip (Val bv) multiple sec cross cc b cl = build_clouds m_e qe c folder isfile subset skip (Val bv) multiple sec cross cc' b cl'.
Proof.
  induction 1 as [|t t' cl cl' H Hl IH]; [reflexivity|]. cbn [build_clouds]. rewrite (one_cloud t t' H), IH. inversion Hl; reflexivity.
Qed.
Lemma all_non_unif cl cl' : Forall2 (agree k) cl cl' -> mapM non_unif cl = mapM non_unif cl'.
Proof.
  induction 1 as [|t t' cl cl' H _ IH]; [reflexivity|]. cbn [mapM]. rewrite IH. unfold non_unif. rewrite (H "switch_model") by discriminate. reflexivity.
Qed.
Lemma all_chamber cl cl' : Forall2 (agree k) cl cl' -> build_chamber folder isfile cc cl = build_chamber folder isfile cc' cl'.
Proof.
  intros H. unfold build_chamber. rewrite (all_non_unif cl cl' H), <- !Hc by discriminate. destruct (mapM non_unif cl') as [nu|]; cbn [bind]; [|reflexivity]. cbn [bind].
  destruct (dget cc "chamb_type") as [ty|]; cbn [bind]; [|reflexivity]. cbn [bind]. generalize (existsb (fun b => b) nu). intros fl. pose proof agree_nil as An.
  destruct (py_eqb ty (PStr "ellip")); [ag|]. destruct (py_in ty [PStr "polyg"; PStr "polyg_cython"]).
  - destruct (dget cc "filename_chm") as [f|]; cbn [bind]; [|reflexivity]. cbn [bind]. destruct (find_file folder isfile f); cbn [bind]; [|reflexivity]. cbn [bind]. ag.
  - destruct (py_eqb ty (PStr "rect")); [ag|reflexivity].
Qed.
Lemma all_beam b : build_beam folder isfile cc b = build_beam folder isfile cc' b.
Proof.
  unfold build_beam. rewrite <- !Hc by discriminate. destruct (dget b "beam_long_prof_file") as [p|]; cbn [bind]; [|reflexivity]. destruct (dget cc "progress_path") as [g|]; cbn [bind]; [|reflexivity]. cbn [bind].
  destruct (mapgen_file g) as [m|]; cbn [bind]; [|reflexivity]. cbn [bind]. generalize (profile_file folder isfile p). intros w. pose proof agree_nil as An. ag.
Qed.
Lemma all_sec b ii sbs : build_sec_beams folder isfile sec_name cc b ii sbs = build_sec_beams folder isfile sec_name cc' b ii sbs.
Proof.
  revert ii. induction sbs as [|sb sbs IH]; intros ii; [reflexivity|]. cbn [build_sec_beams]. rewrite IH.
  assert (E : build_sec_beam folder isfile sec_name cc b ii sb = build_sec_beam folder isfile sec_name cc' b ii sb); [|rewrite E; reflexivity].
  unfold build_sec_beam. rewrite <- !Hc by discriminate. destruct (dget sb "beam_long_prof_file") as [p|]; cbn [bind]; [|reflexivity]. destruct (dget b "beam_long_prof_file") as [p'|]; cbn [bind]; [|reflexivity].
  destruct (dget cc "progress_path") as [g|]; cbn [bind]; [|reflexivity]. cbn [bind]. destruct (as_name g) as [m|]; cbn [bind]; [|reflexivity]. cbn [bind].
  generalize (sec_profile_file folder isfile p p'), (m ++ sec_name ii)%string. intros w s. pose proof agree_nil as An. ag.
Qed.
Lemma all_sc skip given b : build_sc skip given cc b = build_sc skip given cc' b.
Proof.
  unfold build_sc. rewrite <- !Hc by discriminate. destruct (skip || given); [reflexivity|]. destruct (dget cc "sparse_solver") as [s|]; cbn [bind]; [|reflexivity].
  destruct (dget cc "flag_em_tracking") as [em|]; cbn [bind]; [|reflexivity]. cbn [bind]. pose proof agree_nil as An. destruct (truthy em).
  - destruct b as [d|]; cbn [bind]; [|reflexivity]. match goal with |- bind ?x _ = bind ?y _ => assert (x = y) as ->; [ag|reflexivity] end.
  - match goal with |- bind ?x _ = bind ?y _ => assert (x = y) as ->; [ag|reflexivity] end.
Qed.
Lemma all_build skip_saver skip_sc given_sc b sbs cl cl' : Forall2 (agree k) cl cl' ->
  build m_e qe c folder isfile npass subset sec_name skip_saver skip_sc given_sc cc b sbs cl =
  build m_e qe c folder isfile npass subset sec_name skip_saver skip_sc given_sc cc' b sbs cl'.
Proof.
  intros H. unfold build. rewrite (all_chamber cl cl' H), <- all_sc, <- !Hc by discriminate.
  assert (E : (match b with None => Some (None, []) | Some b0 => do o <- build_beam folder isfile cc b0 ; do _ <- check_passages npass cc ; do s <- build_sec_beams folder isfile sec_name cc b0 0 sbs ; Some (Some o, s) end)
    = (match b with None => Some (None, []) | Some b0 => do o <- build_beam folder isfile cc' b0 ; do _ <- check_passages npass cc' ; do s <- build_sec_beams folder isfile sec_name cc' b0 0 sbs ; Some (Some o, s) end)).
  { destruct b as [d|]; cbn [bind]; [|reflexivity]. rewrite all_beam, all_sec. unfold check_passages. rewrite (Hc "save_mat_every") by discriminate. reflexivity. }
  rewrite E. assert (L : length cl = length cl') by (clear -H; induction H; [reflexivity|cbn; congruence]). rewrite L.
  replace (match b with None => Val PNone | Some _ => the_beam end) with (Val (match b with None => PNone | Some _ => POther 3 end)) by (destruct b; reflexivity).
  destruct (build_chamber folder isfile cc' cl') as [ch|]; cbn [bind]; [|reflexivity]. cbn [bind].
  match goal with |- bind ?x _ = _ => destruct x as [[bo so]|]; cbn [bind]; [|reflexivity] end. cbn [bind]. destruct (build_sc skip_sc given_sc cc b); cbn [bind]; [|reflexivity]. cbn [bind].
  destruct (dget cc "cross_ion_definitions"); cbn [bind]; [|reflexivity]. cbn [bind]. rewrite (all_clouds _ _ _ _ _ _ cl cl' H). reflexivity.
Qed.
End Regen.
