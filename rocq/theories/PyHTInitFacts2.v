(** The construction of an electron cloud for PyHEADTAIL and its twins. *)
From Coq Require Import String Ascii Lia Bool.
From Verif Require Import Num ConfigVal Ckpt CkptFacts Config SpecConfig ConfigFacts ConfigFacts4 ConfigFacts5 Init SpecInit SpecInitParts InitFacts InitFacts2 InitFacts3 InitFacts4 InitFacts5 InitFacts6 InitFacts7
  PyHTInit SpecPyHTInit PyHTInitFacts.
Local Open Scope string_scope.
Local Open Scope list_scope.

Lemma kw_or_spec kw k d : NoDup (map fst kw) -> keyword kw k d (kw_or kw k d).
Proof.
  intros N. unfold keyword, kw_or. destruct (dget kw k) as [v|] eqn:E; [left; apply dget_in; exact E|]. right. split; [|reflexivity].
  intros w I. assert (X : ~ In k (map fst kw)) by (apply dget_none; exact E). apply X. apply in_map_iff. exists (k, w). auto.
Qed.
Lemma mapM_length {A B} (f : A -> option B) l : forall r, mapM f l = Some r -> List.length r = List.length l.
Proof.
  induction l as [|x l IH]; intros r H; cbn [mapM] in H; [injection H as <-; reflexivity|]. destruct (f x); [|discriminate]. cbn [bind] in H.
  destruct (mapM f l); [|discriminate]. cbn [bind] in H. injection H as <-. cbn. rewrite (IH _ eq_refl). reflexivity.
Qed.

Lemma len2 {A B} (P : A -> B -> Prop) l m : Forall2 P l m -> List.length l = List.length m.
Proof. induction 1; cbn; congruence. Qed.

Section Coupling.
Variables m_e m_p qe c : R.
Variable files : string -> option attrs.
Variable folder : string.
Variable isfile : string -> bool.
Variable npass : R.
Variable subset : pval -> bool.
Variable sec_name : nat -> string.
Variable probe_list : pval -> option (list attrs).
Notation make := (make m_e m_p qe c files folder isfile npass subset sec_name probe_list).
Notation start := (start m_e m_p qe c files folder isfile npass subset sec_name).
Notation build := (build m_e qe c folder isfile npass subset sec_name).
Notation twin := (twin m_e m_p qe c files folder isfile npass subset sec_name probe_list).
Notation read_all := (read_all m_e m_p qe c files).
Notation descr := (cloud_descr_from_file m_e m_p qe files).

Definition object (fresh : nat) (a : eargs) (cc : attrs) (p : plan) pr : ecl :=
  mkEcl (ea_L a) (ea_slicer a) (ea_Dtref a) (ea_clean a) (ea_slicemode a)
    (match ea_sc a with Some s => s | None => fresh end) (ea_kick a) (ea_monitor a) (ea_verbose a) (ea_outp a) (ea_reint a) (ea_kw a)
    (kw_or (ea_kw a) "x_beam_offset" (PNum 0)) (kw_or (ea_kw a) "y_beam_offset" (PNum 0))
    (kw_or (ea_kw a) "enable_kick_x" (PBool true)) (kw_or (ea_kw a) "enable_kick_y" (PBool true)) pr cc p
    (match pl_clouds p with q :: _ => cp_saver q | [] => None end) [] false false 0 0.
Definition boris (cc : attrs) : Prop := exists m, dget cc "track_method" = Some m /\ (m = PStr "Boris" \/ m = PStr "BorisMultipole").
Definition skipping (a : eargs) : bool := truthy (kw_or (ea_kw a) "skip_spacech_ele" (PBool false)).

Lemma make_iff fresh a o : make fresh a = Some o <->
  (forall k, In k taken -> ~ In k (map fst (ea_kw a))) /\ skipping a = false /\
  exists cc p pr, read_config m_e m_p qe files true extra_allowed_kwargs (sim_kwargs a) = Some cc /\
    start true (negb (is_some (ea_outp a))) false (is_some (ea_sc a)) extra_allowed_kwargs (sim_kwargs a) = Some p /\
    boris cc /\ probes probe_list (ea_kw a) = Some pr /\ (List.length (pl_clouds p) <= 1)%nat /\
    (ea_slicemode a = true -> ea_slicer a = PNone) /\ o = object fresh a cc p pr.
Proof.
  unfold PyHTInit.make. fold (skipping a). destruct (existsb _ taken) eqn:T.
  { split; [discriminate|]. intros (H & _). exfalso. apply existsb_exists in T as (k & I & M). apply mem_In in M. exact (H k I M). }
  assert (T' : forall k, In k taken -> ~ In k (map fst (ea_kw a))).
  { intros k I J. apply mem_In in J. apply not_true_iff_false in T. apply T, existsb_exists. exists k. auto. }
  clear T. destruct (read_config m_e m_p qe files true extra_allowed_kwargs (sim_kwargs a)) as [cc|] eqn:C; cbn [bind].
  2:{ split; [discriminate|]. intros (_ & _ & cc & p & pr & X & _). discriminate. }
  destruct (skipping a) eqn:K.
  { split; [destruct (start _ _ _ _ _ _); discriminate|]. intros (_ & X & _). discriminate. }
  destruct (start true (negb (is_some (ea_outp a))) false (is_some (ea_sc a)) extra_allowed_kwargs (sim_kwargs a)) as [p|] eqn:P; cbn [bind].
  2:{ split; [discriminate|]. intros (_ & _ & cc' & p & pr & _ & X & _). discriminate. }
  destruct (dget cc "track_method") as [m|] eqn:M; cbn [bind].
  2:{ split; [discriminate|]. intros (_ & _ & cc' & p' & pr & X & _ & (m & Y & _) & _). injection X as <-. congruence. }
  assert (B : py_eqb m (PStr "Boris") || py_eqb m (PStr "BorisMultipole") = true <-> boris cc).
  { rewrite orb_true_iff, !py_eqb_str. unfold boris. split; [intros H; exists m; auto|]. intros (m' & Y & H). rewrite M in Y. injection Y as <-. exact H. }
  destruct (py_eqb m (PStr "Boris") || py_eqb m (PStr "BorisMultipole")).
  2:{ split; [discriminate|]. intros (_ & _ & cc' & p' & pr & X & _ & Y & _). injection X as <-. apply B in Y. discriminate. }
  destruct (probes probe_list (ea_kw a)) as [pr|] eqn:E; cbn [bind].
  2:{ split; [discriminate|]. intros (_ & _ & cc' & p' & pr & _ & _ & _ & X & _). discriminate. }
  destruct (Nat.ltb_spec 1 (List.length (pl_clouds p))) as [L|L].
  { split; [discriminate|]. intros (_ & _ & cc' & p' & pr' & _ & X & _ & _ & Y & _). injection X as <-. lia. }
  assert (S : ea_slicemode a && negb (is_none (ea_slicer a)) = false <-> (ea_slicemode a = true -> ea_slicer a = PNone)).
  { rewrite <- is_none_spec. destruct (ea_slicemode a), (is_none (ea_slicer a)); cbn; intuition congruence. }
  destruct (ea_slicemode a && negb (is_none (ea_slicer a))).
  { split; [discriminate|]. intros (_ & _ & cc' & p' & pr' & _ & _ & _ & _ & _ & X & _). apply S in X. discriminate. }
  split.
  - intros H. injection H as <-. split; [exact T'|]. split; [reflexivity|]. exists cc, p, pr. repeat (split; [try reflexivity; try exact L; try (apply B; reflexivity); try (apply S; reflexivity)|]). reflexivity.
  - intros (_ & _ & cc' & p' & pr' & X1 & X2 & _ & X3 & _ & _ & ->). injection X1 as <-. injection X2 as <-. injection X3 as <-. reflexivity.
Qed.

(** A given space charge object only replaces the one that is built. *)
Definition no_sc (p : plan) : plan := mkPlan (pl_chamb p) (pl_beam p) (pl_sec p) None (pl_clouds p) (pl_cross p).
Lemma build_given sv g cc b sbs cl p : build sv false g cc b sbs cl = Some p -> build sv false true cc b sbs cl = Some (no_sc p).
Proof.
  unfold Init.build. destruct (build_chamber folder isfile cc cl) as [ch|]; [|discriminate]. cbn [bind].
  match goal with |- bind ?m _ = _ -> _ => destruct m as [[bo so]|]; [|discriminate] end. cbn [bind].
  destruct (build_sc false g cc b) as [sc|]; [|discriminate]. cbn [bind].
  change (build_sc false true cc b) with (@Some (option obj) None). cbn [bind].
  destruct (dget cc "cross_ion_definitions") as [x|]; [|discriminate]. cbn [bind].
  match goal with |- bind ?m _ = _ -> _ => destruct m as [l|]; [|discriminate] end. cbn [bind]. intros H. injection H as <-. reflexivity.
Qed.
Lemma start_given sv g ig kw p : start true sv false g ig kw = Some p -> start true sv false true ig kw = Some (no_sc p).
Proof.
  intros H. apply start_inv in H as (cc & b & sbs & cl & Ra & H). apply start_inv. exists cc, b, sbs, cl. split; [exact Ra|]. exact (build_given _ _ _ _ _ _ _ H).
Qed.

(** What a new object is made of. *)
Lemma make_parts fresh a o : make fresh a = Some o -> exists t q,
  read_all true extra_allowed_kwargs (sim_kwargs a) (ec_cc o) None [] [t] /\ descr None (ec_cc o) = Some t /\
  dget (ec_cc o) "additional_clouds_file_list" = Some (PList []) /\
  pl_clouds (ec_plan o) = [q] /\ ec_saver o = cp_saver q /\
  build (negb (is_some (ea_outp a))) false (is_some (ea_sc a)) (ec_cc o) None [] [t] = Some (ec_plan o).
Proof.
  intros H. apply make_iff in H as (_ & _ & cc & p & pr & C & P & _ & _ & L & _ & ->). cbn [ec_cc ec_plan ec_saver object].
  apply start_inv in P as (cc' & b & sbs & cl & Ra & B). pose proof Ra as (R1 & R2 & v & fl & R3 & R4 & R5). rewrite C in R1. injection R1 as <-.
  cbn in R2. injection R2 as <- <-. pose proof (build_is _ _ _ _ _ _ _ _ _ _ _ _ _ _ _ _ B) as X. cbv zeta in X. destruct X as (_ & _ & _ & _ & _ & F).
  assert (Le : List.length (lasts cl) = List.length cl).
  { clear. induction cl as [|x cl IH]; [reflexivity|]. destruct cl as [|y cl]; [reflexivity|]. change (lasts (x :: y :: cl)) with ((x, false) :: lasts (y :: cl)). cbn [List.length] in *. congruence. }
  apply len2 in F. rewrite Le in F.
  pose proof R5 as R5'. unfold cloud_par_list in R5'. destruct (descr None cc) as [t|] eqn:D; [|discriminate]. cbn [bind] in R5'.
  destruct (mapM (fun f => descr (Some f) cc) fl) as [l|] eqn:M; [|discriminate]. cbn [bind] in R5'. injection R5' as <-. cbn [List.length] in F.
  destruct (pl_clouds p) as [|q [|? ?]] eqn:Q; cbn [List.length] in F, L; try lia. destruct l as [|? ?]; [|cbn in F; lia].
  apply mapM_length in M. destruct fl as [|? ?]; [|discriminate]. exists t, q.
  split; [exact Ra|]. split; [reflexivity|]. split; [|split; [reflexivity|split; [reflexivity|exact B]]].
  rewrite R3. unfold as_names in R4. destruct v as [| | | | |vs| |]; try discriminate. destruct vs as [|w vs]; [reflexivity|]. apply mapM_length in R4. discriminate.
Qed.

(** The settings after what a user can do. *)
Notation eop_do := (eop_do m_e m_p qe files).
Notation ops_do := (ops_do m_e m_p qe files).
Notation reinit := (reinit m_e m_p qe files).
Definition settled (o o' : ecl) : Prop := same_settings o' o /\ ec_sc o' = ec_sc o /\ ec_plan o' = ec_plan o.
Lemma settled_refl o : settled o o.
Proof. unfold settled, same_settings. repeat split; reflexivity. Qed.
Lemma settled_trans o1 o2 o3 : settled o1 o2 -> settled o2 o3 -> settled o1 o3.
Proof.
  unfold settled, same_settings. intros A B. decompose [and] A. decompose [and] B. repeat split; etransitivity; eauto.
Qed.
Lemma settled_with o s r on m n i : settled o (with_state o s r on m n i).
Proof. unfold settled, same_settings. repeat split; reflexivity. Qed.
Lemma settled_reinit o o' : reinit o = Some o' -> settled o o' /\ ec_map o' = ec_map o.
Proof.
  unfold PyHTInit.reinit. destruct (ec_saver o) as [s|]; [|intros H; injection H as <-; split; [apply settled_with|reflexivity]].
  destruct (descr None (ec_cc o)) as [t|]; [|discriminate]. cbn [bind]. destruct (restart o t) as [s'|]; [|discriminate]. cbn [bind].
  destruct (dget (ob_args s') "filen_main_outp") as [n|]; [|discriminate]. cbn [bind]. destruct (as_name n); [|discriminate]. cbn [bind].
  intros H. injection H as <-. split; [apply settled_with|reflexivity].
Qed.
Lemma settled_op x o o' w : eop_do x o = Some (o', w) -> settled o o' /\ ec_map o' = ec_map o || match x with Replace => true | _ => false end.
Proof.
  unfold PyHTInit.eop_do. destruct x as [| | | |n|b|].
  - destruct (ec_map o) eqn:M; [intros H; injection H as <- <-; split; [apply settled_refl|rewrite M; reflexivity]|].
    destruct (ec_slicemode o); [discriminate|]. destruct (_ && _); [intros H; injection H as <- <-; split; [apply settled_refl|rewrite M; reflexivity]|].
    destruct (reinit o) as [o1|] eqn:E; [|discriminate]. cbn [bind]. intros H. injection H as <- _. apply settled_reinit in E as [E1 E2].
    split; [|cbn; rewrite E2, M; reflexivity]. eapply settled_trans; [exact E1|apply settled_with].
  - destruct (ec_map o) eqn:M; [intros H; injection H as <- <-; split; [apply settled_refl|rewrite M; reflexivity]|].
    destruct (negb _); [discriminate|]. intros H; injection H as <- <-; split; [apply settled_refl|rewrite M; reflexivity].
  - destruct (ec_map o) eqn:M; [intros H; injection H as <- <-; split; [apply settled_refl|rewrite M; reflexivity]|].
    destruct (negb _); [discriminate|]. destruct (reinit o) as [o1|] eqn:E; [|discriminate]. cbn [bind]. intros H. injection H as <- _.
    apply settled_reinit in E as [E1 E2]. split; [exact E1|rewrite E2, M; reflexivity].
  - intros H. injection H as <- <-. split; [apply settled_with|cbn; rewrite orb_true_r; reflexivity].
  - intros H. injection H as <- <-. split; [apply settled_with|cbn; rewrite orb_false_r; reflexivity].
  - intros H. injection H as <- <-. split; [apply settled_with|cbn; rewrite orb_false_r; reflexivity].
  - intros H. injection H as <- <-. split; [apply settled_with|cbn; rewrite orb_false_r; reflexivity].
Qed.
Lemma settled_ops l : forall o o' w, ops_do l o = Some (o', w) ->
  settled o o' /\ (ec_map o' = true <-> ec_map o = true \/ In Replace l).
Proof.
  induction l as [|x l IH]; intros o o' w H; cbn [PyHTInit.ops_do] in H.
  - injection H as <- <-. split; [apply settled_refl|cbn; tauto].
  - destruct (eop_do x o) as [[o1 w1]|] eqn:E; [|discriminate]. cbn [bind] in H. destruct (ops_do l o1) as [[o2 r]|] eqn:F; [|discriminate]. cbn [bind] in H.
    injection H as <- <-. apply settled_op in E as [E1 E2]. apply IH in F as [F1 F2]. split; [eapply settled_trans; eauto|].
    rewrite F2, E2, orb_true_iff. cbn [In]. destruct x; intuition (discriminate || congruence || eauto).
Qed.

Lemma twin_of fresh fresh' a o l o' w : make fresh a = Some o -> ops_do l o = Some (o', w) -> ~ In Replace l ->
  exists o2, twin fresh' o' = Some o2 /\ same_settings o2 o' /\ ec_sc o2 = ec_sc o' /\ same_parts (ec_plan o2) (ec_plan o') /\ untouched o2 /\ ec_saver o2 = ec_saver o.
Proof.
  intros H O N. pose proof H as H0. apply make_iff in H as (T & K & cc & p & pr & C & P & B & E & L & S & ->).
  apply settled_ops in O as [[Se [Sc Pl]] M]. cbn [ec_map object] in M.
  assert (M' : ec_map o' = false) by (apply not_true_iff_false; intros X; apply M in X; destruct X as [X|X]; [discriminate|contradiction]).
  unfold PyHTInit.twin, same_settings in *. rewrite M'. cbn [object ec_L ec_slicer ec_Dtref ec_clean ec_slicemode ec_kick ec_monitor ec_verbose ec_outp ec_reint ec_kw ec_xoff ec_yoff ec_kx ec_ky ec_probes ec_cc ec_sc ec_plan] in *.
  destruct Se as (-> & -> & -> & -> & -> & -> & -> & -> & -> & -> & -> & S1 & S2 & S3 & S4 & S5 & S6). rewrite Sc, Pl.
  set (sc := match ea_sc a with Some s => s | None => fresh end).
  set (a' := mkEargs (ea_L a) (ea_slicer a) (ea_Dtref a) (ea_clean a) (ea_slicemode a) (Some sc) (ea_kick a) (ea_monitor a) (ea_verbose a) (ea_outp a) (ea_reint a) (ea_kw a)).
  assert (X : make fresh' a' = Some (object fresh' a' cc (no_sc p) pr)).
  { apply make_iff. split; [exact T|]. split; [exact K|]. exists cc, (no_sc p), pr. split; [exact C|]. split; [exact (start_given _ _ _ _ _ P)|].
    split; [exact B|]. split; [exact E|]. split; [exact L|]. split; [exact S|reflexivity]. }
  exists (object fresh' a' cc (no_sc p) pr). split; [exact X|]. unfold same_parts, untouched. cbn.
  rewrite S1, S2, S3, S4, S5, S6. repeat split; reflexivity.
Qed.
Lemma twin_refused fresh fresh' a o l o' w : make fresh a = Some o -> ops_do l o = Some (o', w) -> In Replace l -> twin fresh' o' = None.
Proof. intros _ O N. apply settled_ops in O as [_ M]. unfold PyHTInit.twin. rewrite (proj2 M (or_intror N)). reflexivity. Qed.
End Coupling.
