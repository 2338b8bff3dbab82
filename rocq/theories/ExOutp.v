(** Concrete cases for [save_only] and for custom observables. *)
From Coq Require Import String Lia Lra Bool.
From Verif Require Import Num NumFacts Fort MP SpecMP MPFacts Impact Saver SpecSaver SaverFacts SaverFacts3 SaverFacts5 SaverFacts6 SaverFacts9 SpecOutp OutpFacts ExMP ExImpact ExSaver.
Local Open Scope string_scope.
Local Open Scope list_scope.
Local Open Scope R_scope.

(** The settings of [vC 2 [] None] with other custom observables. *)
Definition uC (cus pcus : list string) (once : dict) : scfg :=
  mkScfg 1 2 1 true false true [] 2 true None None 1 cus pcus once [("b_spac", VNum 25)] None 3 2 exC 0.

Lemma uC_ok cus pcus once : NoDup cus -> NoDup pcus -> NoDup (map fst once) -> cfg_any (uC cus pcus once).
Proof.
  intros H1 H2 H3. unfold cfg_any, uC; cbn [c_custom c_pcustom c_const c_once c_nx c_nbin c_ic c_hdet c_every c_only map fst exC k_Dx k_DEn k_mass k_qe].
  do 2 (split; [assumption|]). split; [constructor; [intros []|constructor]|]. split; [assumption|].
  split; [intros k [<-|[]]; exact (apartb_ok ["b_spac"] (own_names (uC cus pcus once)) eq_refl "b_spac" (or_introl eq_refl))|].
  assert (A := vC_ok 2 [] None ltac:(constructor) (or_introl eq_refl)). apply ok_any in A. unfold cfg_any, vC in A; cbn [c_custom c_pcustom c_const c_once c_nx c_nbin c_ic c_hdet c_every c_only map fst exC k_Dx k_DEn k_mass k_qe] in A. 
  apply A.
Qed.
Lemma uL_ok cus pcus once : Forall (step_ok (uC cus pcus once) exG) vL.
Proof. exact (vL_ok 2 [] None). Qed.
Lemma uW cus pcus once : widths_ok (uC cus pcus once) exG.
Proof. exact (vW 2 [] None). Qed.


(** A custom observable with the name of a standard entry. *)
Lemma uReplaced : exists s g f d s0 g0 f0 d0 l l0,
  started (uC [] ["Nel_timep"] []) exG 8 vL = Some (s, g, f) /\ build_outp_dict (uC [] ["Nel_timep"] []) s = Some d /\
  started (uC [] [] []) exG 8 vL = Some (s0, g0, f0) /\ build_outp_dict (uC [] [] []) s0 = Some d0 /\
  get d "Nel_timep" = Some (VArr l) /\ get d0 "Nel_timep" = Some (VArr l0) /\ l = [7; 7] /\ List.length l0 = 3%nat.
Proof.
  assert (N1 : NoDup ["Nel_timep"]) by (constructor; [intros []|constructor]).
  destruct (run_custom (uC [] ["Nel_timep"] []) exG 8 vL (uC_ok _ _ [] (NoDup_nil _) N1 (NoDup_nil _)) (uW _ _ _) ltac:(lia) (uL_ok _ _ _))
    as (s & g & f & d & gs & rest & ps & prest & hs & hrest & E & B & _ & (P1 & P2) & _ & (_ & D2 & _) & _).
  destruct (run_custom (uC [] [] []) exG 8 vL (uC_ok _ _ [] (NoDup_nil _) (NoDup_nil _) (NoDup_nil _)) (uW _ _ _) ltac:(lia) (uL_ok _ _ _))
    as (s0 & g0 & f0 & d0 & gs0 & rest0 & ps0 & prest0 & hs0 & hrest0 & E0 & B0 & (S1 & S2) & _ & _ & _ & D0).
  destruct (groups_unique pass_ends ps (-1) prest _ _ P2 vL_passes) as [-> ->]; [rewrite <- P1; reflexivity|].
  destruct (groups_unique _ gs0 (-1) rest0 _ _ S2 vL_samples2) as [-> ->]; [rewrite <- S1; reflexivity|].
  exists s, g, f, d, s0, g0, f0, d0. eexists. eexists. do 4 (split; [eassumption|]).
  split; [apply (D2 "Nel_timep"); [left; reflexivity|cbn; tauto]|].
  split; [refine (proj1 (D0 "Nel_timep" _) _ _); [unfold chosen; cbn; tauto|unfold columns; apply in_app_iff; left; cbn [In]; right; right; left; reflexivity]|].
  split; reflexivity.
Qed.

(** Only the number of electrons is saved: the run cannot be continued. *)
Lemma uStuck : exists s g d, started (only (uC [] [] []) (Some ["Nel_timep"])) exG 8 vL = Some (s, g, Some d) /\ get d "Nel_timep" <> None /\
  forall n t tE, resumed (only (uC [] [] []) (Some ["Nel_timep"])) n d t tE = None.
Proof.
  assert (CO := uC_ok [] [] [] (NoDup_nil _) (NoDup_nil _) (NoDup_nil _)).
  assert (KN : forall k, In k ["Nel_timep"] -> known (uC [] [] []) k).
  { intros k [<-|[]]. left. apply own_out_iff. cbn. tauto. }
  destruct (run_only (uC [] [] []) exG 8 ["Nel_timep"] CO (uW _ _ _) ltac:(lia) KN vL (uL_ok _ _ _)) as (s & g & f & f' & E & E' & P).
  destruct (started_any (uC [] [] []) exG 8 vL CO (uW _ _ _) ltac:(lia) (uL_ok _ _ _)) as (s1 & g1 & f1 & E1 & R1 & [(F & F2)|(l1 & q & l2 & s2 & g2 & X1 & X2 & X3 & X4 & X5)]); rewrite E in E1; injection E1 as <- <- <-.
  - exfalso. subst f. rewrite Forall_forall in F2. specialize (F2 (vQ 2 2 true)). cbn [vL In] in F2. assert (writes_out (uC [] [] []) (vQ 2 2 true) = true) by reflexivity. rewrite F2 in H; [discriminate|tauto].
  - assert (OK1 : Forall (step_ok (uC [] [] []) exG) (l1 ++ [q])).
    { assert (OK := uL_ok [] [] []). rewrite X1 in OK. apply Forall_app in OK. destruct OK as [Y1 Y2]. inversion_clear Y2. apply Forall_app. split; [exact Y1|constructor; [assumption|constructor]]. }
    destruct (run_names (uC [] [] []) exG 8 _ CO (uW _ _ _) ltac:(lia) OK1) as (s3 & g3 & f3 & d3 & E3 & B3 & N3). rewrite X4 in E3. injection E3 as <- <- <-.
    rewrite B3 in X5. subst f. destruct f' as [d'|]; [|contradiction]. exists s, g, d'. split; [exact E'|]. split.
    + rewrite (proj1 (P "Nel_timep") (or_introl eq_refl)). apply N3, KN. left. reflexivity.
    + intros n t tE. apply (reload_needs _ d' t tE n "t"); [left; reflexivity|]. apply (P "t"). intros [X|[]]. discriminate.
Qed.
