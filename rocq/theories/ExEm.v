(** Instances for C82. *)
From Coq Require Import String Lra Lia.
From Verif Require Import Num NumFacts MP SpecMP Push SpecPush Geom Poly Sey Impact SpecImpact Beam SpecBeam
  Source SpecSource CrossIon SpecCrossIon Sim SpecSim Em SpecEm EmFacts ExPush ExSey ExImpact ExSource ExSim ExForce.
Local Open Scope list_scope.
Local Open Scope R_scope.

(** One grid cell; a field that grows with the distance. *)
Definition ePic : pic := mkPic (fun q l => [q * rsum (map snd l)]) (fun r x y => (hd 0 r * x, hd 0 r * y)).
Definition ePhi (r : list R) (x y : R) : R := hd 0 r.
Lemma eGrid : grid_size ePic 1.
Proof. intros q l. reflexivity. Qed.
Lemma eQuiet : silent ePic ePhi 1.
Proof.
  split; [reflexivity|]. split; [intros x y; cbn; f_equal; ring|]. intros q pts F. cbn. f_equal.
  assert (E : rsum (map snd pts) = 0) by (induction F as [|t l H F IH]; [reflexivity|]; cbn [map]; change (snd t + rsum (map snd l) = 0); rewrite H, IH; ring). rewrite E. ring.
Qed.

(** Electrons, one of them moving, and ions at rest; then the ions alone. *)
Definition eMoving : estep := (1, false, [sE; sI]).
Definition eBetween : estep := (3/2, false, [sE; sI]).
Definition eLater : estep := (5/2, false, [sI]).
Definition eSoon : estep := (2, false, [sI]).
Definition eRest : estep := (4, false, [sI]).

Definition e0 : emsc := em_ctor 1 sSc 2.
Definition e1 : emsc := em_step ePic ePhi 1 0 1 false [sE; sI] e0.
Lemma eChk t D last c r f : D <= t - last -> check_for_recomputation t (mkSpch (Some D) last c r f) = (true, mkSpch (Some D) t true r f).
Proof. intros H. unfold check_for_recomputation. cbn [sc_Dt sc_last sc_rho sc_fld]. destruct (Rgeb (t - last) D) eqn:B; [reflexivity|]. apply Bool.not_true_iff_false in B. exfalso. apply B, Rgeb_true. lra. Qed.

Lemma step_last p phi k0 tsc t f cl em : sc_last (em_sc (em_step p phi k0 tsc t f cl em)) = if fst (check_for_recomputation t (em_sc em)) then t else sc_last (em_sc em).
Proof.
  unfold em_step, check_for_recomputation. cbn [fst]. set (b := match sc_Dt (em_sc em) with None => true | _ => _ end).
  set (em2 := mkEm _ _ _ _ _). pose proof (em_loop_sc p phi k0 cl [] em2) as S. destruct (em_loop p phi k0 [] cl em2) as [cl' em'] eqn:E.
  assert (X : sc_last (em_sc em') = sc_last (em_sc em2)).
  { clear -S. revert cl' S. generalize (em_sc em'), (em_sc em2), (@nil (list R)). intros se sc bf. revert se sc bf. induction cl as [|c cl IH]; intros se sc bf cl' S; cbn [recompute_loop] in S.
    - injection S as _ <-. reflexivity.
    - destruct (recompute_loop p _ cl _) as [r sc2] eqn:E. injection S as _ <-. apply IH in E. rewrite E. reflexivity. }
  destruct (Rgtb t tsc && b || f); cbn [snd]; [rewrite X|]; reflexivity.
Qed.

Lemma eLast t f cl : 1 <= t - (-10) -> sc_last (em_sc (em_step ePic ePhi 1 0 t f cl e0)) = t.
Proof. intros H. rewrite step_last. unfold e0, em_ctor, sSc. cbn [em_sc]. rewrite eChk by exact H. reflexivity. Qed.
Lemma eDt l : sc_Dt (em_sc (em_steps ePic ePhi 1 0 l e0)) = Some 1.
Proof. destruct (em_steps_const 1 ePic ePhi 1 0 eGrid l e0) as [_ ->]. reflexivity. Qed.

Lemma e_first : renews 0 eMoving e0.
Proof. left. cbn. split; lra. Qed.
Lemma e_between : idle ePic ePhi 1 0 [eBetween] (em_steps ePic ePhi 1 0 [eMoving] e0).
Proof.
  cbn [idle]. split; [|exact I]. unfold renews. rewrite (eDt [eMoving]). cbn [em_steps]. change (snd (fst eBetween)) with false.
  change (e_time eMoving) with 1. change (e_time eBetween) with (3/2). rewrite eLast by lra. intros [[_ H]|H]; [lra|discriminate].
Qed.
Lemma e_second t cl : 2 <= t -> renews 0 (t, false, cl) (em_steps ePic ePhi 1 0 [eMoving] e0).
Proof.
  intros Ht. left. rewrite (eDt [eMoving]). cbn [em_steps]. change (e_time (t, false, cl)) with t. change (e_time eMoving) with 1. rewrite eLast by lra. split; lra.
Qed.
Lemma e_third t cl : 2 <= t -> renews 0 (t, false, cl) (em_steps ePic ePhi 1 0 [eBetween] (em_steps ePic ePhi 1 0 [eMoving] e0)).
Proof.
  intros Ht. left. rewrite <- (em_steps_app _ _ _ _ [eMoving] [eBetween]), (eDt _), em_steps_app. cbn [em_steps]. rewrite step_last.
  change (e_time (t, false, cl)) with t. change (e_time eMoving) with 1. change (e_time eBetween) with (3/2).
  unfold check_for_recomputation. cbn [fst]. pose proof (eDt [eMoving]) as X. cbn [em_steps] in X. change (e_time eMoving) with 1 in X. rewrite X. rewrite eLast by lra.
  destruct (Rgeb (3/2 - 1) 1) eqn:B; [apply Rgeb_true in B; lra|]. split; lra.
Qed.
Lemma e_fourth : renews 0 eRest (em_steps ePic ePhi 1 0 [eSoon] (em_steps ePic ePhi 1 0 [eMoving] e0)).
Proof.
  left. rewrite <- (em_steps_app _ _ _ _ [eMoving] [eSoon]), (eDt _), em_steps_app. cbn [em_steps]. rewrite step_last.
  change (e_time eRest) with 4. change (e_time eMoving) with 1. change (e_time eSoon) with 2.
  unfold check_for_recomputation. cbn [fst]. pose proof (eDt [eMoving]) as X. cbn [em_steps] in X. change (e_time eMoving) with 1 in X. rewrite X. rewrite eLast by lra.
  destruct (Rgeb (2 - 1) 1) eqn:B; split; lra.
Qed.
Lemma e_rest : at_rest [sI].
Proof. repeat constructor. Qed.
Lemma e_curx : all_deposits ePic 1 (curx 1) [sE; sI] = [-1] /\ all_deposits ePic 1 (curx 1) [sI] = [0].
Proof. unfold all_deposits, deposits, rsum, curx. cbn. split; apply (f_equal (fun u => [u])).
  all: unfold rsum; cbn; ring. Qed.

Lemma e_elapsed : exists p phi k0 n tsc D gamma sc q1 q2, grid_size p n /\ silent p phi n /\ sc_Dt sc = Some D /\ 0 < D /\ 1 < gamma /\
  e_clouds q1 <> [] /\ e_clouds q2 <> [] /\ snd (fst q1) = false /\ snd (fst q2) = false /\
  let em0 := em_ctor n sc gamma in
  renews tsc q1 em0 /\ renews tsc q2 (em_steps p phi k0 tsc [q1] em0) /\ D < e_time q2 - e_time q1 /\
  exists x y E B, em_at (em_steps p phi k0 tsc [q1; q2] em0) x y = Some (E, B) /\
  let A k q := phi (all_deposits p n k (e_clouds q)) x y in
  fst E <> fst (pi_solve p (all_deposits p n chg (e_clouds q2)) x y) - (A (curx k0) q2 - A (curx k0) q1) / (e_time q2 - e_time q1).
Proof.
  exists ePic, ePhi, 1, 1%nat, 0, 1, 2, sSc, eMoving, eLater. split; [exact eGrid|]. split; [exact eQuiet|]. split; [reflexivity|]. split; [lra|]. split; [lra|].
  split; [discriminate|]. split; [discriminate|]. split; [reflexivity|]. split; [reflexivity|]. cbv zeta. split; [exact e_first|]. split; [apply e_second; lra|].
  split; [cbn; lra|]. exists 0, 0. eexists. eexists. split.
  - apply (two_recomputations 1 ePic ePhi 1 0 1 2 sSc [] eMoving [] eLater [] eGrid eq_refl); try discriminate; try exact I; [exact e_first|apply e_second; lra].
  - destruct e_curx as [E1 E2]. change (e_clouds eMoving) with [sE; sI]. change (e_clouds eLater) with [sI]. rewrite E1, E2. unfold induced. cbn [fst snd].
    change (e_time eLater) with (5/2). change (e_time eMoving) with 1. unfold ePhi. cbn [hd]. lra.
Qed.

(** The tracker with a quadrupole. *)
Lemma e_move : exists s', em_motion sEnv no_args kBeam [oBeam] (em_steps ePic ePhi 1 0 [eMoving; eLater] e0) (-1) 1 [0; 1] [0; 0] (None, None, None) (3/2) 2 exS0 = Some s'.
Proof.
  unfold em_motion, sub_steps. cbn [no_args s_Nsub s_Dtsub s_kick s_force_re sEnv e_boris e_reinterp bind orb kBeam ti_unif negb multipole_dyn d_Nsub d_Dt Nat.eqb]. cbn [em_motion_loop].
  set (em := em_steps _ _ _ _ _ _).
  assert (EA : forall x y, exists f, em_at em x y = Some f).
  { intros x y. eexists. apply (two_recomputations 1 ePic ePhi 1 0 1 2 sSc [] eMoving [] eLater [] eGrid eq_refl); try discriminate; try exact I; [exact e_first|apply e_second; lra]. }
  assert (ED : sc_Dt (em_sc em) = Some 1) by apply (eDt [eMoving; eLater]).
  assert (AL : forall pos, exists fs, em_all em pos = Some fs).
  { induction pos as [|q pos [fs IH]]; cbn [em_all]; [rewrite ED; destruct (em_old em); eauto|]. destruct (EA (fst q) (snd q)) as [f ->]. cbn [bind]. rewrite IH. cbn [bind]. eauto. }
  destruct (AL (mp_pos exS0)) as [fs HF]. destruct (em_gather_ok em kBeam [oBeam] _ [_] exS0 fs kActs (Forall2_cons _ _ oActs (Forall2_nil _)) HF) as [[E B] ->]. cbn [bind]. eauto.
Qed.
