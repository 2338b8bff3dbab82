(** Concrete cases for simulations that share a communicator. *)
From Coq Require Import String Lra Lia.
From Verif Require Import Num NumFacts MP SpecMP MPFacts Push SpecPush PushFacts Impact SpecImpact ImpactFacts ImpactFacts5 ExImpact Beam SpecBeam ExBeam Source CrossIon SpecCrossIon
  Sim SpecSim SimFacts SimFacts2 SimFacts3 SimFacts4 SimFacts5 SimFacts6 ExSim ExWhole Mpi SpecMpi MpiFacts MpiFacts2.
Local Open Scope list_scope.
Local Open Scope R_scope.

(** * What the step up to the space charge leaves *)
Lemma main_before e n a main secs m mid : grid_size (e_pic e) n -> step_main e a main secs m = Some mid ->
  exists m1 flag, step_before e a main secs m = Some (m1, flag) /\ map o_mp (m_clouds m1) = map o_mp (m_clouds mid) /\ map o_set (m_clouds m1) = map o_set (m_clouds mid).
Proof.
  intros G H. unfold step_main in H. unfold step_before. destruct (check_for_recomputation (ti_t main) (m_sc m)) as [fl sc].
  destruct (clouds_loop e a main secs sc (m_k m) (m_full m) (m_clouds m)) as [[[cl k] full]|]; cbn [bind] in *; [|discriminate].
  destruct (cross_step e (ti_Dt main) (m_xion m) k cl) as [[[x cl1] k1]|]; cbn [bind] in *; [|discriminate].
  eexists _, _. split; [reflexivity|]. unfold recompute_cloud_spacecharge in H. destruct (_ || _)%bool.
  - destruct (recompute_loop (e_pic e) [] cl1 sc) as [cl2 sc2] eqn:ER. injection H as <-. apply (recompute_ok n _ G) in ER; [|constructor|congruence]. cbn [m_clouds]. destruct ER as (_ & A & B & _). auto.
  - injection H as <-. auto.
Qed.

(** * A rank with an ion, a rank without macroparticles *)
Lemma iBefore : exists m1, step_before sEnv no_args (sBeam 1) [] iM = Some (m1, true) /\ exists c, m_clouds m1 = [c] /\ own_density sPic c = [2].
Proof.
  set (sc := mkSpch (Some 1) 1 true [0] (fun _ _ => (0, 0))).
  destruct (quiet_motion sEnv (sBeam 1) [] sc (sNo 1 sc (fun _ _ => eq_refl)) eq_refl eq_refl sI (sQuiet 1 sI (or_intror eq_refl))) as (s1 & M & DR).
  assert (SO := sSet_ok "ion" 2000 1 ltac:(lra)).
  destruct (motion_moved _ _ _ _ _ _ _ _ (so_step _ _ SO) (so_cust _ _ SO) M) as [gm MV]. assert (W : wf sIon) by (constructor; cbn; lia).
  destruct (moves_facts gm _ s1 W MV) as (W1 & (C1 & C2 & C3 & C4 & C5) & N1 & NL & Q1 & Q2 & Q3).
  assert (LV : exists p, live s1 = [p] /\ m_x p = 1/4 + 0 * (3/2) /\ m_y p = 0 + 0 * (3/2) /\ m_nel p = 2).
  { change (o_mp sI) with sIon in *. unfold live at 1 in DR. cbn in DR. remember (live s1) as lv eqn:EL. inversion DR as [|a b l l' D DN]; subst. inversion DN; subst. exists b. split; [reflexivity|].
    destruct D as (D1 & D2 & _). cbn in D1, D2. split; [exact D1|]. split; [exact D2|]. change (map m_nel (live sIon)) with [2] in NL. match goal with K : [b] = live s1 |- _ => rewrite <- K in NL end. injection NL as NL. exact NL. }
  destruct LV as (p & LV & PX & PY & PN).
  assert (HI : hitters exW s1 = []).
  { unfold hitters. rewrite LV. cbn [filter]. assert (B : beyond_wall exW p = false) by (unfold beyond_wall; apply exW_in; rewrite PX, PY; lra). rewrite B. reflexivity. }
  assert (NF : is_full s1 = false). { unfold is_full. apply Nat.leb_gt. change (capacity s1 = capacity sIon) in C1. unfold capacity in C1. rewrite C1, N1. cbn. lia. }
  destruct (one_step 1 sIon s1 "ion" 2000 1 ltac:(lra) N1 W1 HI NF M) as (mid & E & A1 & A2 & _). fold iM in E.
  destruct (main_before sEnv 1 _ _ _ _ _ sGrid E) as (m1 & flag & B1 & B2 & B3). destruct (before_frame _ _ _ _ _ _ _ B1) as (FL & _).
  assert (flag = true). { apply FL. left. split; [change (0 < 1); lra|change (1 <= 1 - -10); lra]. } subst flag.
  exists m1. split; [exact B1|]. rewrite A1 in B2. rewrite A2 in B3. destruct (m_clouds m1) as [|c [|d cl]]; try discriminate. injection B2 as B2. injection B3 as B3. exists c. split; [reflexivity|].
  unfold own_density. rewrite B2, B3, LV. cbn [sPic pi_dep sSet a_charge map snd]. rewrite PN. change (rsum [2]) with (2 + 0). replace (1 * (2 + 0)) with 2 by lra. reflexivity.
Qed.
Lemma wBefore : exists m1, step_before sEnv no_args (sBeam 1) [] wM = Some (m1, true) /\ exists c, m_clouds m1 = [c] /\ own_density sPic c = [0].
Proof.
  destruct (wStep 1 ltac:(lra)) as (mid & E & A1 & A2 & _).
  destruct (main_before sEnv 1 _ _ _ _ _ sGrid E) as (m1 & flag & B1 & B2 & B3). destruct (before_frame _ _ _ _ _ _ _ B1) as (FL & _).
  assert (flag = true). { apply FL. left. split; [change (0 < 1); lra|change (1 <= 1 - -10); lra]. } subst flag.
  exists m1. split; [exact B1|]. rewrite A1 in B2. rewrite A2 in B3. destruct (m_clouds m1) as [|c [|d cl]]; try discriminate. injection B2 as B2. injection B3 as B3. exists c. split; [reflexivity|].
  unfold own_density. rewrite B2, B3. replace (live wS) with (@nil mp) by reflexivity. cbn [sPic pi_dep sSet a_charge map snd]. change (rsum []) with 0. replace (-1 * 0) with 0 by lra. reflexivity.
Qed.

Definition mSteps : list (sargs * tim * list tim) := [(no_args, sBeam 1, [])].
Definition mI : proc := mkProc sEnv mSteps (Some iM).
Definition mW : proc := mkProc sEnv mSteps (Some wM).

Lemma mReady : exists ci cw mi mw, Forall2 (fun p x => let '(a, main, l, m1) := x in at_exchange p a main l m1) [mI; mW] [(no_args, sBeam 1, [], mi); (no_args, sBeam 1, [], mw)] /\
  m_clouds mi = [ci] /\ m_clouds mw = [cw] /\ own_density sPic ci = [2] /\ own_density sPic cw = [0].
Proof.
  destruct iBefore as (mi & I1 & ci & I2 & I3). destruct wBefore as (mw & W1 & cw & W2 & W3). exists ci, cw, mi, mw. split; [|auto].
  constructor; [|constructor; [|constructor]].
  - exists [], iM, true. split; [reflexivity|]. split; [reflexivity|]. split; [apply (before_frame _ _ _ _ _ _ _ I1); reflexivity|]. split; [exact I1|discriminate].
  - exists [], wM, true. split; [reflexivity|]. split; [reflexivity|]. split; [apply (before_frame _ _ _ _ _ _ _ W1); reflexivity|]. split; [exact W1|discriminate].
Qed.

(** The mean is 1: the rank with an ion notes 1, not 2. *)
Lemma mNoted : exists n L X avg L', L <> [] /\ Forall (fun p => grid_size (e_pic (p_env p)) n) L /\
  Forall2 (fun p x => let '(a, main, l, m1) := x in at_exchange p a main l m1) L X /\ round next_exchange L L' /\
  Forall2 (fun px p' => resumes n avg (fst px) (snd px) p') (combine L X) L' /\
  exists p a main l m1 m2 c, In (p, (a, main, l, m1)) (combine L X) /\ shared n (e_pic (p_env p)) avg m1 m2 /\ In (mkProc (p_env p) l (step_after (p_env p) a main m2)) L' /\
    In c (m_clouds m2) /\ o_rho c <> own_density (e_pic (p_env p)) c.
Proof.
  destruct mReady as (ci & cw & mi & mw & F & C1 & C2 & D1 & D2).
  set (L := [mI; mW]) in *. set (X := [(no_args, sBeam 1, [], mi); (no_args, sBeam 1, [], mw)]) in *.
  assert (G : Forall (fun p => grid_size (e_pic (p_env p)) 1) L) by (constructor; [exact sGrid|constructor; [exact sGrid|constructor]]).
  destruct (exchange_spec 1 L X ltac:(discriminate) G F) as (avg & L' & RD & LA & SU & TH).
  exists 1%nat, L, X, avg, L'. split; [discriminate|]. split; [exact G|]. split; [exact F|]. split; [exact RD|]. split; [exact TH|].
  specialize (SU 0%nat ltac:(lia)). unfold L, X in SU. cbn [map2 snd mI mW p_env sEnv e_pic List.length] in SU. unfold density_at in SU. rewrite C1, C2 in SU. cbn [map] in SU. rewrite D1, D2 in SU.
  cbn [nth] in SU. assert (AV : nth 0 avg 0 = 1). { change ((1 + 1) * nth 0 avg 0 = (2 + 0) + ((0 + 0) + 0)) in SU. lra. }
  unfold L, X in TH. cbn [combine] in TH. inversion TH as [|? p' ? L2 T1 T2]; subst. cbn [fst snd resumes] in T1. destruct T1 as (m2 & E & SH).
  pose proof (sh_mp _ _ _ _ _ SH) as M. pose proof (sh_set _ _ _ _ _ SH) as S. destruct (sh_noted _ _ _ _ _ SH) as (cs & c & N1 & _ & N2 & N3).
  rewrite C1, N1 in M. destruct cs as [|c0 cs]; [|destruct cs; discriminate]. cbn [app map] in N1, M. rewrite C1, N1 in S. cbn [map] in S. injection M as M. injection S as S.
  exists mI, no_args, (sBeam 1), [], mi, m2, c. split; [left; reflexivity|]. split; [exact SH|]. split; [left; exact E|]. split; [rewrite N1; left; reflexivity|].
  intros Z. assert (O : own_density (e_pic (p_env mI)) c = [2]). { change (e_pic (p_env mI)) with sPic. rewrite <- D1. unfold own_density. rewrite M, S. reflexivity. }
  rewrite O in Z. specialize (N3 0%nat). rewrite Z, AV in N3. change (2 = 1 - 0) in N3. lra.
Qed.

(** Ranks in pace. *)
Lemma mPace : Forall (in_pace 1 [(1, false)] 0 (Some 1) (-10)) [mI; mW].
Proof. constructor; [|constructor; [|constructor]]; (split; [reflexivity|]; split; [reflexivity|]; split; [exact sGrid|]); eexists; (split; [reflexivity|]); (split; [reflexivity|]); (split; [reflexivity|discriminate]). Qed.

(** * Two small ranks *)
(** A rank that asks once, sending its number, and ends with what it gets. *)
Definition ask_once (n : nat) (x : R + R) : outcome (R + R) := match x with inl v => Ask (repeat v n) (fun a => inr (nth 0 a 0)) | inr v => Finish (inr v) end.
Lemma once_together : together (ask_once 1) 1 [inl 1; inl 3] [inr 2; inr 2].
Proof.
  assert (A : average [[1]; [3]] = Some [2]). { change (Some [(1 + (3 + 0)) / (1 + 1)] = Some [2]). replace ((1 + (3 + 0)) / (1 + 1)) with 2 by lra. reflexivity. }
  apply to_round with (L' := [inr 2; inr 2]).
  - exists [[1]; [3]], [2]. split; [exact A|]. split; [reflexivity|]. split; [reflexivity|]. intros [|[|i]] s H; cbn in H; [| |destruct i; discriminate]; injection H as <-; eexists _, _; repeat split.
  - constructor. repeat constructor.
Qed.
Lemma once_apart : apart_at (ask_once 1) [inl 1; inr 3].
Proof. eapply ap_now with (s := inr 3) (s' := inl 1); [right; left; reflexivity|left; reflexivity|reflexivity|reflexivity]. Qed.

(** * Two equal ranks *)
Lemma together_no_crash L L' : later next_exchange L L' -> forall r F, together next_exchange r L F -> Forall (fun f => p_sim f <> None) F -> ~ crash_now L'.
Proof.
  induction 1 as [L|L L1 L2 RD LA IH]; intros r F TG OK.
  - intros (s & f & IN & N & P). assert (r = 0%nat) by (eapply together_finish; eauto). subst r. inversion TG as [? ? EN|]; subst.
    clear - EN OK IN N P. induction EN as [|u v L F E EN IH]; [contradiction|]. inversion OK; subst. destruct IN as [->|IN]; [|auto]. congruence.
  - inversion TG as [? ? EN|r0 ? L3 ? RD2 TG2]; subst.
    + exfalso. apply round_three in RD. destruct RD as (bufs & a & A & TH). inversion TH; subst; [discriminate|]. inversion EN; subst. congruence.
    + assert (L3 = L1) by (eapply round_det; eauto). subst L3. eapply IH; eauto.
Qed.
Definition mS : proc := mkProc sEnv mSteps (Some sM).
Lemma mSame : exists m', sim_run sEnv mSteps sM = Some [m'] /\ ~ crashed [mS; mS] /\ Forall (in_pace 1 [(1, false)] 0 (Some 1) (-10)) [mS; mS].
Proof.
  destruct (sStep 1 ltac:(lra)) as (m' & E & _). exists m'. assert (R : sim_run sEnv mSteps sM = Some [m']) by (cbn [sim_run mSteps]; rewrite E; reflexivity). split; [exact R|].
  destruct (identical sEnv 1 mSteps sM _ R) as (r & TG). split.
  - intros (L' & LA & C). revert C. eapply together_no_crash; [exact LA|exact TG|]. repeat constructor; discriminate.
  - constructor; [|constructor; [|constructor]]; (split; [reflexivity|]; split; [reflexivity|]; split; [exact sGrid|]); eexists; (split; [reflexivity|]); (split; [reflexivity|]); (split; [reflexivity|discriminate]).
Qed.
