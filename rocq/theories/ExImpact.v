(** Concrete cases for the wall handling. *)
From Coq Require Import Lra Lia Reals Psatz.
From Verif Require Import Num NumFacts Fort MP SpecMP MPFacts Push SpecPush PushFacts Geom SpecGeom GeomFacts Poly
  Sey SpecSey SeyFacts SeyFacts2 SeyFacts3 ExSey Impact SpecImpact ImpactFacts ImpactFacts2 ImpactFacts3 ImpactFacts4 ImpactFacts5.

(** A round chamber of radius 1. *)
Definition exE : ellip := mkEllip 1 1.
Definition exW : wall := ell_wall exE (99/100).
(** Two MPs of three slots: one at rest in the centre, one that left through
    the right wall with the energy 300 (in the units of [exC]). *)
Definition exS : mpsys :=
  mkSys [0; 2; 0] [0; 0; 0] [0; 0; 0] [0; 1; 0] [0; 0; 0] [0; 0; 0] [3; 1; 0] [0; 0; 0] 2 false 1 (3/2) (1/10) 1 (3/2) (1/10).
Definition exOld : list R * list R * list R := ([0; 1/2], [0; 0], [0; 0]).
Definition exC : icfg := mkIcfg (-2) 1 100 500 10 false 1 true (1/4) false false 600 1.
Definition exG : iman := mkIman [0; 0; 0; 0] [0; 0; 0; 0] [0; 0; 0; 0] [0; 0] [0; 0; 0; 0; 0] [] [] [] [] [] 0 0 0 0.
(** Yield 2 at all angles. *)
Definition exM : seymod := MFlat 1000 0 2.
Definition exEm := std_emitter exM ex_cfg ex_sr.

Lemma exE_ok : ellip_ok exE.
Proof. split; cbn; lra. Qed.

Lemma exW_in x y : w_out exW x y = false <-> x * x + y * y < 1.
Proof.
  unfold exW; cbn [ell_wall w_out]. rewrite ell_outside_spec by (split; cbn; lra). unfold in_ellipse. cbn [e_a e_b exE].
  replace (x * x / (1 * 1) + y * y / (1 * 1)) with (x * x + y * y) by field. tauto.
Qed.

Lemma exS_wf : wf exS.
Proof. constructor; cbn; auto. Qed.

Lemma exOld_in : old_inside exW exOld.
Proof. intros i Hi. apply exW_in. cbn in Hi. destruct i as [|[|i]]; cbn; try lra. lia. Qed.

Lemma exHist : hist_ok exW exC exG.
Proof.
  constructor; cbn; try lra; try discriminate.
  - intros x y H. apply exW_in in H. nra.
  - intros _. split; [lra|discriminate].
Qed.

Lemma exHit : hitters exW exS = [mp_at exS 1].
Proof.
  unfold hitters, live. cbn [N_mp exS seq map filter].
  assert (A : beyond_wall exW (mp_at exS 0) = false) by (apply exW_in; cbn; lra).
  assert (B : beyond_wall exW (mp_at exS 1) = true).
  { destruct (beyond_wall exW (mp_at exS 1)) eqn:Q; auto. apply exW_in in Q. cbn in Q. lra. }
  rewrite A, B. auto.
Qed.

Lemma ex_flat E ct : E = 300 -> yield_flat 1000 0 2 E ct = (2, Some 0).
Proof.
  intros ->. unfold yield_flat.
  assert (T : true_sec 1000 0 s135 true true 300 ct = 0).
  { unfold true_sec. cbv zeta. rewrite Rmult_0_l, ?Rmult_0_l. unfold Rdiv. rewrite ?Rmult_0_l. auto. }
  rewrite T, !(proj2 (Rltb_true _ _)) by lra. cbn [andb]. unfold frac.
  rewrite (proj2 (Reqb_false 2 0)) by lra. f_equal. f_equal. field.
Qed.

Lemma ex_emits p : i_nel p = 1 -> i_E p = 300 -> exists e k,
  exEm (3/2) false [p] 0%nat = Some (e, k) /\ length (n_nel e) = 1%nat /\ rsum (o_tot e) = 2.
Proof.
  intros Hn HE. unfold exEm, std_emitter, impacts_on_surface, SEY_process. change (draw (s_uni ex_sr) 0 (length [p])) with [1/2].
  cbn [mapM2]. unfold sey_one, exM. rewrite ex_flat by auto. rewrite Hn, Rmult_1_l, (proj2 (Rltb_false _ _)) by lra. cbn [bind].
  unfold emit_surface. cbn -[gen_vel n_clones ex_sr ex_cfg]. rewrite ex_clones.
  unfold mask_set. cbn -[gen_vel n_clones ex_sr ex_cfg]. rewrite ex_gen.
  cbn -[gen_vel n_clones ex_sr ex_cfg]. rewrite ex_gen.
  eexists _, _. split; [reflexivity|]. cbn. split; auto. unfold rsum; cbn. lra.
Qed.


Lemma exCall : exists g' s' k', backtrack_and_second_emiss exW exC exEm 5 exOld exG exS 0%nat = Some (g', s', k') /\
  (N_mp s' <= capacity exS)%nat /\ l_nimp g' = 1 /\ l_nemit g' = 2 /\ charge s' = 5.
Proof.
  assert (EV : mp_eV exC (mp_at exS 1) = 300) by (unfold mp_eV, kin_eV; cbn; field).
  assert (PP : forall hs ps, length hs = length (hitters exW exS) ->
    Forall2 (fun hm q => impact_of exC (fst hm) (snd hm) q) (combine hs (hitters exW exS)) ps ->
    exists p, ps = [p] /\ i_nel p = 1 /\ i_E p = 300).
  { rewrite exHit. intros [|h [|]] ps L F; try discriminate. cbn in F. inversion F as [|? p ? ? I F']; subst. inversion F'; subst.
    exists p. destruct I as (I1 & _ & _ & _ & _ & _ & _ & _ & _ & _ & I2 & _). cbn [fst snd] in *. split; auto. split; [rewrite I1; auto|congruence]. }
  assert (OS : old_sized (N_mp exS) exOld) by (repeat split).
  assert (HW := ell_wall_ok exE (99/100) exE_ok). assert (HE := std_emitter_ok exW exM ex_cfg ex_sr). fold exEm in HE. fold exW in HW.
  assert (SP : 0 < nel_mp_split exS) by (cbn; lra).
  destruct (call_returns exW exC exEm 5 exOld exG exS 0%nat) as (g' & s' & k' & E & HN); auto using exS_wf, exOld_in, exHist.
  - rewrite exHit. constructor; auto. cbn. lra.
  - discriminate.
  - discriminate.
  - intros hs ps _ L F. destruct (PP hs ps L F) as (p & -> & P1 & P2). destruct (ex_emits p P1 P2) as (e & k & Q1 & Q2 & _).
    exists e, k. split; [exact Q1|]. rewrite Q2. cbn. lia.
  - exists g', s', k'. split; auto. split; auto.
    destruct (call_charge exW exC exEm 5 exOld exG exS 0%nat g' s' k' HW HE exS_wf eq_refl OS SP E HN) as (A & B).
    destruct (call_emission exW exC exEm 5 exOld exG exS 0%nat g' s' k' HW HE exS_wf eq_refl OS SP E HN) as (hs & ps & e & F & L & EM & T).
    { rewrite exHit. discriminate. }
    destruct (PP hs ps L F) as (p & -> & P1 & P2). destruct (ex_emits p P1 P2) as (e' & k & Q1 & Q2 & Q3).
    change (nel_mp_split exS) with (3/2) in EM. change (k_seg exC) with false in EM. rewrite Q1 in EM. injection EM as -> ->.
    rewrite exHit in B. unfold charge_of, rsum in B. cbn in B. rewrite Q3 in T.
    assert (C : charge exS = 4) by (unfold charge, rsum, live; cbn; lra). repeat split; lra.
Qed.

(** The same MPs before the move, and the move. *)
Definition exS0 : mpsys :=
  mkSys [0; 1/2; 0] [0; 0; 0] [0; 0; 0] [0; 1; 0] [0; 0; 0] [0; 0; 0] [3; 1; 0] [0; 0; 0] 2 false 1 (3/2) (1/10) 1 (3/2) (1/10).
Definition ex_drift (i : nat) (p : p6) : p6 := mkP6 (px p + (3/2) * pvx p) (py p) (pz p) (pvx p) (pvy p) (pvz p).

Lemma exMove : moves_each ex_drift exS0 exS.
Proof.
  unfold moves_each. do 3 (split; [reflexivity|]). split.
  { intros _. split; [exact exS_wf|]. repeat split. }
  do 3 (split; [reflexivity|]). split.
  - intros i Hi. cbn in Hi. destruct i as [|[|i]]; [| |lia]; unfold get6, ex_drift; cbn; f_equal; lra.
  - intros _ i Hi. cbn in Hi. destruct i as [|[|[|i]]]; try lia; unfold get6; cbn; auto.
Qed.

Lemma exRun : exists s' st',
  cloud_run exW exC exEm (exS0, 0%nat) (s', st') /\ charge s' = 5 /\
  wf exS0 /\ k_life exC = flag_lifetime_hist exS0 /\ sizes_ok exS0 /\ 0 < fact_split exS0 /\
  0 < nel_mp_ref_0 exS0 <= nel_mp_ref exS0 /\ Forall (fun p => beyond_wall exW p = false) (live exS0).
Proof.
  destruct exCall as (g' & s' & k' & E & HN & _ & _ & CH). exists s', k'. split.
  { eapply run_step; [|apply run_refl]. eapply (St_move _ _ _ ex_drift 5 exS0 exS s' exG g'); [exact exMove| |exact HN].
    change (positions exS0) with exOld. exact E. }
  split; auto. split; [constructor; cbn; auto|]. split; [reflexivity|].
  split; [split; cbn; lra|]. split; [cbn; lra|]. split; [cbn; lra|].
  repeat constructor; apply exW_in; cbn; lra.
Qed.
