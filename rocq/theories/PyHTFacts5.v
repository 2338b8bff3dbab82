(** Durations of the cloud steps and of the sub-steps. *)
From Coq Require Import String Lia Lra.
From Verif Require Import Num NumFacts MP SpecMP Push Impact Beam Source Sim PyHT SpecPyHT PyHTFacts.
Local Open Scope list_scope.
Local Open Scope R_scope.

Lemma rsum_rep c n : rsum (repeat c n) = INR n * c.
Proof. induction n; [unfold rsum; cbn; ring|]. rewrite S_INR. change (c + rsum (repeat c n) = (INR n + 1) * c). rewrite IHn. ring. Qed.

Lemma dts_ok p inter dt dts : 0 < dt -> dt_array p inter dt = Some dts ->
  rsum dts = dt /\ Forall (fun d => 0 < d /\ (forall D, z_Dt p = Some D -> d <= D)) dts.
Proof.
  intros HD. unfold dt_array. destruct (z_Dt p) as [D|]; [|intros H; injection H as <-; split; [unfold rsum; cbn; lra|repeat constructor; auto; discriminate]].
  destruct (Rleb D 0) eqn:E0; [discriminate|]. apply Rleb_false in E0. destruct (Rgtb dt D) eqn:E1.
  - destruct inter; [discriminate|]. intros H; injection H as <-. apply Rgtb_true in E1. set (n := Z.to_nat (rceil (dt / D))).
    assert (C1 : dt / D <= IZR (rceil (dt / D))) by (pose proof (rceil_bounds (dt / D)); lra).
    assert (G1 : 1 < dt / D) by (apply Rmult_lt_reg_r with D; [lra|]; unfold Rdiv; rewrite Rmult_assoc, Rinv_l by lra; lra).
    assert (Z1 : (0 < rceil (dt / D))%Z) by (apply lt_IZR; lra).
    assert (NI : INR n = IZR (rceil (dt / D))) by (unfold n; rewrite INR_IZR_INZ, Z2Nat.id by lia; auto).
    assert (NP : 0 < INR n) by lra. split.
    + rewrite rsum_rep. field. lra.
    + apply Forall_forall. intros d Hd. apply repeat_spec in Hd. subst d. split; [apply Rdiv_lt_0_compat; auto|].
      intros D' K. injection K as <-. apply Rmult_le_reg_r with (INR n); auto. unfold Rdiv at 1. rewrite Rmult_assoc, Rinv_l, Rmult_1_r by lra.
      rewrite NI. apply Rmult_le_reg_r with (/ D); [apply Rinv_0_lt_compat; lra|]. replace (D * IZR (rceil (dt / D)) * / D) with (IZR (rceil (dt / D))) by (field; lra). exact C1.
  - apply Rgtb_false in E1. intros H; injection H as <-. split; [unfold rsum; cbn; lra|]. constructor; auto. split; auto. intros D' K. injection K as <-. lra.
Qed.

Lemma sub_ok p dt h n : 0 < dt -> sub_of (z_Dtref p) dt = Some (h, n) -> step_ok p (dt, h, n).
Proof.
  intros HD. unfold sub_of, step_ok. destruct (Rleb (z_Dtref p) 0) eqn:E0; [discriminate|]. apply Rleb_false in E0. set (r := z_Dtref p) in *.
  destruct (Rgtb dt r) eqn:E1; intros H; injection H as <- <-; cbn.
  - apply Rgtb_true in E1. set (z := raround (dt / r)).
    assert (ER : Rabs (dt / r - IZR z) <= 1/2) by apply raround_err. assert (E2 : dt / r - IZR z <= 1/2) by (pose proof (Rle_abs (dt / r - IZR z)); lra).
    assert (E3 : - (1/2) <= dt / r - IZR z) by (pose proof (Rle_abs (- (dt / r - IZR z))) as K; rewrite Rabs_Ropp in K; lra).
    assert (G1 : 1 < dt / r) by (apply Rmult_lt_reg_r with r; [lra|]; unfold Rdiv; rewrite Rmult_assoc, Rinv_l by lra; lra).
    assert (Z1 : (0 < z)%Z) by (apply lt_IZR; lra). assert (Z2 : 1 <= IZR z) by (apply IZR_le; lia).
    assert (NI : INR (Z.to_nat z) = IZR z) by (rewrite INR_IZR_INZ, Z2Nat.id by lia; auto). rewrite NI.
    assert (DR : dt = dt / r * r) by (field; lra).
    repeat split; [lra|lia|field; lra| |].
    + apply Rmult_le_reg_r with (IZR z); [lra|]. replace (dt / IZR z * IZR z) with (dt / r * r) by (field; split; lra).
      replace (3 / 2 * r * IZR z) with (3 / 2 * IZR z * r) by ring. apply Rmult_le_compat_r; lra.
    + intros _. apply Rmult_le_reg_r with (IZR z); [lra|]. replace (dt / IZR z * IZR z) with (dt / r * r) by (field; split; lra).
      replace (2 / 3 * r * IZR z) with (2 / 3 * IZR z * r) by ring. apply Rmult_le_compat_r; lra.
  - apply Rgtb_false in E1. cbn. repeat split; auto; try lra.
Qed.

Lemma step_advances p first new inter ix dz dt b h b' h' : cloud_step p first new inter ix dz dt b h = Some (b', h') ->
  exists hs n a tm, sub_of (z_Dtref p) dt = Some (hs, n) /\ sim_time_step (z_env p) a tm [] (h_sim h) = Some (h_sim h') /\
    ti_t tm = h_t h /\ ti_Dt tm = dt /\ s_Dtsub a = Some hs /\ s_Nsub a = Some n /\ h_t h' = h_t h + dt /\ q_beta b' = q_beta b /\ h_tracks h' = h_tracks h.
Proof.
  unfold cloud_step. intros H. bd H. destruct p0 as [hs n]. bd H. destruct (dummy_beam _ _ _ _ _ _ _ _ _) as [tm hb] eqn:ED. bd H. bds H. injection H as <- <-.
  exists hs, n. eexists _, tm. split; [reflexivity|]. split; [exact E1|]. cbn.
  assert (K : ti_t tm = h_t h /\ ti_Dt tm = dt) by (unfold dummy_beam in ED; destruct (_ || _); injection ED as <- _; auto).
  destruct inter; cbn; intuition auto.
Qed.

Lemma steps_advance p inter ix dz : forall dts first new b h b' h', Forall (fun d => 0 < d) dts -> cloud_steps p first new inter ix dz dts b h = Some (b', h') ->
  exists l, advanced (z_env p) (h_t h) l (h_sim h) (h_sim h') /\ map (fun q => fst (fst q)) l = dts /\ Forall (step_ok p) l /\ h_t h' = h_t h + rsum dts /\ q_beta b' = q_beta b.
Proof.
  induction dts as [|dt dts IH]; intros first new b h b' h' F H; cbn [cloud_steps] in H.
  - injection H as <- <-. exists []. repeat split; auto; [constructor|unfold rsum; cbn; lra].
  - bd H. destruct p0 as [b1 h1]. inversion F; subst. destruct (step_advances _ _ _ _ _ _ _ _ _ _ _ E) as (hs & n & a & tm & A1 & A2 & A3 & A4 & A5 & A6 & A7 & A8 & _).
    destruct (IH _ _ _ _ _ _ H3 H) as (l & L1 & L2 & L3 & L4 & L5). exists ((dt, hs, n) :: l). split; [|split; [|split; [|split]]].
    + econstructor; eauto. rewrite <- A7. exact L1.
    + cbn. congruence.
    + constructor; auto. apply sub_ok; auto.
    + rewrite L4, A7. change (rsum (dt :: dts)) with (dt + rsum dts). lra.
    + congruence.
Qed.

Lemma passage_t p i force h new g : passage p i force h = Some (new, g) -> h_t g = h_t h.
Proof.
  unfold passage. cbv zeta. destruct i as [| |io [ib|] is zl zr]; intros H; try (injection H as <- <-; reflexivity).
  bd H. assert (K : h_t p0 = h_t h).
  { destruct (_ && _); [|injection E as <-; auto]. unfold finalize_and_reinitialize in E. destruct (z_slicemode p); [|discriminate]. bd E. unfold reinitialize in E. bd E. injection E as <-. cbn.
    apply finalize_sim in E0. tauto. }
  destruct (h_bunch p0 <? ib)%Z; injection H as <- <-; exact K.
Qed.

Lemma slice_advances p b ix dz force h b' h' : 0 < dz -> 0 < q_beta b -> 0 < c_light (e_kc (z_env p)) ->
  track_single_slice p b ix dz force h = Some (b', h') ->
  exists new g l, passage p (q_info b) force h = Some (new, g) /\ advanced (z_env p) (h_t h) l (h_sim g) (h_sim h') /\
    duration l = dz / (q_beta b * c_light (e_kc (z_env p))) /\ (forall D, z_Dt p = Some D -> Forall (fun q => fst (fst q) <= D) l) /\ Forall (step_ok p) l /\
    h_t h' = h_t h + dz / (q_beta b * c_light (e_kc (z_env p))) /\ q_beta b' = q_beta b.
Proof.
  intros Z B C H. unfold track_single_slice in H. destruct (_ || _); [discriminate|]. bd H. bd H. bd H. destruct p0 as [new g].
  set (T := dz / (q_beta b * c_light (e_kc (z_env p)))) in *.
  assert (TP : 0 < T) by (apply Rdiv_lt_0_compat; auto; apply Rmult_lt_0_compat; auto).
  destruct (dts_ok _ _ _ _ TP E0) as [D1 D2].
  destruct (steps_advance p b0 ix dz l true new b g b' h') as (q & A1 & A2 & A3 & A4 & A5); auto.
  { eapply Forall_impl; [|exact D2]. cbn. tauto. }
  pose proof (passage_t _ _ _ _ _ _ E1) as PT. exists new, g, q. split; [auto|]. rewrite PT in A1, A4. split; [exact A1|].
  split; [unfold duration; rewrite A2; exact D1|]. split; [|split; [exact A3|split; [rewrite A4, D1; auto|auto]]].
  intros D HD. rewrite Forall_forall in D2 |- *. intros x Hx. apply D2; auto. rewrite <- A2. apply (in_map (fun q => fst (fst q)) _ _ Hx).
Qed.

Lemma slices_time p sl : forall n b h b' h' z0 zn, (forall i zl zr, (i < n)%nat -> nth_error (sl_bins sl) i = Some zl -> nth_error (sl_bins sl) (S i) = Some zr -> zl < zr) ->
  0 < q_beta b -> 0 < c_light (e_kc (z_env p)) -> nth_error (sl_bins sl) 0 = Some z0 -> nth_error (sl_bins sl) n = Some zn ->
  track_slices p sl n b h = Some (b', h') -> h_t h' = h_t h + (zn - z0) / (q_beta b * c_light (e_kc (z_env p))).
Proof.
  induction n as [|n IH]; intros b h b' h' z0 zn INC B C Z0 ZN H; cbn [track_slices] in H.
  - injection H as <- <-. assert (zn = z0) by congruence. subst. field. split; lra.
  - bd H. bd H. bd H. destruct p0 as [b1 h1]. assert (zn = r) by congruence. subst r.
    destruct (slice_advances p b (sl_idx sl (Z.of_nat n)) (zn - r0) (Nat.eqb n 0) h b1 h1) as (nw & g & l & _ & _ & _ & _ & _ & A1 & A2); auto.
    { specialize (INC n r0 zn ltac:(lia) E0 E). lra. }
    apply (IH _ _ _ _ z0 r0) in H; auto; [|intros i zl zr Hi; apply INC; lia|rewrite A2; auto]. rewrite H, A1, A2. field. split; lra.
Qed.

Lemma bunch_time p slices b h b' h' z0 zn : h_once h && Nat.ltb 0 (h_tracks h) = false ->
  (forall i zl zr, (i < sl_n (slices b))%nat -> nth_error (sl_bins (slices b)) i = Some zl -> nth_error (sl_bins (slices b)) (S i) = Some zr -> zl < zr) ->
  0 < q_beta b -> 0 < c_light (e_kc (z_env p)) -> nth_error (sl_bins (slices b)) 0 = Some z0 -> nth_error (sl_bins (slices b)) (sl_n (slices b)) = Some zn ->
  track_bunch p slices b h = Some (b', h') -> h_t h' = h_t h + (zn - z0) / (q_beta b * c_light (e_kc (z_env p))).
Proof.
  intros ON INC B C Z0 ZN H. unfold track_bunch in H. rewrite ON in H. bd H. bd H. destruct p1 as [b1 h1]. bd H. injection H as <- <-.
  apply (slices_time _ _ _ _ _ _ _ z0 zn) in E0; auto. cbn. destruct (finalize_sim _ _ E1) as [_ ->]. rewrite E0. unfold reinitialize in E. bd E. injection E as <-. cbn. auto.
Qed.
