(** The small-angle branch of the dipole tracker. *)
From Coq Require Import Lra Lia Reals.
From Verif Require Import Num NumFacts MP SpecMP Push SpecPush PushFacts.

Lemma sin_small a : 0 <= a <= 1 ->
  a - a * a * a / 6 <= sin a <= a - a * a * a / 6 + a * a * a * a * a / 120.
Proof.
  intros Ha. destruct (pre_sin_bound a 0 ltac:(lra) ltac:(lra)) as [L U].
  unfold sin_approx in L, U. cbn [sum_f_R0 Nat.mul Nat.add] in L, U.
  unfold sin_term in L, U. simpl in L, U. lra.
Qed.

Lemma cos_small a : 0 <= a <= 1 ->
  1 - a * a / 2 <= cos a <= 1 - a * a / 2 + a * a * a * a / 24.
Proof.
  intros Ha. destruct (pre_cos_bound a 0 ltac:(lra) ltac:(lra)) as [L U].
  unfold cos_approx in L, U. cbn [sum_f_R0 Nat.mul Nat.add] in L, U.
  unfold cos_term in L, U. simpl in L, U. lra.
Qed.

Lemma div_bound a b e : 0 < b -> Rabs a <= e * b -> Rabs (a / b) <= e.
Proof.
  intros Hb Ha. unfold Rdiv. rewrite Rabs_mult, (Rabs_right (/ b)).
  - apply Rmult_le_reg_r with b; auto. rewrite Rmult_assoc, Rinv_l by lra. lra.
  - apply Rle_ge, Rlt_le, Rinv_0_lt_compat; auto.
Qed.

Lemma small_pos w : 0 < w < 1 / 10000 ->
  Rabs (sin w / w - 1) <= eps /\ Rabs ((1 - cos w) / (w * w) - 1 / 2) <= eps /\
  Rabs ((w - sin w) / (w * w * w) - 1 / 6) <= eps.
Proof.
  intros Hw. pose proof (sin_small w ltac:(lra)) as S. pose proof (cos_small w ltac:(lra)) as C.
  assert (W2 : 0 < w * w <= eps) by (unfold eps; nra).
  assert (W3 : 0 < w * w * w) by (repeat apply Rmult_lt_0_compat; lra).
  assert (W5 : w * w * w * w * w <= eps * (w * w * w)) by nra.
  assert (W4 : w * w * w * w <= eps * (w * w)) by nra.
  assert (W4' : 0 < w * w * w * w) by (repeat apply Rmult_lt_0_compat; lra).
  assert (W5' : 0 < w * w * w * w * w) by (repeat apply Rmult_lt_0_compat; lra).
  assert (W33 : w * w * w <= eps * w) by nra.
  repeat split.
  - replace (sin w / w - 1) with ((sin w - w) / w) by (field; lra).
    apply div_bound; [lra|]. apply Rabs_le. nra.
  - replace ((1 - cos w) / (w * w) - 1 / 2) with ((1 - cos w - w * w / 2) / (w * w)) by (field; lra).
    apply div_bound; [lra|]. apply Rabs_le. nra.
  - replace ((w - sin w) / (w * w * w) - 1 / 6) with ((w - sin w - w * w * w / 6) / (w * w * w)) by (field; lra).
    apply div_bound; [lra|]. apply Rabs_le. nra.
Qed.

Lemma small_any w : w <> 0 -> Rabs w < 1 / 10000 ->
  Rabs (sin w / w - 1) <= eps /\ Rabs ((1 - cos w) / (w * w) - 1 / 2) <= eps /\
  Rabs ((w - sin w) / (w * w * w) - 1 / 6) <= eps.
Proof.
  intros H0 Hw. unfold Rabs in Hw. destruct (Rcase_abs w) in Hw.
  - pose proof (small_pos (- w) ltac:(lra)) as (A & B & C). rewrite sin_neg in *. rewrite cos_neg in *.
    replace (- sin w / - w) with (sin w / w) in A by (field; lra).
    replace ((1 - cos w) / (- w * - w)) with ((1 - cos w) / (w * w)) in B by (field; lra).
    replace ((- w - - sin w) / (- w * - w * - w)) with ((w - sin w) / (w * w * w)) in C by (field; lra).
    auto.
  - apply small_pos. lra.
Qed.

Lemma Rabs3 a b c A B C : Rabs a <= A -> Rabs b <= B -> Rabs c <= C -> Rabs (a + b + c) <= A + B + C.
Proof.
  intros. eapply Rle_trans; [apply Rabs_triang|]. eapply Rle_trans; [apply Rplus_le_compat_r, Rabs_triang|]. lra.
Qed.

Lemma Rabs_mul_le d c : Rabs d <= eps -> Rabs (c * d) <= eps * Rabs c.
Proof. intros H. rewrite Rabs_mult, Rmult_comm. apply Rmult_le_compat_r; auto. apply Rabs_pos. Qed.

Lemma strongB_near_dipole Dt B thr Ex Ey p :
  0 < thr -> thr <= Rabs B -> Rabs (B * qm_e * Dt) < 1 / 10000 ->
  close_states p Dt (B * qm_e * Dt) (qm_e * Ex * Dt)
    (strongB_one Dt 0 B SrcNone thr (Ex, Ey) p) (dipole_one Dt B (Ex, Ey) p).
Proof.
  intros Ht Hb Hw. unfold close_states.
  set (a := strongB_one _ _ _ _ _ _ _). set (b := dipole_one _ _ _ _). set (w := B * qm_e * Dt) in *. pose proof qm_e_pos as Hq.
  assert (HB : B <> 0) by (intros ->; rewrite Rabs_R0 in Hb; lra).
  destruct (Req_dec Dt 0) as [->|HD].
  { subst a b w. unfold strongB_one, dipole_one. cbn [src_field fst snd]. rewrite !Rplus_0_l, sqrt_abs.
    replace (Rltb (Rabs B) thr) with false by (symmetry; apply Rltb_false; auto).
    cbn [px py pz pvx pvy pvz]. rewrite !Rmult_0_r, sin_0, cos_0.
    assert (Rabs B <> 0) by lra.
    assert (E0 : forall u, u = 0 -> forall v, 0 <= v -> Rabs u <= eps * v).
    { intros u -> v Hv. rewrite Rabs_R0. unfold eps. lra. }
    rewrite Rabs_R0.
    split; [apply E0; [field; repeat split; lra|lra]|]. split; [field; repeat split; lra|].
    split; [apply E0; [field; repeat split; lra|lra]|]. split; [apply E0; [field; repeat split; lra|lra]|].
    split; [field; repeat split; lra|]. apply E0; [field; repeat split; lra|lra]. }
  assert (Hw0 : w <> 0) by (subst w; intros H; apply Rmult_integral in H; destruct H as [H|H]; [apply Rmult_integral in H|]; lra).
  destruct (small_any w Hw0 Hw) as (S & C & K).
  assert (E : a = mkP6
     (px p + pvx p * (sin w / w) * Dt + pvz p * ((1 - cos w) / (w * w)) * w * Dt - qm_e * Ex * ((1 - cos w) / (w * w)) * Dt * Dt)
     (py p + pvy p * Dt - (1/2) * qm_e * Ey * Dt * Dt)
     (pz p + pvz p * (sin w / w) * Dt - pvx p * ((1 - cos w) / (w * w)) * w * Dt + qm_e * Ex * ((w - sin w) / (w * w * w)) * w * Dt * Dt)
     (pvx p * cos w + pvz p * sin w - qm_e * Ex * (sin w / w) * Dt)
     (pvy p - qm_e * Ey * Dt)
     (pvz p * cos w - pvx p * sin w + qm_e * Ex * ((1 - cos w) / (w * w)) * w * Dt)).
  { subst a w. unfold strongB_one. cbn [src_field fst snd]. rewrite !Rplus_0_l, sqrt_abs.
    replace (Rltb (Rabs B) thr) with false by (symmetry; apply Rltb_false; auto).
    set (q := qm_e) in *. clear - Hq HB HD. unfold Rabs. destruct (Rcase_abs B) as [Hn|Hn].
    - replace (- B * q * Dt) with (- (B * q * Dt)) by ring. rewrite sin_neg, cos_neg.
      f_equal; field; repeat split; lra.
    - f_equal; field; repeat split; lra. }
  rewrite E. subst b. unfold dipole_one. cbn [px py pz pvx pvy pvz].
  unfold sincc, cosincc, cubsincc.
  replace (Rltb (Rabs (B * qm_e * Dt)) (1 / 10000)) with true by (symmetry; apply Rltb_true; auto).
  set (ds := sin w / w - 1) in *. set (dc := (1 - cos w) / (w * w) - 1 / 2) in *.
  set (dk := (w - sin w) / (w * w * w) - 1 / 6) in *.
  replace (sin w / w) with (1 + ds) by (subst ds; ring).
  replace ((1 - cos w) / (w * w)) with (1 / 2 + dc) by (subst dc; ring).
  replace ((w - sin w) / (w * w * w)) with (1 / 6 + dk) by (subst dk; ring).
  replace (B * qm_e * Dt) with w by reflexivity.
  assert (Wd : forall u v, u * (B * qm_e) * Dt * v = u * w * v) by (intros; subst w; ring).
  split; [|split; [|split; [|split; [|split]]]]; try ring.
  - match goal with |- Rabs ?e <= _ => replace e with ((pvx p * Dt) * ds + (pvz p * w * Dt) * dc + (- (qm_e * Ex * Dt * Dt)) * dc) by (subst w; ring) end.
    rewrite !Rmult_plus_distr_l. rewrite <- (Rabs_Ropp (qm_e * Ex * Dt * Dt)). apply Rabs3; apply Rabs_mul_le; auto.
  - match goal with |- Rabs ?e <= _ => replace e with ((pvz p * Dt) * ds + (- (pvx p * w * Dt)) * dc + (qm_e * Ex * Dt * w * Dt) * dk) by (subst w; ring) end.
    rewrite !Rmult_plus_distr_l. rewrite <- (Rabs_Ropp (pvx p * w * Dt)). apply Rabs3; apply Rabs_mul_le; auto.
  - match goal with |- Rabs ?e <= _ => replace e with ((- (qm_e * Ex * Dt)) * ds) by ring end.
    rewrite <- (Rabs_Ropp (qm_e * Ex * Dt)). apply Rabs_mul_le; auto.
  - match goal with |- Rabs ?e <= _ => replace e with ((qm_e * Ex * Dt * w) * dc) by (subst w; ring) end.
    apply Rabs_mul_le; auto.
Qed.
