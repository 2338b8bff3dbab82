(** Yields at normal and at grazing incidence. *)
From Coq Require Import Lra Lia.
From Verif Require Import Num NumFacts Sey SpecSey Furman SpecFurman SeyFacts FurmanFacts.

Lemma clip_1 lo : lo <= 1 -> clip 1 lo 1 = 1.
Proof. intros H. unfold clip. rewrite Rmax_left by lra. apply Rmin_left. lra. Qed.
Lemma pw_mono x y s : 0 <= x <= y -> 0 <= s -> pw x s <= pw y s.
Proof.
  intros H S. unfold pw. destruct (Reqb x 0) eqn:X.
  - destruct (Reqb y 0); [lra|]. left. apply exp_pos.
  - apply Reqb_false in X. rewrite (proj2 (Reqb_false y 0)) by lra. apply Rle_Rpower_l; lra.
Qed.
Lemma clip_mono x y lo : x <= y -> clip x lo 1 <= clip y lo 1.
Proof. intros H. unfold clip. apply Rmin_case_strong; intros; unfold Rmin, Rmax in *; repeat destruct (Rle_dec _ _); lra. Qed.

Lemma normal_yields f E : fp_yield_sane f -> 0 < E -> E <> f_eEHat f ->
  delta_e f E 1 = f_p1EInf f + (f_p1Ehat f - f_p1EInf f) * exp (- Rpower (Rabs (E - f_eEHat f) / f_w f) (f_p f) / f_p f) /\
  delta_r f E 1 = f_p1RInf f * (1 - exp (- Rpower (E / f_eR f) (f_r f))) /\
  delta_ts f E 1 = f_dTS f * (f_s f * (E / f_eHat0 f) / (f_s f - 1 + Rpower (E / f_eHat0 f) (f_s f))).
Proof.
  intros Y HE NE. destruct (ys_e f Y) as (A1 & A2 & A3 & A4 & A5 & A6 & A7). destruct (ys_r f Y) as (B1 & B2 & B3 & B4 & B5). destruct (ys_t f Y) as (C1 & C2 & C3 & C4 & C5 & C6 & C7).
  unfold delta_e, delta_r, delta_ts, fp_D. cbv zeta. rewrite !clip_1 by lra. rewrite !pw_1.
  assert (Z : forall x s, 0 < x -> pw x s = Rpower x s) by (intros x s H; unfold pw; rewrite (proj2 (Reqb_false x 0)) by lra; reflexivity).
  assert (E1 : 0 < Rabs (E - f_eEHat f) / f_w f) by (apply Rdiv_lt_0_compat; [apply Rabs_pos_lt; lra|lra]).
  assert (E2 : 0 < E / f_eR f) by (apply Rdiv_lt_0_compat; lra). assert (E3 : 0 < E / f_eHat0 f) by (apply Rdiv_lt_0_compat; lra).
  assert (E4 : (if f_shift f then f_eHat0 f * (1 + f_t3 f * (1 - 1)) else f_eHat0 f) = f_eHat0 f) by (destruct (f_shift f); lra). rewrite E4.
  rewrite !Z by assumption. replace (1 - 1) with 0 by lra. rewrite !Rmult_0_r, exp_0, Rplus_0_r. destruct (f_scale f), (f_ecl_theta f); repeat split; ring.
Qed.

Lemma grazing_yields f E c1 c2 : fp_yield_sane f -> 0 <= E -> 0 <= c1 <= c2 -> c2 <= 1 ->
  delta_e f E c2 <= delta_e f E c1 /\ delta_r f E c2 <= delta_r f E c1 /\ (f_shift f = false -> delta_ts f E c2 <= delta_ts f E c1).
Proof.
  intros Y HE H1 H2. pose proof Y as Y0. destruct (ys_e f Y) as (A1 & A2 & A3 & A4 & A5 & A6 & A7). destruct (ys_r f Y) as (B1 & B2 & B3 & B4 & B5). destruct (ys_t f Y) as (C1 & C2 & C3 & C4 & C5 & C6 & C7).
  assert (K : forall lo s, 0 <= lo <= 1 -> 0 <= s -> pw (clip c1 lo 1) s <= pw (clip c2 lo 1) s).
  { intros lo s L S. apply pw_mono; [|exact S]. split; [|apply clip_mono; lra]. unfold clip. apply Rmin_glb; [|lra]. apply Rle_trans with c1; [lra|apply Rmax_l]. }
  assert (D0 : 0 <= f_p1EInf f + (f_p1Ehat f - f_p1EInf f) * exp (- pw (Rabs (E - f_eEHat f) / f_w f) (f_p f) / f_p f)).
  { assert (X : 0 < exp (- pw (Rabs (E - f_eEHat f) / f_w f) (f_p f) / f_p f) <= 1).
    { split; [apply exp_pos|]. rewrite <- exp_0. assert (P : - pw (Rabs (E - f_eEHat f) / f_w f) (f_p f) / f_p f <= 0).
      { pose proof (pw_nonneg (Rabs (E - f_eEHat f) / f_w f) (f_p f)). unfold Rdiv at 1. rewrite Ropp_mult_distr_l_reverse. assert (0 <= pw (Rabs (E - f_eEHat f) / f_w f) (f_p f) * / f_p f) by (apply Rmult_le_pos; [assumption|left; apply Rinv_0_lt_compat; lra]). lra. }
      destruct P as [P|P]; [left; apply exp_increasing; exact P|right; rewrite P; reflexivity]. }
    nra. }
  assert (R0 : 0 <= f_p1RInf f * (1 - exp (- pw (E / f_eR f) (f_r f)))).
  { apply Rmult_le_pos; [lra|]. assert (P : - pw (E / f_eR f) (f_r f) <= 0) by (pose proof (pw_nonneg (E / f_eR f) (f_r f)); lra).
    assert (exp (- pw (E / f_eR f) (f_r f)) <= 1) by (rewrite <- exp_0; destruct P as [P|P]; [left; apply exp_increasing; exact P|right; rewrite P; reflexivity]). lra. }
  split; [|split].
  - unfold delta_e. cbv zeta. apply Rmult_le_compat_l; [exact D0|]. destruct (f_scale f); [|lra]. destruct (f_ecl_theta f); [lra|]. pose proof (K _ _ A7 A6). nra.
  - unfold delta_r. cbv zeta. apply Rmult_le_compat_l; [exact R0|]. destruct (f_scale f); [|lra]. pose proof (K _ _ B5 B4). nra.
  - intros SH. unfold delta_ts. rewrite SH. cbv zeta. apply Rmult_le_compat_l.
    + apply Rmult_le_pos; [lra|]. unfold fp_D. pose proof (pw_nonneg (E / f_eHat0 f) (f_s f)). assert (0 <= E / f_eHat0 f) by (apply Rmult_le_pos; [lra|left; apply Rinv_0_lt_compat; lra]).
      apply Rmult_le_pos; [apply Rmult_le_pos; lra|left; apply Rinv_0_lt_compat; lra].
    + destruct (f_scale f); [|lra]. destruct (f_ecl_theta f).
      * destruct H1 as [_ [H1|H1]]; [left; apply exp_increasing; lra|rewrite H1; lra].
      * assert (pw c1 (f_t2 f) <= pw c2 (f_t2 f)) by (apply pw_mono; lra). nra.
Qed.
