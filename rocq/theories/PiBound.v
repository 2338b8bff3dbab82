(** Digits of pi, for the constants of the code. *)
From Coq Require Import Reals Lra Lia Machin Ratan Rpower.
Local Open Scope R_scope.

Lemma pi_digits : 3141592653589793 / 10 ^ 15 <= PI <= 3141592653589794 / 10 ^ 15.
Proof.
  destruct (PI_2_3_7_ineq 7) as (H1 & H2). cbn [sum_f_R0 Nat.mul Nat.add] in H1, H2.
  unfold tg_alt, PI_2_3_7_tg, Ratan_seq in H1, H2. cbn [Nat.mul Nat.add] in H1, H2. rewrite !INR_IZR_INZ in H1, H2. cbn [Z.of_nat Pos.of_succ_nat Pos.succ] in H1, H2.
  replace (INR 31) with 31 in H1 by (rewrite INR_IZR_INZ; reflexivity).
  cbn [pow] in *. lra.
Qed.

(** A number [c] is 2 / sqrt pi up to [d]. *)
Lemma two_over_root c d : 0 < d < c -> (c - d) * (c - d) * PI <= 4 -> 4 <= (c + d) * (c + d) * PI -> Rabs (c - 2 / sqrt PI) <= d.
Proof.
  intros D H1 H2. assert (P := PI_RGT_0). assert (S := sqrt_lt_R0 _ P). assert (SS := sqrt_sqrt _ (Rlt_le _ _ P)).
  assert (E : 2 / sqrt PI * sqrt PI = 2) by (field; lra). set (q := 2 / sqrt PI) in *. assert (Q : 0 < q) by (unfold q; apply Rdiv_lt_0_compat; lra).
  assert (QQ : q * q * PI = 4) by (rewrite <- SS; replace (q * q * (sqrt PI * sqrt PI)) with ((q * sqrt PI) * (q * sqrt PI)) by ring; rewrite E; ring).
  apply Rabs_le. split.
  - apply Ropp_le_cancel. rewrite Ropp_involutive. apply Rnot_lt_le. intros X. assert (Y : c + d < q) by lra.
    assert (Z : (c + d) * (c + d) < q * q) by (apply Rmult_le_0_lt_compat; lra). assert ((c + d) * (c + d) * PI < q * q * PI) by (apply Rmult_lt_compat_r; assumption). lra.
  - apply Rnot_lt_le. intros X. assert (Y : q < c - d) by lra.
    assert (Z : q * q < (c - d) * (c - d)) by (apply Rmult_le_0_lt_compat; lra). assert (q * q * PI < (c - d) * (c - d) * PI) by (apply Rmult_lt_compat_r; assumption). lra.
Qed.
Lemma root_digits : Rabs (112837916709551 / 10 ^ 14 - 2 / sqrt PI) <= 5 / 10 ^ 15.
Proof.
  destruct pi_digits as (H1 & H2). apply two_over_root; [lra| |].
  - apply Rle_trans with ((112837916709551 / 10 ^ 14 - 5 / 10 ^ 15) * (112837916709551 / 10 ^ 14 - 5 / 10 ^ 15) * (3141592653589794 / 10 ^ 15)); [|lra].
    apply Rmult_le_compat_l; [lra|exact H2].
  - apply Rle_trans with ((112837916709551 / 10 ^ 14 + 5 / 10 ^ 15) * (112837916709551 / 10 ^ 14 + 5 / 10 ^ 15) * (3141592653589793 / 10 ^ 15)); [lra|].
    apply Rmult_le_compat_l; [lra|exact H1].
Qed.
