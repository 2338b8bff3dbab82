(** Beam profiles read from a file. *)
From Coq Require Import Lra Lia Arith.
From Verif Require Import Num NumFacts Beam SpecBeam BeamFacts SpecProfile.

Lemma diffs_cons a b t : diffs (a :: b :: t) = (b - a) :: diffs (b :: t).
Proof. reflexivity. Qed.

Lemma diffs_length t : length (diffs t) = (length t - 1)%nat.
Proof. induction t as [|a [|b t] IH]; [reflexivity|reflexivity|]. rewrite diffs_cons. cbn [length] in *. rewrite IH. lia. Qed.

Lemma diffs_nth t i : (S i < length t)%nat -> nth i (diffs t) 0 = step_len t i.
Proof.
  revert i. induction t as [|a [|b t] IH]; intros i H; cbn [length] in H; [lia|lia|]. rewrite diffs_cons. destruct i as [|i]; [reflexivity|].
  cbn [nth]. rewrite IH by (cbn [length]; lia). reflexivity.
Qed.

Lemma diffs_pos t : increasing t -> Forall (fun d => 0 < d) (diffs t).
Proof.
  intros H. apply Forall_forall. intros d I. apply In_nth with (d := 0) in I. destruct I as (i & L & <-). rewrite diffs_length in L.
  rewrite diffs_nth by lia. unfold step_len. specialize (H i). assert (S i < length t)%nat by lia. specialize (H H0). lra.
Qed.

Lemma diffs_sum t : t <> [] -> rsum (diffs t) = nth (length t - 1) t 0 - nth 0 t 0.
Proof.
  induction t as [|a [|b t] IH]; intros N; [congruence|unfold rsum; cbn; lra|]. rewrite diffs_cons, rsum_cons, IH by discriminate. cbn [length]. replace (S (S (length t)) - 1)%nat with (S (S (length t) - 1)) by lia.
  cbn [nth]. lra.
Qed.

Lemma pos_abs l : Forall (fun d => 0 < d) l -> map Rabs l = l.
Proof. induction 1 as [|d l H _ IH]; [reflexivity|]. cbn [map]. rewrite IH, Rabs_right by lra. reflexivity. Qed.

Lemma mean_is t : increasing t -> t <> [] -> mean_abs (diffs t) = mean_step t.
Proof. intros I N. unfold mean_abs, mean_step. rewrite (pos_abs _ (diffs_pos _ I)), diffs_sum, diffs_length by exact N. reflexivity. Qed.

Lemma max_abs_le l m : 0 <= m -> (max_abs l <= m <-> Forall (fun x => Rabs x <= m) l).
Proof.
  intros M. induction l as [|x l IH]; cbn [max_abs fold_right]; [split; [constructor|auto]|]. fold (max_abs l). split.
  - intros H. pose proof (Rmax_l (Rabs x) (max_abs l)). pose proof (Rmax_r (Rabs x) (max_abs l)). constructor; [lra|]. apply IH. lra.
  - intros H. inversion H; subst. apply Rmax_lub; [assumption|]. apply IH. assumption.
Qed.

Lemma mean_pos t : increasing t -> (2 <= length t)%nat -> 0 < mean_step t.
Proof.
  intros I L. assert (N : t <> []) by (destruct t; cbn in L; [lia|discriminate]). rewrite <- mean_is by auto. unfold mean_abs. rewrite (pos_abs _ (diffs_pos _ I)).
  pose proof (diffs_pos _ I) as P. pose proof (diffs_length t) as D. apply Rdiv_lt_0_compat.
  - destruct (diffs t) as [|d l]; [cbn in D; lia|]. inversion P; subst. rewrite rsum_cons. assert (0 <= rsum l) by (apply rsum_nonneg; eapply Forall_impl; [|eassumption]; intros; lra). lra.
  - apply lt_0_INR. lia.
Qed.

Lemma even_test t : increasing t -> (2 <= length t)%nat ->
  (negb (Rgtb (max_abs (diffs t) - mean_abs (diffs t)) (1 / 10 ^ 4 * mean_abs (diffs t))) = true <->
   forall i, (S i < length t)%nat -> step_len t i <= (1 + 1 / 10 ^ 4) * mean_step t).
Proof.
  intros I L. assert (N : t <> []) by (destruct t; cbn in L; [lia|discriminate]). rewrite (mean_is _ I N). pose proof (mean_pos _ I L) as M.
  set (m := mean_step t) in *. rewrite negb_true_iff. unfold Rgtb. rewrite Rltb_false.
  assert (E : max_abs (diffs t) - m <= 1 / 10 ^ 4 * m <-> max_abs (diffs t) <= (1 + 1 / 10 ^ 4) * m) by (split; lra). rewrite E, max_abs_le by lra.
  pose proof (diffs_pos _ I) as P. split.
  - intros H i Hi. rewrite Forall_forall in H. rewrite <- diffs_nth by exact Hi. eapply Rle_trans; [apply Rle_abs|]. apply H. apply nth_In. rewrite diffs_length. lia.
  - intros H. apply Forall_forall. intros d J. rewrite Forall_forall in P. rewrite Rabs_right by (specialize (P d J); lra). apply In_nth with (d := 0) in J. destruct J as (i & Li & <-).
    rewrite diffs_length in Li. rewrite diffs_nth by lia. apply H. lia.
Qed.

Lemma same_axis_none t Dt : same_axis None t Dt = true.
Proof. reflexivity. Qed.

Lemma file_accepts t prof spac Dt fact coast : (2 <= length t)%nat -> spac <> 0 -> exists b, beam_file None t prof spac Dt fact coast = Some b.
Proof.
  intros L S0. unfold beam_file. destruct t as [|t0 [|t1 t]]; cbn in L; try lia. unfold finish. rewrite same_axis_none. cbn [negb].
  assert (X : exists l, last_of (t0 :: t1 :: t) = Some l).
  { unfold last_of, py_nth. rewrite (proj2 (Z.leb_gt 0 (-1))) by lia. rewrite (proj2 (Z.leb_le 0 _)) by (cbn [length]; lia).
    destruct (nth_error _ _) eqn:F; [eauto|]. exfalso. apply nth_error_None in F. cbn [length] in F. lia. }
  destruct X as (l & ->). cbn [bind]. destruct (Reqb spac 0) eqn:E; [apply Reqb_true in E; congruence|]. eauto.
Qed.

Lemma file_beam tp t prof spac Dt fact coast b : beam_file tp t prof spac Dt fact coast = Some b -> increasing t ->
  from_file t prof fact coast spac b /\ (2 <= length t)%nat /\
  (b_unif b = true <-> forall i, (S i < length t)%nat -> step_len t i <= (1 + 1 / 10 ^ 4) * mean_step t) /\
  b_Dt b = (if b_unif b then step_len t 0 else Dt).
Proof.
  intros H I. unfold beam_file in H. destruct t as [|t0 [|t1 t]]; [discriminate|discriminate|].
  assert (L : (2 <= length (t0 :: t1 :: t))%nat) by (cbn; lia). pose proof (even_test _ I L) as T.
  set (u := negb _) in *. unfold finish in H. destruct (negb _) in H; [discriminate|]. destruct (last_of _) as [l|] in H; [|discriminate]. cbn [bind] in H.
  destruct (Reqb spac 0); [discriminate|]. injection H as <-. cbn. split; [repeat split|]. split; [exact L|]. split; [exact T|]. reflexivity.
Qed.

Lemma file_even t prof spac Dt fact coast t0 h n : t = map (fun i => t0 + INR i * h) (seq 0 (S (S n))) -> 0 < h -> spac <> 0 ->
  exists b, beam_file None t prof spac Dt fact coast = Some b /\ from_file t prof fact coast spac b /\ b_unif b = true /\ b_Dt b = h.
Proof.
  intros E Hh S0. assert (L : length t = S (S n)) by (rewrite E, map_length, seq_length; reflexivity).
  assert (NT : forall i, (i < S (S n))%nat -> nth i t 0 = t0 + INR i * h).
  { intros i Hi. rewrite E. rewrite (nth_indep _ 0 (t0 + INR 0 * h)) by (rewrite map_length, seq_length; lia).
    rewrite (map_nth (fun i => t0 + INR i * h)), seq_nth by lia. reflexivity. }
  assert (I : increasing t) by (intros i Hi; rewrite L in Hi; rewrite !NT by lia; rewrite S_INR; lra).
  assert (SL : forall i, (S i < S (S n))%nat -> step_len t i = h) by (intros i Hi; unfold step_len; rewrite !NT by lia; rewrite S_INR; lra).
  assert (M : mean_step t = h).
  { unfold mean_step. rewrite L. replace (S (S n) - 1)%nat with (S n) by lia. rewrite !NT by lia. change (INR 0) with 0. assert (INR (S n) <> 0) by (apply not_0_INR; lia). field. assumption. }
  destruct (file_accepts t prof spac Dt fact coast) as (b & B); [lia|exact S0|]. exists b. split; [exact B|].
  destruct (file_beam _ _ _ _ _ _ _ _ B I) as (F & _ & U & D). split; [exact F|]. assert (UT : b_unif b = true).
  { apply U. intros i Hi. rewrite SL, M by lia. lra. }
  split; [exact UT|]. rewrite D, UT. apply SL. lia.
Qed.

(** One step of 1/2 followed by many of 1. *)
Definition badT (n : nat) : list R := 0 :: map (fun i => 1 / 2 + INR i) (seq 0 n).

Lemma bad_len n : length (badT n) = S n.
Proof. unfold badT. cbn [length]. rewrite map_length, seq_length. reflexivity. Qed.

Lemma bad_nth n i : (i < n)%nat -> nth (S i) (badT n) 0 = 1 / 2 + INR i.
Proof.
  intros H. unfold badT. cbn [nth]. rewrite (nth_indep _ 0 (1 / 2 + INR 0)) by (rewrite map_length, seq_length; exact H).
  rewrite (map_nth (fun i => 1 / 2 + INR i)), seq_nth by exact H. reflexivity.
Qed.

Lemma bad_step n i : (S i < n)%nat -> step_len (badT n) (S i) = 1.
Proof. intros H. unfold step_len. rewrite !bad_nth by lia. rewrite S_INR. lra. Qed.

Lemma bad_first n : (0 < n)%nat -> step_len (badT n) 0 = 1 / 2.
Proof. intros H. unfold step_len. rewrite bad_nth by lia. cbn. lra. Qed.

Lemma bad_inc n : (0 < n)%nat -> increasing (badT n).
Proof.
  intros N [|i] H; rewrite bad_len in H.
  - pose proof (bad_first n N) as F. unfold step_len in F. lra.
  - pose proof (bad_step n i ltac:(lia)) as F. unfold step_len in F. lra.
Qed.

Lemma bad_mean n : 10 ^ 4 <= INR n -> 1 / (1 + 1 / 10 ^ 4) <= mean_step (badT n).
Proof.
  intros H. destruct n as [|n]; [cbn in H; lra|]. unfold mean_step. rewrite bad_len. replace (S (S n) - 1)%nat with (S n) by lia. rewrite bad_nth by lia.
  change (nth 0 (badT (S n)) 0) with 0. rewrite S_INR in *. set (m := INR n) in *.
  replace ((1 / 2 + m - 0) / (m + 1)) with (1 - (1 / 2) * / (m + 1)) by (field; lra).
  assert (/ (m + 1) <= / 10 ^ 4) by (apply Rinv_le_contravar; lra). lra.
Qed.

Lemma bad_even : exists t prof b, increasing t /\ beam_file None t prof 1 1 1 0 = Some b /\ b_unif b = true /\ b_Dt b = 1 / 2 /\
  forall i, (0 < i)%nat -> (S i < length t)%nat -> step_len t i = 1.
Proof.
  assert (X : exists n, 10 ^ 4 <= INR n /\ (0 < n)%nat).
  { exists (Z.to_nat 10000). split; [rewrite INR_IZR_INZ, Z2Nat.id by lia; lra|lia]. }
  destruct X as (n & N & N0).
  destruct (file_accepts (badT n) (badT n) 1 1 1 0) as (b & B); [rewrite bad_len; lia|lra|]. exists (badT n), (badT n), b. split; [apply bad_inc; exact N0|]. split; [exact B|].
  destruct (file_beam _ _ _ _ _ _ _ _ B (bad_inc n N0)) as (_ & _ & U & D). assert (UT : b_unif b = true).
  { apply U. pose proof (bad_mean n N) as M. intros [|i] Hi; rewrite bad_len in Hi; [rewrite bad_first by exact N0|rewrite bad_step by lia]; lra. }
  split; [exact UT|]. split; [rewrite D, UT; apply bad_first; exact N0|]. intros [|i] H0 Hi; [lia|]. rewrite bad_len in Hi. apply bad_step. lia.
Qed.
