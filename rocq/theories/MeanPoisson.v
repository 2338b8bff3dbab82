(** Averages over Poisson numbers, for C101. *)
From Coquelicot Require Import Coquelicot.
From Coq Require Import Reals List Lra Lia.
From Verif Require Import Num NumFacts SpecMean.
Import ListNotations.
Local Open Scope R_scope.

Lemma ser_ext (a b : nat -> R) (l l' : R) : (forall n, a n = b n) -> l = l' -> is_series a l -> is_series b l'.
Proof. intros E <-. exact (is_series_ext a b l E). Qed.
Lemma ser_scal (c : R) (a : nat -> R) (l : R) : is_series a l -> is_series (fun n => c * a n) (c * l).
Proof. exact (is_series_scal (K := R_AbsRing) (V := R_NormedModule) c a l). Qed.

Section Poisson.
Variable d : R.
Hypothesis Hd : 0 < d.
Let p (n : nat) : R := exp (- d) * d ^ n / INR (fact n).

Lemma p_pos n : 0 < p n.
Proof.
  unfold p. apply Rmult_lt_0_compat; [|apply Rinv_0_lt_compat, INR_fact_lt_0]. apply Rmult_lt_0_compat; [apply exp_pos|apply pow_lt, Hd].
Qed.
Lemma p_total : is_series p 1.
Proof.
  assert (H : is_series (fun n => exp (- d) * (d ^ n * / INR (fact n))) (exp (- d) * exp d)).
  { apply ser_scal. apply (ser_ext (fun n => scal (pow_n (K := R_AbsRing) d n) (/ INR (fact n))) _ (exp d)); [|reflexivity|exact (is_exp_Reals d)].
    intros n. change (pow_n (K := R_AbsRing) d n * / INR (fact n) = d ^ n * / INR (fact n)). rewrite pow_n_pow. reflexivity. }
  apply (ser_ext _ _ _ _ (fun n => eq_sym (Rmult_assoc _ _ _))) with (2 := H). rewrite <- exp_plus, Rplus_opp_l, exp_0. reflexivity.
Qed.
Lemma p_step n : p (S n) * INR (S n) = d * p n.
Proof.
  unfold p. change (fact (S n)) with (S n * fact n)%nat. rewrite mult_INR. cbn [pow]. field. split; [apply INR_fact_neq_0|apply not_0_INR; lia].
Qed.
Lemma p_mean : is_series (fun n => p n * INR n) d.
Proof.
  apply is_series_decr_1. apply (ser_ext (fun n => d * p n) _ (d * 1)); [intros n; symmetry; exact (p_step n)| |exact (ser_scal d p 1 p_total)].
  cbn [INR]. change (d * 1 = d + - (p 0 * 0)). ring.
Qed.

Lemma series_fin (a : nat -> R) M : is_series (fun n => if Nat.leb n M then a n else 0) (sum_n a M).
Proof.
  apply (filterlim_ext_loc (fun _ => sum_n a M)); [|apply filterlim_const].
  exists M. intros n N. symmetry. induction n as [|n IH].
  - replace M with 0%nat by lia. rewrite !sum_O. reflexivity.
  - destruct (Nat.eq_dec M (S n)) as [E|E].
    + subst M. apply sum_n_ext_loc. intros i I. rewrite (proj2 (Nat.leb_le _ _)) by lia. reflexivity.
    + rewrite sum_Sn, IH by lia. rewrite (proj2 (Nat.leb_gt _ _)) by lia. exact (Rplus_0_r _).
Qed.
(** The number itself up to [M], [c] above. *)
Lemma capped M c : is_series (fun n => p n * (if Nat.leb n M then INR n else c)) (sum_n (fun n => p n * INR n) M + c * (1 - sum_n p M)).
Proof.
  pose proof (series_fin (fun n => p n * (INR n - c)) M) as F.
  pose proof (ser_scal c _ _ p_total) as G.
  pose proof (is_series_plus _ _ _ _ F G) as S.
  refine (ser_ext _ _ _ _ _ _ S).
  { intros n. change ((if Nat.leb n M then p n * (INR n - c) else 0) + c * p n = p n * (if Nat.leb n M then INR n else c)). destruct (Nat.leb n M); ring. }
  { change (sum_n (fun n => p n * (INR n - c)) M + c * 1 = sum_n (fun n => p n * INR n) M + c * (1 - sum_n p M)).
    assert (H : sum_n (fun n => p n * (INR n - c)) M = sum_n (fun n => p n * INR n) M - c * sum_n p M).
    { clear. induction M as [|M IH]; [rewrite !sum_O; change (p 0%nat * (INR 0 - c) = p 0%nat * INR 0 - c * p 0%nat); ring|]. rewrite !sum_Sn, IH.
      change (sum_n (fun n => p n * INR n) M - c * sum_n p M + p (S M) * (INR (S M) - c) = sum_n (fun n => p n * INR n) M + p (S M) * INR (S M) - c * (sum_n p M + p (S M))). ring. }
    rewrite H. ring. }
Qed.
Lemma series_ge a l k : (forall n, 0 <= a n) -> is_series a l -> sum_n a k <= l.
Proof.
  intros P H. assert (L : is_lim_seq (sum_n a) l) by exact H. apply (is_lim_seq_incr_compare _ _ L).
  intros n. rewrite sum_Sn. change (sum_n a n <= sum_n a n + a (S n)). specialize (P (S n)). lra.
Qed.
Lemma sum_nonneg a M : (forall n, 0 <= a n) -> 0 <= sum_n a M.
Proof.
  intros A. induction M as [|M IH]; [rewrite sum_O; apply A|]. rewrite sum_Sn. change (0 <= sum_n a M + a (S M)). specialize (A (S M)). lra.
Qed.
Lemma capped_lt M c : c <= INR M -> sum_n (fun n => p n * INR n) M + c * (1 - sum_n p M) < d.
Proof.
  intros C.
  assert (P1 : sum_n p M <= 1) by (apply series_ge; [intros; apply Rlt_le, p_pos|exact p_total]).
  pose (a := fun n => p n * INR n + - (p n * (if Nat.leb n M then INR n else INR M))).
  assert (Z0 : is_series a (d - (sum_n (fun n => p n * INR n) M + INR M * (1 - sum_n p M)))) by exact (is_series_minus _ _ _ _ p_mean (capped M (INR M))).
  assert (A : forall n, 0 <= a n).
  { intros n. change (0 <= p n * INR n + - (p n * (if Nat.leb n M then INR n else INR M))). pose proof (p_pos n).
    destruct (Nat.leb_spec n M); [lra|]. assert (INR M <= INR n) by (apply le_INR; lia). nra. }
  pose proof (series_ge a _ (S M) A Z0) as G. rewrite sum_Sn in G.
  pose proof (sum_nonneg a M A) as Z.
  assert (T : a (S M) = p (S M)).
  { change (p (S M) * INR (S M) + - (p (S M) * (if Nat.leb (S M) M then INR (S M) else INR M)) = p (S M)).
    rewrite (proj2 (Nat.leb_gt _ _)) by lia. rewrite S_INR. ring. }
  rewrite T in G. change (sum_n a M + p (S M) <= d - (sum_n (fun n => p n * INR n) M + INR M * (1 - sum_n p M))) in G.
  pose proof (p_pos (S M)). nra.
Qed.
Lemma partial_mean M : sum_n (fun n => p n * INR n) M = d * rsum (map p (seq 0 M)).
Proof.
  induction M as [|M IH]; [rewrite sum_O; cbn [seq map]; change (p 0%nat * INR 0 = d * 0); cbn [INR]; ring|]. rewrite sum_Sn, IH, seq_S, map_app, rsum_app.
  change (d * rsum (map p (seq 0 M)) + p (S M) * INR (S M) = d * (rsum (map p (seq 0 M)) + (p M + 0))). rewrite p_step. ring.
Qed.

(** Redrawing the numbers above [M], the last one clipped. *)
Fixpoint redrawn (M n : nat) (l : list nat) : nat :=
  match l with
  | [] => n
  | m :: l' => if Nat.leb n M then n else redrawn M (match l' with [] => Nat.min m M | _ => m end) l'
  end.
Lemma averages_const r c : poisson_averages d r (fun _ => c) c.
Proof.
  induction r as [|r IH]; [reflexivity|]. cbn [poisson_averages]. exists (fun _ => c). split; [intros _; exact IH|].
  unfold poisson_average. fold p. apply (ser_ext (fun n => c * p n) _ (c * 1)); [intros n; change (c * p n = p n * c); ring|ring|exact (ser_scal c p 1 p_total)].
Qed.
Lemma averages_ext r g h m : (forall l, length l = r -> g l = h l) -> poisson_averages d r g m -> poisson_averages d r h m.
Proof.
  revert g h m. induction r as [|r IH]; intros g h m E; cbn [poisson_averages]; [intros <-; symmetry; apply E; reflexivity|].
  intros (w & W & A). exists w. split; [|exact A]. intros n. apply (IH (fun l => g (n :: l))); [|apply W]. intros l L. apply E. cbn. lia.
Qed.
(** Mean of the redrawn number, starting from a number above [M]. *)
Fixpoint again (M r : nat) : R :=
  match r with
  | O => INR M
  | S r' => sum_n (fun n => p n * INR n) M + again M r' * (1 - sum_n p M)
  end.
Lemma p_partial M : 0 <= sum_n p M <= 1.
Proof.
  split; [|apply series_ge; [intros; apply Rlt_le, p_pos|exact p_total]].
  induction M as [|M IH]; [rewrite sum_O; apply Rlt_le, p_pos|rewrite sum_Sn; change (0 <= sum_n p M + p (S M)); pose proof (p_pos (S M)); lra].
Qed.
Lemma again_range M r : 0 <= again M r <= INR M.
Proof.
  pose proof (p_partial M). assert (A : 0 <= sum_n (fun n => p n * INR n) M <= INR M * sum_n p M).
  { assert (G : forall K, (K <= M)%nat -> 0 <= sum_n (fun n => p n * INR n) K <= INR M * sum_n p K).
    { intros K. induction K as [|K IH]; intros L.
      - rewrite !sum_O. pose proof (p_pos 0). pose proof (pos_INR M). cbn [INR]. nra.
      - rewrite !sum_Sn. specialize (IH ltac:(lia)).
        change (0 <= sum_n (fun n => p n * INR n) K + p (S K) * INR (S K) <= INR M * (sum_n p K + p (S K))).
        pose proof (p_pos (S K)). pose proof (pos_INR (S K)). assert (INR (S K) <= INR M) by (apply le_INR; lia). nra. }
    apply G. lia. }
  induction r as [|r IH]; cbn [again]; [pose proof (pos_INR M); lra|]. nra.
Qed.
Lemma redrawn_mean M r : forall n, (M < n)%nat -> poisson_averages d (S r) (fun l => INR (redrawn M n l)) (again M (S r)).
Proof.
  induction r as [|r IH]; intros n N.
  - cbn [poisson_averages]. exists (fun m => INR (Nat.min m M)). split.
    { intros m. cbn [redrawn]. rewrite (proj2 (Nat.leb_gt _ _) N). reflexivity. }
    cbn [again]. unfold poisson_average. fold p. refine (ser_ext _ _ _ _ _ eq_refl (capped M (INR M))). intros m. change (p m * (if Nat.leb m M then INR m else INR M) = p m * INR (Nat.min m M)). f_equal.
    destruct (Nat.leb_spec m M); [rewrite Nat.min_l by lia|rewrite Nat.min_r by lia]; reflexivity.
  - change (poisson_averages d (S (S r)) ?g ?m) with (exists h, (forall n, poisson_averages d (S r) (fun l => g (n :: l)) (h n)) /\ poisson_average d h m).
    exists (fun m => if Nat.leb m M then INR m else again M (S r)). split.
    + intros m. destruct (Nat.leb_spec m M) as [L|L].
      * apply (averages_ext (S r) (fun _ => INR m)); [|apply averages_const]. intros l E. destruct l as [|a l]; [discriminate|].
        cbn [redrawn]. rewrite (proj2 (Nat.leb_gt _ _) N), (proj2 (Nat.leb_le _ _) L). reflexivity.
      * apply (averages_ext (S r) (fun l => INR (redrawn M m l))); [|exact (IH m L)]. intros l E. destruct l as [|a l]; [discriminate|].
        cbn [redrawn]. rewrite (proj2 (Nat.leb_gt _ _) N). reflexivity.
    + unfold poisson_average. fold p. exact (capped M (again M (S r))).
Qed.
(** The first number and [S r] redrawn ones. *)
Lemma number_mean M r : poisson_averages d (S (S r)) (fun l => match l with [] => 0 | n :: l => INR (redrawn M n l) end) (again M (S (S r))).
Proof.
  change (poisson_averages d (S (S r)) ?g ?m) with (exists h, (forall n, poisson_averages d (S r) (fun l => g (n :: l)) (h n)) /\ poisson_average d h m).
  exists (fun m => if Nat.leb m M then INR m else again M (S r)). split; [|unfold poisson_average; fold p; exact (capped M (again M (S r)))].
  intros n. destruct (Nat.leb_spec n M) as [L|L]; [|exact (redrawn_mean M r n L)].
  apply (averages_ext (S r) (fun _ => INR n)); [|apply averages_const]. intros l E. destruct l as [|a l]; [discriminate|].
  cbn [redrawn]. rewrite (proj2 (Nat.leb_le _ _) L). reflexivity.
Qed.
Lemma number_less M r : d * rsum (map p (seq 0 M)) <= again M (S r) < d.
Proof.
  cbn [again]. split; [|apply capped_lt, again_range]. rewrite partial_mean. pose proof (again_range M r). pose proof (p_partial M). nra.
Qed.
Lemma sum_below M : sum_n p M = poisson_below d (S M).
Proof.
  unfold poisson_below. fold p. induction M as [|M IH]; [rewrite sum_O; cbn [seq map]; change (p 0%nat = p 0%nat + 0); ring|].
  rewrite sum_Sn, IH, (seq_S (S M)), map_app, rsum_app. change (rsum (map p (seq 0 (S M))) + p (S M) = rsum (map p (seq 0 (S M))) + (p (S M) + 0)). ring.
Qed.
Lemma again_closed M r : again M r = cut_mean d M r.
Proof.
  assert (P : sum_n p M <> 0).
  { enough (0 < sum_n p M) by lra. destruct M as [|M]; [rewrite sum_O; apply p_pos|]. rewrite sum_Sn. change (0 < sum_n p M + p (S M)). pose proof (p_pos (S M)). pose proof (p_partial M). lra. }
  unfold cut_mean. rewrite <- sum_below. cbv zeta. fold (poisson_below d M). induction r as [|r IH]; cbn [again pow].
  - field. lra.
  - rewrite IH, partial_mean. change (rsum (map p (seq 0 M))) with (poisson_below d M). field. lra.
Qed.
Lemma averages_scal c r g m : poisson_averages d r g m -> poisson_averages d r (fun l => c * g l) (c * m).
Proof.
  revert g m. induction r as [|r IH]; intros g m; cbn [poisson_averages]; [intros <-; reflexivity|].
  intros (h & H & A). exists (fun n => c * h n). split; [intros n; exact (IH _ _ (H n))|]. unfold poisson_average in *. fold p in A |- *.
  refine (ser_ext _ _ _ _ _ eq_refl (ser_scal c _ _ A)). intros n. cbv beta. ring.
Qed.
End Poisson.
