(** Mean number of macroparticles after a soft regeneration, for C101. *)
From Coquelicot Require Import Coquelicot.
From Coq Require Import Reals List Lra Lia Bool ZArith.
From Verif Require Import Num NumFacts MP SpecMP SpecRegen MPFacts MPFacts2 SpecMean MeanFacts MeanRegen MeanSey.
Import ListNotations.
Local Open Scope R_scope.

Lemma above_average r : 0 <= r <= 1 -> average (fun u => if Rgtb u r then 1 else 0) (1 - r).
Proof.
  intros I. pose proof (average_const 0 r 0 (fun u => if Rgtb u r then 1 else 0) ltac:(lra)) as P.
  pose proof (average_const r 1 1 (fun u => if Rgtb u r then 1 else 0) ltac:(lra)) as Q.
  assert (P' : is_RInt (fun u => if Rgtb u r then 1 else 0) 0 r ((r - 0) * 0)).
  { apply P. intros u U. replace (Rgtb u r) with false by (symmetry; apply Rgtb_false; lra). reflexivity. }
  assert (Q' : is_RInt (fun u => if Rgtb u r then 1 else 0) r 1 ((1 - r) * 1)).
  { apply Q. intros u U. replace (Rgtb u r) with true by (symmetry; apply Rgtb_true; lra). reflexivity. }
  pose proof (is_RInt_Chasles (V := R_NormedModule) _ _ _ _ _ _ P' Q') as T. unfold average.
  replace (1 - r) with (plus ((r - 0) * 0) ((1 - r) * 1)); [exact T|]. change (((r - 0) * 0) + ((1 - r) * 1) = 1 - r). ring.
Qed.
Lemma count_sum r us (l : list nat) : length us = length l ->
  INR (count_true (map (fun u => Rgtb u r) us)) = rsum (map2 (fun _ u => if Rgtb u r then 1 else 0) l us).
Proof.
  revert l. induction us as [|u us IH]; intros [|a l] L; try discriminate; [reflexivity|]. cbn [map map2]. rewrite rsum_cons, <- (IH l) by (cbn in L; lia).
  change (Rgtb u r :: map (fun u => Rgtb u r) us) with (map (fun u => Rgtb u r) (u :: us)). rewrite !count_true_map.
  cbn [filter]. destruct (Rgtb u r); cbn [length]; [rewrite S_INR; ring|ring].
Qed.
Lemma soft_average target rng k s : wf s -> (target < N_mp s)%nat ->
  averages (N_mp s) (fun us => match perform_soft_regeneration target (with_list rng k us) k s with Some (s', _) => INR (N_mp s') | None => 0 end) (INR target).
Proof.
  intros W T. set (r := INR (N_mp s - target) / INR (N_mp s)).
  assert (NP : 0 < INR (N_mp s)) by (apply lt_0_INR; lia).
  assert (Er : 1 - r = INR target / INR (N_mp s)) by (unfold r; rewrite minus_INR by lia; field; lra).
  assert (I : 0 <= r <= 1).
  { assert (0 <= INR target / INR (N_mp s)) by (apply Rmult_le_pos; [apply pos_INR|left; apply Rinv_0_lt_compat; exact NP]).
    split; [|lra]. unfold r. apply Rmult_le_pos; [apply pos_INR|left; apply Rinv_0_lt_compat; exact NP]. }
  pose proof (averages_map (fun (_ : nat) u => if Rgtb u r then 1 else 0) (fun _ => 1 - r) (seq 0 (N_mp s)) 0) as A.
  specialize (A ltac:(apply Forall_forall; intros; apply above_average; exact I)). rewrite Rplus_0_l, seq_length in A.
  assert (M : rsum (map (fun _ : nat => 1 - r) (seq 0 (N_mp s))) = INR target).
  { replace (INR target) with (INR (N_mp s) * (1 - r)) by (rewrite Er; field; lra). generalize 0%nat. generalize (N_mp s). clear.
    intros n. induction n as [|n IH]; intros a; [change (0 = 0 * (1 - r)); ring|]. cbn [seq map]. rewrite rsum_cons, IH, S_INR. ring. }
  rewrite M in A. apply (averages_ext _ _ _ _) with (2 := A). intros us L F. rewrite Rplus_0_l.
  destruct (soft_spec target (with_list rng k us) k s W T) as (s' & E & Lv & _). rewrite E.
  assert (N : N_mp s' = count_true (soft_mask (with_list rng k us) k target s)).
  { assert (X : length (live s') = N_mp s') by (unfold live; rewrite map_length, seq_length; reflexivity). rewrite <- X, Lv, map_length.
    apply mask_get_length. unfold soft_mask, draw, live. rewrite !map_length, !seq_length. reflexivity. }
  rewrite N. unfold soft_mask. replace (draw (with_list rng k us) k (N_mp s)) with us by (rewrite <- L; symmetry; apply with_list_draw).
  symmetry. apply count_sum. rewrite seq_length. exact L.
Qed.
