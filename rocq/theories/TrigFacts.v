(** When the cloud is thinned. *)
From Coq Require Import Lra Lia.
From Verif Require Import Num NumFacts MP SpecMP MPFacts MPFacts2 SpecTrig.

Lemma soft_below thr rng k s : match thr with Some (n, _) => (N_mp s <= n)%nat | None => True end ->
  check_for_soft_regeneration thr rng k s = Some (s, k).
Proof.
  destruct thr as [[n a]|]; [|auto]. intros H. unfold check_for_soft_regeneration, check_for_async_regeneration. rewrite (proj2 (Nat.ltb_ge _ _) H). auto.
Qed.

Lemma soft_thin target rng k s : wf s -> tail_zero s -> (target < N_mp s)%nat ->
  Forall (fun p => 0 < m_nel p) (live s) -> someone_survives target (N_mp s) (fun i => rng (k + i)%nat) ->
  exists s', perform_soft_regeneration target rng k s = Some (s', (k + N_mp s)%nat) /\
    thinned target (fun i => rng (k + i)%nat) (live s) (live s') /\ wf s' /\ tail_zero s' /\ same_cfg s s' /\ sizes_ok s' /\
    nel_mp_ref s' = Rmax (charge s / INR target) (nel_mp_ref_0 s).
Proof.
  intros W T Ht P SV. destruct (soft_main target rng k s W T Ht P SV) as (s' & keep & f & E & L & F & LV & CH & W' & T' & C' & Z & RF & K).
  exists s'. split; [exact E|]. split; [|auto 10]. unfold thinned. rewrite live_length. exists keep, f. auto 10.
Qed.

Lemma soft_above n target rng k s : wf s -> tail_zero s -> (n < N_mp s)%nat -> (target < N_mp s)%nat ->
  Forall (fun p => 0 < m_nel p) (live s) -> someone_survives target (N_mp s) (fun i => rng (k + i)%nat) ->
  exists s', check_for_soft_regeneration (Some (n, target)) rng k s = Some (s', (k + N_mp s)%nat) /\
    thinned target (fun i => rng (k + i)%nat) (live s) (live s') /\ wf s' /\ tail_zero s' /\ same_cfg s s' /\ sizes_ok s' /\
    nel_mp_ref s' = Rmax (charge s / INR target) (nel_mp_ref_0 s).
Proof.
  intros W T Hn. intros. unfold check_for_soft_regeneration. rewrite (proj2 (Nat.ltb_lt _ _) Hn). apply soft_thin; auto.
Qed.

(** No thinning towards a target that is not below the present number. *)
Lemma soft_noop target rng k s : (N_mp s <= target)%nat -> perform_soft_regeneration target rng k s = Some (s, k).
Proof. intros H. unfold perform_soft_regeneration. destruct (Nat.ltb_spec target (N_mp s)); auto. lia. Qed.

Lemma async_below thr rng k s : match thr with Some (n, _) => (N_mp s <= n)%nat | None => True end ->
  check_for_async_regeneration thr rng k s = Some (s, k).
Proof.
  destruct thr as [[n a]|]; [|auto]. intros H. unfold check_for_soft_regeneration, check_for_async_regeneration. rewrite (proj2 (Nat.ltb_ge _ _) H). auto.
Qed.

Lemma async_clean n target rng k s : wf s -> (n < N_mp s)%nat -> (length (big_enough s) <= n)%nat ->
  exists s', check_for_async_regeneration (Some (n, target)) rng k s = Some (s', k) /\
    live s' = big_enough s /\ wf s' /\ tail_zero s' /\ same_cfg s s'.
Proof.
  intros W Hn Hb. unfold check_for_async_regeneration. rewrite (proj2 (Nat.ltb_lt _ _) Hn).
  destruct (clean_main s W) as (s1 & E & L & _ & W1 & T1 & C1 & _). rewrite E. cbn [bind].
  assert (N1 : N_mp s1 = length (big_enough s)) by (rewrite <- live_length, L; auto).
  rewrite (proj2 (Nat.ltb_ge _ _)) by lia. exists s1. auto 10.
Qed.

Lemma async_thin n target rng k s : wf s -> (n < length (big_enough s))%nat -> (target < length (big_enough s))%nat ->
  Forall (fun p => 0 < m_nel p) (live s) ->
  someone_survives target (length (big_enough s)) (fun i => rng (k + i)%nat) ->
  exists s', check_for_async_regeneration (Some (n, target)) rng k s = Some (s', (k + length (big_enough s))%nat) /\
    thinned target (fun i => rng (k + i)%nat) (big_enough s) (live s') /\ wf s' /\ tail_zero s' /\ same_cfg s s' /\ sizes_ok s'.
Proof.
  intros W Hn Ht P SV. unfold check_for_async_regeneration.
  assert (LE : (length (big_enough s) <= N_mp s)%nat).
  { rewrite <- (live_length s). unfold big_enough. clear. induction (live s) as [|a l IH]; cbn; auto. destruct (Rleb _ _); cbn; lia. }
  rewrite (proj2 (Nat.ltb_lt n (N_mp s))) by lia.
  destruct (clean_main s W) as (s1 & E & L & _ & W1 & T1 & C1 & _). rewrite E. cbn [bind]. fold (big_enough s) in L.
  assert (N1 : N_mp s1 = length (big_enough s)) by (rewrite <- live_length, L; auto).
  rewrite (proj2 (Nat.ltb_lt n (N_mp s1))) by lia.
  destruct (soft_thin target rng k s1) as (s' & E' & TH & W' & T' & C' & Z & _); auto; try lia.
  - rewrite L. unfold big_enough. rewrite Forall_forall in *. intros p Hp. apply filter_In in Hp. apply P. tauto.
  - rewrite N1. exact SV.
  - exists s'. rewrite N1 in E'. rewrite L in TH. split; [exact E'|]. split; [exact TH|]. split; [auto|]. split; [auto|].
    split; [|auto]. destruct C1 as (A1 & A2 & A3 & A4 & A5), C' as (B1 & B2 & B3 & B4 & B5). unfold same_cfg. repeat split; congruence.
Qed.

Lemma trig_case : let s := mkSys [1; 2; 3] [4; 5; 6] [0; 0; 0] [0; 0; 0] [0; 0; 0] [0; 0; 0] [3; 1/2; 2] [0; 0; 0] 3 false 1 2 1 1 2 1 in
  wf s /\ length (big_enough s) = 2%nat /\ Forall (fun p => 0 < m_nel p) (live s) /\ tail_zero s.
Proof.
  cbv zeta. set (s := mkSys _ _ _ _ _ _ _ _ _ _ _ _ _ _ _ _).
  split; [constructor; cbn; auto|]. split.
  - unfold big_enough, live, s. cbn -[Rleb]. rewrite (proj2 (Rleb_true 1 3)), (proj2 (Rleb_false 1 (1/2))), (proj2 (Rleb_true 1 2)) by lra. reflexivity.
  - split; [unfold live, s; cbn; repeat constructor; cbn; lra|]. intros i Hi. cbn in Hi. destruct i as [|[|[|i]]]; try lia; unfold s; cbn; destruct i; auto.
Qed.
