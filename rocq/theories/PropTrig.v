(** C59: when the cloud is thinned. *)
From Coq Require Import Lra Lia.
From Verif Require Import Num NumFacts MP SpecMP SpecTrig TrigFacts.

(** C59: without thresholds, or with a population at or below the threshold,
    neither check changes the cloud. *)
Theorem C59_below_threshold : forall thr rng k s,
  match thr with Some (n, _) => (N_mp s <= n)%nat | None => True end ->
  check_for_soft_regeneration thr rng k s = Some (s, k) /\
  check_for_async_regeneration thr rng k s = Some (s, k).
Proof. intros thr rng k s H. split; [exact (soft_below thr rng k s H)|exact (async_below thr rng k s H)]. Qed.
Print Assumptions C59_below_threshold.

(** C59: above the threshold the soft check thins the cloud. *)
Theorem C59_soft_above : forall n target rng k s, wf s -> tail_zero s -> (n < N_mp s)%nat -> (target < N_mp s)%nat ->
  Forall (fun p => 0 < m_nel p) (live s) -> someone_survives target (N_mp s) (fun i => rng (k + i)%nat) ->
  exists s', check_for_soft_regeneration (Some (n, target)) rng k s = Some (s', (k + N_mp s)%nat) /\
    thinned target (fun i => rng (k + i)%nat) (live s) (live s') /\ wf s' /\ tail_zero s' /\ same_cfg s s' /\ sizes_ok s' /\
    nel_mp_ref s' = Rmax (charge s / INR target) (nel_mp_ref_0 s).
Proof. exact soft_above. Qed.
Print Assumptions C59_soft_above.

(** C59: above the threshold the asynchronous check first cleans; if that is
    enough nothing else happens. *)
Theorem C59_async_cleaning_is_enough : forall n target rng k s, wf s -> (n < N_mp s)%nat -> (length (big_enough s) <= n)%nat ->
  exists s', check_for_async_regeneration (Some (n, target)) rng k s = Some (s', k) /\
    live s' = big_enough s /\ wf s' /\ tail_zero s' /\ same_cfg s s'.
Proof. exact async_clean. Qed.
Print Assumptions C59_async_cleaning_is_enough.

(** C59: otherwise the cleaned cloud is thinned. *)
Theorem C59_async_thins : forall n target rng k s, wf s -> (n < length (big_enough s))%nat -> (target < length (big_enough s))%nat ->
  Forall (fun p => 0 < m_nel p) (live s) ->
  someone_survives target (length (big_enough s)) (fun i => rng (k + i)%nat) ->
  exists s', check_for_async_regeneration (Some (n, target)) rng k s = Some (s', (k + length (big_enough s))%nat) /\
    thinned target (fun i => rng (k + i)%nat) (big_enough s) (live s') /\ wf s' /\ tail_zero s' /\ same_cfg s s' /\ sizes_ok s'.
Proof. exact async_thin. Qed.
Print Assumptions C59_async_thins.

(** A cloud of three with one macroparticle below the cleaning threshold:
    with the thresholds 3, 2 and 1 each of the three theorems applies. *)
Example C59_case :
  let s := mkSys [1; 2; 3] [4; 5; 6] [0; 0; 0] [0; 0; 0] [0; 0; 0] [0; 0; 0] [3; 1/2; 2] [0; 0; 0] 3 false 1 2 1 1 2 1 in
  wf s /\ length (big_enough s) = 2%nat /\ Forall (fun p => 0 < m_nel p) (live s) /\ tail_zero s.
Proof. exact trig_case. Qed.
Example C59_survivor : someone_survives 1 2 (fun _ => 9/10).
Proof. exists 0%nat. split; [lia|]. cbn. lra. Qed.
