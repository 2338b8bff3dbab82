(** C01-C04 and C07: properties of the macroparticle system. *)
From Verif Require Import Num NumFacts MP SpecMP MPFacts MPFacts2 ExMP.

(** C01.  Cleaning keeps exactly the live MPs whose charge is at least the
    threshold, in order and unchanged; the charge lost is that of the removed
    MPs and is below (number removed) * threshold; freed slots are empty; when
    nothing is left the reference size goes back to its initial value. *)
Theorem C01_clean_small_MPs :
  forall s, wf s ->
  exists s', clean_small_MPs s = Some s' /\
    live s' = filter (fun p => Rleb (nel_mp_cl_th s) (m_nel p)) (live s) /\
    (let removed := filter (fun p => Rltb (m_nel p) (nel_mp_cl_th s)) (live s) in
     charge s - charge s' = rsum (map m_nel removed) /\
     (removed <> [] -> charge s - charge s' < INR (length removed) * nel_mp_cl_th s)) /\
    wf s' /\ tail_zero s' /\ same_cfg s s' /\
    (live s' <> [] -> nel_mp_ref s' = nel_mp_ref s /\ nel_mp_split s' = nel_mp_split s
                      /\ nel_mp_cl_th s' = nel_mp_cl_th s) /\
    (live s' = [] -> nel_mp_ref s' = nel_mp_ref_0 s /\ sizes_ok s').
Proof. exact clean_main. Qed.
Print Assumptions C01_clean_small_MPs.

Example C01_case : wf (sys3 3 (1/2) 3 (1/4) true).
Proof. exact (sys3_wf 3 _ _ _ _ (le_n 3)). Qed.

(** C02.  Over any sequence of additions, cleanings, soft regenerations and
    imports the live count stays within the capacity.  Missing from the full
    statement: sequences in which exactly one MP is added to a full system
    (see [C02_single_at_full_refuted]). *)
Theorem C02_capacity_partial :
  forall rng ops s s',
  wf s -> Forall op_ok ops -> no_single_at_full rng ops s ->
  run_ops rng ops s = Some s' ->
  (N_mp s' <= capacity s')%nat /\ capacity s' = capacity s.
Proof. exact run_capacity. Qed.
Print Assumptions C02_capacity_partial.

(** C02.  A new system is empty, has the requested capacity and its sizes
    follow from the initial reference size, as they do whenever that is set. *)
Theorem C02_new : forall n ref fs fc lt,
  let s := mp_init n ref fs fc lt in
  wf s /\ tail_zero s /\ live s = [] /\ capacity s = n /\ sizes_ok s /\
  nel_mp_ref s = ref /\ nel_mp_ref_0 s = ref /\ fact_split s = fs /\ fact_clean s = fc /\
  forall s0 v, nel_mp_ref (set_nel_mp_ref s0 v) = v /\ sizes_ok (set_nel_mp_ref s0 v) /\
    live (set_nel_mp_ref s0 v) = live s0 /\ capacity (set_nel_mp_ref s0 v) = capacity s0.
Proof. exact new_system. Qed.
Print Assumptions C02_new.

(** C02.  An addition that does not fit raises, except that of a single MP to
    a full system. *)
Theorem C02_overflow_raises_partial :
  forall n b s,
  wf s -> batch_ok n b -> (capacity s < N_mp s + n)%nat ->
  ~ (n = 1%nat /\ N_mp s = capacity s) -> add_new_MPs n b s = None.
Proof. exact add_new_overflow. Qed.
Print Assumptions C02_overflow_raises_partial.

Example C02_case :
  let s := sys3 1 1 1 1 true in let ops := [OAdd 2 batch2; OClean] in
  wf s /\ Forall op_ok ops /\ no_single_at_full (fun _ => 0) ops s /\
  exists s', run_ops (fun _ => 0) ops s = Some s'.
Proof. exact ops_case. Qed.

Example C02_overflow_case :
  wf (sys3 2 1 1 0 true) /\ batch_ok 2 batch2 /\
  (capacity (sys3 2 1 1 0 true) < N_mp (sys3 2 1 1 0 true) + 2)%nat /\
  ~ (2%nat = 1%nat /\ N_mp (sys3 2 1 1 0 true) = capacity (sys3 2 1 1 0 true)).
Proof.
  split; [exact (sys3_wf 2 _ _ _ _ ltac:(lia))|]. split; [exact batch2_ok|].
  unfold capacity; simpl. split; lia.
Qed.

(** C02 is false as stated: adding one MP to a full system does not raise,
    the live count exceeds the capacity and the charge is dropped. *)
Theorem C02_single_at_full_refuted :
  exists s b s', wf s /\ batch_ok 1 b /\ add_new_MPs 1 b s = Some s' /\
    (capacity s' < N_mp s')%nat /\ rsum (b_nel b) = 5 /\ nel_mp s' = nel_mp s.
Proof.
  exists (sys3 3 1 1 1 false), batch1.
  destruct add_one_at_full as (s' & E & N & C & Q). exists s'.
  split; [apply sys3_wf; lia|]. split; [exact batch1_ok|]. split; [exact E|].
  split; [lia|]. split; [unfold rsum; simpl; lra|exact Q].
Qed.
Print Assumptions C02_single_at_full_refuted.

(** C03.  When they fit, new MPs are appended in order after the old ones,
    which are unchanged, with the given last impact times; the total charge
    grows by the charge added. *)
Theorem C03_add_new_MPs :
  forall n b s,
  wf s -> batch_ok n b -> (N_mp s + n <= capacity s)%nat ->
  exists s', add_new_MPs n b s = Some s' /\
    live s' = live s ++ map (batch_mp (flag_lifetime_hist s) b) (seq 0 n) /\
    charge s' = charge s + rsum (b_nel b) /\
    wf s' /\ (tail_zero s -> tail_zero s') /\ same_cfg s s' /\
    nel_mp_ref s' = nel_mp_ref s /\ nel_mp_split s' = nel_mp_split s /\
    nel_mp_cl_th s' = nel_mp_cl_th s.
Proof. exact add_new_spec. Qed.
Print Assumptions C03_add_new_MPs.

Example C03_case :
  wf (sys3 1 1 0 0 true) /\ batch_ok 2 batch2 /\
  (N_mp (sys3 1 1 0 0 true) + 2 <= capacity (sys3 1 1 0 0 true))%nat.
Proof.
  split; [exact (sys3_wf 1 _ _ _ _ ltac:(lia))|]. split; [exact batch2_ok|].
  unfold capacity; simpl. lia.
Qed.

(** C04.  Soft regeneration of a system whose free slots are empty keeps in
    order the MPs whose random number exceeds the death probability, scales
    all charges by one factor and preserves the total charge exactly, as long
    as at least one MP survives. *)
Theorem C04_soft_regeneration :
  forall target rng k s,
  wf s -> tail_zero s -> (target < N_mp s)%nat ->
  Forall (fun p => 0 < m_nel p) (live s) ->
  (exists i, (i < N_mp s)%nat /\
     INR (N_mp s - target) / INR (N_mp s) < rng (k + i)%nat) ->
  exists s' keep f, perform_soft_regeneration target rng k s = Some (s', (k + N_mp s)%nat) /\
    length keep = N_mp s /\ 0 < f /\
    live s' = map (scale_nel f) (mask_get keep (live s)) /\
    charge s' = charge s /\ wf s' /\ tail_zero s' /\ same_cfg s s' /\ sizes_ok s' /\
    nel_mp_ref s' = Rmax (charge s / INR target) (nel_mp_ref_0 s) /\
    (forall i, nth_error keep i = Some true <->
        (i < N_mp s)%nat /\ INR (N_mp s - target) / INR (N_mp s) < rng (k + i)%nat).
Proof. exact soft_main. Qed.
Print Assumptions C04_soft_regeneration.

Example C04_case :
  let s := sys3 3 1 2 3 true in
  wf s /\ tail_zero s /\ (2 < N_mp s)%nat /\ Forall (fun p => 0 < m_nel p) (live s) /\
  exists i, (i < N_mp s)%nat /\ INR (N_mp s - 2) / INR (N_mp s) < (fun _ => 9/10) (0 + i)%nat.
Proof. exact soft_hyps. Qed.

(** C04 fails when nobody survives: the charge is lost. *)
Theorem C04_no_survivor_refuted :
  exists s target rng k s' k', wf s /\ (target < N_mp s)%nat /\
    perform_soft_regeneration target rng k s = Some (s', k') /\
    charge s = 2 /\ charge s' = 0.
Proof.
  destruct all_killed as (s' & k' & E & C1 & C2).
  exists (sys3 2 1 1 0 false), 1%nat, (fun _ => 0), 0%nat, s', k'.
  split; [apply sys3_wf; lia|]. split; [simpl; lia|]. auto.
Qed.
Print Assumptions C04_no_survivor_refuted.

(** C04 fails right after an import over a larger population: charge left in
    the free slots is counted as charge of the cloud. *)
Theorem C04_stale_slots_refuted :
  exists d s0 s target rng k s' k', wf s0 /\ dict_ok d /\ init_from_dict d s0 = Some s /\
    (target < N_mp s)%nat /\
    perform_soft_regeneration target rng k s = Some (s', k') /\
    charge s = 2 /\ charge s' = 7.
Proof.
  destruct stale_soft as (s' & k' & E & C).
  exists dict2, (sys3 3 5 5 5 false), stale, 1%nat, (fun _ => 9/10), 0%nat, s', k'.
  split; [apply sys3_wf; lia|]. split; [repeat split; discriminate|].
  split; [exact stale_import|]. split; [simpl; lia|]. split; [exact E|].
  split; [exact stale_live_charge|exact C].
Qed.
Print Assumptions C04_stale_slots_refuted.

(** C07.  Export followed by import into any system that is large enough
    restores the same live MPs in order.  Missing: the last impact times are
    not exported, so with lifetime histograms they come back as -1. *)
Theorem C07_roundtrip_partial :
  forall s s0, wf s -> wf s0 -> (N_mp s <= capacity s0)%nat ->
  exists s', init_from_dict (extract_dict s) s0 = Some s' /\ wf s' /\
    live s' = map forget_t (live s) /\
    (flag_lifetime_hist s = false -> live s' = live s).
Proof. exact roundtrip. Qed.
Print Assumptions C07_roundtrip_partial.

Example C07_case :
  wf (sys3 2 1 1 0 true) /\ wf (sys3 3 1 1 1 false) /\
  (N_mp (sys3 2 1 1 0 true) <= capacity (sys3 3 1 1 1 false))%nat.
Proof.
  split; [exact (sys3_wf 2 _ _ _ _ ltac:(lia))|].
  split; [exact (sys3_wf 3 _ _ _ _ ltac:(lia))|]. unfold capacity; simpl; lia.
Qed.

(** C07 is false for the last impact times. *)
Theorem C07_last_impact_refuted :
  exists s s0 s', wf s /\ wf s0 /\ capacity s0 = capacity s /\
    init_from_dict (extract_dict s) s0 = Some s' /\ live s' <> live s.
Proof.
  destruct lost_time as (s' & E & L).
  exists (sys3 2 1 1 0 true), (sys3 0 0 0 0 true), s'.
  split; [apply sys3_wf; lia|]. split; [apply sys3_wf; lia|]. split; [reflexivity|]. auto.
Qed.
Print Assumptions C07_last_impact_refuted.
