From Verif Require Import Num NumFacts MP SpecMP MPFacts.

Definition reset_N (s : mpsys) : mpsys :=
  mkSys (x_mp s) (y_mp s) (z_mp s) (vx_mp s) (vy_mp s) (vz_mp s)
       (nel_mp s) (t_last_impact s) 0 (flag_lifetime_hist s)
       (nel_mp_ref s) (nel_mp_split s) (nel_mp_cl_th s)
       (nel_mp_ref_0 s) (fact_split s) (fact_clean s).

Lemma reset_N_wf s : wf s -> wf (reset_N s).
Proof. intros []; constructor; auto. simpl; lia. Qed.

Lemma wf_capacity_pos s : wf s -> (N_mp s <= capacity s)%nat.
Proof. intros []; auto. Qed.

Lemma import_spec d s :
  wf s -> dict_ok d -> (d_N d <= capacity s)%nat ->
  exists s', init_from_dict d s = Some s' /\ wf s' /\ same_cfg s s' /\ N_mp s' = d_N d /\
    nel_mp_ref s' = nel_mp_ref s /\ nel_mp_split s' = nel_mp_split s /\
    nel_mp_cl_th s' = nel_mp_cl_th s /\
    live s' = zip8 (d_x d) (d_y d) (d_z d) (d_vx d) (d_vy d) (d_vz d) (d_nel d)
      (if flag_lifetime_hist s then
         match d_t d with Some t => t | None => repeat (-1) (d_N d) end
       else repeat (-1) (d_N d)).
Proof.
  intros W (L1 & L2 & L3 & L4 & L5 & L6 & L7 & L8) Hfit.
  destruct (add_from_appended d (reset_N s)) as (s' & E & A & C & R); auto using reset_N_wf.
  exists s'. split; [exact E|].
  pose proof (reset_N_wf s W) as Wr.
  destruct (appended_wf _ _ _ _ _ _ _ _ _ _ _ Wr A) as [W' Hcap].
  split; [auto|]. split; [exact C|]. split; [apply (a_N _ _ _ _ _ _ _ _ _ _ _ A)|].
  destruct R as (R1 & R2 & R3). split; [auto|]. split; [auto|]. split; [auto|].
  rewrite (appended_live _ _ _ _ _ _ _ _ _ _ _ Wr A). reflexivity.
Qed.

Lemma extract_ok s : wf s -> dict_ok (extract_dict s).
Proof.
  intros []. unfold extract_dict, dict_ok, capacity in *; simpl.
  rewrite !firstn_length. repeat split; try lia. discriminate.
Qed.

Lemma zip8_forget n a b c d e f g h :
  lens8 n a b c d e f g h ->
  zip8 a b c d e f g (repeat (-1) n) = map forget_t (zip8 a b c d e f g h).
Proof.
  revert a b c d e f g h; induction n as [|n IH]; intros a b c d e f g h
    (Ha & Hb & Hc & Hd & He & Hf & Hg & Hh); dl8; [reflexivity|].
  simpl. f_equal. apply IH. repeat split; auto.
Qed.

Lemma roundtrip s s0 :
  wf s -> wf s0 -> (N_mp s <= capacity s0)%nat ->
  exists s', init_from_dict (extract_dict s) s0 = Some s' /\ wf s' /\
    live s' = map forget_t (live s) /\
    (flag_lifetime_hist s = false -> live s' = live s).
Proof.
  intros W W0 Hfit.
  destruct (import_spec (extract_dict s) s0 W0 (extract_ok s W) Hfit)
    as (s' & E & W' & C & N' & R1 & R2 & R3 & L).
  assert (L' : live s' = map forget_t (live s)).
  { rewrite L. cbn [extract_dict d_x d_y d_z d_vx d_vy d_vz d_nel d_t d_N].
    rewrite (live_zip8 s) by auto.
    rewrite <- (zip8_forget (N_mp s)) by (apply wf_lens8; auto).
    destruct (flag_lifetime_hist s0); reflexivity. }
  exists s'. split; [auto|]. split; [auto|]. split; [auto|].
  intros Hf. rewrite L'. unfold live. rewrite map_map. apply map_ext. intros i.
  unfold forget_t, mp_at. simpl. rewrite Hf. reflexivity.
Qed.

(* ---------- operation sequences ---------- *)
Lemma add_from_overflow d s :
  wf s -> dict_ok d -> (capacity s < N_mp s + d_N d)%nat ->
  ~ (d_N d = 1%nat /\ N_mp s = capacity s) -> add_from_file d s = None.
Proof.
  intros W B Ho Hn. assert (d_N d <> 1%nat) by (destruct W; lia).
  unfold add_from_file. destruct B as (L1 & _). destruct W.
  rewrite slice_set_overflow by (unfold capacity in *; lia || auto). reflexivity.
Qed.

(** An addition of exactly one MP to a system without any free slot. *)
Definition single_at_full (o : op) (s : mpsys) : Prop :=
  match o with
  | OAdd n _ => n = 1%nat /\ N_mp s = capacity s
  | OImport d => d_N d = 1%nat /\ capacity s = 0%nat
  | _ => False
  end.

Lemma exec_wf rng o s s' :
  wf s -> op_ok o -> ~ single_at_full o s -> exec rng o s = Some s' ->
  wf s' /\ capacity s' = capacity s.
Proof.
  intros W Ok Hn E. destruct o as [n b| |target k|d]; simpl in *.
  - destruct (Nat.le_gt_cases (N_mp s + n) (capacity s)).
    + destruct (add_new_spec n b s W Ok H) as (s1 & E1 & _ & _ & W1 & _ & C & _).
      rewrite E in E1; injection E1 as <-. split; auto. apply C.
    + rewrite add_new_overflow in E; auto; discriminate.
  - destruct (clean_spec s W) as (s1 & E1 & _ & W1 & _ & C & _).
    rewrite E in E1; injection E1 as <-. split; auto. apply C.
  - destruct (Nat.lt_ge_cases target (N_mp s)).
    + destruct (soft_spec target rng k s W H) as (s1 & E1 & _ & W1 & _ & C & _).
      rewrite E1 in E; injection E as <-. split; auto. apply C.
    + unfold perform_soft_regeneration in E. destruct (Nat.ltb_spec target (N_mp s)); [lia|].
      injection E as <-; auto.
  - destruct (Nat.le_gt_cases (d_N d) (capacity s)).
    + destruct (import_spec d s W Ok H) as (s1 & E1 & W1 & C & _).
      rewrite E in E1; injection E1 as <-. split; auto. apply C.
    + unfold init_from_dict in E. fold (reset_N s) in E.
      rewrite add_from_overflow in E; [discriminate|apply reset_N_wf; auto|auto|change (capacity (reset_N s)) with (capacity s); simpl; lia|].
      simpl. change (capacity (reset_N s)) with (capacity s). lia.
Qed.

(** No operation of the sequence is a single addition at full capacity. *)
Fixpoint no_single_at_full (rng : nat -> R) (os : list op) (s : mpsys) : Prop :=
  match os with
  | [] => True
  | o :: os' => ~ single_at_full o s /\
      forall s', exec rng o s = Some s' -> no_single_at_full rng os' s'
  end.

Lemma run_ops_wf rng os : forall s s',
  wf s -> Forall op_ok os -> no_single_at_full rng os s -> run_ops rng os s = Some s' ->
  wf s' /\ capacity s' = capacity s.
Proof.
  induction os as [|o os IH]; intros s s' W Ok Hn E; cbn [run_ops] in *.
  - injection E as <-; auto.
  - inversion Ok; subst. destruct Hn as [Hn1 Hn2].
    destruct (exec rng o s) as [s1|] eqn:E1; [|discriminate]. cbn [bind] in E.
    destruct (exec_wf rng o s s1) as [W1 C1]; auto.
    destruct (IH s1 s') as [W2 C2]; auto. split; [auto|congruence].
Qed.

Lemma run_capacity rng os s s' :
  wf s -> Forall op_ok os -> no_single_at_full rng os s -> run_ops rng os s = Some s' ->
  (N_mp s' <= capacity s')%nat /\ capacity s' = capacity s.
Proof.
  intros W Ok Hn E. destruct (run_ops_wf rng os s s' W Ok Hn E). split; auto.
  apply wf_capacity_pos; auto.
Qed.

(* ---------- charge after cleaning / soft regeneration ---------- *)
Lemma clean_main s : wf s ->
  exists s', clean_small_MPs s = Some s' /\
    live s' = filter (fun p => Rleb (nel_mp_cl_th s) (m_nel p)) (live s) /\
    (let removed := filter (fun p => Rltb (m_nel p) (nel_mp_cl_th s)) (live s) in
     charge s - charge s' = rsum (map m_nel removed) /\
     (removed <> [] -> charge s - charge s' < INR (length removed) * nel_mp_cl_th s)) /\
    wf s' /\ tail_zero s' /\ same_cfg s s' /\
    (live s' <> [] -> nel_mp_ref s' = nel_mp_ref s /\ nel_mp_split s' = nel_mp_split s
                      /\ nel_mp_cl_th s' = nel_mp_cl_th s) /\
    (live s' = [] -> nel_mp_ref s' = nel_mp_ref_0 s /\ sizes_ok s').
Proof.
  intros W. destruct (clean_spec s W) as (s' & E & L & W' & T & C & H1 & H2).
  exists s'. split; [auto|]. split; [exact L|].
  assert (EX : forall p, Rltb (m_nel p) (nel_mp_cl_th s) = negb (keep_mp (nel_mp_cl_th s) p)).
  { intros p. unfold keep_mp, Rltb, Rleb. destruct (Rlt_dec _ _), (Rle_dec _ _); auto; lra. }
  split.
  - cbv zeta. rewrite !(filter_ext _ _ EX). unfold charge. rewrite L.
    split; [apply filter_le_charge|]. intros Hne. rewrite filter_le_charge. apply removed_bound; auto.
  - split; [auto|]. split; [auto|]. split; [auto|]. rewrite <- (live_length s') in H1, H2.
    split.
    + intros Hne. apply H1. intros Hl. destruct (live s'); auto; discriminate.
    + intros He. rewrite He in H2. destruct H2 as (R1 & R2 & R3); auto.
      split; [auto|]. destruct C as (_ & _ & C3 & C4 & C5). unfold sizes_ok.
      rewrite R1, R2, R3, C4, C5. auto.
Qed.

Lemma soft_main target rng k s :
  wf s -> tail_zero s -> (target < N_mp s)%nat ->
  Forall (fun p => 0 < m_nel p) (live s) ->
  (exists i, (i < N_mp s)%nat /\
     INR (N_mp s - target) / INR (N_mp s) < rng (k + i)%nat) ->
  exists s' keep f, perform_soft_regeneration target rng k s = Some (s', (k + N_mp s)%nat) /\
    length keep = N_mp s /\ 0 < f /\
    live s' = map (scale_nel f) (mask_get keep (live s)) /\
    charge s' = charge s /\ wf s' /\ tail_zero s' /\ same_cfg s s' /\ sizes_ok s' /\
    nel_mp_ref s' = Rmax (charge s / INR target) (nel_mp_ref_0 s) /\
    (forall i, nth_error keep i = Some true <->
        (i < N_mp s)%nat /\ INR (N_mp s - target) / INR (N_mp s) < rng (k + i)%nat).
Proof.
  intros W T Ht Hpos (i0 & Hi0 & Hr0).
  destruct (soft_spec target rng k s W Ht) as (s' & E & L & W' & T' & C & R & Z).
  set (m := soft_mask rng k target s) in *.
  set (f := rsum (nel_mp s) / rsum (map m_nel (mask_get m (live s)))) in *.
  assert (Hm : forall i, nth_error m i = Some true <->
      (i < N_mp s)%nat /\ INR (N_mp s - target) / INR (N_mp s) < rng (k + i)%nat).
  { intros i. subst m. unfold soft_mask, draw. rewrite map_map.
    destruct (Nat.lt_ge_cases i (N_mp s)).
    - rewrite (map_nth_error _ i _ (d := (k + i)%nat)).
      + split.
        * intros Hx; injection Hx as Hx. apply Rgtb_true in Hx. auto.
        * intros [_ Hx]. f_equal. apply Rgtb_true. auto.
      + rewrite (nth_error_nth' (seq k (N_mp s)) 0%nat) by (rewrite seq_length; auto).
        rewrite seq_nth by auto. reflexivity.
    - split; [|lia]. intros Hx.
      exfalso. assert (nth_error (map (fun x => Rgtb (rng x) (INR (N_mp s - target) / INR (N_mp s))) (seq k (N_mp s))) i = None).
      { apply nth_error_None. rewrite map_length, seq_length. auto. }
      congruence. }
  assert (Lm : length m = N_mp s) by (subst m; unfold soft_mask; rewrite map_length; apply draw_length).
  assert (Hne : mask_get m (live s) <> []).
  { intros He. assert (nth_error m i0 = Some true) by (apply Hm; auto).
    assert (length (mask_get m (live s)) = 0%nat) by (rewrite He; auto).
    rewrite mask_get_length in H0 by (rewrite live_length; auto).
    clear - H H0. revert i0 H. induction m as [|b m IH]; intros i0 H; destruct i0; simpl in *; try discriminate.
    - injection H as ->. discriminate.
    - destruct b; [discriminate|]. eauto. }
  assert (Hsum : 0 < rsum (map m_nel (mask_get m (live s)))).
  { apply rsum_pos; [destruct (mask_get m (live s)); simpl; easy|].
    apply Forall_map. rewrite Forall_forall in *. intros p Hp. apply Hpos. eapply mask_get_In; eauto. }
  assert (Hch : 0 < rsum (nel_mp s)).
  { rewrite rsum_all_tail_zero by auto. unfold charge. apply rsum_pos.
    - intros He. apply map_eq_nil in He. rewrite He in Hne. apply Hne. apply mask_get_nil_r.
    - apply Forall_map; auto. }
  exists s', m, f. split; [auto|]. split; [auto|]. split.
  { subst f. apply Rmult_lt_0_compat; [auto|apply Rinv_0_lt_compat; auto]. }
  split; [auto|]. split.
  { unfold charge at 1. rewrite L, scale_charge. subst f.
    rewrite rsum_all_tail_zero by auto. field. lra. }
  repeat (split; [assumption|]). split; [|exact Hm].
  rewrite R. unfold new_ref. rewrite rsum_all_tail_zero by auto.
  unfold Rltb, Rmax. destruct (Rlt_dec _ _), (Rle_dec _ _); lra.
Qed.

Lemma new_system n ref fs fc lt : let s := mp_init n ref fs fc lt in
  wf s /\ tail_zero s /\ live s = [] /\ capacity s = n /\ sizes_ok s /\
  nel_mp_ref s = ref /\ nel_mp_ref_0 s = ref /\ fact_split s = fs /\ fact_clean s = fc /\
  forall s0 v, nel_mp_ref (set_nel_mp_ref s0 v) = v /\ sizes_ok (set_nel_mp_ref s0 v) /\
    live (set_nel_mp_ref s0 v) = live s0 /\ capacity (set_nel_mp_ref s0 v) = capacity s0.
Proof.
  cbv zeta. split; [constructor; unfold capacity; cbn; rewrite ?repeat_length; lia|]. split.
  { intros i _. cbn. apply nth_repeat. }
  split; [reflexivity|]. split; [apply repeat_length|]. split; [split; reflexivity|].
  do 4 (split; [reflexivity|]). intros s0 v. repeat split.
Qed.
