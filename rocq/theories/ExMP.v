(** Concrete macroparticle systems used as examples and counterexamples. *)
From Verif Require Import Num NumFacts MP SpecMP MPFacts MPFacts2.

(** A system with capacity 3, charges [q] in the slots, [n] live MPs. *)
Definition sys3 (n : nat) (q0 q1 q2 : R) (lifetime : bool) : mpsys :=
  mkSys [1; 2; 3] [4; 5; 6] [7; 8; 9] [1; -1; 2] [2; -2; 3] [3; -3; 4]
    [q0; q1; q2] [10; 11; 12] n lifetime 2 4 1 2 2 (1/2).

Lemma sys3_wf n q0 q1 q2 fl : (n <= 3)%nat -> wf (sys3 n q0 q1 q2 fl).
Proof. intros H; constructor; simpl; auto. Qed.

Definition batch1 : batch := mkBatch [5] [1] [1] [1] [1] [1] [1] [0].
Definition batch2 : batch :=
  mkBatch [5; 6] [1; 2] [1; 2] [1; 2] [1; 2] [1; 2] [1; 2] [0; 0].

Lemma batch1_ok : batch_ok 1 batch1.
Proof. repeat split. Qed.
Lemma batch2_ok : batch_ok 2 batch2.
Proof. repeat split. Qed.

(** One more MP than the capacity: the broadcast into an empty slice. *)
Lemma add_one_at_full :
  exists s', add_new_MPs 1 batch1 (sys3 3 1 1 1 false) = Some s' /\
    N_mp s' = 4%nat /\ capacity s' = 3%nat /\ nel_mp s' = [1; 1; 1].
Proof. eexists. split; [reflexivity|]. repeat split. Qed.

(** Import of two MPs over a population of three leaves the third charge in
    the array; soft regeneration then counts it. *)
Definition dict2 : mpdict :=
  mkDict [1; 2] [1; 2] [0; 0] [0; 0] [0; 0] [0; 0] [1; 1] None 2.

Definition stale : mpsys :=
  mkSys [1; 2; 3] [1; 2; 6] [0; 0; 9] [0; 0; 2] [0; 0; 3] [0; 0; 4]
    [1; 1; 5] [10; 11; 12] 2 false 2 4 1 2 2 (1/2).

Lemma stale_import : init_from_dict dict2 (sys3 3 5 5 5 false) = Some stale.
Proof. reflexivity. Qed.

Lemma stale_wf : wf stale.
Proof. constructor; unfold capacity; simpl; auto. Qed.

Lemma stale_live_charge : charge stale = 2.
Proof. rewrite charge_firstn by apply stale_wf. unfold rsum; simpl; lra. Qed.

Lemma stale_soft :
  exists s' k', perform_soft_regeneration 1 (fun _ => 9/10) 0 stale = Some (s', k') /\
    charge s' = 7.
Proof.
  destruct (soft_spec 1 (fun _ => 9/10) 0 stale stale_wf) as (s' & E & L & _).
  { simpl; lia. }
  exists s', (0 + N_mp stale)%nat. split; [exact E|].
  unfold charge. rewrite L, scale_charge.
  assert (M : soft_mask (fun _ : nat => 9 / 10) 0 1 stale = [true; true]).
  { unfold soft_mask, draw. simpl. rdec. reflexivity. }
  rewrite M. unfold live. simpl. unfold rsum. simpl. field.
Qed.

(** Soft regeneration in which no macroparticle survives. *)
Lemma all_killed :
  exists s' k', perform_soft_regeneration 1 (fun _ => 0) 0 (sys3 2 1 1 0 false) = Some (s', k') /\
    charge (sys3 2 1 1 0 false) = 2 /\ charge s' = 0.
Proof.
  assert (W : wf (sys3 2 1 1 0 false)) by (apply sys3_wf; lia).
  destruct (soft_spec 1 (fun _ => 0) 0 (sys3 2 1 1 0 false) W) as (s' & E & L & _).
  { simpl; lia. }
  exists s', (0 + 2)%nat. split; [exact E|]. split.
  - rewrite charge_firstn by auto. unfold rsum; simpl; lra.
  - assert (M : soft_mask (fun _ : nat => 0) 0 1 (sys3 2 1 1 0 false) = [false; false]).
    { unfold soft_mask, draw. simpl. rdec. reflexivity. }
    unfold charge. rewrite L, M. unfold live. simpl. unfold rsum. simpl. lra.
Qed.

Lemma lost_time :
  exists s', init_from_dict (extract_dict (sys3 2 1 1 0 true)) (sys3 0 0 0 0 true) = Some s' /\
    live s' <> live (sys3 2 1 1 0 true).
Proof.
  eexists. split; [reflexivity|]. unfold live, mp_at; simpl. intros H.
  injection H. intros. lra.
Qed.

Lemma soft_hyps :
  let s := sys3 3 1 2 3 true in
  wf s /\ tail_zero s /\ (2 < N_mp s)%nat /\ Forall (fun p => 0 < m_nel p) (live s) /\
  exists i, (i < N_mp s)%nat /\ INR (N_mp s - 2) / INR (N_mp s) < (fun _ => 9/10) (0 + i)%nat.
Proof.
  cbv zeta. split; [apply sys3_wf; lia|]. split.
  { intros i Hi. unfold capacity in Hi; simpl in *; lia. }
  split; [simpl; lia|]. split.
  { unfold live; simpl. repeat constructor; simpl; lra. }
  exists 0%nat. simpl. split; [lia|lra].
Qed.

Lemma ops_case :
  let s := sys3 1 1 1 1 true in let ops := [OAdd 2 batch2; OClean] in
  wf s /\ Forall op_ok ops /\ no_single_at_full (fun _ => 0) ops s /\
  exists s', run_ops (fun _ => 0) ops s = Some s'.
Proof.
  cbv zeta. assert (W : wf (sys3 1 1 1 1 true)) by (apply sys3_wf; lia).
  split; [exact W|]. split; [repeat constructor|]. split.
  - cbn [no_single_at_full single_at_full]. split; [lia|]. intros s' _. split; [tauto|]. auto.
  - cbn [run_ops exec].
    destruct (add_new_spec 2 batch2 (sys3 1 1 1 1 true) W batch2_ok) as (s1 & E1 & _ & _ & W1 & _).
    { unfold capacity; simpl; lia. }
    rewrite E1. cbn [bind]. destruct (clean_spec s1 W1) as (s2 & E2 & _). rewrite E2. cbn [bind]. eauto.
Qed.
