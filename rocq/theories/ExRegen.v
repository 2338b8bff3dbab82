(** Concrete case for the regeneration theorems. *)
From Verif Require Import Num NumFacts MP SpecMP SpecRegen MPFacts RegenFacts RegenFacts2.

Definition exR : mpsys :=
  mkSys [0; 1/4; 0; 0] [0; 1/8; 0; 0] [0; 0; 0; 0] [1; -2; 0; 0] [0; 1; 0; 0] [0; 3; 0; 0]
    [1; 3; 0; 0] [-1; 5; -1; -1] 2 true 1 2 (1/2) 1 2 (1/2).

Definition exCfg : regen_cfg :=
  mkRegen 0 1 1 3 3 5 5 5 (hist_grid_len (1/2) 1) (hist_grid_bias (1/2) 1) 1 (1/10).

Definition exCh : chamber := mkChamb (fun _ _ => false) (1/2) (1/2).
Definition exRng : nat -> R := fun _ => 1/2.

Lemma exR_case :
  wf exR /\ tail_zero exR /\ unit_rng exRng /\ hist_cfg_ok exCfg (x_aper exCh) /\
  0 <= regen_hist_cut exCfg /\ (0 < N_mp_after_regen exCfg)%nat /\ 0 < nel_mp_ref_0 exR /\
  Forall (fun p => Rabs (m_x p) <= x_aper exCh /\ 0 <= m_nel p) (live exR) /\
  regen_needed exCfg exR = true /\
  exists s' k', check_for_regeneration 100 0 exCfg exCh exRng 0 exR = Some (s', k').
Proof.
  assert (W : wf exR) by (constructor; unfold capacity; simpl; auto; lia).
  assert (T : tail_zero exR).
  { intros i [H1 H2]. unfold capacity in H2. simpl in *. destruct i as [|[|[|[|i]]]]; simpl; auto; lia. }
  assert (U : unit_rng exRng) by (intros i; unfold exRng; lra).
  assert (HC : hist_cfg_ok exCfg (x_aper exCh)).
  { unfold hist_cfg_ok; simpl. repeat split; try lra; reflexivity. }
  assert (F : Forall (fun p => Rabs (m_x p) <= x_aper exCh /\ 0 <= m_nel p) (live exR)).
  { unfold live; simpl. repeat constructor; simpl; rewrite ?Rabs_R0, ?Rabs_pos_eq; lra. }
  split; [auto|]. split; [auto|]. split; [auto|]. split; [auto|]. split; [simpl; lra|].
  split; [simpl; lia|]. split; [simpl; lra|]. split; [auto|]. split; [reflexivity|].
  apply regen_progress; auto; simpl; try lra; try lia.
  - unfold capacity; simpl; lia.
  - assert (H : hist_half (1/2) 1 = 2%nat).
    { unfold hist_half. replace (rceil ((1 / 2 + 2 * 1) / 1)) with 3%Z; [reflexivity|].
      symmetry. apply rceil_unique. lra. }
    unfold hist_grid_len. rewrite H. lia.
Qed.

Lemma exR_due_case :
  wf exR /\ tail_zero exR /\ unit_rng exRng /\ hist_cfg_ok exCfg (x_aper exCh) /\
  0 <= regen_hist_cut exCfg /\ (0 < N_mp_after_regen exCfg)%nat /\ 0 < nel_mp_ref_0 exR /\
  Forall (fun p => Rabs (m_x p) <= x_aper exCh /\ 0 <= m_nel p) (live exR) /\
  regen_due exCfg exR /\
  exists s' k', check_for_regeneration 100 0 exCfg exCh exRng 0 exR = Some (s', k').
Proof.
  destruct exR_case as (H1 & H2 & H3 & H4 & H5 & H6 & H7 & H8 & H9 & H10). repeat (split; [assumption|]).
  split; [left; simpl; lia|exact H10].
Qed.

Lemma exCfg_sizes : good_sizes exCfg.
Proof. unfold good_sizes, good_size; simpl. repeat split; try lia; discriminate. Qed.

Definition exCfg4 : regen_cfg :=
  mkRegen 0 1 1 3 3 4 4 4 (hist_grid_len (1/2) 1) (hist_grid_bias (1/2) 1) 1 (1/10).
Definition exSteps4 : steps :=
  mkSteps (reg_step 1 3) (reg_step 1 3) (reg_step 3 4) (reg_step 3 4) (reg_step 3 4).
