(** C05 and C06: full regeneration of the macroparticles. *)
From Verif Require Import Num NumFacts MP SpecMP SpecRegen MPFacts RegenFacts RegenFacts2 ExRegen.

(** C05.  When the full regeneration runs and returns, all MPs have the new
    reference charge, lie inside the chamber and within one phase-space cell,
    every cell of the 5-D grid holds its charge rounded up or down to whole
    MPs, and the charge lost in the horizontal cut is at most the configured
    fraction.  The MPs removed by the cut are exactly those beyond [x_max]. *)
Theorem C05_regeneration :
  forall fuel fuel_in cfg c rng k s s' k',
  wf s -> tail_zero s -> unit_rng rng ->
  hist_cfg_ok cfg (x_aper c) -> 0 <= regen_hist_cut cfg ->
  (0 < N_mp_after_regen cfg)%nat -> 0 < nel_mp_ref_0 s ->
  Forall (fun p => Rabs (m_x p) <= x_aper c /\ 0 <= m_nel p) (live s) ->
  regen_due cfg s ->
  check_for_regeneration fuel fuel_in cfg c rng k s = Some (s', k') ->
  exists x_max d owners,
    let kept := within_cut x_max (live s) in
    let ref := Rmax (nel_mp_ref_0 s) (charge s / INR (N_mp_after_regen cfg)) in
    steps_ok cfg x_max (y_aper c) kept d /\
    nel_mp_ref s' = ref /\ sizes_ok s' /\ same_cfg s s' /\ wf s' /\ tail_zero s' /\
    Forall2 (regenerated cfg c d ref) owners
      (map (fun p => if flag_lifetime_hist s then p else forget_t p) (live s')) /\
    (forall o, Rabs (INR (count_occ Z.eq_dec owners o) * ref - charge_in cfg d o kept) < ref) /\
    charge s - rsum (map m_nel kept) <= regen_hist_cut cfg * charge s.
Proof. exact regen_due_main. Qed.
Print Assumptions C05_regeneration.

(** C05, total.  With the occupation numbers of the previous theorem the total
    charge moves by at most one reference charge per occupied cell. *)
Theorem C05_total_charge :
  forall cfg d ref (kept : list mp) owners,
  (forall o, Rabs (INR (count_occ Z.eq_dec owners o) * ref - charge_in cfg d o kept) < ref) ->
  Rabs (INR (length owners) * ref - rsum (map m_nel kept)) <= INR (n_cells cfg d kept) * ref.
Proof. exact regen_total. Qed.
Print Assumptions C05_total_charge.

(** C05, progress.  The regeneration returns if there is room for one extra MP
    per occupied cell and the chamber rejects no position. *)
Theorem C05_returns :
  forall fuel fuel_in cfg c rng k s,
  wf s -> tail_zero s -> unit_rng rng -> hist_cfg_ok cfg (x_aper c) -> regen_hist_cut cfg <= 2 ->
  (0 < N_mp_after_regen cfg)%nat -> 0 < nel_mp_ref_0 s ->
  Forall (fun p => Rabs (m_x p) <= x_aper c /\ 0 <= m_nel p) (live s) ->
  (forall x y, outside c x y = false) ->
  (N_mp_after_regen cfg + N_mp s <= capacity s)%nat ->
  (Nxg_hist_reg cfg + N_mp_after_regen cfg + 2 <= fuel)%nat ->
  exists s' k', check_for_regeneration fuel fuel_in cfg c rng k s = Some (s', k').
Proof. exact regen_progress. Qed.
Print Assumptions C05_returns.

(** C05: without a trigger nothing happens. *)
Theorem C05_no_trigger :
  forall fuel fuel_in cfg c rng k s,
  (N_mp s <= N_mp_regen cfg)%nat ->
  ((N_mp_regen_low cfg <= N_mp s)%nat \/ nel_mp_ref s <= nel_mp_ref_0 s) ->
  check_for_regeneration fuel fuel_in cfg c rng k s = Some (s, k).
Proof.
  intros fuel fuel_in cfg c rng k s H1 H2. unfold check_for_regeneration, regen_needed.
  replace (Nat.ltb (N_mp_regen cfg) (N_mp s)) with false by (symmetry; apply Nat.ltb_ge; auto).
  destruct H2 as [H2|H2].
  - replace (Nat.ltb (N_mp s) (N_mp_regen_low cfg)) with false by (symmetry; apply Nat.ltb_ge; auto).
    reflexivity.
  - replace (Rgtb (nel_mp_ref s) (nel_mp_ref_0 s)) with false by (symmetry; apply Rgtb_false; auto).
    rewrite Bool.andb_false_r. reflexivity.
Qed.
Print Assumptions C05_no_trigger.

Example C05_case :
  wf exR /\ tail_zero exR /\ unit_rng exRng /\ hist_cfg_ok exCfg (x_aper exCh) /\
  0 <= regen_hist_cut exCfg /\ (0 < N_mp_after_regen exCfg)%nat /\ 0 < nel_mp_ref_0 exR /\
  Forall (fun p => Rabs (m_x p) <= x_aper exCh /\ 0 <= m_nel p) (live exR) /\
  regen_due exCfg exR /\
  exists s' k', check_for_regeneration 100 0 exCfg exCh exRng 0 exR = Some (s', k').
Proof. exact exR_due_case. Qed.

(** C06.  The flattened cell index is a bijection between the cells of the
    5-D grid and an interval of integers starting at 0: decoding the index
    gives back the cell. *)
Theorem C06_index_roundtrip :
  forall cfg ix iy ivx ivy ivz,
  cell_ok cfg ix iy ivx ivy ivz ->
  unflatten cfg (flat_index cfg ix iy ivx ivy ivz) = (ix, iy, ivx, ivy, ivz) /\
  (0 <= flat_index cfg ix iy ivx ivy ivz
     < Nx_reg cfg * Ny_reg cfg * Nvx_reg cfg * Nvy_reg cfg * Nvz_reg cfg)%Z.
Proof.
  exact (fun cfg ix iy ivx ivy ivz H =>
    conj (unflatten_flat cfg ix iy ivx ivy ivz H) (flat_index_bounds cfg ix iy ivx ivy ivz H)).
Qed.
Print Assumptions C06_index_roundtrip.

Theorem C06_index_injective :
  forall cfg ix iy ivx ivy ivz jx jy jvx jvy jvz,
  cell_ok cfg ix iy ivx ivy ivz -> cell_ok cfg jx jy jvx jvy jvz ->
  flat_index cfg ix iy ivx ivy ivz = flat_index cfg jx jy jvx jvy jvz ->
  (ix, iy, ivx, ivy, ivz) = (jx, jy, jvx, jvy, jvz).
Proof. exact flat_index_inj. Qed.
Print Assumptions C06_index_injective.

(** C06.  Every MP lies within half a cell of the centre of the cell its
    charge is attributed to.  Missing from the full statement: grid sizes that
    are multiples of four (see [C06_size_four_refuted]). *)
Theorem C06_cell_contains_mp_partial :
  forall cfg x_max y_ap l d p,
  good_sizes cfg -> 0 < x_max -> 0 < y_ap -> steps_ok cfg x_max y_ap l d ->
  In p l -> Rabs (m_x p) <= x_max -> Rabs (m_y p) <= y_ap ->
  in_box d (cell_centre cfg d (mp_index cfg d (m_x p) (m_y p) (m_vx p) (m_vy p) (m_vz p))) p.
Proof. exact mp_near_cell. Qed.
Print Assumptions C06_cell_contains_mp_partial.

(** C06.  For a size that is a multiple of four the MP with the largest
    negative velocity gets index 0, outside the grid 1..N; two MPs with
    clearly different velocities then fall in the same cell, and the second
    one is not in the box of its cell. *)
Theorem C06_size_four_refuted :
  exists cfg d x y vx vy vz vx' vy' vz',
    steps_ok cfg 1 1 [mkMP x y 0 vx vy vz 1 0; mkMP x y 0 vx' vy' vz' 1 0] d /\
    Rabs x <= 1 /\ Rabs y <= 1 /\
    mp_index cfg d x y vx vy vz = mp_index cfg d x y vx' vy' vz' /\
    Rabs (vz - vz') > 2 * svz d.
Proof.
  exists exCfg4, exSteps4, 0, 0, 0, 0, (-3), 0, (-2), 3.
  split; [|split; [|split; [|split]]].
  - exists 3, 3, 3. unfold exSteps4, reg_step; simpl.
    split; [reflexivity|]. split; [reflexivity|]. split; [reflexivity|]. split; [reflexivity|].
    split; [reflexivity|]. split; [lra|]. split; [lra|]. split; [lra|].
    repeat constructor; simpl; unfold Rabs; destruct (Rcase_abs _); lra.
  - rewrite Rabs_R0; lra.
  - rewrite Rabs_R0; lra.
  - unfold mp_index, exSteps4; simpl.
    assert (Hb : reg_bias 4 = 2%Z) by exact (reg_bias_even 2).
    assert (E1 : reg_index (-3) (reg_step 3 4) 4 = 0%Z).
    { apply (reg_index_zero 3 2); [lra|lia|reflexivity]. }
    assert (E2 : reg_index 3 (reg_step 3 4) 4 = 4%Z).
    { unfold reg_index, reg_step. rewrite Hb.
      replace (3 / (2 * 3 / IZR (4 - 1))) with (IZR 2 - 1/2) by (simpl; field).
      rewrite raround_neg_half; reflexivity. }
    assert (E3 : reg_index 0 (reg_step 3 4) 4 = 2%Z).
    { unfold reg_index. rewrite Hb.
      replace (0 / reg_step 3 4) with (IZR 0) by (unfold reg_step; simpl; field). rewrite raround_IZR. reflexivity. }
    assert (E4 : reg_index (-2) (reg_step 3 4) 4 = 1%Z).
    { unfold reg_index. rewrite Hb.
      replace (-2 / reg_step 3 4) with (IZR (-1)) by (unfold reg_step; simpl; field). rewrite raround_IZR. reflexivity. }
    rewrite E1, E2, E3, E4. unfold flat_index; simpl. ring.
  - unfold exSteps4, reg_step; simpl. unfold Rabs; destruct (Rcase_abs _); lra.
Qed.
Print Assumptions C06_size_four_refuted.

Example C06_case : good_sizes exCfg /\ cell_ok exCfg 3 1 5 2 4.
Proof. split; [exact exCfg_sizes|]. unfold cell_ok; simpl; lia. Qed.
