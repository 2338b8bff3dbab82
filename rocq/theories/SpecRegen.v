(** Specification side of the full regeneration. *)
From Verif Require Import Num MP SpecMP.

(** Grid sizes for which the cell index is defined. *)
Definition sizes_pos (cfg : regen_cfg) : Prop :=
  (1 <= Nx_reg cfg)%Z /\ (1 <= Ny_reg cfg)%Z /\ (1 <= Nvx_reg cfg)%Z /\
  (1 <= Nvy_reg cfg)%Z /\ (1 <= Nvz_reg cfg)%Z.

(** A 5-D cell given by 1-based indices is inside the grid. *)
Definition cell_ok (cfg : regen_cfg) (ix iy ivx ivy ivz : Z) : Prop :=
  (1 <= ix <= Nx_reg cfg)%Z /\ (1 <= iy <= Ny_reg cfg)%Z /\
  (1 <= ivx <= Nvx_reg cfg)%Z /\ (1 <= ivy <= Nvy_reg cfg)%Z /\
  (1 <= ivz <= Nvz_reg cfg)%Z.

(** An MP lies in the phase-space box of half widths [|step|/2] around a
    centre. *)
Definition in_box (d : steps) (c : centre) (p : mp) : Prop :=
  Rabs (m_x p - cx c) <= Rabs (sx d) / 2 /\
  Rabs (m_y p - cy c) <= Rabs (sy d) / 2 /\
  Rabs (m_vx p - cvx c) <= Rabs (svx d) / 2 /\
  Rabs (m_vy p - cvy c) <= Rabs (svy d) / 2 /\
  Rabs (m_vz p - cvz c) <= Rabs (svz d) / 2.

(** Total charge of the MPs of a list that fall in cell [c]. *)
Definition charge_in (cfg : regen_cfg) (d : steps) (c : Z) (l : list mp) : R :=
  rsum (map m_nel (filter (fun p =>
    (mp_index cfg d (m_x p) (m_y p) (m_vx p) (m_vy p) (m_vz p) =? c)%Z) l)).

(** The random numbers lie in [0, 1). *)
Definition unit_rng (rng : nat -> R) : Prop := forall i, 0 <= rng i < 1.

(** The histogram grid of the configuration is the one built from the
    horizontal aperture and the bin width (symmetric around 0). *)
Definition hist_cfg_ok (cfg : regen_cfg) (x_ap : R) : Prop :=
  0 < Dx_hist_reg cfg /\ 0 < x_ap /\
  Nxg_hist_reg cfg = hist_grid_len x_ap (Dx_hist_reg cfg) /\
  bias_x_hist_reg cfg = hist_grid_bias x_ap (Dx_hist_reg cfg).

(** The MPs of a list that survive the horizontal cut at [x_max]. *)
Definition within_cut (x_max : R) (l : list mp) : list mp :=
  filter (fun p => Rleb (Rabs (m_x p)) x_max) l.

(** The cell sizes of a regeneration: the position range is [x_max] and the
    vertical aperture, the velocity ranges bound the velocities of [l]. *)
Definition steps_ok (cfg : regen_cfg) (x_max y_ap : R) (l : list mp) (d : steps) : Prop :=
  exists hx hy hz,
    sx d = 2 * x_max / IZR (Nx_reg cfg - 1) /\
    sy d = 2 * y_ap / IZR (Ny_reg cfg - 1) /\
    svx d = 2 * hx / IZR (Nvx_reg cfg - 1) /\
    svy d = 2 * hy / IZR (Nvy_reg cfg - 1) /\
    svz d = 2 * hz / IZR (Nvz_reg cfg - 1) /\
    0 < hx /\ 0 < hy /\ 0 < hz /\
    Forall (fun p => Rabs (m_vx p) <= hx /\ Rabs (m_vy p) <= hy /\ Rabs (m_vz p) <= hz) l.

(** A regenerated MP that stands for cell [o]. *)
Definition regenerated (cfg : regen_cfg) (c : chamber) (d : steps) (ref : R) (o : Z) (p : mp) : Prop :=
  in_box d (cell_centre cfg d o) p /\ inside c p /\
  m_nel p = ref /\ m_z p = 0 /\ m_t p = -1.

(** Number of occupied cells. *)
Definition n_cells (cfg : regen_cfg) (d : steps) (l : list mp) : nat :=
  length (nodup Z.eq_dec (map (fun p =>
    mp_index cfg d (m_x p) (m_y p) (m_vx p) (m_vy p) (m_vz p)) l)).

(** Grid sizes for which no coordinate falls out of the grid. *)
Definition good_size (N : Z) : Prop := (2 <= N)%Z /\ (N mod 4 <> 0)%Z.
Definition good_sizes (cfg : regen_cfg) : Prop :=
  good_size (Nx_reg cfg) /\ good_size (Ny_reg cfg) /\ good_size (Nvx_reg cfg) /\
  good_size (Nvy_reg cfg) /\ good_size (Nvz_reg cfg).

(** When a full regeneration is due: too many MPs, or too few while they are
    larger than at the start. *)
Definition regen_due (cfg : regen_cfg) (s : mpsys) : Prop :=
  (N_mp_regen cfg < N_mp s)%nat \/ ((N_mp s < N_mp_regen_low cfg)%nat /\ nel_mp_ref_0 s < nel_mp_ref s).
