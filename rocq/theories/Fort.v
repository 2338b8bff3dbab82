(** Models of the Fortran kernels that accumulate on and read from grids. *)
From Verif Require Import Num.

(** compute_hist.f:30-46.  One iteration of the particle loop.  [None] models
    a write outside the bounds of [hist] (the kernel has no lower guard). *)
Definition hist_one (bias Dx : R) (hist : list R) (xw : R * R)
  : option (list R) :=
  let (x, w) := xw in
  let fi := 1 + (x - bias) / Dx in
  let i := rtrunc fi in
  let hx := fi - IZR i in
  let Nxg := Z.of_nat (length hist) in
  if (i <? Nxg)%Z then
    do h1 <- for_add hist i (w * (1 - hx)) ;
    for_add h1 (i + 1) (w * hx)
  else for_add hist Nxg w.

(** compute_hist.f:27-48.  The loop over particles. *)
Fixpoint compute_hist (xs : list (R * R)) (bias Dx : R) (hist : list R)
  : option (list R) :=
  match xs with
  | [] => Some hist
  | xw :: xs' =>
      do h <- hist_one bias Dx hist xw ;
      compute_hist xs' bias Dx h
  end.

(** Two-dimensional Fortran arrays [rho(Nxg,Nyg)]: functions of the two
    1-based indices. *)
Definition grid := Z -> Z -> R.

(** A particle seen by the deposition kernel. *)
Record part := mkPart { p_x : R; p_y : R; p_w : R }.

(** compute_rho.f:38-45 and interp_field_for.f:37-44: cell index and
    fractional position along one direction. *)
Definition cell_i (x bias D : R) : Z := rtrunc (1 + (x - bias) / D).
Definition cell_h (x bias D : R) : R :=
  1 + (x - bias) / D - IZR (cell_i x bias D).

(** compute_rho.f:49 and interp_field_for.f:48: the guard. *)
Definition in_grid (Nxg Nyg i j : Z) : bool :=
  ((0 <? i) && (0 <? j) && (i <? Nxg) && (j <? Nyg))%Z.

(** One array element update [rho(i,j) = rho(i,j) + w]. *)
Definition gadd (rho : grid) (i j : Z) (w : R) : grid :=
  fun a b => if ((a =? i) && (b =? j))%Z then rho a b + w else rho a b.

(** compute_rho.f:35-57.  One iteration of the deposition loop. *)
Definition rho_one (bx by_ Dh : R) (Nxg Nyg : Z) (rho : grid) (p : part)
  : grid :=
  let i := cell_i (p_x p) bx Dh in
  let hx := cell_h (p_x p) bx Dh in
  let j := cell_i (p_y p) by_ Dh in
  let hy := cell_h (p_y p) by_ Dh in
  let w := p_w p in
  if in_grid Nxg Nyg i j then
    let rho := gadd rho i j (w * (1 - hx) * (1 - hy)) in
    let rho := gadd rho (i + 1) j (w * hx * (1 - hy)) in
    let rho := gadd rho i (j + 1) (w * (1 - hx) * hy) in
    gadd rho (i + 1) (j + 1) (w * hx * hy)
  else rho.

(** compute_rho.f:27-58.  [rho] is zeroed and all particles are deposited. *)
Definition compute_rho (bx by_ Dh : R) (Nxg Nyg : Z) (ps : list part) : grid :=
  fold_left (rho_one bx by_ Dh Nxg Nyg) ps (fun _ _ => 0).

(** interp_field_for.f:35-58, one component for one particle.  Outside the
    grid the output element is not assigned; f2py hands out zero-initialised
    [intent(out)] arrays, so it is 0. *)
Definition interp_one (bx by_ dx dy : R) (Nxg Nyg : Z) (ef : grid) (x y : R) : R :=
  let i := cell_i x bx dx in
  let hx := cell_h x bx dx in
  let j := cell_i y by_ dy in
  let hy := cell_h y by_ dy in
  if in_grid Nxg Nyg i j then
    ef i j * (1 - hx) * (1 - hy)
    + ef (i + 1)%Z j * hx * (1 - hy)
    + ef i (j + 1)%Z * (1 - hx) * hy
    + ef (i + 1)%Z (j + 1)%Z * hx * hy
  else 0.

(** interp_field_for.f:35-58: both components for all particles. *)
Definition int_field (bx by_ dx dy : R) (Nxg Nyg : Z) (efx efy : grid)
  (pos : list (R * R)) : list (R * R) :=
  map (fun q => (interp_one bx by_ dx dy Nxg Nyg efx (fst q) (snd q),
                 interp_one bx by_ dx dy Nxg Nyg efy (fst q) (snd q))) pos.

(** update_seg_impact.f:24-37.  Segment indices are 0-based integers as
    produced by the chamber (-1 when not found). *)
Definition seg_one (hist : list R) (iw : Z * R) : list R :=
  let (iseg, w) := iw in
  let i := (iseg + 1)%Z in
  if ((i <=? Z.of_nat (length hist)) && (1 <=? i))%Z
  then upd_nth hist (Z.to_nat (i - 1)) (fun h => h + w)
  else hist.

Definition update_seg_impact (iws : list (Z * R)) (hist : list R) : list R :=
  fold_left seg_one iws hist.
