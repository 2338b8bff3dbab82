(** Specification side of the magnetic fields of the trackers. *)
From Coq Require Import ZArith.
From Verif Require Import Num Fort SpecFort Push.

(** [b] is the value at [(x, y)] of a function [c0 + c1 x + c2 y + c3 x y] whose
    values at the nodes of the map are those of [g]. *)
Definition on_map (m : bmap) (g : grid) (x y b : R) : Prop :=
  exists (nx ny : nat) c0 c1 c2 c3, let f x y := c0 + c1 * x + c2 * y + c3 * x * y in
  bm_nx m = Z.of_nat nx /\ bm_ny m = Z.of_nat ny /\ 0 < bm_dx m /\ 0 < bm_dy m /\
  covered x (bm_x0 m) (bm_dx m) nx /\ covered y (bm_y0 m) (bm_dy m) ny /\
  (forall i j, (1 <= i <= Z.of_nat nx)%Z -> (1 <= j <= Z.of_nat ny)%Z ->
    g i j = f (bm_x0 m + (IZR i - 1) * bm_dx m) (bm_y0 m + (IZR j - 1) * bm_dy m)) /\
  b = f x y.

(** The transverse field of a magnet at [(x, y)]. *)
Definition magnet (src : bsource) (x y : R) (b : R * R) : Prop :=
  match src with
  | SrcNone => b = (0, 0)
  | SrcQuad g => b = (g * y, g * x)
  | SrcMap m => on_map m (bm_x m) x y (fst b) /\ on_map m (bm_y m) x y (snd b)
  end.
