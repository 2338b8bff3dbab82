(** Specification side of the electric energy. *)
From Verif Require Import Num Sim.
Local Open Scope list_scope.
Local Open Scope R_scope.

(** Left edge of cell [i]: cells of width [h] from a point 1% left of [-a]. *)
Definition edge (a h : R) (i : nat) : R := - (101/100 * a) + INR i * h.

(** [n] cells cover the interval up to a point 1% right of [a], each number
    lies in one cell, and the last cell starts inside the interval. *)
Definition cells (a h : R) (n : nat) : Prop :=
  (forall s, - (101/100 * a) <= s < 101/100 * a -> exists! i, (i < n)%nat /\ edge a h i <= s < edge a h i + h) /\
  (forall i, (i < n)%nat -> edge a h i < 101/100 * a).

(** Sum of the squared field over the [nx] by [ny] cell corners. *)
Definition field_squares (f : R -> R -> R * R) (a b h : R) (nx ny : nat) : R :=
  rsum (map (fun i => rsum (map (fun j => let '(ex, ey) := f (edge a h i) (edge b h j) in ex * ex + ey * ey) (seq 0 ny))) (seq 0 nx)).
(** Energy in eV: half the vacuum permittivity times the squared field, summed
    over the cells. *)
Definition field_energy (eps0 qe : R) (f : R -> R -> R * R) (a b h : R) (nx ny : nat) : R :=
  eps0 / (2 * qe) * (field_squares f a b h nx ny * (h * h)).
