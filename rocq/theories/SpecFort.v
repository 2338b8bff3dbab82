(** Specification side of the grid kernels: the hat (linear B-spline)
    function and sums over the nodes of a grid. *)
From Verif Require Import Num Fort.

(** Piecewise linear hat: 1 at 0, 0 outside (-1, 1). *)
Definition hat (t : R) : R := Rmax 0 (1 - Rabs t).

(** The integers 1..n. *)
Definition nodes (n : nat) : list Z := map (fun k => Z.of_nat (S k)) (seq 0 n).

(** Sum of a function over the nodes of an [n] x [m] grid. *)
Definition node_sum (n m : nat) (f : Z -> Z -> R) : R :=
  rsum (map (fun i => rsum (map (fun j => f i j) (nodes m))) (nodes n)).

(** A coordinate lies in the range covered by [n] nodes starting at [b] with
    spacing [d] (right end excluded). *)
Definition covered (x b d : R) (n : nat) : Prop :=
  b <= x /\ x < b + (INR n - 1) * d.

(** Share of the sample [xw = (position, weight)] that belongs to bin [k]
    (counted from 0, centred at [b + k*d]) of a histogram of [n] bins:
    linear sharing inside the range, everything in the last bin above it. *)
Definition bin_share (b d : R) (n k : nat) (xw : R * R) : R :=
  if Rlt_dec (fst xw) (b + (INR n - 1) * d)
  then snd xw * hat ((fst xw - (b + INR k * d)) / d)
  else if Nat.eq_dec k (n - 1) then snd xw else 0.

(** Share of the charge of particle [p] that belongs to node [(i,j)]
    (1-based) of a square-cell grid with corner [(bx,by_)]. *)
Definition node_share (bx by_ d : R) (i j : Z) (p : part) : R :=
  p_w p * hat ((p_x p - (bx + (IZR i - 1) * d)) / d)
        * hat ((p_y p - (by_ + (IZR j - 1) * d)) / d).

Definition in_range (bx by_ d : R) (n m : nat) (p : part) : Prop :=
  covered (p_x p) bx d n /\ covered (p_y p) by_ d m.
