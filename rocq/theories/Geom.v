(** Model of geom_impact_ellip.py.  No proofs in this file. *)
From Verif Require Import Num.

(** The arguments of one impact: start and end point of the track. *)
Record track := mkTrack { t_xin : R; t_yin : R; t_zin : R; t_xout : R; t_yout : R; t_zout : R }.

(** What [impact_point_and_normal] returns for one impact; the segment index
    is kept aside. *)
Record hit := mkHit { h_x : R; h_y : R; h_z : R; h_nx : R; h_ny : R }.

(** [numpy.arctan2 y x] (signed zeros are not modelled). *)
Definition arctan2 (y x : R) : R :=
  if Rltb 0 x then atan (y / x)
  else if Rltb x 0 then (if Rltb y 0 then atan (y / x) - PI else atan (y / x) + PI)
  else if Rltb 0 y then PI / 2
  else if Rltb y 0 then - (PI / 2)
  else 0.

(** geom_impact_ellip.py:56-73: the chamber, reduced to its semi-axes. *)
Record ellip := mkEllip { e_a : R; e_b : R }.

(** geom_impact_ellip.py:75-76, also lines 134, 144, 148, 172. *)
Definition ell_q (e : ellip) (x y : R) : R :=
  (x / e_a e) * (x / e_a e) + (y / e_b e) * (y / e_b e).
Definition ell_outside (e : ellip) (x y : R) : bool := Rgeb (ell_q e x y) 1.

(** geom_impact_ellip.py:95-107.  The larger root of the intersection
    equation.  [NaN] (square root of a negative number, or 0/0 when the two
    points coincide: the numerator is then 0 as well) is replaced by 0 as at
    line 110.  The error file is not modelled. *)
Definition ell_root (e : ellip) (k : track) : R :=
  let a := e_a e in let b := e_b e in
  let xi := t_xin k in let yi := t_yin k in let xo := t_xout k in let yo := t_yout k in
  let disc :=
    a^4 * b^2 * (yi * yi) - 2 * a^4 * b^2 * (yi * yo) + a^4 * b^2 * (yo * yo)
    + a^2 * b^4 * (xi * xi) - 2 * a^2 * b^4 * (xi * xo) + a^2 * b^4 * (xo * xo)
    - a^2 * b^2 * (xi * xi) * (yo * yo) + 2 * a^2 * b^2 * (xi * xo) * (yi * yo)
    - a^2 * b^2 * (xo * xo) * (yi * yi) in
  let den := a^2 * (yi * yi) - 2 * a^2 * (yi * yo) + a^2 * (yo * yo)
    + b^2 * (xi * xi) - 2 * b^2 * (xi * xo) + b^2 * (xo * xo) in
  if Rltb disc 0 then 0
  else if Reqb den 0 then 0
  else (a^2 * (yi * yi) - a^2 * (yi * yo) + sqrt disc + b^2 * (xi * xi) - b^2 * (xi * xo)) / den.

(** geom_impact_ellip.py:119-124.  The comparison of line 123 is false when
    the end point is the origin (division by zero gives NaN or infinity). *)
Definition ell_t0 (e : ellip) (resc_fac : R) (k : track) : R :=
  let t0 := resc_fac * ell_root e k in
  let t0 := if Rltb t0 (1 / 100) then 0 else t0 in
  let dx := t_xin k - t_xout k in let dy := t_yin k - t_yout k in
  let r2 := t_xout k * t_xout k + t_yout k * t_yout k in
  if Reqb r2 0 then t0
  else if Rltb ((dx * dx + dy * dy) / r2) (1 / 10^8) then 0 else t0.

(** geom_impact_ellip.py:130-132, 140-142. *)
Definition on_track (k : track) (t : R) : R * R * R :=
  (t * t_xout k + (1 - t) * t_xin k, t * t_yout k + (1 - t) * t_yin k, t * t_zout k + (1 - t) * t_zin k).

Definition ell_flag (e : ellip) (k : track) (t : R) : bool :=
  let '(x, y, _) := on_track k t in Rgtb (ell_q e x y) 1.

(** geom_impact_ellip.py:136-145: the loop over the whole array.  It stops
    when no MP is flagged or after [n] rounds. *)
Fixpoint ell_shrink (n : nat) (e : ellip) (kt : list (track * R)) : list (track * R) :=
  match n with
  | O => kt
  | S n' =>
      if existsb (fun p => ell_flag e (fst p) (snd p)) kt
      then ell_shrink n' e (map (fun p => (fst p, if ell_flag e (fst p) (snd p) then (9/10) * snd p else snd p)) kt)
      else kt
  end.

(** geom_impact_ellip.py:148-170: projection of what is still outside. *)
Definition ell_project (e : ellip) (p : R * R * R) : R * R * R :=
  let '(x, y, z) := p in
  if Rgeb (ell_q e x y) 1 then
    let xp := x / e_a e in let yp := y / e_b e in
    let rp := sqrt (xp * xp + yp * yp) in
    ((99/100) * xp / rp * e_a e, (99/100) * yp / rp * e_b e, z)
  else p.

(** geom_impact_ellip.py:177-193. *)
Definition ell_normal (e : ellip) (p : R * R * R) : hit :=
  let '(x, y, z) := p in
  let par := arctan2 (e_a e * y) (e_b e * x) in
  let Dx := - e_a e * sin par in
  let Dy := e_b e * cos par in
  let Nx := - Dy in let Ny := Dx in
  let neg := Rgtb (Nx * x + Ny * y) 0 in
  let Nx := if neg then - Nx else Nx in
  let Ny := if neg then - Ny else Ny in
  let nor := sqrt (Nx * Nx + Ny * Ny) in
  mkHit x y z (Nx / nor) (Ny / nor).

(** geom_impact_ellip.py:81-197 with [flag_robust = True].  [None] is the
    [ValueError] of line 175.  The complex test of line 126 never fires (all
    numbers are real).  The counters [N_mp_impact] and [N_mp_corrected] are
    not modelled; the returned segment index is [None] for every impact. *)
Definition ell_impact (e : ellip) (resc_fac : R) (ks : list track) : option (list hit) :=
  let kt := map (fun k => (k, ell_t0 e resc_fac k)) ks in
  let pts := map (fun p => on_track (fst p) (snd p)) (ell_shrink 10 e kt) in
  let pts := map (ell_project e) pts in
  if existsb (fun p => let '(x, y, _) := p in Rgeb (ell_q e x y) 1) pts then None
  else Some (map (ell_normal e) pts).
