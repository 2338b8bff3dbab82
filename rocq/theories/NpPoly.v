(** Model of geom_impact_poly.py, the numpy implementation of the polygonal
    chamber.  No proofs in this file. *)
From Verif Require Import Num Geom Poly.

(** geom_impact_poly.py:60-122.  The outline is taken as it is: there is no
    test of the length of the edges, of the orientation or of convexity.
    [None] is the [IndexError] of lines 86-87 for an empty vertex list.  The
    object has neither an area nor an [assume_convex] flag: the two fields of
    the record get fixed values.  File loading, the per-segment SEY tables,
    the aperture and the error file are not modelled. *)
Definition np_ctor (vxs vys : list R) (cx cy : R) : option poly :=
  match vxs, vys with
  | x0 :: _, y0 :: _ =>
      let Vx := vxs ++ [x0] in
      let Vy := vys ++ [y0] in
      let N := map2 edge_normal (np_diff Vx) (np_diff Vy) in
      Some (mkPoly Vx Vy N (length vxs) cx cy true 0)
  | _, _ => None
  end.

(** geom_impact_poly.py:130-145 for one particle; [flag_inside_chk] is only
    recomputed while it is still true (lines 140-142). *)
Definition np_outside (p : poly) (x y : R) : bool :=
  let flag_outside := Rgtb ((x / p_cx p) * (x / p_cx p) + (y / p_cy p) * (y / p_cy p)) 1 in
  if flag_outside then
    let flag_inside := fold_left (fun (b : bool) ii => if b then Rgtb (side p ii x y) 0 else b) (seq 0 (N_edg p)) true in
    negb flag_inside
  else false.

(** geom_impact_poly.py:157-158.  [None] stands for the infinite and NaN
    quotients, for which the comparisons of lines 160 and 165 do not change
    anything (NaN and minus infinity fail [>= 0], plus infinity fails
    [< t_min], none equals the finite [t_min]). *)
Definition t_curr (p : poly) (k : track) (ii : nat) : option R :=
  let xi := t_xin k in let yi := t_yin k in let xo := t_xout k in let yo := t_yout k in
  match nth ii (Nrm p) None with
  | None => None
  | Some (nx, ny) =>
      let den := nx * (xo - xi) + ny * (yo - yi) in
      if Reqb den 0 then None
      else Some ((nx * (vx p ii - xi) + ny * (vy p ii - yi)) / den)
  end.

(** geom_impact_poly.py:168-170.  An infinite or NaN [t_border] fails one of
    the two comparisons. *)
Definition on_border (p : poly) (k : track) (ii : nat) : bool :=
  let xi := t_xin k in let yi := t_yin k in let xo := t_xout k in let yo := t_yout k in
  let den := (yo - yi) * (vx p (ii + 1) - vx p ii) + (xi - xo) * (vy p (ii + 1) - vy p ii) in
  if Reqb den 0 then false
  else
    let t_border := ((yo - yi) * (xi - vx p ii) + (xi - xo) * (yi - vy p ii)) / den in
    Rgeb t_border 0 && Rleb t_border 1.

(** geom_impact_poly.py:156-171: one edge; the state is
    [(t_min, mask_found, i_found)]. *)
Definition np_step (p : poly) (k : track) (st : R * bool * Z) (ii : nat) : R * bool * Z :=
  let '(t_min, found, i_found) := st in
  match t_curr p k ii with
  | None => st
  | Some t =>
      let upd := Rgeb t 0 && Rltb t t_min in
      let t_min := if upd then t else t_min in
      let found := upd || found in
      let i_found := if upd then Z.of_nat ii else i_found in
      let i_found := if Reqb t t_min && on_border p k ii then Z.of_nat ii else i_found in
      (t_min, found, i_found)
  end.

(** geom_impact_poly.py:150-171. *)
Definition np_search (p : poly) (k : track) : R * bool * Z :=
  fold_left (np_step p k) (seq 0 (N_edg p)) (1 + 1, false, (-1)%Z).

(** geom_impact_poly.py:190-204: "some kind of normal". *)
Definition np_fallback (p : poly) (x y : R) : R * R :=
  let par := arctan2 (p_cx p * y) (p_cy p * x) in
  let Dx := - p_cx p * sin par in
  let Dy := p_cy p * cos par in
  let Nx := - Dy in
  let Ny := Dx in
  if Rgtb (Nx * x + Ny * y) 0 then (- Nx, - Ny) else (Nx, Ny).

(** geom_impact_poly.py:173-225 for one impact.  A NaN normal is returned as
    (0, 0); it is never selected since the quotient of line 157 is then NaN
    too. *)
Definition np_hit (p : poly) (resc_fac : R) (k : track) : hit * Z :=
  let '(t_min, found, i_found) := np_search p k in
  let t := resc_fac * t_min in
  let x := t * t_xout k + (1 - t) * t_xin k in
  let y := t * t_yout k + (1 - t) * t_yin k in
  if found then
    match nth (Z.to_nat i_found) (Nrm p) None with
    | Some (nx, ny) => (mkHit x y 0 nx ny, i_found)
    | None => (mkHit x y 0 0 0, i_found)
    end
  else
    let '(nx, ny) := np_fallback p (t_xin k) (t_yin k) in
    (mkHit (t_xin k) (t_yin k) 0 nx ny, i_found).

(** geom_impact_poly.py:147-288; [robust] is [flag_robust].  [None] is the
    [ValueError] of line 286.  Counters and error reports are not modelled. *)
Definition np_impact (p : poly) (resc_fac : R) (robust : bool) (ks : list track) : option (list (hit * Z)) :=
  let hs := map (np_hit p resc_fac) ks in
  if robust then
    let hs := map2 (fun k hi =>
       let '(h, i) := hi in
       if np_outside p (h_x h) (h_y h)
       then (mkHit (t_xin k) (t_yin k) (h_z h) (h_nx h) (h_ny h), i) else (h, i)) ks hs in
    if existsb (fun hi => np_outside p (h_x (fst hi)) (h_y (fst hi))) hs then None else Some hs
  else Some hs.
