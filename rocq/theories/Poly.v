(** Model of the polygonal chamber: geom_impact_poly_fast_impact.py,
    geom_impact_poly_cython.pyx and geom_impact_rect_fast_impact.py.
    No proofs in this file. *)
From Verif Require Import Num Geom.

(** The fields of a [polyg_cham_geom_object] used below.  [Vx], [Vy] hold the
    vertices with the first one repeated at the end.  A normal is [None] where
    numpy gives NaN (0/0 for an edge of zero length). *)
Record poly := mkPoly {
  Vx : list R; Vy : list R; Nrm : list (option (R * R)); N_edg : nat;
  p_cx : R; p_cy : R; assume_convex : bool; p_area : R }.

(** Coordinates by index ([Vx[ii]]; the indices used are within bounds). *)
Definition vx (p : poly) (i : nat) : R := nth i (Vx p) 0.
Definition vy (p : poly) (i : nat) : R := nth i (Vy p) 0.

(** [np.diff]. *)
Fixpoint np_diff (l : list R) : list R :=
  match l with
  | a :: ((b :: _) as l') => (b - a) :: np_diff l'
  | _ => []
  end.

(** geom_impact_poly_fast_impact.py:285-318 on the closed vertex arrays. *)
Definition turn (Vx Vy : list R) (n A : nat) : R :=
  let B := ((A + 1) mod n)%nat in
  let C := ((B + 1) mod n)%nat in
  let BAx := nth A Vx 0 - nth B Vx 0 in
  let BAy := nth A Vy 0 - nth B Vy 0 in
  let BCx := nth C Vx 0 - nth B Vx 0 in
  let BCy := nth C Vy 0 - nth B Vy 0 in
  BAx * BCy - BAy * BCx.

Fixpoint convex_loop (cs : list R) (neg pos : bool) : bool :=
  match cs with
  | [] => true
  | c :: cs' =>
      let neg := neg || Rltb c 0 in
      let pos := pos || (negb (Rltb c 0) && Rgtb c 0) in
      if neg && pos then false else convex_loop cs' neg pos
  end.

Definition is_convex (Vx Vy : list R) (n : nat) : bool :=
  convex_loop (map (turn Vx Vy n) (seq 0 n)) false false.

(** geom_impact_poly_fast_impact.py:110: [-0.5*sum((Vy[1:]+Vy[:-1])*(Vx[1:]-Vx[:-1]))]. *)
Definition poly_area (Vx Vy : list R) : R :=
  - (1/2) * rsum (map2 (fun s d => s * d)
     (map2 Rplus (tl Vy) (removelast Vy)) (np_diff Vx)).

(** geom_impact_poly_fast_impact.py:118-123, one edge. *)
Definition edge_normal (dx dy : R) : option (R * R) :=
  let n := sqrt ((- dy) * (- dy) + dx * dx) in
  if Reqb n 0 then None else Some (- dy / n, dx / n).

(** geom_impact_poly_fast_impact.py:71-162.  [None] is an exception: a zero
    length edge (line 91), a negative area (line 115), an outline that looks
    not convex (line 155), or an [IndexError] for an empty vertex list.
    [Vx] and [Vy] have the same length (otherwise numpy raises at line 91 or
    110, which is not modelled).  File loading, printing, the per-segment SEY
    tables and the aperture bounding box are not modelled. *)
Definition poly_ctor (vxs vys : list R) (cx cy : R) (assume_cvx : bool) : option poly :=
  if existsb (fun d => Rltb d (1 / 10^9))
       (map2 (fun dx dy => sqrt (dx * dx + dy * dy)) (np_diff vxs) (np_diff vys))
  then None
  else match vxs, vys with
  | x0 :: _, y0 :: _ =>
      let Vx := vxs ++ [x0] in
      let Vy := vys ++ [y0] in
      let area := poly_area Vx Vy in
      if Rltb area 0 then None
      else
        let N := map2 edge_normal (np_diff Vx) (np_diff Vy) in
        if assume_cvx && negb (is_convex Vx Vy (length vxs)) then None
        else Some (mkPoly Vx Vy N (length vxs) cx cy assume_cvx area)
  | _, _ => None
  end.

(** geom_impact_poly_cython.pyx:105: which side of edge [ii]. *)
Definition side (p : poly) (ii : nat) (x y : R) : R :=
  (y - vy p ii) * (vx p (ii + 1) - vx p ii) - (x - vx p ii) * (vy p (ii + 1) - vy p ii).

(** geom_impact_poly_cython.pyx:79-110. *)
Definition in_insc (p : poly) (x y : R) : bool :=
  Rleb ((x / p_cx p) * (x / p_cx p) + (y / p_cy p) * (y / p_cy p)) 1.

Fixpoint conv_loop (p : poly) (is : list nat) (x y : R) : bool :=
  match is with
  | [] => true
  | ii :: is' => if Rgtb (side p ii x y) 0 then conv_loop p is' x y else false
  end.

Definition outside_convex (p : poly) (x y : R) : bool :=
  negb (in_insc p x y || conv_loop p (seq 0 (N_edg p)) x y).

(** geom_impact_poly_cython.pyx:116-151; [jj] is the previous index.  The
    division is only made when the two vertices have different [Vy]. *)
Fixpoint odd_loop (p : poly) (is : list nat) (jj : nat) (x y : R) (inside : bool) : bool :=
  match is with
  | [] => inside
  | ii :: is' =>
      let b1 := Rgtb (vy p ii) y in let b2 := Rgtb (vy p jj) y in
      let cross := if Bool.eqb b1 b2 then false
                   else Rltb x ((vx p jj - vx p ii) * (y - vy p ii) / (vy p jj - vy p ii) + vx p ii) in
      odd_loop p is' ii x y (if cross then negb inside else inside)
  end.

Definition outside_nonconvex (p : poly) (x y : R) : bool :=
  negb (in_insc p x y || odd_loop p (seq 0 (N_edg p)) (N_edg p - 1) x y false).

(** geom_impact_poly_fast_impact.py:150-162, 164-165. *)
Definition p_outside (p : poly) (x y : R) : bool :=
  if assume_convex p then outside_convex p x y else outside_nonconvex p x y.

(** geom_impact_poly_cython.pyx:43-65: one edge in the search for the first
    crossing; the state is [(t_min_curr, i_found_curr)].  A NaN normal makes
    both comparisons false. *)
Definition hit_step (p : poly) (k : track) (st : R * option nat) (ii : nat) : R * option nat :=
  let '(t_min, found) := st in
  let xi := t_xin k in let yi := t_yin k in let xo := t_xout k in let yo := t_yout k in
  let den := (yo - yi) * (vx p (ii + 1) - vx p ii) + (xi - xo) * (vy p (ii + 1) - vy p ii) in
  let t_border := if Reqb den 0 then -2
    else ((yo - yi) * (xi - vx p ii) + (xi - xo) * (yi - vy p ii)) / den in
  if Rgeb t_border 0 && Rleb t_border 1 then
    match nth ii (Nrm p) None with
    | None => st
    | Some (nx, ny) =>
        let t := (nx * (vx p ii - xi) + ny * (vy p ii - yi)) / (nx * (xo - xi) + ny * (yo - yi)) in
        if Rgeb t 0 && Rltb t t_min then (t, Some ii) else st
    end
  else st.

Definition hit_search (p : poly) (k : track) : R * option nat :=
  fold_left (hit_step p k) (seq 0 (N_edg p)) (1, None).

(** geom_impact_poly_cython.pyx:33-73, one impact: point, normal and segment
    index.  When no edge is found the normal stays (0, 0) and the index 0. *)
Definition hit_cython (p : poly) (resc_fac : R) (k : track) : hit * nat :=
  let '(t_min, found) := hit_search p k in
  let t := resc_fac * t_min in
  let x := t * t_xout k + (1 - t) * t_xin k in
  let y := t * t_yout k + (1 - t) * t_yin k in
  match found with
  | Some ii =>
      match nth ii (Nrm p) None with
      | Some (nx, ny) => (mkHit x y 0 nx ny, ii)
      | None => (mkHit x y 0 0 0, ii)
      end
  | None => (mkHit x y 0 0 0, 0%nat)
  end.

(** geom_impact_poly_fast_impact.py:168-283 with [flag_robust = True].  All
    indices returned by the Cython routine are [>= 0], so the branch at lines
    179-225 is never taken.  [None] is the exception of line 281.  Counters
    and error reports are not modelled. *)
Definition poly_impact (p : poly) (resc_fac : R) (ks : list track) : option (list (hit * nat)) :=
  let hs := map (fun k =>
     let '(h, i) := hit_cython p resc_fac k in
     if p_outside p (h_x h) (h_y h)
     then (mkHit (t_xin k) (t_yin k) (h_z h) (h_nx h) (h_ny h), i) else (h, i)) ks in
  if existsb (fun hi => p_outside p (h_x (fst hi)) (h_y (fst hi))) hs then None else Some hs.

(** geom_impact_rect_fast_impact.py:59-70. *)
Definition rect_ctor (xa ya : R) (assume_cvx : bool) : option poly :=
  poly_ctor [xa; - xa; - xa; xa] [ya; ya; - ya; - ya] ((99/100) * xa) ((99/100) * ya) assume_cvx.

(** geom_impact_poly_fast_impact.py:326-341, one edge.  For a
    zero-length edge the quotient of the last two branches is infinite and
    the comparison false. *)
Definition on_edge1 (x y dx dy vx vy : R) : bool :=
  if Reqb x vx && Reqb y vy then true
  else if negb (Reqb dx 0) && negb (Reqb dy 0) then
    let a := (x - vx) / dx in
    let b := (y - vy) / dy in
    Reqb a b && (Rleb 0 a && Rleb a 1)
  else if Reqb dx 0 && Reqb x vx then
    if Reqb dy 0 then false else let b := (y - vy) / dy in Rleb 0 b && Rleb b 1
  else if Reqb dy 0 && Reqb y vy then
    if Reqb dx 0 then false else let a := (x - vx) / dx in Rleb 0 a && Rleb a 1
  else false.

(** geom_impact_poly_fast_impact.py:320-342 (lines 324-342; [zip] stops at the
    shorter list). *)
Definition vertex_is_on_edge (p : poly) (x y : R) : bool :=
  existsb (fun '((dx, dy), (vx, vy)) => on_edge1 x y dx dy vx vy)
    (combine (combine (np_diff (Vx p)) (np_diff (Vy p))) (combine (Vx p) (Vy p))).

(** geom_impact_poly_fast_impact.py:344-352. *)
Definition vertexes_are_subset (p other : poly) : bool :=
  forallb (fun '(x, y) => vertex_is_on_edge p x y) (combine (Vx other) (Vy other)) &&
  forallb (fun '(x, y) => vertex_is_on_edge other x y) (combine (Vx p) (Vy p)).
