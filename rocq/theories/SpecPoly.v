(** Specification side of polygonal chambers: plane geometry of a closed
    polygon given by its list of vertices. *)
From Verif Require Import Num Geom Poly.

(** Vertex [i], counted modulo the number of vertices. *)
Definition vert (vs : list (R * R)) (i : nat) : R * R := nth (i mod length vs) vs (0, 0).

(** Twice the signed area of the triangle [a b q]: positive when [q] is on the
    left of the directed line from [a] to [b]. *)
Definition left_of (a b q : R * R) : R :=
  (fst b - fst a) * (snd q - snd a) - (snd b - snd a) * (fst q - fst a).

(** Strictly on the left of all edges. *)
Definition inside (vs : list (R * R)) (q : R * R) : Prop :=
  forall i, (i < length vs)%nat -> 0 < left_of (vert vs i) (vert vs (i + 1)) q.

(** Strictly on the right of some edge. *)
Definition beyond (vs : list (R * R)) (q : R * R) : Prop :=
  exists i, (i < length vs)%nat /\ left_of (vert vs i) (vert vs (i + 1)) q < 0.

(** No right turns. *)
Definition left_turning (vs : list (R * R)) : Prop :=
  forall i, (i < length vs)%nat -> 0 <= left_of (vert vs i) (vert vs (i + 1)) (vert vs (i + 2)).

(** The inscribed ellipse given by the user lies inside. *)
Definition insc_ok (vs : list (R * R)) (cx cy : R) : Prop :=
  0 < cx /\ 0 < cy /\
  forall x y, x * x / (cx * cx) + y * y / (cy * cy) <= 1 -> inside vs (x, y).

(** Point of a segment and of a track. *)
Definition along (a b : R * R) (t : R) : R * R :=
  (fst a + t * (fst b - fst a), snd a + t * (snd b - snd a)).
Definition on_segment (a b q : R * R) : Prop := exists t, 0 <= t <= 1 /\ q = along a b t.

Definition t_start (k : track) : R * R := (t_xin k, t_yin k).
Definition t_end (k : track) : R * R := (t_xout k, t_yout k).
Definition h_pt (h : hit) : R * R := (h_x h, h_y h).

(** The first crossing of the track with the outline is at [t] on edge [i]. *)
Definition first_crossing (vs : list (R * R)) (k : track) (t : R) (i : nat) : Prop :=
  0 < t < 1 /\ (i < length vs)%nat /\
  on_segment (vert vs i) (vert vs (i + 1)) (along (t_start k) (t_end k) t) /\
  forall u, 0 <= u < t -> inside vs (along (t_start k) (t_end k) u).

(** [(nx, ny)] is the unit vector perpendicular to the edge from [a] to [b],
    pointing to its left. *)
Definition left_normal (a b : R * R) (nx ny : R) : Prop :=
  nx * nx + ny * ny = 1 /\
  exists l, 0 < l /\ forall q, left_of a b q = l * (nx * (fst q - fst a) + ny * (snd q - snd a)).

(** Signed area (shoelace formula). *)
Definition shoelace (vs : list (R * R)) : R :=
  (1/2) * rsum (map (fun i => fst (vert vs i) * snd (vert vs (i + 1)) - fst (vert vs (i + 1)) * snd (vert vs i))
                (seq 0 (length vs))).

Definition edge_len (vs : list (R * R)) (i : nat) : R :=
  sqrt ((fst (vert vs (i + 1)) - fst (vert vs i)) * (fst (vert vs (i + 1)) - fst (vert vs i)) +
        (snd (vert vs (i + 1)) - snd (vert vs i)) * (snd (vert vs (i + 1)) - snd (vert vs i))).

(** A point of the outline. *)
Definition on_outline_of (vs : list (R * R)) (q : R * R) : Prop :=
  exists i, (i < length vs)%nat /\ on_segment (vert vs i) (vert vs (i + 1)) q.
