(** Inside and outside of a closed polygon, convex or not. *)
From Verif Require Import Num Geom Poly SpecPoly.

(** The horizontal ray from [q] to the right crosses the edge from [a] to [b].
    The lower end of an edge belongs to it, the upper end does not. *)
Definition crossed (a b q : R * R) : Prop :=
  (snd a <= snd q < snd b /\ 0 < left_of a b q) \/ (snd b <= snd q < snd a /\ left_of a b q < 0).

(** An odd number of edges is crossed. *)
Definition enclosed (vs : list (R * R)) (q : R * R) : Prop :=
  exists l, NoDup l /\ (forall i, In i l <-> (i < length vs)%nat /\ crossed (vert vs i) (vert vs (i + 1)) q) /\ Nat.Odd (length l).

(** The straight way from [a] to [b] does not touch the outline. *)
Definition free (vs : list (R * R)) (a b : R * R) : Prop := forall t, 0 <= t <= 1 -> ~ on_outline_of vs (along a b t).

(** There is a way from [a] to [b], made of straight pieces, that does not touch
    the outline. *)
Inductive joined (vs : list (R * R)) : R * R -> R * R -> Prop :=
| joined_here a : joined vs a a
| joined_step a b c : free vs a b -> joined vs b c -> joined vs a c.

(** Off the smallest box around the vertices. *)
Definition off_box (vs : list (R * R)) (q : R * R) : Prop :=
  (forall v, In v vs -> fst v < fst q) \/ (forall v, In v vs -> fst q < fst v) \/
  (forall v, In v vs -> snd v < snd q) \/ (forall v, In v vs -> snd q < snd v).

(** The inscribed ellipse, and that it neither touches the outline nor lies
    outside. *)
Definition in_insc_ell (cx cy : R) (q : R * R) : Prop := fst q * fst q / (cx * cx) + snd q * snd q / (cy * cy) <= 1.
Definition insc_clear (vs : list (R * R)) (cx cy : R) : Prop :=
  0 < cx /\ 0 < cy /\ (forall q, in_insc_ell cx cy q -> ~ on_outline_of vs q) /\ enclosed vs (0, 0).

(** Every vertex is strictly on the left of the edges it does not belong to. *)
Definition strictly_convex (vs : list (R * R)) : Prop :=
  (3 <= length vs)%nat /\
  forall i k, (i < length vs)%nat -> (k < length vs)%nat -> k <> i -> k <> ((i + 1) mod length vs)%nat ->
    0 < left_of (vert vs i) (vert vs (i + 1)) (vert vs k).
