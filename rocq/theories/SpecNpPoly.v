(** Specification side of the numpy polygonal chamber. *)
From Verif Require Import Num Geom Poly SpecPoly.

(** The track reaches the outline for the first time at [t], on edge [i]; its
    end may be on the outline. *)
Definition first_touch (vs : list (R * R)) (k : track) (t : R) (i : nat) : Prop :=
  0 < t <= 1 /\ (i < length vs)%nat /\
  on_segment (vert vs i) (vert vs (i + 1)) (along (t_start k) (t_end k) t) /\
  forall u, 0 <= u < t -> inside vs (along (t_start k) (t_end k) u).

(** Edge [i] is the only edge that contains the point. *)
Definition only_edge (vs : list (R * R)) (q : R * R) (i : nat) : Prop :=
  forall j, (j < length vs)%nat -> on_segment (vert vs j) (vert vs (j + 1)) q -> j = i.
