(** C77. *)
From Coq Require Import Lra Lia Reals.
From Verif Require Import Num NumFacts Geom SpecGeom GeomFacts Poly SpecPoly PolyGeo PolyFacts ExGeom SpecRay RayFacts ExRay.

(** The test for chambers that need not be convex: inside are the points of the
    inscribed ellipse and those from which a ray to the right crosses the outline
    an odd number of times. *)
Theorem C77_test : forall vs cx cy p, poly_ctor (map fst vs) (map snd vs) cx cy false = Some p ->
  forall x y, 0 < cx -> 0 < cy -> (p_outside p x y = false <-> in_insc_ell cx cy (x, y) \/ enclosed vs (x, y)).
Proof. exact ray_test. Qed.
Print Assumptions C77_test.

(** Whatever can be reached from the centre without touching the outline is inside. *)
Theorem C77_inside : forall vs cx cy p, poly_ctor (map fst vs) (map snd vs) cx cy false = Some p ->
  forall q, insc_clear vs cx cy -> joined vs (0, 0) q -> p_outside p (fst q) (snd q) = false.
Proof. exact ray_centre. Qed.
Print Assumptions C77_inside.

(** Whatever can leave the box around the chamber without touching the outline
    is outside. *)
Theorem C77_outside : forall vs cx cy p, poly_ctor (map fst vs) (map snd vs) cx cy false = Some p ->
  forall q far, insc_clear vs cx cy -> off_box vs far -> joined vs q far -> p_outside p (fst q) (snd q) = true.
Proof. exact ray_far. Qed.
Print Assumptions C77_outside.

(** The answer changes only across the outline. *)
Theorem C77_constant : forall vs cx cy p, poly_ctor (map fst vs) (map snd vs) cx cy false = Some p ->
  forall q q', insc_clear vs cx cy -> joined vs q q' -> p_outside p (fst q) (snd q) = p_outside p (fst q') (snd q').
Proof. exact ray_joined. Qed.
Print Assumptions C77_constant.

(** For a convex chamber the two tests agree off the outline. *)
Theorem C77_convex : forall vs, strictly_convex vs ->
  (forall q, inside vs q -> enclosed vs q) /\ (forall q, beyond vs q -> ~ enclosed vs q).
Proof. intros vs H. exact (conj (convex_enclosed vs H) (convex_not_enclosed vs H)). Qed.
Print Assumptions C77_convex.

Example C77_case : (exists p, poly_ctor (map fst lshape) (map snd lshape) (1/2) (1/2) false = Some p) /\ insc_clear lshape (1/2) (1/2) /\
  joined lshape (0, 0) (0, 2) /\ joined lshape (2, 2) (10, 2) /\ off_box lshape (10, 2) /\ strictly_convex (rectv 2 1).
Proof.
  split; [exact lshape_accepted|]. split; [exact lshape_clear|]. split; [exact lshape_arm|]. split; [exact (proj1 lshape_corner)|].
  split; [exact (proj2 lshape_corner)|]. apply rect_strict; lra.
Qed.
