(** The field of a Gaussian beam in free space and of its images in an
    elliptic chamber, in complex arithmetic. *)
From Verif Require Import Num SpecErf.
From Verif Require Beam BE.
Local Open Scope R_scope.

Definition csub (a b : cpx) : cpx := cadd a (cscale (-1) b).
Definition ccosh (q : cpx) : cpx := (cosh (fst q) * cos (snd q), sinh (fst q) * sin (snd q)).

(** The inverse of the hyperbolic cosine, whatever branch it takes. *)
Definition inverse_cosh (acosh : cpx -> cpx) : Prop := forall w, ccosh (acosh w) = w.

(** Permittivity of vacuum: 8.85418781762 pF/m. *)
Definition vacuum_eps : R := 885418781762 / 10 ^ 23.

(** Bassetti and Erskine: [s1] the larger of the sizes, [u] and [v] the
    distances from the beam along the larger and the smaller one. *)
Definition wide_field (w : cpx -> cpx) (eps0 s1 s2 u v : R) : cpx :=
  let d := sqrt (2 * (s1 ^ 2 - s2 ^ 2)) in
  cscale (/ (2 * eps0 * sqrt PI * d))
    (csub (w (u / d, v / d)) (cscale (exp (- (u ^ 2 / (2 * s1 ^ 2)) - v ^ 2 / (2 * s2 ^ 2))) (w (s2 / s1 * u / d, s1 / s2 * v / d)))).

(** Chebyshev polynomials of the first and of the second kind. *)
Fixpoint cheb_T2 (n : nat) (z : cpx) : cpx * cpx :=
  match n with
  | O => ((1, 0), z)
  | S m => let '(a, b) := cheb_T2 m z in (b, csub (cscale 2 (cmul z b)) a)
  end.
Definition cheb_T (n : nat) (z : cpx) : cpx := fst (cheb_T2 n z).
Fixpoint cheb_U2 (n : nat) (z : cpx) : cpx * cpx :=
  match n with
  | O => ((0, 0), (1, 0))
  | S m => let '(a, b) := cheb_U2 m z in (b, csub (cscale 2 (cmul z b)) a)
  end.
(** [cheb_U n] is the polynomial of degree n - 1. *)
Definition cheb_U (n : nat) (z : cpx) : cpx := fst (cheb_U2 n z).

(** The images of a line charge at [z0] in the ellipse of semi-axes [a] > [b]:
    the sum of the first [n] terms at the place [z]. *)
Fixpoint images (mu : R) (z0 z : cpx) (n : nat) : cpx :=
  match n with
  | O => (0, 0)
  | S m =>
      cadd (images mu z0 z m)
        (cmul (cscale (exp (- INR n * mu)) (fst (cheb_T n z0) / cosh (INR n * mu), snd (cheb_T n z0) / sinh (INR n * mu)))
              (cheb_U n (cconj z)))
  end.
Definition image_field (eps0 a b : R) (z0 z : cpx) (n : nat) : cpx :=
  let g := sqrt (a ^ 2 - b ^ 2) in
  cscale (/ (PI * eps0 * g)) (images (1/2 * ln ((a + b) / (a - b))) (cscale (/ g) z0) (cscale (/ g) z) n).

(** A field that is mirrored when the place is mirrored in either plane. *)
Definition mirrored (E : R -> R -> option (R * R)) : Prop :=
  forall x y ex ey, E x y = Some (ex, ey) -> E (- x) y = Some (- ex, ey) /\ E x (- y) = Some (ex, - ey).

(** What is used of the error function. *)
Record is_erf (e : R -> R) : Prop := mkErf {
  erf_up : forall x y, x <= y -> e x <= e y;
  erf_odd : forall x, e (- x) = - e x;
  erf_range : forall x, -1 <= e x <= 1 }.
(** The part of a Gaussian distribution with centre [c] and size [s] between
    [lo] and [hi]. *)
Definition gauss_part (e : R -> R) (s c lo hi : R) : R :=
  (e ((hi - c) / (sqrt 2 * s)) - e ((lo - c) / (sqrt 2 * s))) / 2.

(** Node [i] of [n] equally spaced ones from -m to m. *)
Definition node_of (m : R) (n i : nat) (x : R) : Prop := (i < n)%nat /\ x * (INR n - 1) = m * (2 * INR i - (INR n - 1)).

(** A beam of particles with charge [q], line density [lam] and threshold [th]
    that uses a field map. *)
Definition with_map (q lam th : R) (u : BE.fmap2) : Beam.bfield :=
  Beam.mkBfield q lam th (BE.u_x0 u) (BE.u_y0 u) (BE.u_dx u) (BE.u_dy u) (BE.u_nx u) (BE.u_ny u) (BE.u_Ex u) (BE.u_Ey u).

(** [n] coordinates from [x0] at equal distances [d]. *)
Definition equal_steps (x0 d : R) (n : nat) : list R := map (fun i => x0 + INR i * d) (seq 0 n).
