(** The law of a number computed from one uniform random number in [0, 1). *)
From Coq Require Import Reals List.
From Verif Require Import Num Sey Furman.
Local Open Scope R_scope.

(** [X u] is in [dom], and the numbers [u] for which it is at most [e] are
    those up to [F e]: [F] is the distribution function. *)
Definition law (X : R -> R) (dom : R -> Prop) (F : R -> R) : Prop :=
  (forall u, 0 <= u < 1 -> dom (X u)) /\
  (forall e, dom e -> 0 <= F e <= 1) /\
  (forall u e, 0 <= u < 1 -> dom e -> (X u <= e <-> u <= F e)).
(** [f] is the density that belongs to [F] between [a] and [b]. *)
Definition density (F f : R -> R) (a b : R) : Prop := forall e, a < e < b -> derivable_pt_lim F e (f e).
Definition between (a b : R) (e : R) : Prop := a <= e <= b.

(** What the error function and the incomplete gamma function are: integrals
    of a Gaussian and of a power times an exponential. *)
Definition erf_exact (sp : spfun) : Prop := erf sp 0 = 0 /\ forall x, derivable_pt_lim (erf sp) x (2 / sqrt PI * exp (- x ^ 2)).
Definition ginc_exact (sp : spfun) (p G : R) : Prop :=
  0 < G /\ ginc sp p 0 = 0 /\ forall x, 0 < x -> derivable_pt_lim (ginc sp p) x (Rpower x (p - 1) * exp (- x) / G).

(** The published densities (Furman and Pivi, equations 26, 29 and 35), for the
    impact energy [E0]. *)
Definition gauss_density (sp : spfun) (s E0 e : R) : R :=
  2 / (sqrt (2 * PI) * s * erf sp (E0 / (sqrt 2 * s))) * exp (- (e - E0) ^ 2 / (2 * s ^ 2)).
Definition power_density (q E0 e : R) : R := (q + 1) * Rpower e q / Rpower E0 (q + 1).
Definition gamma_shape (p eps e : R) : R := Rpower e (p - 1) * exp (- e / eps).

(** Probabilities of [n] electrons, given at most [M]: the number is Poisson
    distributed with mean [d]. *)
Definition poisson (d : R) (n : nat) : R := exp (- d) * d ^ n / INR (fact n).
Definition binomial (M : nat) (p : R) (n : nat) : R := C M n * p ^ n * (1 - p) ^ (M - n).
Definition given_at_most (M : nat) (P : nat -> R) (n : nat) : R := P n / rsum (map P (seq 0 (M + 1))).

(** A velocity at the angles [theta] from the normal and [phi] around it. *)
Definition leaves (v : R * R * R) (speed theta phi nx ny : R) : Prop :=
  fst (fst v) * nx + snd (fst v) * ny = speed * cos theta /\
  fst (fst v) * ny - snd (fst v) * nx = speed * sin theta * sin phi /\
  snd v = speed * sin theta * cos phi.
Definition right_angle : R -> Prop := between 0 (PI / 2).
(** Cosine laws of the angle from the normal: per solid angle, or in the plane. *)
Definition cosine_3D (F f : R -> R) : Prop := F = (fun t => sin t ^ 2) /\ f = (fun t => 2 * sin t * cos t).
Definition cosine_2D (F f : R -> R) : Prop := F = sin /\ f = cos.

(** The Lorentz (Cauchy) density around [mx] with half width [sig], and its
    part above zero. *)
Definition lorentz_density (sig mx e : R) : R := sig / (PI * (sig ^ 2 + (e - mx) ^ 2)).

(** The width of the backscattered peak that the surface asks for. *)
Definition peak_width (f : fpar) (E0 : R) : R :=
  if f_modsig f then f_sigE f - 188 / 100 + 25 / 10 * (1 + tanh (1 / 100 * (E0 - 150))) else f_sigE f.
(** Inward normals of length one. *)
Definition unit_normals (nx ny : list R) : Prop := Forall2 (fun a b => a * a + b * b = 1) nx ny.
(** The integration rule is homogeneous. *)
Definition homogeneous (simps : list R -> list R -> R) : Prop := forall c v e, simps (map (fun x => x / c) v) e = simps v e / c.
