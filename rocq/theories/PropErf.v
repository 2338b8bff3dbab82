(** C84: the complex error function. *)
From Coq Require Import Lra Lia Psatz.
From Verif Require Import Num NumFacts Erf SpecErf ErfFacts PiBound.
Local Open Scope R_scope.

(** Every argument has a value: no division by zero, no root of a negative
    number, no access outside an array and no read of a cell not written. *)
Theorem C84_returns : forall x y, exists w, errf x y = Some w.
Proof. exact errf_returns. Qed.
Print Assumptions C84_returns.

(** w(-conj z) = conj (w z). *)
Theorem C84_conj : forall x y wx wy, errf x y = Some (wx, wy) -> errf (- x) y = Some (wx, - wy).
Proof. exact errf_conj. Qed.
Print Assumptions C84_conj.

(** w(-z) = 2 exp(-z^2) - w(z). *)
Theorem C84_reflect : forall x y wx wy, 0 < y -> errf x y = Some (wx, wy) ->
  errf (- x) (- y) = Some (cadd (cscale 2 (cexp (cscale (-1) (cmul (x, y) (x, y))))) (- wx, - wy)).
Proof. exact errf_reflect. Qed.
Print Assumptions C84_reflect.

(** On the real axis the real part is exp(-x^2). *)
Theorem C84_axis : forall x, exists wy, errf x 0 = Some (exp (- x ^ 2), wy).
Proof. exact errf_axis. Qed.
Print Assumptions C84_axis.

(** Far from the origin: nine levels of the continued fraction of Laplace. *)
Theorem C84_far : forall x y, 0 <= x -> 0 < y -> 533 / 100 <= x \/ 429 / 100 <= y ->
  laplace_ok 9 1 (y, - x) /\ errf x y = Some (cscale erf_CC (laplace 9 1 (y, - x))).
Proof. exact errf_far. Qed.
Print Assumptions C84_far.

(** The factor in front is 2 / sqrt pi to fourteen digits. *)
Theorem C84_factor : Rabs (erf_CC - 2 / sqrt PI) <= 5 / 10 ^ 15.
Proof. exact root_digits. Qed.
Print Assumptions C84_factor.

(** Near it: the expansion of Gautschi around a shifted argument; the number of
    levels and of terms grows towards the origin. *)
Theorem C84_near : forall x y, 0 <= x < 533 / 100 -> 0 < y < 429 / 100 ->
  exists Q n c, Q = (1 - y / (429 / 100)) * sqrt (1 - (x / (533 / 100)) ^ 2) /\
    INR n <= 21 * Q < INR n + 1 /\ INR c <= 23 * Q < INR c + 1 /\
    laplace_ok (10 + n) 1 (y + 16 / 10 * Q, - x) /\
    errf x y = Some (cscale erf_CC (series (10 + n) (7 + c) (32 / 10 * Q) (y + 16 / 10 * Q, - x))).
Proof. exact errf_near. Qed.
Print Assumptions C84_near.

(** Arguments in the two regions, and one with a value to reflect. *)
Example C84_case : (exists w, errf 6 1 = Some w) /\ (exists w, errf 1 1 = Some w) /\ (0 <= 6 /\ 0 < 1 /\ (533 / 100 <= 6 \/ 429 / 100 <= 1)) /\ (0 <= 1 < 533 / 100 /\ 0 < 1 < 429 / 100).
Proof. split; [apply errf_returns|]. split; [apply errf_returns|]. lra. Qed.
