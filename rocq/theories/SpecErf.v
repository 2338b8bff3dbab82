(** The complex error function in complex arithmetic. *)
From Verif Require Import Num.
Local Open Scope R_scope.

Definition cpx : Type := (R * R)%type.
Definition cadd (a b : cpx) : cpx := (fst a + fst b, snd a + snd b).
Definition cmul (a b : cpx) : cpx := (fst a * fst b - snd a * snd b, fst a * snd b + snd a * fst b).
Definition cscale (k : R) (a : cpx) : cpx := (k * fst a, k * snd a).
Definition cconj (a : cpx) : cpx := (fst a, - snd a).
Definition cinv (a : cpx) : cpx := cscale (/ (fst a ^ 2 + snd a ^ 2)) (cconj a).
Definition cexp (a : cpx) : cpx := (exp (fst a) * cos (snd a), exp (fst a) * sin (snd a)).
Definition nonzero (a : cpx) : Prop := fst a <> 0 \/ snd a <> 0.

(** [n] levels of the continued fraction of Laplace, from level [k]:
    1/(2(s + k/(2(s + (k+1)/(2(s + ... ). *)
Fixpoint laplace (n k : nat) (s : cpx) : cpx :=
  match n with
  | O => (0, 0)
  | S m => cinv (cscale 2 (cadd s (cscale (INR k) (laplace m (S k) s))))
  end.

(** No division by zero occurs in it. *)
Fixpoint laplace_ok (n k : nat) (s : cpx) : Prop :=
  match n with
  | O => True
  | S m => nonzero (cadd s (cscale (INR k) (laplace m (S k) s))) /\ laplace_ok m (S k) s
  end.

(** The levels 1, ..., k of a fraction with [n] levels multiplied. *)
Fixpoint product (n k : nat) (s : cpx) : cpx :=
  match k with
  | O => (1, 0)
  | S m => cmul (product n m s) (laplace (n - m) (S m) s)
  end.

(** product 1 + g * product 2 + ... + g^(c-1) * product c. *)
Fixpoint series (n c : nat) (g : R) (s : cpx) : cpx :=
  match c with
  | O => (0, 0)
  | S m => cadd (series n m g s) (cscale (g ^ m) (product n c s))
  end.
