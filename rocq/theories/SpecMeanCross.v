(** Specification side of the mean of cross ionisation (C101). *)
From Coq Require Import Reals List String.
From Verif Require Import Num CrossIon.
Import ListNotations.
Local Open Scope R_scope.

(** Charge that a call gives to the [j]-th product of the process. *)
Definition product_charge (j : nat) (r : option (xproc * list (string * xinfo) * R * nat)) : R :=
  match r with Some (_, infos, _, _) => rsum (n_nel (snd (nth j infos (EmptyString, empty_info)))) | None => 0 end.
(** The process with its first [j] products only: what is done before the turn
    of the [j]-th one. *)
Definition first_products (j : nat) (p : xproc) : xproc :=
  mkXproc (x_tab p) (x_dens p) (x_area p) (x_N p) (x_E p) (x_equal p) (firstn j (x_prods p)).
