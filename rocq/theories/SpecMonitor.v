(** What joining monitor files should give. *)
From Coq Require Import String Bool Arith Reals List.
From Verif Require Import Monitor.
Import ListNotations.
Local Open Scope list_scope.

Definition readable (f : h5) : bool := match f with Some _ => true | None => false end.

(** File [f] has the array [a] under name [n] of group [key]. *)
Definition stores (key n : string) (f : h5) (a : arr) : Prop :=
  exists g d, f = Some g /\ group key g = Some d /\ get n d = Some a.

(** A matrix: every row has the same number of entries. *)
Definition rect (n : nat) (rows : list (list R)) : Prop := Forall (fun r => length r = n) rows.

(** Under each of these names the file has a vector. *)
Definition vectors (key : string) (names : list string) (f : h5) : Prop :=
  exists g d, f = Some g /\ group key g = Some d /\ forall n, In n names -> exists l, get n d = Some (Vec l).
