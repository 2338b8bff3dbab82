(** What is expected of extracted yields, spectra and cross sections. *)
From Coq Require Import String.
From Verif Require Import Num Sey SpecSey Furman.
Local Open Scope list_scope.
Local Open Scope R_scope.

(** The value of a table at node (i, j). *)
Definition at2 {A} (D : list (list A)) (i j : nat) (v : A) : Prop :=
  exists row, nth_error D i = Some row /\ nth_error row j = Some v.

(** Impacts of energy [E] and cosine [ct] on edge 1. *)
Definition lands (p : imp) (E ct : R) : Prop := i_E p = E /\ i_ct p = ct /\ i_seg p = 1%nat /\ i_nel p = 1.

(** Share of the [n] random numbers from position [k] on that are below [x]. *)
Definition share_below (rng : nat -> R) (k n : nat) (x : R) : R :=
  INR (length (filter (fun i => Rltb (rng (k + i)%nat) x) (seq 0 n))) / INR n.

(** Sum over the [n] impacts of a node. *)
Definition total_over (n : nat) (f : nat -> R) : R := rsum (map f (seq 0 n)).

(** Each node has its own [n] random numbers: the nodes of a table with [m]
    columns, row by row. *)
Definition own_numbers (n m : nat) (pos : nat -> nat -> nat) (N k k' : nat) : Prop :=
  (forall i j i' j', (i < N)%nat -> (j < m)%nat -> (i' < N)%nat -> (j' < m)%nat -> (i < i' \/ (i = i' /\ j < j'))%nat -> (pos i j + n <= pos i' j')%nat) /\
  (forall i j, (i < N)%nat -> (j < m)%nat -> (k <= pos i j)%nat /\ (pos i j + n <= k')%nat).

(** All models but the accurate one emit the same charge whatever happens. *)
Definition same_charge (m : seymod) : Prop := match m with MAcc _ _ _ _ => False | _ => True end.

(** Energy [x] of an electron from an event of type [t] of the Furman-Pivi model
    at energy [E]: backscattered and rediffused electrons and true secondaries
    have at most [E]; absorbed electrons are entered at 0.  With the energy
    spectrum of the other models, backscattered electrons are at [E] and true
    secondaries within the limits of those models, or at [E] when the velocity
    is that of the impact (see C39). *)
Definition fp_energy_at (f : fpar) (E : R) (t : nat) (x : R) : Prop :=
  match t with
  | 0%nat => if f_ecl_energy f then x = E else 0 <= x <= E
  | 1%nat => if f_ecl_energy f then x = E \/ energy_ok (f_e f) E x else 0 <= x <= E
  | 2%nat => 0 <= x <= E
  | _ => x = 0
  end.
