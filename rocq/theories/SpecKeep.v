(** Which energies the energy conservation loop of the Furman-Pivi model may
    change. *)
From Verif Require Import Num.

(** New macroparticles of the events are stored one event after the other:
    position of the first one of event [i] if event [i] has [nth i rep] of
    them. *)
Definition first_of (rep : list nat) (i : nat) : nat := list_sum (firstn i rep).

(** Event [i] respects its budget: none of its new macroparticles has, together
    with the replaced one, more than the impact energy. *)
Definition in_budget (rep : list nat) (E En Ea : list R) (i : nat) : Prop :=
  forall j, (j < nth i rep 0)%nat -> nth i En 0 + nth (first_of rep i + j) Ea 0 <= nth i E 0.
