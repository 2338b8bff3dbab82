(** Specification of the thinning of a cloud. *)
From Verif Require Import Num MP SpecMP.

(** The list [after] is [before] thinned to about [target]: with the random
    numbers [u 0], [u 1], ... the macroparticle [i] of [n] is kept exactly when
    [u i] exceeds [(n - target) / n]; all charges are multiplied by one
    factor, and the total charge is the same. *)
Definition thinned (target : nat) (u : nat -> R) (before after : list mp) : Prop :=
  let n := length before in
  exists keep f, length keep = n /\ 0 < f /\
    (forall i, nth_error keep i = Some true <-> (i < n)%nat /\ INR (n - target) / INR n < u i) /\
    after = map (scale_nel f) (mask_get keep before) /\
    rsum (map m_nel after) = rsum (map m_nel before).

(** At least one of [n] macroparticles survives. *)
Definition someone_survives (target n : nat) (u : nat -> R) : Prop :=
  exists i, (i < n)%nat /\ INR (n - target) / INR n < u i.

Definition big_enough (s : mpsys) : list mp := filter (fun p => Rleb (nel_mp_cl_th s) (m_nel p)) (live s).
