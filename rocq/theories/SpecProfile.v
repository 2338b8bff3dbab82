(** Specification side of beam profiles read from a file. *)
From Verif Require Import Num Beam.

(** The times of the file are in increasing order. *)
Definition increasing (t : list R) : Prop := forall i, (S i < length t)%nat -> nth i t 0 < nth (S i) t 0.

(** Length of the step [i], and the mean over all steps. *)
Definition step_len (t : list R) (i : nat) : R := nth (S i) t 0 - nth i t 0.
Definition mean_step (t : list R) : R := (nth (length t - 1) t 0 - nth 0 t 0) / INR (length t - 1).

(** The beam is made of the times and of the densities of the file, which are
    scaled and added to those of the coasting beam. *)
Definition from_file (t prof : list R) (fact coast spac : R) (b : beam) : Prop :=
  b_t b = t /\ b_lam b = map (fun l => fact * l + coast) prof /\ Beam.b_spac b = spac.
