(** C81: beam profiles read from a file. *)
From Coq Require Import Lra Lia.
From Verif Require Import Num Beam SpecBeam SpecProfile ProfFacts.

(** A profile with equal steps is accepted.  The times are those of the file,
    the densities those of the file scaled and with the coasting beam added, and
    the time step is that of the file, whatever the one in the settings. *)
Theorem C81_even : forall t prof spac Dt fact coast t0 h n, t = map (fun i => t0 + INR i * h) (seq 0 (S (S n))) -> 0 < h -> spac <> 0 ->
  exists b, beam_file None t prof spac Dt fact coast = Some b /\ from_file t prof fact coast spac b /\ b_unif b = true /\ b_Dt b = h.
Proof. exact file_even. Qed.
Print Assumptions C81_even.

(** Any increasing times, also for a secondary beam: what counts as equal steps,
    and the time step in both cases. *)
Theorem C81_any : forall tp t prof spac Dt fact coast b, beam_file tp t prof spac Dt fact coast = Some b -> increasing t ->
  from_file t prof fact coast spac b /\ (2 <= length t)%nat /\
  (b_unif b = true <-> forall i, (S i < length t)%nat -> step_len t i <= (1 + 1 / 10 ^ 4) * mean_step t) /\
  b_Dt b = (if b_unif b then step_len t 0 else Dt).
Proof. exact file_beam. Qed.
Print Assumptions C81_any.

Example C81_case : exists b, beam_file None (map (fun i => 0 + INR i * 2) (seq 0 3)) [1; 2; 3] 5 1 1 0 = Some b /\ b_Dt b = 2.
Proof. destruct (file_even _ [1; 2; 3] 5 1 1 0 0 2 1 eq_refl) as (b & H & _ & _ & D); [lra|lra|]. exists b. auto. Qed.

(** Steps much shorter than the mean are not noticed.  If the first one is such a
    step it becomes the time step of the whole run. *)
Theorem C81_short_step_refuted : exists t prof b, increasing t /\ beam_file None t prof 1 1 1 0 = Some b /\ b_unif b = true /\ b_Dt b = 1 / 2 /\
  forall i, (0 < i)%nat -> (S i < length t)%nat -> step_len t i = 1.
Proof. exact bad_even. Qed.
Print Assumptions C81_short_step_refuted.
