(** Specification side of the beam, its clock and the time loop. *)
From Verif Require Import Num Fort Beam.

(** * Profile *)
(** Contribution of slot [ii] with charge [q] and length [s] at time [t]: a
    Gaussian cut at ten standard deviations. *)
Definition slot_density (b_spac t_offs : R) (ii : nat) (q s t : R) : R :=
  let d := c_light * t - c_light * (t_offs + INR ii * b_spac) in
  if Rgtb s 0 then if Rltb (Rabs d) (10 * s) then q / (s * sqrt (2 * PI)) * exp (- d * d / (2 * s * s)) else 0 else 0.
Definition train_density (b_spac t_offs : R) (ppb sigmaz : list R) (t : R) : R :=
  rsum (map (fun ii => slot_density b_spac t_offs ii (nth ii ppb 0) (nth ii sigmaz 0) t) (seq 0 (length ppb))).

(** * Clock *)
(** The passage that contains time [t]. *)
Definition passage (b : beam) (i : nat) : Z := rfloor (nth i (b_t b) 0 / b_spac b).

(** A beam ready to be started. *)
Definition fresh (b : beam) : Prop :=
  b_ii b = (-1)%Z /\ b_old b = (-1)%Z /\ b_now b = None /\ b_Nt b = length (b_t b) /\ length (b_lam b) = length (b_t b).

(** [b] is beam [b0] at step [i]. *)
Record at_step (b0 : beam) (i : nat) (b : beam) : Prop := mkAt {
  as_t : b_t b = b_t b0; as_lam : b_lam b = b_lam b0; as_sp : b_spac b = b_spac b0; as_Nt : b_Nt b = b_Nt b0;
  as_Dt : b_Dt b = b_Dt b0; as_un : b_unif b = b_unif b0; as_Np : b_Npass b = b_Npass b0;
  as_ii : b_ii b = Z.of_nat i;
  as_now : exists new, b_now b = Some (mkNow (nth i (b_t b0) 0) (nth (S i) (b_t b0) 0 - nth i (b_t b0) 0)
                                    (nth i (b_lam b0) 0) (passage b0 i) new) /\
    (new = true <-> (-1 < passage b0 i)%Z /\ forall j, (j < i)%nat -> (passage b0 j < passage b0 i)%Z) }.

(** New-passage signal of a beam. *)
Definition signal (b : beam) : bool := match b_now b with Some w => w_new w | None => false end.

(** The simulation as a fold over the visited steps. *)
Fixpoint through {S : Type} (sim : beam -> list beam -> S -> option S) (vis : list (beam * list beam)) (s : S) : option S :=
  match vis with
  | [] => Some s
  | (b, secs) :: l => do s <- sim b secs s ; through sim l s
  end.

(** Number of steps: up to the last interval, or up to and including the first
    step at or after the user-defined end time. *)
Definition n_steps (t_end : option R) (t : list R) (n : nat) : Prop :=
  (n <= length t - 1)%nat /\
  match t_end with
  | None => n = (length t - 1)%nat
  | Some te =>
      (forall i, (S i < n)%nat -> nth i t 0 < te) /\
      ((n < length t - 1)%nat -> (1 <= n)%nat /\ te <= nth (n - 1) t 0)
  end.

(** * Field *)
(** Value at macroparticle [i]. *)
Definition fat (f : fld) (i : nat) : R := match f with Scal r => r | Vec l => nth i l 0 end.
(** Field of a beam at a point: none at or below the threshold, else the map
    scaled with the charge density of the beam. *)
Definition beam_at (f : bfield) (p : R * R) : R * R :=
  if Rgtb (f_lam f) (f_th f) then
    (f_q f * f_lam f * interp_one (f_x0 f) (f_y0 f) (f_dx f) (f_dy f) (f_nx f) (f_ny f) (f_Ex f) (fst p) (snd p),
     f_q f * f_lam f * interp_one (f_x0 f) (f_y0 f) (f_dx f) (f_dy f) (f_nx f) (f_ny f) (f_Ey f) (fst p) (snd p))
  else (0, 0).

(** A simulation that only records the new-passage signals. *)
Definition record_signals (b : beam) (_ : list beam) (s : list bool) : option (list bool) := Some (s ++ [signal b]).
(** A simulation that records time and length of each step. *)
Definition record_steps (b : beam) (_ : list beam) (s : list (R * R)) : option (list (R * R)) :=
  Some (s ++ [match b_now b with Some w => (w_t w, w_Dt w) | None => (0, 0) end]).

(** Times in non-decreasing order. *)
Definition ascending (t : list R) : Prop := forall i j, (i <= j < length t)%nat -> nth i t 0 <= nth j t 0.
