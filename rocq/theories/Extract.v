(** Test curves that are extracted before a run: yields and energy spectra of the
    emission model, and cross sections.  No proofs in this file. *)
From Coq Require Import String.
From Verif Require Import Num MP Fort CrossIon Sey.
Local Open Scope list_scope.
Local Open Scope R_scope.

(** * Yields *)

(** impact_management_class.py:376-395, 427-447: one of the test impacts: one
    electron with energy [E] and the cosine [ct] of the angle of incidence, at
    the origin, on edge 1, with the normal along x. *)
Definition test_imp (qe mass E ct : R) : imp :=
  let v := sqrt (2 * E * qe / mass) in
  mkImp 1 (1 * 0) (1 * 0) (1 * 0) (v * ct) (v * sqrt (1 - ct * ct)) (1 * 0) 1 0 1 (v * ct) E ct.

(** Lines 397-402 for one event type.  Without impacts numpy gives NaN. *)
Definition type_yield (n_rep : nat) (e : emis) (ety : nat) : option R :=
  if Nat.eqb n_rep 0 then None else
  Some (rsum (mask_get (map (fun t => Nat.eqb t ety) (o_type e)) (o_tot e)) / rsum (repeat 1 n_rep)).

Fixpoint mapO {A B} (f : A -> option B) (l : list A) : option (list B) :=
  match l with
  | [] => Some []
  | a :: l' => do b <- f a ; do bs <- mapO f l' ; Some (b :: bs)
  end.

(** A loop in which the emission model keeps its state (position in the random
    stream, surface charges). *)
Fixpoint loopO {A B S} (f : A -> S -> option (B * S)) (l : list A) (st : S) : option (list B * S) :=
  match l with
  | [] => Some ([], st)
  | a :: l' => do (b, st) <- f a st ; do (bs, st) <- loopO f l' st ; Some (b :: bs, st)
  end.

Section Yields.
Context {S : Type}.
(** The emission model: [impacts_on_surface] with threshold and segment flag. *)
Variable em : R -> bool -> list imp -> S -> option (emis * S).
(** Keys of [event_types] of the model (sec_emission_model_*.py). *)
Variable types : list nat.

(** Lines 371-402: one node of the table.  The code keeps one table for each
    event type; here a node holds the values for all event types. *)
Definition yield_node (qe mass : R) (n_rep : nat) (ct E : R) (st : S) : option (list R * S) :=
  do (e, st) <- em 1 true (repeat (test_imp qe mass E ct) n_rep) st ;
  do ys <- mapO (type_yield n_rep e) types ;
  Some (ys, st).

(** Lines 361-406. *)
Definition extract_sey_curves (qe mass : R) (n_rep : nat) (Es cts : list R) (st : S) : option (list (list (list R)) * S) :=
  loopO (fun ct => loopO (yield_node qe mass n_rep ct) Es) cts st.

(** * Energy spectra *)

(** Lines 410-412: spacing of [np.linspace(0, E * factor, Nbin)] (an exception
    with fewer than two bins). *)
Definition bin_width (E factor : R) (Nbin : nat) : option R :=
  if (Nbin <=? 1)%nat then None else Some (E * factor / (INR Nbin - 1)).

(** Lines 449-455. *)
Definition speed_eV (qe mass : R) (v : R * R * R) : R :=
  let '(vx, vy, vz) := v in
  let m := sqrt (vx ^ 2 + vy ^ 2 + vz ^ 2) in
  1/2 * mass / qe * m * m.
Definition energies (qe mass : R) (e : emis) : list R :=
  map (speed_eV qe mass) (combine (combine (o_vx e) (o_vy e)) (o_vz e)) ++
  map (speed_eV qe mass) (combine (combine (n_vx e) (n_vy e)) (n_vz e)).

(** Lines 459-470 for one event type. *)
Definition spectrum (qe mass D : R) (Nbin : nat) (e : emis) (ety : nat) : option (list R) :=
  let En := mask_get (map (fun t => Nat.eqb t ety) (o_ext e)) (energies qe mass e) in
  let zero := repeat 0 Nbin in
  if Nat.eqb (length En) 0 then Some zero
  else compute_hist (map (fun x => (x, 1)) En) 0 D zero.

Definition spectrum_at (qe mass : R) (n_rep : nat) (E D : R) (Nbin : nat) (ct : R) (st : S) : option (list (list R) * S) :=
  do (e, st) <- em 1 true (repeat (test_imp qe mass E ct) n_rep) st ;
  do hs <- mapO (spectrum qe mass D Nbin e) types ;
  Some (hs, st).

(** Lines 408-474; for each cosine the spectra of all event types. *)
Definition extract_energy_distributions (qe mass : R) (n_rep : nat) (E : R) (cts : list R) (Nbin : nat) (factor : R) (st : S)
  : option (list (list (list R)) * S) :=
  do D <- bin_width E factor Nbin ;
  loopO (spectrum_at qe mass n_rep E D Nbin) cts st.
End Yields.

(** sec_emission_model_ECLOUD.py:86, furman_pivi.py:93, perfect_absorber.py:64. *)
Definition types_ecloud : list nat := [0; 1]%nat.
Definition types_furman_pivi : list nat := [0; 1; 2; 3]%nat.
Definition types_absorber : list nat := [0]%nat.

(** * Cross sections *)

(** cross_ionization.py:466-489: one energy.  [generate] with
    [flag_generate=False] skips lines 161-170, so the process stays as it is. A
    target density of zero gives NaN. *)
Definition sigma_node (qe Dt : R) (cl : list xcloud) (mass ref : R) (n_rep : nat) (p : xproc) (rng : nat -> R) (E : R) (k : nat)
  : option ((R * list (string * R)) * nat) :=
  do sg <- get_sigma (x_tab p) E ;
  let v := sqrt (2 * E * qe / mass) in
  let nel := repeat (1 * ref) n_rep in
  let pr := map (fun q => mkPj q 0 0 0 (v * 1)) nel in
  do (_, infos, _, k) <- process_generate qe p Dt cl mass pr rng k ;
  let est (i : xinfo) : option R :=
    let DN := rsum (CrossIon.n_nel i) in
    if Rgtb v 0 then
      if Reqb (x_dens p) 0 then None else Some (DN / x_dens p / v / Dt / rsum nel * 10 ^ 4)
    else Some (0 * 10 ^ 4) in
  do es <- mapO (fun ni => do x <- est (snd ni) ; Some (fst ni, x)) infos ;
  Some ((sg * 10 ^ 4, es), k).

(** Lines 431-492 for one process of a projectile with mass [mass] and reference
    size [ref]. *)
Definition extract_sigma (qe Dt : R) (cl : list xcloud) (mass ref : R) (n_rep : nat) (Es : list R) (p : xproc) (rng : nat -> R) (k : nat)
  : option (list (R * list (string * R)) * nat) :=
  loopO (sigma_node qe Dt cl mass ref n_rep p rng) Es k.
