(** Model of the energy distributions of sec_emission_model_furman_pivi.py:544-634,
    which are not used by the simulation but offered to users, and of the law
    of the directions that electron_emission.py draws.  No proofs in this file. *)
From Coq Require Import String.
From Verif Require Import Num Sey Furman.
Local Open Scope string_scope.
Local Open Scope list_scope.
Local Open Scope R_scope.

(** Lines 551-559 (and 297-302): the width of the backscattered peak. *)
Definition sigma_e (f : fpar) (E0 : R) : R :=
  if f_modsig f then (f_sigE f - 188 / 100) + (25 / 10) * (1 + tanh ((1 / 100) * (E0 - 150))) else f_sigE f.

(** Lines 549-563; [energy]: an array. *)
Definition backscattered_energy_PDF (sp : spfun) (f : fpar) (energy : list R) (E0 : R) : list R :=
  let s := sigma_e f E0 in
  map (fun e => (2 * exp (- (e - E0) ^ 2 / (2 * s ^ 2))) / (sqrt (2 * PI) * s * erf sp (E0 / (sqrt 2 * s)))) energy.

(** Lines 565-568; [sg]: the argument [sigma_e]; [None]: its default, 2. *)
Definition backscattered_energy_CDF (sp : spfun) (energy : list R) (E0 : R) (sg : option R) : list R :=
  let s := match sg with Some s => s | None => 2 end in
  map (fun e => 1 - erf sp ((E0 - e) / (sqrt 2 * s)) / erf sp (E0 / (sqrt 2 * s))) energy.

(** Lines 570-575 for two arrays of the same length ([None]: ValueError);
    [qq]: [None] is the default, 0.5. *)
Definition the_q (qq : option R) : R := match qq with Some q => q | None => 1 / 2 end.
Definition rediffused_energy_PDF (energy E0 : list R) (qq : option R) : option (list R) :=
  let q := the_q qq in
  if existsb (fun E => Rltb E 0) E0 then None
  else Some (map2 (fun e E => (q + 1) * pw e q / pw E (q + 1)) energy E0).

(** Lines 577-578. *)
Definition rediffused_energy_CDF (energy E0 : list R) (qq : option R) : list R :=
  let q := the_q qq in map2 (fun e E => pw e (q + 1) / pw E (q + 1)) energy E0.

(** Lines 587-597: the normalised weights of 0 .. M_cut emitted electrons.  In
    line 592 the binomial coefficient has the number [nn] asked for, not the
    array [nn_all].  [None]: ValueError. *)
Definition weights (choice : string) (M : nat) (d : R) (nn : nat) : option (list R) :=
  do l <- (if String.eqb choice "poisson" then Some (map (fun n => d ^ n / INR (fact n) * exp (- d)) (seq 0 (M + 1)))
           else if String.eqb choice "binomial" then
             let p := d / INR M in Some (map (fun n => C M nn * p ^ n * (1 - p) ^ (M - n)) (seq 0 (M + 1)))
           else None) ;
  Some (map (fun w => w / rsum l) l).

(** Lines 580-610 for one mean number [d] and one impact energy; [simps]:
    [scipy.integrate.simps].  [None]: ValueError or IndexError ([nn >= 1]). *)
Definition true_sec_energy_PDF (simps : list R -> list R -> R) (choice : string) (f : fpar) (d : R) (nn : nat) (E0 : R) (energy : list R)
  : option (list R * R) :=
  match nn with
  | O => None
  | S i =>
      do l <- weights choice (f_Mcut f) d nn ;
      do P <- nth_error l nn ;
      do eps <- nth_error (f_eps f) i ;
      do p <- nth_error (f_pn f) i ;
      let F := if Reqb E0 0 then 0 else 1 in
      let v := map (fun e => F * pw e (p - 1) * exp (- e / eps)) energy in
      let area := simps v energy in
      Some (map (fun x => x / area) v, P)
  end.

(** Lines 612-632 (the branch [if False] is never taken). *)
Fixpoint averaged (simps : list R -> list R -> R) (choice : string) (f : fpar) (d E0 : R) (energy : list R) (nns : list nat) (acc : list R)
  : option (list R) :=
  match nns with
  | [] => Some acc
  | n :: nns =>
      do (v, P) <- true_sec_energy_PDF simps choice f d n E0 energy ;
      averaged simps choice f d E0 energy nns (map2 (fun a x => a + x * P * INR n) acc v)
  end.
Definition average_true_sec_energy_PDF (simps : list R -> list R -> R) (choice : string) (f : fpar) (d E0 : R) (energy : list R) : option (list R) :=
  do a <- averaged simps choice f d E0 energy (seq 1 (f_Mcut f)) (map (fun _ => 0) energy) ;
  let area := simps a energy in
  Some (map (fun x => x / area) a).
