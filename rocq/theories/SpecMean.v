(** Specification side of averages over random numbers (C101). *)
From Coquelicot Require Import Coquelicot.
From Coq Require Import Reals List.
From Verif Require Import Num MP SpecMP Sey SpecSey Furman.
Import ListNotations.
Local Open Scope R_scope.

(** The average of [g] over a number drawn uniformly from [0, 1) is [m]: the
    integral of [g]. *)
Definition average (g : R -> R) (m : R) : Prop := is_RInt g 0 1 m.

(** The random numbers with the one at position [i] replaced. *)
Definition with_at (rng : nat -> R) (i : nat) (u : R) : nat -> R := fun j => if Nat.eqb j i then u else rng j.
Definition with_uni (sr : src) (i : nat) (u : R) : src := mkSrc (with_at (s_uni sr) i u) (s_logn sr) (s_norm sr).

(** Charge that a call added to the cloud [s]. *)
Definition gain (s : mpsys) (r : option (mpsys * nat)) : R :=
  match r with Some (s', _) => charge s' - charge s | None => 0 end.

(** The average of [g] over a number with the Poisson law of mean [d], and over
    [r] independent ones. *)
Definition poisson_average (d : R) (g : nat -> R) (m : R) : Prop :=
  is_series (fun n => exp (- d) * d ^ n / INR (fact n) * g n) m.
Fixpoint poisson_averages (d : R) (r : nat) (g : list nat -> R) (m : R) : Prop :=
  match r with
  | O => g [] = m
  | S r' => exists h, (forall n, poisson_averages d r' (fun l => g (n :: l)) (h n)) /\ poisson_average d h m
  end.

(** The average over [n] independent uniform numbers, and the random numbers
    with those from position [k] on replaced. *)
Fixpoint averages (n : nat) (g : list R -> R) (m : R) : Prop :=
  match n with
  | O => g [] = m
  | S n' => exists h, (forall u, 0 <= u < 1 -> averages n' (fun l => g (u :: l)) (h u)) /\ average h m
  end.
Definition with_list (rng : nat -> R) (k : nat) (us : list R) : nat -> R :=
  fun j => if Nat.leb k j && Nat.ltb j (k + length us) then nth (j - k) us 0 else rng j.

(** Random numbers of a call with those from position [k] on replaced, and the
    charge that leaves the wall after impacts: the replaced MPs and their clones. *)
Definition with_unis (sr : src) (k : nat) (us : list R) : src := mkSrc (with_list (s_uni sr) k us) (s_logn sr) (s_norm sr).
Definition leaving (r : option (emis * nat)) : R :=
  match r with Some (e, _) => rsum (o_nel e) + rsum (n_nel e) | None => 0 end.

(** Total yield (true secondaries and reflected electrons) of an ECLOUD-type model. *)
Definition total_yield (m : seymod) (p : imp) : R := match law m p with Some (t, r) => t + r | None => 0 end.
(** Random numbers of a Furman-Pivi call whose Poisson numbers from position [k] on are [l]. *)
Definition given_draws (sr : src) (k : nat) (l : list nat) : fsrc := mkFsrc sr (fun i _ => nth (i - k) l 0%nat).
(** Probability that a Poisson number of mean [d] is below [M]. *)
Definition poisson_below (d : R) (M : nat) : R := rsum (map (fun n => exp (- d) * d ^ n / INR (fact n)) (seq 0 M)).
(** Mean of a Poisson number that is drawn up to [r] times as long as it is
    above [M], and then set to [M]: the geometric sum over the draws. *)
Definition cut_mean (d : R) (M r : nat) : R :=
  let q := 1 - poisson_below d (S M) in
  d * poisson_below d M * (1 - q ^ r) / (1 - q) + INR M * q ^ r.
