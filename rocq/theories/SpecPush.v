(** Specification side of the trackers. *)
From Verif Require Import Num MP SpecMP Push.

(** Squared speed. *)
Definition speed2 (p : p6) : R := pvx p * pvx p + pvy p * pvy p + pvz p * pvz p.
Definition mp_speed2 (m : mp) : R := m_vx m * m_vx m + m_vy m * m_vy m + m_vz m * m_vz m.

(** Complex numbers as pairs, product and powers. *)
Definition cmul (a b : R * R) : R * R :=
  (fst a * fst b - snd a * snd b, fst a * snd b + snd a * fst b).
Definition cadd (a b : R * R) : R * R := (fst a + fst b, snd a + snd b).
Fixpoint cpow (z : R * R) (n : nat) : R * R :=
  match n with O => (1, 0) | S n' => cmul z (cpow z n') end.

(** [sum_n (k_n + i s_n) (x + i y)^n] over the orders of [k]. *)
Definition harmonic (k s : list R) (z : R * R) : R * R :=
  fold_right cadd (0, 0)
    (map (fun n => cmul (nth n k 0, nth n s 0) (cpow z n)) (seq 0 (length k))).

(** [v x B] *)
Definition cross (a b : R * R * R) : R * R * R :=
  let '(ax, ay, az) := a in let '(bx, by_, bz) := b in
  (ay * bz - az * by_, az * bx - ax * bz, ax * by_ - ay * bx).

(** [push] transforms the live MPs of [s] one by one with [g] (slot number,
    MP) and leaves all else as it is. *)
Definition moves_each (g : nat -> p6 -> p6) (s s' : mpsys) : Prop :=
  N_mp s' = N_mp s /\ nel_mp s' = nel_mp s /\ t_last_impact s' = t_last_impact s /\
  (wf s -> wf s' /\ same_cfg s s') /\ nel_mp_ref s' = nel_mp_ref s /\
  nel_mp_split s' = nel_mp_split s /\ nel_mp_cl_th s' = nel_mp_cl_th s /\
  (forall i, (i < N_mp s)%nat -> get6 s' i = g i (get6 s i)) /\
  (wf s -> forall i, (N_mp s <= i)%nat -> get6 s' i = get6 s i).

(** Newton-Lorentz motion of an electron (charge over mass [-qm]) in constant
    transverse fields. [p t] is the state at time [t]. *)
Definition lorentz (qm : R) (E : R * R) (B : R * R) (p : R -> p6) (t : R) : Prop :=
  derivable_pt_lim (fun t => px (p t)) t (pvx (p t)) /\
  derivable_pt_lim (fun t => py (p t)) t (pvy (p t)) /\
  derivable_pt_lim (fun t => pz (p t)) t (pvz (p t)) /\
  derivable_pt_lim (fun t => pvx (p t)) t (- qm * (fst E - pvz (p t) * snd B)) /\
  derivable_pt_lim (fun t => pvy (p t)) t (- qm * (snd E + pvz (p t) * fst B)) /\
  derivable_pt_lim (fun t => pvz (p t)) t (- qm * (pvx (p t) * snd B - pvy (p t) * fst B)).

(** The relative accuracy claimed for the small-angle formulas. *)
Definition eps : R := 1 / 100000000.

(** Position and velocity of [a] are close to those of [b], both reached from
    [p] in the time [Dt] with rotation angle [w] and horizontal kick [k]. *)
Definition close_states (p : p6) (Dt w k : R) (a b : p6) : Prop :=
  Rabs (px a - px b) <= eps * (Rabs (pvx p * Dt) + Rabs (pvz p * w * Dt) + Rabs (k * Dt)) /\
  py a = py b /\
  Rabs (pz a - pz b) <= eps * (Rabs (pvz p * Dt) + Rabs (pvx p * w * Dt) + Rabs (k * w * Dt)) /\
  Rabs (pvx a - pvx b) <= eps * Rabs k /\
  pvy a = pvy b /\
  Rabs (pvz a - pvz b) <= eps * Rabs (k * w).

(** An optional field component that is not given counts as zero. *)
Definition given (o : option R) : R := match o with Some v => v | None => 0 end.
