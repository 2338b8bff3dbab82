(** Specification side of the electromagnetic mode. *)
From Coq Require Import String.
From Verif Require Import Num MP SpecMP Push SpecPush Beam SpecBeam Sim SpecSim Em.
Local Open Scope list_scope.
Local Open Scope R_scope.

(** What the macroparticles of a cloud deposit when each counts with [w]. *)
Definition deposits (p : pic) (w : mp -> R) (c : cloud) : list R :=
  pi_dep p (a_charge (o_set c)) (map (fun m => (m_x m, m_y m, w m)) (live (o_mp c))).

(** The sum over the clouds at each of the [n] grid points. *)
Definition all_deposits (p : pic) (n : nat) (w : mp -> R) (cl : list cloud) : list R :=
  map (fun j => rsum (map (fun c => nth j (deposits p w c) 0) cl)) (seq 0 n).

(** Weights: the charge and the two components of the current; [k0] is the
    product of the vacuum constants. *)
Definition chg (m : mp) : R := m_nel m.
Definition curx (k0 : R) (m : mp) : R := k0 * m_nel m * m_vx m.
Definition cury (k0 : R) (m : mp) : R := k0 * m_nel m * m_vy m.

(** A step at a time, with or without the wish for a recomputation, and the
    clouds as they are then; whether it recomputes the fields. *)
Definition estep : Type := R * bool * list cloud.
Definition e_time (q : estep) : R := fst (fst q).
Definition e_clouds (q : estep) : list cloud := snd q.
Fixpoint em_steps (p : pic) (phi : list R -> R -> R -> R) (k0 tsc : R) (l : list estep) (em : emsc) : emsc :=
  match l with [] => em | q :: l' => em_steps p phi k0 tsc l' (em_step p phi k0 tsc (e_time q) (snd (fst q)) (e_clouds q) em) end.
Definition renews (tsc : R) (q : estep) (em : emsc) : Prop :=
  (tsc < e_time q /\ match sc_Dt (em_sc em) with None => True | Some D => D <= e_time q - sc_last (em_sc em) end) \/ snd (fst q) = true.
(** None of the steps [l] recomputes the fields. *)
Fixpoint idle (p : pic) (phi : list R -> R -> R -> R) (k0 tsc : R) (l : list estep) (em : emsc) : Prop :=
  match l with
  | [] => True
  | q :: l' => ~ renews tsc q em /\ idle p phi k0 tsc l' (em_step p phi k0 tsc (e_time q) (snd (fst q)) (e_clouds q) em)
  end.

(** Electric and magnetic field for a static field [E0], a rate of change
    [(dx, dy)] of the vector potential and its curl, behind a beam of speed
    [beta * c]. *)
Definition induced (E0 : R * R) (dx dy curl beta : R) : (R * R) * (R * R * R) :=
  ((fst E0 - dx, snd E0 - dy), (dy / (beta * c_light), - dx / (beta * c_light), curl)).

(** The solver gives no potential and no field to an empty grid, and deposits
    nothing for macroparticles without charge. *)
Definition silent (p : pic) (phi : list R -> R -> R -> R) (n : nat) : Prop :=
  (forall x y, phi (repeat 0 n) x y = 0) /\ (forall x y, pi_solve p (repeat 0 n) x y = (0, 0)) /\
  forall q pts, Forall (fun t => snd t = 0) pts -> pi_dep p q pts = repeat 0 n.
Definition at_rest (cl : list cloud) : Prop := Forall (fun c => Forall (fun m => m_vx m = 0 /\ m_vy m = 0) (live (o_mp c))) cl.
