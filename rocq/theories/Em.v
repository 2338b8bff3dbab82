(** Model of the electromagnetic mode of the space charge:
    space_charge_class_electromagnetic.py:74-150 and the parts of
    buildup_simulation.py that use it.  No proofs in this file. *)
From Coq Require Import String.
From Verif Require Import Num MP Push Beam Sim.
Local Open Scope list_scope.
Local Open Scope R_scope.

(** A state of the external PyPIC solver: the density and what [solve] made of
    it, the potential ([gather_phi]) and the field ([gather]). *)
Record pst := mkPst { ps_rho : list R; ps_phi : R -> R -> R; ps_fld : R -> R -> R * R }.

(** [em_sc]: the inherited part; [em_ax], [em_ay]: [state_Ax], [state_Ay];
    [em_old]: [state_Ax_old], [state_Ay_old], which are set together. *)
Record emsc := mkEm { em_sc : spch; em_ax : pst; em_ay : pst; em_old : option (pst * pst); em_beta : R }.

(** Lines 76-95.  [n]: the number of grid points.  A new state of the solver has
    no charge and no field. *)
Definition no_state (n : nat) : pst := mkPst (repeat 0 n) (fun _ _ => 0) (fun _ _ => (0, 0)).
Definition em_ctor (n : nat) (sc : spch) (gamma : R) : emsc :=
  mkEm sc (no_state n) (no_state n) None (sqrt (1 - 1 / (gamma * gamma))).

(** [scatter] and [solve_states] on one state.  [phi]: the potential of a
    density. *)
Definition scatter (p : pic) (q : R) (pts : list (R * R * R)) (reset : bool) (st : pst) : pst :=
  let dep := pi_dep p q pts in
  mkPst (if reset then dep else map2 Rplus (ps_rho st) dep) (ps_phi st) (ps_fld st).
Definition solved (p : pic) (phi : list R -> R -> R -> R) (st : pst) : pst :=
  mkPst (ps_rho st) (phi (ps_rho st)) (pi_solve p (ps_rho st)).

(** Lines 111-116: positions and [epsilon_0 * mu_0 * nel * v]. *)
Definition mp_currents (k0 : R) (v : mpsys -> list R) (s : mpsys) : list (R * R * R) :=
  map (fun i => (nth i (x_mp s) 0, nth i (y_mp s) 0, k0 * nth i (nel_mp s) 0 * nth i (v s) 0)) (seq 0 (N_mp s)).

(** Lines 97-121.  The copies of lines 102 and 103 keep the potential. *)
Definition recompute_spchg_emfield (p : pic) (phi : list R -> R -> R -> R) (k0 q : R) (s : mpsys) (solve reset : bool) (em : emsc) : emsc :=
  let sc := recompute_spchg_efield p q s solve reset (em_sc em) in
  let ax := scatter p q (mp_currents k0 vx_mp s) reset (em_ax em) in
  let ay := scatter p q (mp_currents k0 vy_mp s) reset (em_ay em) in
  mkEm sc (if solve then solved p phi ax else ax) (if solve then solved p phi ay else ay) (Some (em_ax em, em_ay em)) (em_beta em).

(** buildup_simulation.py:261-288 with [flag_em_tracking]. *)
Fixpoint em_loop (p : pic) (phi : list R -> R -> R -> R) (k0 : R) (before : list (list R)) (cl : list cloud) (em : emsc)
  : list cloud * emsc :=
  match cl with
  | [] => ([], em)
  | c :: cl' =>
      let reset := match before with [] => true | _ => false end in
      let solve := match cl' with [] => true | _ => false end in
      let em := recompute_spchg_emfield p phi k0 (a_charge (o_set c)) (o_mp c) solve reset em in
      let rho := sub_earlier (sc_rho (em_sc em)) before in
      let '(r, em) := em_loop p phi k0 (before ++ [rho]) cl' em in
      (mkCloud (o_set c) (o_mp c) rho (o_iman c) (o_Q c) :: r, em)
  end.

(** buildup_simulation.py:178-180 and 215-218, the part about the space charge
    of a step at time [t]; [cl]: the clouds after the motion. *)
Definition em_step (p : pic) (phi : list R -> R -> R -> R) (k0 tsc : R) (t : R) (force : bool) (cl : list cloud) (em : emsc) : emsc :=
  let '(flag, sc) := check_for_recomputation t (em_sc em) in
  let em := mkEm sc (em_ax em) (em_ay em) (em_old em) (em_beta em) in
  if (Rgtb t tsc && flag) || force then snd (em_loop p phi k0 [] cl em) else em.

(** Lines 123-150 at one position: the electric field and the magnetic field.
    [None]: the quotient by [Dt_sc = None] raises.  [c_light * beta] is not
    zero. *)
Definition em_at (em : emsc) (x y : R) : option ((R * R) * (R * R * R)) :=
  let dAx_dy := - snd (ps_fld (em_ax em) x y) in
  let dAy_dx := - fst (ps_fld (em_ay em) x y) in
  let '(mpx, mpy) := sc_fld (em_sc em) x y in
  do (dx, dy) <-
    (match em_old em with
     | None => Some (0, 0)
     | Some (ox, oy) =>
         do D <- sc_Dt (em_sc em) ;
         Some ((ps_phi (em_ax em) x y - ps_phi ox x y) / D, (ps_phi (em_ay em) x y - ps_phi oy x y) / D)
     end) ;
  Some ((mpx - dx, mpy - dy), (1 / (em_beta em * c_light) * dy, - (1) / (em_beta em * c_light) * dx, dAy_dx - dAx_dy)).

Fixpoint em_all (em : emsc) (pos : list (R * R)) : option (list ((R * R) * (R * R * R))) :=
  match pos with
  | [] => match em_old em, sc_Dt (em_sc em) with Some _, None => None | _, _ => Some [] end
  | q :: pos' => do f <- em_at em (fst q) (snd q) ; do r <- em_all em pos' ; Some (f :: r)
  end.

(** buildup_simulation.py:237-254, 363-375. *)
Definition em_gather (em : emsc) (kick : bool) (main : tim) (secs : list tim) (s : mpsys)
  : option ((nat -> R * R) * (nat -> option R * option R * option R)) :=
  let pos := mp_pos s in
  do fs <- em_all em pos ;
  let B := fun i => let '(bx, by_, bz) := snd (nth i fs ((0, 0), (0, 0, 0))) in (Some bx, Some by_, Some bz) in
  if kick then Some (fun i => fst (nth i fs ((0, 0), (0, 0, 0))), B)
  else do (ex, ey) <- total_field (map fst fs) (ti_f main) (map ti_f secs) pos ; Some (fun i => (fld_at ex i, fld_at ey i), B).

Fixpoint em_motion_loop (n : nat) (st : (nat -> R * R) -> (nat -> option R * option R * option R) -> mpsys -> mpsys) (em : emsc) (kick : bool)
  (main : tim) (secs : list tim) (s : mpsys) : option mpsys :=
  match n with
  | O => Some s
  | S n' => do (E, B) <- em_gather em kick main secs s ; em_motion_loop n' st em kick main secs (st E B s)
  end.

(** buildup_simulation.py:290-394 with the only tracker that init.py:484-516
    allows in this mode.  [Dt], [N]: its time step and number of sub-steps. *)
Definition em_motion (e : env) (a : sargs) (main : tim) (secs : list tim) (em : emsc)
  (q m : R) (bf bs : list R) (b0 : option R * option R * option R) (Dt : R) (N : nat) (s : mpsys) : option mpsys :=
  do sub <- sub_steps e a main (multipole_dyn q m bf bs b0 Dt N) ;
  do s <- (if s_kick a then
             match s_Nsub a, s_Dtsub a with
             | Some n, Some h => apply_kick q m main secs (h * INR n) s
             | _, _ => None
             end
           else Some s) ;
  let go h n := fun E B s => multipole_stepcustomDt q m bf bs b0 B E h n s in
  match sub with
  | None => if e_reinterp e || s_force_re a then None else em_motion_loop 1 (go (Dt / INR N) N) em (s_kick a) main secs s
  | Some (h, n) =>
      if e_reinterp e || s_force_re a then em_motion_loop n (go h 1%nat) em (s_kick a) main secs s
      else em_motion_loop 1 (go h n) em (s_kick a) main secs s
  end.
