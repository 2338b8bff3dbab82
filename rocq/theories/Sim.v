(** Model of the time step: buildup_simulation.py:162-474 and
    space_charge_class.py:161-207.  No proofs in this file.

    The electromagnetic mode ([flag_em_tracking]), the average over MPI ranks
    and the writing of output are not modelled here (see Em.v, Mpi.v, Whole.v). *)
From Coq Require Import String.
From Verif Require Import Num Fort MP Push Geom Poly Sey Impact Beam Source CrossIon.
Local Open Scope list_scope.
Local Open Scope R_scope.

(** * Space charge *)

(** The external PyPIC solver: [scatter] deposits macroparticles
    (x, y, number of particles) of a given charge on the grid, [solve] gives
    the field as a function of the position ([gather] evaluates it). *)
Record pic := mkPic { pi_dep : R -> list (R * R * R) -> list R; pi_solve : list R -> R -> R -> R * R }.

(** space_charge_class.py:120-126: [Dt_sc] ([None]: no decimation),
    [t_last_recom], [last_recomputation_check]; and the state of PyPIC. *)
Record spch := mkSpch {
  sc_Dt : option R; sc_last : R; sc_check : bool; sc_rho : list R; sc_fld : R -> R -> R * R }.

(** space_charge_class.py:161-172. *)
Definition check_for_recomputation (t : R) (sc : spch) : bool * spch :=
  let flag := match sc_Dt sc with None => true | Some D => Rgeb (t - sc_last sc) D end in
  (flag, mkSpch (sc_Dt sc) (if flag then t else sc_last sc) flag (sc_rho sc) (sc_fld sc)).

(** The slices [[0:N_mp]] of the arrays. *)
Definition mp_points (s : mpsys) : list (R * R * R) :=
  map (fun i => (nth i (x_mp s) 0, nth i (y_mp s) 0, nth i (nel_mp s) 0)) (seq 0 (N_mp s)).
Definition mp_pos (s : mpsys) : list (R * R) :=
  map (fun i => (nth i (x_mp s) 0, nth i (y_mp s) 0)) (seq 0 (N_mp s)).

(** space_charge_class.py:175-199. *)
Definition recompute_spchg_efield (p : pic) (q : R) (s : mpsys) (solve reset : bool) (sc : spch) : spch :=
  let dep := pi_dep p q (mp_points s) in
  let rho := if reset then dep else map2 Rplus (sc_rho sc) dep in
  mkSpch (sc_Dt sc) (sc_last sc) (sc_check sc) rho (if solve then pi_solve p rho else sc_fld sc).

(** * Clouds *)

(** The tracker of a cloud: its time step, its number of sub-steps ([None]:
    no attribute or no value), [step] and [stepcustomDt] with the transverse
    electric field at each slot. *)
Record dynmod := mkDyn {
  d_Dt : R; d_Nsub : option nat;
  d_step : (nat -> R * R) -> mpsys -> mpsys;
  d_custom : (nat -> R * R) -> R -> nat -> mpsys -> mpsys }.

(** dynamics_Boris_f2py.py, dynamics_Boris_multipole.py, dynamics_dipole.py
    and dynamics_strong_B_generalized.py as trackers.  The last two have no
    [stepcustomDt] and no [N_sub_steps]. *)
Definition boris_dyn (charge mass : R) (getB : bfun) (Dt : R) (N : nat) : dynmod :=
  mkDyn Dt (Some N) (fun E s => boris_step charge mass getB E Dt N s)
    (fun E h n s => boris_stepcustomDt charge mass getB E h n s).
Definition multipole_dyn (charge mass : R) (bf bs : list R) (b0 : option R * option R * option R) (Dt : R) (N : nat) : dynmod :=
  let go := fun E h n s => multipole_stepcustomDt charge mass bf bs b0 (fun _ => (Some 0, Some 0, Some 0)) E h n s in
  mkDyn Dt (Some N) (fun E s => go E (Dt / INR N) N s) go.
Definition dipole_dyn (Dt B : R) : dynmod :=
  mkDyn Dt None (fun E s => dipole_step Dt B E s) (fun _ _ _ s => s).
Definition strongB_dyn (Dt B0x B0y : R) (sr : bsource) (thr : R) : dynmod :=
  mkDyn Dt None (fun E s => strongB_step Dt B0x B0y sr thr E s) (fun _ _ _ s => s).

(** gen_photoemission_class.py: the photoemission of a cloud ([photoem_flag]). *)
Inductive phsrc := NoPhoto | Photo1 (p : photo1) | Photo2 (ph : photo) (cdf : option (list (R * R)))
  | Photo3 (ph : photo) (pc : phcham).

(** cloud_manager.py and the settings of the objects it holds.  [a_em] is the
    emission model; its state is the position in the random stream and the
    charges on insulating surfaces; [a_evol] is [SEY_model_evol] (lines 206-207;
    it changes only these charges). *)
Record cset := mkCset {
  a_name : string; a_mass : R; a_charge : R; a_dyn : dynmod; a_icfg : icfg;
  a_em : R -> bool -> list imp -> nat * list R -> option (emis * (nat * list R));
  a_evol : R -> list R -> list R;
  a_gas : option gas; a_tion : R; a_photo : phsrc;
  a_regen : regen_cfg; a_soft : option (nat * nat); a_async : option (nat * nat) }.
Record cloud := mkCloud { o_set : cset; o_mp : mpsys; o_rho : list R; o_iman : iman; o_Q : list R }.

(** * Time step *)

(** What [sim_time_step] reads from a beam object. *)
Record tim := mkTim {
  ti_t : R; ti_Dt : R; ti_lam : R; ti_new : bool; ti_unif : bool; ti_f : bmeth;
  ti_sx : R; ti_sy : R; ti_x : R; ti_y : R }.

(** Settings of the simulation.  [e_boris]: [track_method] is 'Boris' or
    'BorisMultipole'; [e_fuel] bounds the loops that redraw random numbers. *)
Record env := mkEnv {
  e_wall : wall; e_cham : chamber; e_boris : bool; e_reinterp : bool; e_tsc : R; e_pic : pic;
  e_kc : consts; e_sr : src; e_fuel : nat }.

(** Optional arguments of [sim_time_step] (lines 162-172). *)
Record sargs := mkSargs {
  s_Dtsub : option R; s_Nsub : option nat; s_kick : bool; s_force_sc : bool; s_force_re : bool;
  s_noclean : bool; s_noregen : bool }.
Definition no_args : sargs := mkSargs None None false false false false false.

(** State of the simulation.  [m_k]: position in the random stream.
    [m_full] is not in the code: it records that the arrays of some cloud have
    been full at some point of the step. *)
Record sim := mkSim { m_clouds : list cloud; m_sc : spch; m_xion : option xion; m_k : nat; m_full : bool }.

Definition is_full (s : mpsys) : bool := Nat.leb (length (x_mp s)) (N_mp s).

(** Lines 300-331: [Some None]: no sub-steps; [Some (Some (h, n))]: [n]
    sub-steps of length [h]; [None]: an exception.  Without a value of
    [Dt_substep_custom] the trackers raise.  At line 324 [N_substeps_curr] can
    be 0; the quotient of the numpy number [Dt_curr] is then inf, and it is
    never used. *)
Definition sub_steps (e : env) (a : sargs) (b : tim) (d : dynmod) : option (option (R * nat)) :=
  match s_Nsub a with
  | Some n => if e_boris e then do h <- s_Dtsub a ; Some (Some (h, n)) else None
  | None =>
      if negb (ti_unif b) then
        if e_boris e then
          do ns <- d_Nsub d ;
          if Nat.eqb ns 0 || Reqb (d_Dt d) 0 then None else
          let target := d_Dt d / INR ns in
          let n := Z.to_nat (raround (ti_Dt b / target)) in
          Some (Some (ti_Dt b / INR n, n))
        else None
      else match d_Nsub d with
           | Some n => if Nat.eqb n 0 then None else Some (Some (d_Dt d / INR n, n))
           | None => Some None
           end
  end.

(** Component of a field at slot [i]. *)
Definition fld_at (f : fld) (i : nat) : R := match f with Scal r => r | Vec l => nth i l 0 end.

(** Lines 364-375. *)
Definition gather_field (sc : spch) (kick : bool) (main : tim) (secs : list tim) (s : mpsys) : option (nat -> R * R) :=
  let pos := mp_pos s in
  let ef := map (fun p => sc_fld sc (fst p) (snd p)) pos in
  if kick then Some (fun i => nth i ef (0, 0))
  else do (ex, ey) <- total_field ef (ti_f main) (map ti_f secs) pos ; Some (fun i => (fld_at ex i, fld_at ey i)).

(** Lines 256-259, 333-349. *)
Definition apply_kick (q m : R) (main : tim) (secs : list tim) (D : R) (s : mpsys) : option mpsys :=
  do (ex, ey) <- field_from_beams (ti_f main) (map ti_f secs) (mp_pos s) ;
  Some (push_live (fun i p => mkP6 (px p) (py p) (pz p)
     (pvx p + fld_at ex i * D * q / m) (pvy p + fld_at ey i * D * q / m) (pvz p)) s).

(** Lines 363-394: the loop over external sub-steps. *)
Fixpoint motion_loop (n : nat) (st : (nat -> R * R) -> mpsys -> mpsys) (sc : spch) (kick : bool)
  (main : tim) (secs : list tim) (s : mpsys) : option mpsys :=
  match n with
  | O => Some s
  | S n' => do E <- gather_field sc kick main secs s ; motion_loop n' st sc kick main secs (st E s)
  end.

(** Lines 290-394. *)
Definition cloud_motion (e : env) (a : sargs) (main : tim) (secs : list tim) (sc : spch) (c : cset) (s : mpsys)
  : option mpsys :=
  do sub <- sub_steps e a main (a_dyn c) ;
  do s <- (if s_kick a then
             match s_Nsub a, s_Dtsub a with
             | Some n, Some h => apply_kick (a_charge c) (a_mass c) main secs (h * INR n) s
             | _, _ => None
             end
           else Some s) ;
  if e_reinterp e || s_force_re a then
    match sub with
    | None => None
    | Some (h, n) => motion_loop n (fun E s => d_custom (a_dyn c) E h 1 s) sc (s_kick a) main secs s
    end
  else
    match sub with
    | None => motion_loop 1 (d_step (a_dyn c)) sc (s_kick a) main secs s
    | Some (h, n) => motion_loop 1 (fun E s => d_custom (a_dyn c) E h n s) sc (s_kick a) main secs s
    end.

(** Lines 398-419. *)
Fixpoint gas_loop (e : env) (g : gas) (mass : R) (bs : list tim) (k : nat) (full : bool) (s : mpsys)
  : option (mpsys * nat * bool) :=
  match bs with
  | [] => Some (s, k, full)
  | b :: bs' =>
      do (s, k) <- gas_generate (e_fuel e) (e_kc e) g (e_cham e) mass (ti_lam b) (ti_Dt b) (ti_sx b) (ti_sy b) (ti_x b) (ti_y b) (e_sr e) k s ;
      gas_loop e g mass bs' k (full || is_full s) s
  end.

(** Lines 421-427. *)
Definition photo_step (e : env) (p : phsrc) (mass lam Dt : R) (k : nat) (s : mpsys) : option (mpsys * nat) :=
  match p with
  | NoPhoto => Some (s, k)
  | Photo1 p => photo1_generate (e_fuel e) (e_kc e) p (e_wall e) mass lam Dt (e_sr e) k s
  | Photo2 ph cdf => photo2_generate (e_fuel e) (e_kc e) ph cdf (e_wall e) mass lam Dt (e_sr e) k s
  | Photo3 ph pc => photo3_generate (e_fuel e) (e_kc e) ph pc mass lam Dt (e_sr e) k s
  end.

(** Lines 396-427. *)
Definition primary_generation (e : env) (main : tim) (secs : list tim) (c : cset) (k : nat) (full : bool) (s : mpsys)
  : option (mpsys * nat * bool) :=
  do (s, k, full) <-
    (match a_gas c with
     | Some g => if Rltb (ti_t main) (a_tion c) then gas_loop e g (a_mass c) (main :: secs) k full s else Some (s, k, full)
     | None => Some (s, k, full)
     end) ;
  let lam := fold_left (fun l b => l + ti_lam b) secs (ti_lam main) in
  do (s, k) <- photo_step e (a_photo c) (a_mass c) lam (ti_Dt main) k s ;
  Some (s, k, full || is_full s).

(** Lines 184-210, one cloud. *)
Definition step_cloud (e : env) (a : sargs) (main : tim) (secs : list tim) (sc : spch) (k : nat) (full : bool) (c : cloud)
  : option (cloud * nat * bool) :=
  let st := o_set c in
  let old := get_positions (o_mp c) in
  do s <- cloud_motion e a main secs sc st (o_mp c) ;
  do (g, s, kq) <- backtrack_and_second_emiss (e_wall e) (a_icfg st) (a_em st) (ti_t main) old (o_iman c) s (k, o_Q c) ;
  let Q := a_evol st (ti_Dt main) (snd kq) in
  do (s, k, full) <- primary_generation e main secs st (fst kq) (full || is_full s) s ;
  Some (mkCloud st s (o_rho c) g Q, k, full).

Fixpoint clouds_loop (e : env) (a : sargs) (main : tim) (secs : list tim) (sc : spch) (k : nat) (full : bool) (cl : list cloud)
  : option (list cloud * nat * bool) :=
  match cl with
  | [] => Some ([], k, full)
  | c :: cl' =>
      do (c, k, full) <- step_cloud e a main secs sc k full c ;
      do (r, k, full) <- clouds_loop e a main secs sc k full cl' ;
      Some (c :: r, k, full)
  end.

(** Lines 212-214. *)
Definition to_x (c : cloud) : xcloud := mkXcloud (a_name (o_set c)) (a_mass (o_set c)) (o_mp c).
Definition put_mp (c : cloud) (x : xcloud) : cloud := mkCloud (o_set c) (xc_mp x) (o_rho c) (o_iman c) (o_Q c).
Definition cross_step (e : env) (Dt : R) (x : option xion) (k : nat) (cl : list cloud) : option (option xion * list cloud * nat) :=
  match x with
  | None => Some (None, cl, k)
  | Some x =>
      do (x, xs, k) <- cross_generate (q_e (e_kc e)) Dt x (map to_x cl) (s_uni (e_sr e)) k ;
      Some (Some x, map2 put_mp cl xs, k)
  end.

(** Lines 286-288: [sum] of the densities of the earlier clouds. *)
Definition sub_earlier (rho : list R) (before : list (list R)) : list R :=
  match before with
  | [] => rho
  | r :: rs => map2 Rminus rho (fold_left (map2 Rplus) rs r)
  end.

(** Lines 265-288, with the condition of lines 266-268 true.  [before]: the
    densities of the clouds already treated. *)
Fixpoint recompute_loop (p : pic) (before : list (list R)) (cl : list cloud) (sc : spch) : list cloud * spch :=
  match cl with
  | [] => ([], sc)
  | c :: cl' =>
      let reset := match before with [] => true | _ => false end in
      let solve := match cl' with [] => true | _ => false end in
      let sc := recompute_spchg_efield p (a_charge (o_set c)) (o_mp c) solve reset sc in
      let rho := sub_earlier (sc_rho sc) before in
      let '(r, sc) := recompute_loop p (before ++ [rho]) cl' sc in
      (mkCloud (o_set c) (o_mp c) rho (o_iman c) (o_Q c) :: r, sc)
  end.

(** Lines 261-288. *)
Definition recompute_cloud_spacecharge (e : env) (t : R) (flag force : bool) (cl : list cloud) (sc : spch) : list cloud * spch :=
  if (Rgtb t (e_tsc e) && flag) || force then recompute_loop (e_pic e) [] cl sc else (cl, sc).

(** Lines 162-219: the step up to the saving of the output. *)
Definition step_main (e : env) (a : sargs) (main : tim) (secs : list tim) (m : sim) : option sim :=
  let '(flag, sc) := check_for_recomputation (ti_t main) (m_sc m) in
  do (cl, k, full) <- clouds_loop e a main secs sc (m_k m) (m_full m) (m_clouds m) ;
  do (x, cl, k) <- cross_step e (ti_Dt main) (m_xion m) k cl ;
  let full := full || existsb (fun c => is_full (o_mp c)) cl in
  let '(cl, sc) := recompute_cloud_spacecharge e (ti_t main) flag (s_force_sc a) cl sc in
  Some (mkSim cl sc x k full).

(** Lines 457-474, one cloud. *)
Definition clean_one (e : env) (a : sargs) (new : bool) (c : cset) (k : nat) (s : mpsys) : option (mpsys * nat) :=
  let rng := s_uni (e_sr e) in
  do (s, k) <-
    (if new then
       do s <- (if s_noclean a then Some s else clean_small_MPs s) ;
       if s_noregen a then Some (s, k) else
       do (s, k) <- check_for_regeneration (e_fuel e) (e_fuel e) (a_regen c) (e_cham e) rng k s ;
       check_for_soft_regeneration (a_soft c) rng k s
     else Some (s, k)) ;
  check_for_async_regeneration (a_async c) rng k s.

Fixpoint clean_loop (e : env) (a : sargs) (new : bool) (k : nat) (cl : list cloud) : option (list cloud * nat) :=
  match cl with
  | [] => Some ([], k)
  | c :: cl' =>
      do (s, k) <- clean_one e a new (o_set c) k (o_mp c) ;
      do (r, k) <- clean_loop e a new k cl' ;
      Some (mkCloud (o_set c) s (o_rho c) (o_iman c) (o_Q c) :: r, k)
  end.

(** Lines 162-225.  The output ([_save_output_data], line 222) is taken from the
    state between the two parts. *)
Definition sim_time_step (e : env) (a : sargs) (main : tim) (secs : list tim) (m : sim) : option sim :=
  do m <- step_main e a main secs m ;
  do (cl, k) <- clean_loop e a (ti_new main) (m_k m) (m_clouds m) ;
  Some (mkSim cl (m_sc m) (m_xion m) k (m_full m)).

(** A beam with its field map, transverse size and position. *)
Record bgeo := mkBgeo { bg_f : bfield; bg_sx : R; bg_sy : R; bg_x : R; bg_y : R }.
Definition with_lam (f : bfield) (lam : R) : bfield :=
  mkBfield (f_q f) lam (f_th f) (f_x0 f) (f_y0 f) (f_dx f) (f_dy f) (f_nx f) (f_ny f) (f_Ex f) (f_Ey f).
Definition tim_of (g : bgeo) (b : beam) : option tim :=
  do w <- b_now b ;
  Some (mkTim (w_t w) (w_Dt w) (w_lam w) (w_new w) (b_unif b) (get_beam_eletric_field (with_lam (bg_f g) (w_lam w))) (bg_sx g) (bg_sy g) (bg_x g) (bg_y g)).
Fixpoint tims_of (gs : list bgeo) (bs : list beam) : option (list tim) :=
  match gs, bs with
  | g :: gs', b :: bs' => do t <- tim_of g b ; do l <- tims_of gs' bs' ; Some (t :: l)
  | _, _ => Some []
  end.

(** The step as called by [run] (line 154). *)
Definition run_step (e : env) (g : bgeo) (gs : list bgeo) (b : beam) (secs : list beam) (m : sim) : option sim :=
  do main <- tim_of g b ; do ss <- tims_of gs secs ; sim_time_step e no_args main ss m.
