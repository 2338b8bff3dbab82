(** Specification side of the time step. *)
From Coq Require Import String.
From Verif Require Import Num MP SpecMP SpecRegen Push SpecPush Geom Poly Sey SpecSey Impact SpecImpact Beam SpecBeam
  Source SpecSource CrossIon SpecCrossIon Sim.
Local Open Scope list_scope.
Local Open Scope R_scope.

(** * Space charge *)
(** The solver has one grid. *)
Definition grid_size (p : pic) (n : nat) : Prop := forall q l, List.length (pi_dep p q l) = n.

(** Charge density of one cloud: what the solver deposits for its
    macroparticles. *)
Definition own_density (p : pic) (c : cloud) : list R :=
  pi_dep p (a_charge (o_set c)) (map (fun m => (m_x m, m_y m, m_nel m)) (live (o_mp c))).

(** At each grid point the densities of the clouds add up to the density in
    the solver. *)
Definition adds_up (cl : list cloud) (sc : spch) : Prop :=
  forall j, nth j (sc_rho sc) 0 = rsum (map (fun c => nth j (o_rho c) 0) cl).

(** Several checks, one after the other; the answers. *)
Fixpoint checks (ts : list R) (sc : spch) : list bool * spch :=
  match ts with
  | [] => ([], sc)
  | t :: ts' => let '(b, sc) := check_for_recomputation t sc in
                let '(bs, sc) := checks ts' sc in (b :: bs, sc)
  end.

(** The last time of [ts] for which the answer was yes, [t0] if there is none. *)
Fixpoint last_yes (t0 : R) (ts : list R) (bs : list bool) : R :=
  match ts, bs with
  | t :: ts', b :: bs' => last_yes (if b then t else t0) ts' bs'
  | _, _ => t0
  end.

(** The step of the state [m] at time [t] recomputes the space charge: the
    time for it has come, or the caller asks for it. *)
Definition recomputes (e : env) (a : sargs) (t : R) (m : sim) : Prop :=
  (e_tsc e < t /\ match sc_Dt (m_sc m) with None => True | Some D => D <= t - sc_last (m_sc m) end) \/ s_force_sc a = true.

(** * Simulation *)
(** Time steps one after the other; the states after each. *)
Fixpoint sim_run (e : env) (l : list (sargs * tim * list tim)) (m : sim) : option (list sim) :=
  match l with
  | [] => Some []
  | (a, main, secs) :: l' =>
      do m1 <- sim_time_step e a main secs m ; do r <- sim_run e l' m1 ; Some (m1 :: r)
  end.
Definition step_time (q : sargs * tim * list tim) : R := ti_t (snd (fst q)).

(** No charge is negative after an impact of macroparticles without negative
    charge. *)
Definition emitter_pos {S : Type} (em : R -> bool -> list imp -> S -> option (emis * S)) : Prop :=
  forall th seg ps st e st', 0 < th -> Forall fair ps -> em th seg ps st = Some (e, st') ->
  Forall (fun q => 0 <= q) (o_nel e) /\ Forall (fun q => 0 <= q) (Sey.n_nel e).

(** The sources of a cloud are usable in this chamber. *)
Definition gas_ok (kc : consts) (g : gas) : Prop :=
  0 < kB kc /\ 0 <= c_light kc /\ 0 <= gs_P g /\ 0 <= gs_sigma g /\ 0 < gs_T g.
Definition photo_rate (kc : consts) (ph : photo) (lam Dt : R) : R := photoemitted kc (ph_k ph) (ph_mean ph) lam Dt.
Definition photo_conf (kc : consts) (mass : R) (ph : photo) : Prop :=
  0 < q_e kc /\ 0 <= c_light kc /\ 0 < mass /\ 0 < ph_sig ph /\ 0 <= ph_k ph /\ (forall m, ph_mean ph = Some m -> 0 <= m).
Definition photo_ok (w : wall) (kc : consts) (mass : R) (p : phsrc) : Prop :=
  match p with
  | NoPhoto => True
  | Photo1 p => photo_conf kc mass (p1_ph p) /\ w_out w 0 0 = false /\
      exists refl al x0 y0 cdf, photo1_ctor (p1_ph p) refl al x0 y0 cdf w = Some p
  | Photo2 ph _ => photo_conf kc mass ph /\ w_out w 0 0 = false
  | Photo3 ph pc => photo_conf kc mass ph /\ (forall x y, p_outside (pc_poly pc) x y = w_out w x y) /\
      exists vxs vys cx cy cdf, phcham_ctor vxs vys cx cy cdf = Some pc /\ List.length vxs = List.length vys
  end.

(** The chamber objects agree, and the parts of the simulation keep their
    contracts (all proved for the code in the other files). *)
Record chamber_ok (e : env) : Prop := mkChOk {
  co_wall : wall_ok (e_wall e);
  co_same : forall x y, outside (e_cham e) x y = w_out (e_wall e) x y;
  co_aper : forall x y, w_out (e_wall e) x y = false -> Rabs x <= x_aper (e_cham e);
  co_src : src_ok (e_sr e);
  co_norm : forall ks hs, w_hit (e_wall e) ks = Some hs ->
    Forall (fun hi => h_nx (fst hi) * h_nx (fst hi) + h_ny (fst hi) * h_ny (fst hi) <= 1) hs }.

Record set_ok (e : env) (c : cset) : Prop := mkSetOk {
  so_em : emitter_ok (e_wall e) (a_em c); so_pos : emitter_pos (a_em c);
  so_step : forall E, motion (d_step (a_dyn c) E);
  so_cust : forall E h n, motion (d_custom (a_dyn c) E h n);
  so_gas : forall g, a_gas c = Some g -> gas_ok (e_kc e) g /\ gs_life g = k_life (a_icfg c);
  so_photo : photo_ok (e_wall e) (e_kc e) (a_mass c) (a_photo c);
  so_hist : hist_cfg_ok (a_regen c) (x_aper (e_cham e));
  so_cut : 0 <= regen_hist_cut (a_regen c);
  so_after : (0 < N_mp_after_regen (a_regen c))%nat;
  so_soft : forall n target, a_soft c = Some (n, target) \/ a_async c = Some (n, target) -> (0 < target)%nat;
  so_phys : 0 < k_qe (a_icfg c) /\ 0 < k_mass (a_icfg c) }.

(** Consistent macroparticles: arrays in order, sizes derived from the
    reference size, none outside the chamber, none with negative charge. *)
Record sound (e : env) (c : cset) (s : mpsys) : Prop := mkSound {
  sd_wf : wf s; sd_tail : tail_zero s; sd_life : k_life (a_icfg c) = flag_lifetime_hist s;
  sd_sizes : sizes_ok s; sd_split : 0 < fact_split s; sd_clean : 0 < fact_clean s; sd_ref : 0 < nel_mp_ref_0 s <= nel_mp_ref s;
  sd_in : Forall (fun p => w_out (e_wall e) (m_x p) (m_y p) = false) (live s);
  sd_pos : Forall (fun p => 0 <= m_nel p) (live s) }.

Definition sound_cloud (e : env) (c : cloud) : Prop := set_ok e (o_set c) /\ sound e (o_set c) (o_mp c).
Definition sound_sim (e : env) (m : sim) : Prop :=
  Forall (sound_cloud e) (m_clouds m) /\ NoDup (map (fun c => a_name (o_set c)) (m_clouds m)).

(** Clouds are not thinned without having been cleaned. *)
Definition args_ok (a : sargs) : Prop := s_noclean a = true -> s_noregen a = true.

(** No negative numbers in the beams. *)
Definition beam_ok (b : tim) : Prop := 0 <= ti_lam b /\ 0 <= ti_Dt b.

(** Cross ionisation, if there is any, is well configured and no target is
    exhausted. *)
Definition xion_ok (m : sim) : Prop := forall x, m_xion m = Some x -> targets_ok x /\ tables_ok x /\ prods_ok x.

(** Charge expected from the primary sources of a cloud in one step, and the
    number of sources that act. *)
Definition gas_on (main : tim) (c : cset) : option gas :=
  match a_gas c with Some g => if Rlt_dec (ti_t main) (a_tion c) then Some g else None | None => None end.
Definition gas_rate (kc : consts) (g : gas) (b : tim) : R := ionised kc (gs_P g) (gs_sigma g) (gs_T g) (ti_lam b) (ti_Dt b).
Definition all_lam (main : tim) (secs : list tim) : R := ti_lam main + rsum (map ti_lam secs).
Definition expected (e : env) (main : tim) (secs : list tim) (c : cset) : R :=
  match gas_on main c with Some g => rsum (map (gas_rate (e_kc e) g) (main :: secs)) | None => 0 end +
  match a_photo c with
  | NoPhoto => 0
  | Photo1 p => photo_rate (e_kc e) (p1_ph p) (all_lam main secs) (ti_Dt main)
  | Photo2 ph _ => photo_rate (e_kc e) ph (all_lam main secs) (ti_Dt main)
  | Photo3 ph _ => photo_rate (e_kc e) ph (all_lam main secs) (ti_Dt main)
  end.
Definition n_sources (main : tim) (secs : list tim) (c : cset) : nat :=
  (match gas_on main c with Some _ => S (List.length secs) | None => 0 end +
   match a_photo c with NoPhoto => 0 | _ => 1 end)%nat.

(** Charge balance of a cloud [c] over a step, up to the saving of the output:
    charge on the wall is lost, emitted charge is gained, then come the primary
    and the ionisation products. *)
Definition balance (e : env) (main : tim) (secs : list tim) (c c' : cloud) : Prop :=
  exists prim cross,
    charge (o_mp c') = charge (o_mp c) - l_nimp (o_iman c') + l_nemit (o_iman c')
      + rsum (map m_nel prim) + rsum (map m_nel cross) /\
    Forall (fun p => m_nel p = nel_mp_ref (o_mp c)) prim /\
    Rabs (rsum (map m_nel prim) - expected e main secs (o_set c)) <= INR (n_sources main secs (o_set c)) * nel_mp_ref (o_mp c) /\
    exists mid, live (o_mp c') = mid ++ prim ++ cross.

(** The macroparticle has moved freely for a time [T]. *)
Definition drifted (T : R) (p p' : mp) : Prop :=
  m_x p' = m_x p + m_vx p * T /\ m_y p' = m_y p + m_vy p * T /\ m_z p' = m_z p + m_vz p * T /\
  m_vx p' = m_vx p /\ m_vy p' = m_vy p /\ m_vz p' = m_vz p /\ m_nel p' = m_nel p.

(** No field acts on the macroparticles: neither from the clouds nor from the
    beams. *)
Definition zero_fld (n : nat) (f : fld) : Prop := match f with Scal r => r = 0 | Vec l => l = repeat 0 n end.
Definition no_field (sc : spch) (main : tim) (secs : list tim) : Prop :=
  (forall x y, sc_fld sc x y = (0, 0)) /\ Forall (fun b => forall pos, zero_fld (List.length pos) (fst (ti_f b pos)) /\ zero_fld (List.length pos) (snd (ti_f b pos))) (main :: secs).

(** Without fields the tracker moves each macroparticle along its velocity, for
    the time asked for (trackers without sub-steps have no [stepcustomDt]). *)
Definition drifts (d : dynmod) : Prop :=
  (forall E s, (forall i, E i = (0, 0)) -> wf s -> wf (d_step d E s) /\ Forall2 (drifted (d_Dt d)) (live s) (live (d_step d E s))) /\
  (d_Nsub d <> None -> forall E h n s, (forall i, E i = (0, 0)) -> wf s -> wf (d_custom d E h n s) /\ Forall2 (drifted (INR n * h)) (live s) (live (d_custom d E h n s))).

(** The emission models with the state of a cloud: position in the random
    stream and charges on insulating surfaces. *)
Definition plain_em (m : seymod) (c : ecfg) (sr : src) (th : R) (seg : bool) (ps : list imp) (st : nat * list R)
  : option (emis * (nat * list R)) :=
  do (o, k) <- std_emitter m c sr th seg ps (fst st) ; Some (o, (k, snd st)).
Definition absorb_em (th : R) (seg : bool) (ps : list imp) (st : nat * list R) : option (emis * (nat * list R)) :=
  Some (absorb_surface ps, st).

Definition charging_params_ok (segs : list (R * R * R)) (E0 : R) (gs : list chseg) : Prop :=
  Forall seg_params segs /\ 0 < E0 /\ Forall (fun g => 0 < g_Qmax g /\ 0 < g_EQ g) gs.

(** A beam that never carries a negative density. *)
Definition no_negative (b : beam) : Prop := Forall (fun q => 0 <= q) (b_lam b).

(** The beam [b] acts at every point with the field [f] ([get_beam_eletric_field]
    returns one value for all macroparticles or an array). *)
Definition fld_is (pos : list (R * R)) (F : fld) (g : R * R -> R) : Prop :=
  match F with Scal r => Forall (fun p => g p = r) pos | Vec l => l = map g pos end.
Definition acts (b : tim) (f : R * R -> R * R) : Prop :=
  forall pos, fld_is pos (fst (ti_f b pos)) (fun p => fst (f p)) /\ fld_is pos (snd (ti_f b pos)) (fun p => snd (f p)).

(** The velocity of a macroparticle changes by the field of all beams at its
    position times [q / m], acting for the time [T]. *)
Definition kicked (q m T : R) (fs : list (R * R -> R * R)) (p p' : mp) : Prop :=
  let E := map (fun f => f (m_x p, m_y p)) fs in
  m_x p' = m_x p /\ m_y p' = m_y p /\ m_z p' = m_z p /\
  m_vx p' = m_vx p + q / m * rsum (map fst E) * T /\ m_vy p' = m_vy p + q / m * rsum (map snd E) * T /\ m_vz p' = m_vz p /\
  m_nel p' = m_nel p /\ m_t p' = m_t p.

(** The same step without beams, and the same arguments without kick mode. *)
Definition dark (b : tim) : tim :=
  mkTim (ti_t b) (ti_Dt b) (ti_lam b) (ti_new b) (ti_unif b) (fun _ => (Scal 0, Scal 0)) (ti_sx b) (ti_sy b) (ti_x b) (ti_y b).
Definition unkicked (a : sargs) : sargs :=
  mkSargs (s_Dtsub a) (s_Nsub a) false (s_force_sc a) (s_force_re a) (s_noclean a) (s_noregen a).

(** One step of a charging wall with [n] edges: the impacts of the step, if
    any, and then the decay over the length of the step.  The impacts and what
    they emit are the amounts that the step reports. *)
Definition charging_step (n : nat) (Dt : R) (g : iman) (evs : list wall_event) : Prop :=
  (evs = [Decay Dt] /\ l_nimp g = 0 /\ l_nemit g = 0) \/
  exists ps em, evs = [Hits ps em; Decay Dt] /\ l_nimp g = rsum (map i_nel ps) /\ l_nemit g = rsum em /\
    List.length em = List.length ps /\ Forall (fun p => (i_seg p < n)%nat) ps.
Definition charging_cloud (segs : list (R * R * R)) (E0 : R) (gs : list chseg) (cf : ecfg) (sr : src) (c : cset) : Prop :=
  a_em c = charging_emitter segs E0 gs cf sr /\ a_evol c = charging_evol gs.
Definition wall_history (n j : nat) (q : (sargs * tim * list tim) * sim) (evs : list wall_event) : Prop :=
  exists c, nth_error (m_clouds (snd q)) j = Some c /\ charging_step n (ti_Dt (snd (fst (fst q)))) (o_iman c) evs.
(** Charge on the wall: charge per length times length. *)
Definition wall_charge (gs : list chseg) (Q : list R) : R := rsum (map2 (fun g q => g_L g * q) gs Q).
(** What the cloud [j] gained at the wall in one step. *)
Definition wall_gain (j : nat) (m : sim) : R :=
  match nth_error (m_clouds m) j with Some c => l_nemit (o_iman c) - l_nimp (o_iman c) | None => 0 end.

(** The electrons [new] that the beam [b] frees from the gas in one step: their
    number (a rounding of the expected one), their charge, and for each where it
    starts. *)
Definition gas_born (e : env) (g : gas) (ref : R) (b : tim) (new : list mp) : Prop :=
  exists k, rounded (ionised (e_kc e) (gs_P g) (gs_sigma g) (gs_T g) (ti_lam b) (ti_Dt b) / ref) (s_uni (e_sr e) k) (List.length new) /\
  Forall (fun p => m_nel p = ref) new /\
  exists ix iy, NoDup (ix ++ iy) /\ List.length ix = List.length new /\ List.length iy = List.length new /\
    forall j p, nth_error new j = Some p ->
      gas_place (e_sr e) (ti_sx b) (ti_x b) (x_aper (e_cham e)) (s_uni (e_sr e) (k + 1 + j) < gs_unif g) (nth j ix 0%nat) (m_x p) /\
      gas_place (e_sr e) (ti_sy b) (ti_y b) (y_aper (e_cham e)) (s_uni (e_sr e) (k + 1 + j) < gs_unif g) (nth j iy 0%nat) (m_y p).

(** The transverse field on a macroparticle: that of the clouds and that of each
    beam at its position. *)
Definition force_at (sc : spch) (fs : list (R * R -> R * R)) (p : p6) : R * R :=
  let E := map (fun f => f (px p, py p)) fs in
  (fst (sc_fld sc (px p) (py p)) + rsum (map fst E), snd (sc_fld sc (px p) (py p)) + rsum (map snd E)).

(** The step of a cloud is made of [n] pieces of length [h]: those given by the
    caller, or those of the tracker, or, on a non-uniform time axis, as many as
    are nearest to the length of those of the tracker. *)
Definition pieces (a : sargs) (main : tim) (d : dynmod) (h : R) (n : nat) : Prop :=
  (s_Nsub a = Some n /\ s_Dtsub a = Some h) \/
  (s_Nsub a = None /\ ti_unif main = true /\ d_Nsub d = Some n /\ h = d_Dt d / INR n) \/
  (s_Nsub a = None /\ ti_unif main = false /\ exists m, d_Nsub d = Some m /\
     n = Z.to_nat (raround (ti_Dt main / (d_Dt d / INR m))) /\ h = ti_Dt main / INR n).

(** A constant field [E] acts on a charge over mass [qm] in [n] pieces of length
    [h], each with the velocity at its end. *)
Definition accelerated (qm : R) (E : R * R) (h : R) (n : nat) (p p' : p6) : Prop :=
  let T := INR n * h in
  pvx p' = pvx p + qm * fst E * T /\ pvy p' = pvy p + qm * snd E * T /\ pvz p' = pvz p /\
  px p' = px p + pvx p * T + qm * fst E * T * (T + h) / 2 /\
  py p' = py p + pvy p * T + qm * snd E * T * (T + h) / 2 /\ pz p' = pz p + pvz p * T.

(** [n] steps in a row, each related to the next by [P]. *)
Inductive in_a_row {A} (P : A -> A -> Prop) : nat -> A -> A -> Prop :=
| Row0 : forall x, in_a_row P 0 x x
| RowS : forall n x y z, P x y -> in_a_row P n y z -> in_a_row P (S n) x z.

(** * The step as [run] makes it *)

(** No argument of the step is set: a step without kick mode, forced space charge
    or interpolation, with cleaning and regeneration. *)
Definition unforced (a : sargs) : Prop :=
  s_Dtsub a = None /\ s_Nsub a = None /\ s_kick a = false /\ s_force_sc a = false /\ s_force_re a = false /\ s_noclean a = false /\ s_noregen a = false.
(** What the step sees of the beam [b]: its current time, step, density and
    passage flag, with the size and position of [g]. *)
Definition of_run (g : bgeo) (b : beam) (t : tim) : Prop :=
  exists w, b_now b = Some w /\ ti_t t = w_t w /\ ti_Dt t = w_Dt w /\ ti_lam t = w_lam w /\ ti_new t = w_new w /\ ti_unif t = b_unif b /\
    ti_sx t = bg_sx g /\ ti_sy t = bg_sy g /\ ti_x t = bg_x g /\ ti_y t = bg_y g.
