(** C42, C43, C50, C61, C71, C72, C73: the time step. *)
From Coq Require Import String Lra Lia.
From Verif Require Import Num NumFacts MP SpecMP Push SpecPush Geom SpecGeom Poly Sey SpecSey Impact SpecImpact Beam SpecBeam
  Source SpecSource CrossIon SpecCrossIon Sim SpecSim SimFacts SimFacts2 SimFacts3 SimFacts4 SimFacts5 SimFacts6 SimFacts7 SimFacts8 ExSey ExImpact ExSource ExSim.
Local Open Scope list_scope.
Local Open Scope R_scope.

(** C42.  When a step recomputes the space charge, the density recorded for
    each cloud is the one deposited by its own macroparticles (with one cloud,
    that of the solver), the densities of the clouds add up to the one in the
    solver at each grid point, and the field is solved from that sum.
    Otherwise densities and field stay as they were.  Any number of clouds,
    any solver with one grid. *)
Theorem C42_step : forall n e a main secs m mid,
  grid_size (e_pic e) n -> step_main e a main secs m = Some mid ->
  let b := fst (check_for_recomputation (ti_t main) (m_sc m)) in
  sc_check (m_sc mid) = b /\ sc_last (m_sc mid) = (if b then ti_t main else sc_last (m_sc m)) /\ sc_Dt (m_sc mid) = sc_Dt (m_sc m) /\
  map o_set (m_clouds mid) = map o_set (m_clouds m) /\
  (recomputes e a (ti_t main) m -> m_clouds m <> [] ->
     map o_rho (m_clouds mid) = map (own_density (e_pic e)) (m_clouds mid) /\ adds_up (m_clouds mid) (m_sc mid) /\
     sc_fld (m_sc mid) = pi_solve (e_pic e) (sc_rho (m_sc mid))) /\
  (~ recomputes e a (ti_t main) m ->
     map o_rho (m_clouds mid) = map o_rho (m_clouds m) /\ sc_rho (m_sc mid) = sc_rho (m_sc m) /\ sc_fld (m_sc mid) = sc_fld (m_sc m)).
Proof. exact step_main_sc. Qed.
Print Assumptions C42_step.

(** C42 over any history of steps, with any arguments; the answers of the
    checks are those of the decimation rule alone. *)
Theorem C42_history : forall n e l,
  grid_size (e_pic e) n -> forall m ms, sim_run e l m = Some ms -> adds_up (m_clouds m) (m_sc m) ->
  Forall (fun m' => adds_up (m_clouds m') (m_sc m') /\ map o_set (m_clouds m') = map o_set (m_clouds m)) ms /\
  map (fun m' => sc_check (m_sc m')) ms = fst (checks (map step_time l) (m_sc m)).
Proof. exact run_sc. Qed.
Print Assumptions C42_history.

Example C42_case : grid_size (e_pic sEnv) 1 /\ (exists mid, step_main sEnv no_args (sBeam 1) [] sM = Some mid) /\
  recomputes sEnv no_args 1 sM /\ List.length (m_clouds sM) = 2%nat /\ adds_up (m_clouds sM) (m_sc sM) /\
  exists ms, sim_run sEnv [(no_args, sBeam 1, [])] sM = Some ms.
Proof.
  split; [exact sGrid|]. split; [destruct (sStep_main 1 ltac:(lra)) as (mid & H & _); exists mid; exact H|]. split; [apply sRecomputes|].
  split; [reflexivity|]. split; [exact sAdds|]. destruct (sStep 1 ltac:(lra)) as (m' & H & _). exists [m']. cbn [sim_run]. rewrite H. reflexivity.
Qed.

(** C43.  Two checks that answer yes are at least [Dt_sc] apart, for any
    times. *)
Theorem C43_apart : forall ts sc bs sc' D i j,
  checks ts sc = (bs, sc') -> sc_Dt sc = Some D -> 0 <= D ->
  (i < j < List.length ts)%nat -> nth i bs false = true -> nth j bs false = true -> D <= nth j ts 0 - nth i ts 0.
Proof. exact checks_apart. Qed.
Print Assumptions C43_apart.

(** C43.  After any check less than [Dt_sc] has gone by since the last one that
    answered yes. *)
Theorem C43_soon : forall ts sc bs sc' D i,
  checks ts sc = (bs, sc') -> sc_Dt sc = Some D -> 0 < D -> (i < List.length ts)%nat ->
  nth i ts 0 - last_yes (sc_last sc) (firstn (S i) ts) (firstn (S i) bs) < D.
Proof. exact checks_soon. Qed.
Print Assumptions C43_soon.

(** C43.  A check answers yes exactly if at least [Dt_sc] has gone by since the
    last yes. *)
Theorem C43_answer : forall ts sc bs sc' D i,
  checks ts sc = (bs, sc') -> sc_Dt sc = Some D -> (i < List.length ts)%nat ->
  let prev := last_yes (sc_last sc) (firstn i ts) (firstn i bs) in
  (nth i bs false = true <-> D <= nth i ts 0 - prev) /\
  last_yes (sc_last sc) (firstn (S i) ts) (firstn (S i) bs) = (if nth i bs false then nth i ts 0 else prev).
Proof. exact checks_step. Qed.
Print Assumptions C43_answer.

Example C43_case : exists bs sc', checks [1; 3/2; 2] (mkSpch (Some 1) 0 false [] (fun _ _ => (0, 0))) = (bs, sc') /\ bs = [true; false; true].
Proof.
  eexists _, _. split; [reflexivity|]. cbn.
  rewrite (proj2 (Rgeb_true (1 - 0) 1)) by lra. rewrite (proj2 (Rgeb_false (3/2 - 1) 1)) by lra. rewrite (proj2 (Rgeb_true (2 - 1) 1)) by lra. reflexivity.
Qed.

(** C43 is false of the recomputations themselves: a check that answers yes
    before the space charge is switched on recomputes nothing but uses up the
    slot, so that no step before [t + Dt_sc] recomputes either, switched on or
    not. *)
Theorem C43_early_check_partial : forall n e a main secs m m' D,
  grid_size (e_pic e) n -> sim_time_step e a main secs m = Some m' ->
  sc_Dt (m_sc m) = Some D -> ti_t main <= e_tsc e -> s_force_sc a = false -> D <= ti_t main - sc_last (m_sc m) ->
  sc_rho (m_sc m') = sc_rho (m_sc m) /\
  forall a2 t2, s_force_sc a2 = false -> t2 < ti_t main + D -> ~ recomputes e a2 t2 m'.
Proof. exact early_check. Qed.
Print Assumptions C43_early_check_partial.

(** The witness: at time 1/2 the space charge has been on for 1/2 and never
    computed, [Dt_sc] is 1, the last real computation was 10.5 before, and
    nothing is computed. *)
Theorem C43_early_check_refuted : exists m', sim_time_step sEnv no_args (sBeam 0) [] sM = Some m' /\
  e_tsc sEnv < 1/2 /\ sc_Dt (m_sc m') = Some 1 /\ sc_last (m_sc sM) = -10 /\ sc_rho (m_sc m') = sc_rho (m_sc sM) /\ ~ recomputes sEnv no_args (1/2) m'.
Proof.
  destruct (sStep 0 ltac:(lra)) as (m' & H & _). exists m'. split; [exact H|].
  destruct (early_check 1 sEnv no_args (sBeam 0) [] sM m' 1 sGrid H) as [A B]; cbn; try lra; auto.
  destruct (step_adds_up 1 sEnv no_args (sBeam 0) [] sM m' sGrid H sAdds) as (_ & _ & _ & _ & C).
  split; [lra|]. split; [exact C|]. split; [reflexivity|]. split; [exact A|]. apply B; auto. cbn. lra.
Qed.
Print Assumptions C43_early_check_refuted.

(** C50.  Without custom sub-steps, the sub-steps add up to the current time
    step and there is at least one, provided the tracker is built for the step
    of a uniform axis, and, on a non-uniform one, the step is longer than half
    the target sub-step.  [None]: the tracker makes one step of its own
    length. *)
Theorem C50_cover_partial : forall e a main d sub,
  s_Nsub a = None -> sub_steps e a main d = Some sub ->
  (ti_unif main = true -> ti_Dt main = d_Dt d) ->
  (ti_unif main = false -> forall n, d_Nsub d = Some n -> 0 < d_Dt d /\ d_Dt d / INR n < 2 * ti_Dt main) ->
  match sub with
  | Some (h, n) => (1 <= n)%nat /\ INR n * h = ti_Dt main
  | None => d_Dt d = ti_Dt main
  end.
Proof. exact sub_steps_cover. Qed.
Print Assumptions C50_cover_partial.

(** C50, observed: without fields every macroparticle moves along its velocity
    for the current time step, for every tracker that does so in one of its own
    steps. *)
Theorem C50_free_flight_partial : forall e a main secs sc c s,
  s_Nsub a = None -> s_kick a = false -> drifts (a_dyn c) -> no_field sc main secs -> wf s ->
  (ti_unif main = true -> ti_Dt main = d_Dt (a_dyn c)) ->
  (ti_unif main = false -> forall n, d_Nsub (a_dyn c) = Some n -> 0 < d_Dt (a_dyn c) /\ d_Dt (a_dyn c) / INR n < 2 * ti_Dt main) ->
  forall s', cloud_motion e a main secs sc c s = Some s' -> Forall2 (drifted (ti_Dt main)) (live s) (live s').
Proof. exact motion_drift. Qed.
Print Assumptions C50_free_flight_partial.

(** C50 with sub-steps given by the caller: [n] of length [h] move for
    [n * h]. *)
Theorem C50_custom : forall e a main secs sc c s n h,
  s_Nsub a = Some n -> s_Dtsub a = Some h -> s_kick a = false -> drifts (a_dyn c) -> d_Nsub (a_dyn c) <> None ->
  no_field sc main secs -> wf s ->
  forall s', cloud_motion e a main secs sc c s = Some s' -> Forall2 (drifted (INR n * h)) (live s) (live s').
Proof. exact motion_drift_custom. Qed.
Print Assumptions C50_custom.

(** The trackers of the code drift when there is no field. *)
Theorem C50_boris : forall q m Dt N, (N <> 0)%nat -> drifts (boris_dyn q m (B_none 0 0 0) Dt N).
Proof. exact boris_drifts. Qed.
Print Assumptions C50_boris.
Theorem C50_dipole : forall Dt, drifts (dipole_dyn Dt 0).
Proof. exact dipole_drifts. Qed.
Print Assumptions C50_dipole.
Theorem C50_strongB : forall Dt thr, 0 < thr -> drifts (strongB_dyn Dt 0 0 SrcNone thr).
Proof. exact strongB_drifts. Qed.
Print Assumptions C50_strongB.

(** C50 fails on non-uniform axes: a step of at most half the target sub-step
    is made with no sub-step at all; nothing moves. *)
Theorem C50_no_sub_step_refuted : cloud_motion sEnv no_args zBeam [] sSc zSet exS0 = Some exS0 /\ 0 < ti_Dt zBeam /\
  sub_steps sEnv no_args zBeam (a_dyn zSet) = Some (Some ((1/4) / INR 0, 0%nat)) /\
  drifts (a_dyn zSet) /\ no_field sSc zBeam [] /\ wf exS0 /\ ~ Forall2 (drifted (ti_Dt zBeam)) (live exS0) (live exS0).
Proof. exact zero_sub_steps. Qed.
Print Assumptions C50_no_sub_step_refuted.

Example C50_case : drifts (a_dyn (o_set sE)) /\ no_field sSc (sBeam 1) [] /\ wf (o_mp sE) /\
  (ti_unif (sBeam 1) = true -> ti_Dt (sBeam 1) = d_Dt (a_dyn (o_set sE))) /\
  exists s', cloud_motion sEnv no_args (sBeam 1) [] sSc (o_set sE) (o_mp sE) = Some s'.
Proof.
  destruct (quiet_motion sEnv (sBeam 1) [] sSc (sNo 1 sSc (fun _ _ => eq_refl)) eq_refl eq_refl sE (sQuiet 1 sE (or_introl eq_refl))) as (s' & H & _).
  split; [apply boris_drifts; lia|]. split; [apply sNo; reflexivity|]. split; [constructor; cbn; auto|]. split; [reflexivity|]. exists s'. exact H.
Qed.

(** C61.  One step with any arguments, any number of beams and clouds, any
    sources and cross ionisation: if no array was full in this step, all
    clouds are as they should be when the output is saved (arrays in order,
    nothing outside the chamber, no negative charge, sizes in order), and the
    charge of each is what it was, minus the charge on the wall, plus the
    emitted charge, plus primaries of the reference size whose number matches
    the rate of each source to one, plus the ionisation products. *)
Theorem C61_step_balance : forall e a main secs m mid,
  chamber_ok e -> Forall beam_ok (main :: secs) -> xion_ok m -> sound_sim e m ->
  step_main e a main secs m = Some mid -> m_full mid = false ->
  m_full m = false /\ sound_sim e mid /\ Forall2 (balance e main secs) (m_clouds m) (m_clouds mid).
Proof. exact step_main_sound. Qed.
Print Assumptions C61_step_balance.

(** C61, with the cleaning and thinning at the end of the step. *)
Theorem C61_step : forall e a main secs m m',
  chamber_ok e -> args_ok a -> Forall beam_ok (main :: secs) -> xion_ok m -> sound_sim e m ->
  sim_time_step e a main secs m = Some m' -> m_full m' = false -> m_full m = false /\ sound_sim e m'.
Proof. exact step_sound. Qed.
Print Assumptions C61_step.

(** C61 over any history of steps. *)
Theorem C61_history : forall e l,
  chamber_ok e -> Forall (fun q => args_ok (fst (fst q)) /\ Forall beam_ok (snd (fst q) :: snd q)) l ->
  forall m ms, sound_sim e m -> sim_run e l m = Some ms ->
  Forall xion_ok (m :: ms) -> Forall (fun m => m_full m = false) ms -> Forall (sound_sim e) ms.
Proof. exact run_sound. Qed.
Print Assumptions C61_history.

(** C61 for [run]: the whole time loop, up to any end time, without cross
    ionisation. *)
Theorem C61_run : forall e g gs te fuel b ss m b' ss' m',
  chamber_ok e ->
  fresh b -> Forall (fun x => fresh x /\ b_t x = b_t b) ss -> (List.length (b_t b) <= fuel)%nat ->
  ascending (b_t b) -> Forall no_negative (b :: ss) -> m_xion m = None -> sound_sim e m ->
  run (run_step e g gs) te fuel b ss m = Some (b', ss', m') -> m_full m' = false -> sound_sim e m'.
Proof. exact run_all_sound. Qed.
Print Assumptions C61_run.

(** Each of its steps sees the beams as they are at that time, cleans and
    regenerates when due, and is not in kick mode. *)
Theorem C61_run_step : forall e g gs b ss m m', run_step e g gs b ss m = Some m' -> List.length gs = List.length ss ->
  exists a main l, sim_time_step e a main l m = Some m' /\ unforced a /\ of_run g b main /\ Forall2 (fun gb t => of_run (fst gb) (snd gb) t) (combine gs ss) l.
Proof. exact run_step_is. Qed.
Print Assumptions C61_run_step.

(** The emission models keep the contracts used in [sound_cloud] ... *)
Theorem C61_emission : forall w m c sr, sey_params_ok m -> emitter_ok w (plain_em m c sr) /\ emitter_pos (plain_em m c sr).
Proof. intros w m c sr H. split; [apply plain_em_ok|apply plain_em_pos; exact H]. Qed.
Print Assumptions C61_emission.
Theorem C61_charging : forall w segs E0 gs c sr, charging_params_ok segs E0 gs ->
  emitter_ok w (charging_emitter segs E0 gs c sr) /\ emitter_pos (charging_emitter segs E0 gs c sr).
Proof. intros w segs E0 gs c sr H. split; [apply ImpactFacts.charging_emitter_ok|apply charging_em_pos; exact H]. Qed.
Print Assumptions C61_charging.
(** ... and so do the chambers and trackers. *)
Theorem C61_ellipse : forall e resc, ellip_ok e -> wall_ok (ell_wall e resc) /\
  forall ks hs, w_hit (ell_wall e resc) ks = Some hs -> Forall (fun hi => h_nx (fst hi) * h_nx (fst hi) + h_ny (fst hi) * h_ny (fst hi) <= 1) hs.
Proof. intros e resc H. split; [apply ImpactFacts.ell_wall_ok; exact H|apply ell_normals; exact H]. Qed.
Print Assumptions C61_ellipse.
Theorem C61_polygon : forall vxs vys cx cy cv p resc, poly_ctor vxs vys cx cy cv = Some p -> 0 < resc < 1 -> wall_ok (poly_wall p resc) /\
  forall ks hs, w_hit (poly_wall p resc) ks = Some hs -> Forall (fun hi => h_nx (fst hi) * h_nx (fst hi) + h_ny (fst hi) * h_ny (fst hi) <= 1) hs.
Proof. intros vxs vys cx cy cv p resc H H0. split; [apply ImpactFacts.poly_wall_ok; exact H0|eapply poly_normals_short; exact H]. Qed.
Print Assumptions C61_polygon.
Theorem C61_trackers : forall q m gB bf bs b0 B Bx By sr thr Dt N,
  Forall (fun d => (forall E, motion (d_step d E)) /\ (forall E h n, motion (d_custom d E h n)))
    [boris_dyn q m gB Dt N; multipole_dyn q m bf bs b0 Dt N; dipole_dyn Dt B; strongB_dyn Dt Bx By sr thr].
Proof.
  intros. constructor; [apply boris_motion|]. constructor; [apply multipole_motion|]. constructor; [apply dipole_motion|].
  constructor; [apply strongB_motion|constructor].
Qed.
Print Assumptions C61_trackers.

Example C61_case : chamber_ok sEnv /\ args_ok no_args /\ Forall beam_ok [sBeam 1] /\ xion_ok sM /\ sound_sim sEnv sM /\
  List.length (m_clouds sM) = 2%nat /\
  (exists mid, step_main sEnv no_args (sBeam 1) [] sM = Some mid /\ m_full mid = false) /\
  (exists m', sim_time_step sEnv no_args (sBeam 1) [] sM = Some m' /\ m_full m' = false).
Proof.
  split; [exact sChamber|]. split; [intros K; discriminate|]. split; [apply sBeam_ok|]. split; [intros x K; discriminate|].
  split; [exact sM_sound|]. split; [reflexivity|]. split.
  - destruct (sStep_main 1 ltac:(lra)) as (mid & H & F & _). exists mid. auto.
  - destruct (sStep 1 ltac:(lra)) as (m' & H & F & _). exists m'. auto.
Qed.

Example C61_run_case : fresh rBeam /\ ascending (b_t rBeam) /\ Forall no_negative [rBeam] /\ m_xion sM = None /\
  exists b' m', run (run_step sEnv rGeo []) None 2 rBeam [] sM = Some (b', [], m') /\ m_full m' = false.
Proof.
  destruct rBeam_fresh as (A & B & C). split; [exact A|]. split; [exact B|]. split; [exact C|]. split; [reflexivity|].
  destruct rRun as (b' & m' & H & F & _). exists b', m'. auto.
Qed.

(** C72.  Kick mode with [n] sub-steps of length [h]: the velocities change at
    once by the field of all beams at the start of the step acting for
    [n * h]; the motion is then the one without kick mode and without beams. *)
Theorem C72_kick_then_motion : forall e a main secs sc c s n h f0 fs,
  s_kick a = true -> s_Nsub a = Some n -> s_Dtsub a = Some h -> wf s -> acts main f0 -> Forall2 acts secs fs ->
  exists s1, wf s1 /\ Forall2 (kicked (a_charge c) (a_mass c) (h * INR n) (f0 :: fs)) (live s) (live s1) /\
    cloud_motion e a main secs sc c s = cloud_motion e (unkicked a) (dark main) [] sc c s1.
Proof. exact kick_mode. Qed.
Print Assumptions C72_kick_then_motion.

(** Observed without fields of the clouds: a kick and a drift. *)
Theorem C72_kick_and_drift : forall e a main secs sc c s n h f0 fs s',
  s_kick a = true -> s_Nsub a = Some n -> s_Dtsub a = Some h -> wf s -> acts main f0 -> Forall2 acts secs fs ->
  drifts (a_dyn c) -> d_Nsub (a_dyn c) <> None -> (forall x y, sc_fld sc x y = (0, 0)) ->
  cloud_motion e a main secs sc c s = Some s' ->
  exists mid, Forall2 (kicked (a_charge c) (a_mass c) (h * INR n) (f0 :: fs)) (live s) mid /\
    Forall2 (drifted (INR n * h)) mid (live s').
Proof. exact kick_drift. Qed.
Print Assumptions C72_kick_and_drift.

(** Kick mode without sub-steps given by the caller is refused. *)
Theorem C72_refused : forall e a main secs sc c s, s_kick a = true -> s_Nsub a = None \/ s_Dtsub a = None ->
  cloud_motion e a main secs sc c s = None.
Proof. exact kick_needs_steps. Qed.
Print Assumptions C72_refused.

Example C72_case : s_kick kArgs = true /\ s_Nsub kArgs = Some 1%nat /\ s_Dtsub kArgs = Some (1/10) /\ wf exS0 /\
  acts kBeam (fun _ => (2, 0)) /\ drifts (a_dyn (o_set sE)) /\ d_Nsub (a_dyn (o_set sE)) <> None /\
  (forall x y, sc_fld sSc x y = (0, 0)) /\ exists s', cloud_motion sEnv kArgs kBeam [] sSc (o_set sE) exS0 = Some s'.
Proof.
  do 3 (split; [reflexivity|]). split; [constructor; cbn; auto|]. split; [exact kActs|]. split; [apply boris_drifts; lia|].
  split; [discriminate|]. split; [reflexivity|exact kRun].
Qed.

(** C73.  Charge on the edges of a charging wall over any run: after the last
    step each edge holds what follows from its initial charge by the impacts of
    all the steps, in order, each step ending with the decay over its length;
    the impacts of a step and what they emit add up to what the step reports. *)
Theorem C73_charge : forall segs E0 gs cf sr e l m ms j c c', sim_run e l m = Some ms ->
  nth_error (m_clouds m) j = Some c -> nth_error (m_clouds (last ms m)) j = Some c' ->
  charging_cloud segs E0 gs cf sr (o_set c) -> List.length (o_Q c) = List.length gs ->
  exists evss, Forall2 (wall_history (List.length gs) j) (combine l ms) evss /\
    List.length (o_Q c') = List.length gs /\
    forall i, (i < List.length gs)%nat -> nth i (o_Q c') 0 = edge_charge (c_qe cf) (nth i gs g0) i (nth i (o_Q c) 0) (concat evss).
Proof. exact run_charged. Qed.
Print Assumptions C73_charge.

(** C73.  Insulating wall without decay: its charge changes by what the cloud
    loses at the wall, summed over the steps.  Metallic edges keep theirs. *)
Theorem C73_balance : forall segs E0 gs cf sr e l m ms j c c', sim_run e l m = Some ms ->
  nth_error (m_clouds m) j = Some c -> nth_error (m_clouds (last ms m)) j = Some c' ->
  charging_cloud segs E0 gs cf sr (o_set c) -> List.length (o_Q c) = List.length gs ->
  Forall (fun g => g_flag g = true /\ g_tau g <= 0 /\ g_L g <> 0) gs ->
  wall_charge gs (o_Q c') = wall_charge gs (o_Q c) + c_qe cf * rsum (map (wall_gain j) ms).
Proof. exact run_balance. Qed.
Print Assumptions C73_balance.
Theorem C73_metal : forall segs E0 gs cf sr e l m ms j c c' i, sim_run e l m = Some ms ->
  nth_error (m_clouds m) j = Some c -> nth_error (m_clouds (last ms m)) j = Some c' ->
  charging_cloud segs E0 gs cf sr (o_set c) -> List.length (o_Q c) = List.length gs ->
  (i < List.length gs)%nat -> g_flag (nth i gs g0) = false -> nth i (o_Q c') 0 = nth i (o_Q c) 0.
Proof. exact run_metal. Qed.
Print Assumptions C73_metal.

Example C73_case : charging_cloud [(300, 0, 0)] 150 [qSeg] ex_cfg ex_sr (o_set qE) /\ List.length (o_Q qE) = 1%nat /\
  nth_error (m_clouds qM) 0 = Some qE /\ exists m1 c1, sim_run sEnv [(no_args, sBeam 1, [])] qM = Some [m1] /\ nth_error (m_clouds m1) 0 = Some c1.
Proof.
  destruct qCharging as [A B]. split; [exact A|]. split; [exact B|]. split; [reflexivity|]. destruct qRun as (m1 & R1 & L). exists m1.
  destruct (m_clouds m1) as [|c1 cl]; [discriminate|]. exists c1. auto.
Qed.

(** C71.  In a step before the end of the ionisation, every beam adds its own
    electrons: as many as its density frees from the gas, rounded, each with the
    reference charge and placed by the position and size of that beam. *)
Theorem C71_step : forall e a main secs sc k full c c' k' full' g, chamber_ok e -> Forall beam_ok (main :: secs) -> sound_cloud e c ->
  step_cloud e a main secs sc k full c = Some (c', k', full') -> full' = false ->
  a_gas (o_set c) = Some g -> ti_t main < a_tion (o_set c) ->
  exists mid news ph, live (o_mp c') = mid ++ concat news ++ ph /\ Forall2 (gas_born e g (nel_mp_ref (o_mp c))) (main :: secs) news /\
    (a_photo (o_set c) = NoPhoto -> ph = []).
Proof. exact step_gas. Qed.
Print Assumptions C71_step.

Example C71_step_case : chamber_ok sEnv /\ Forall beam_ok [sBeam 1] /\ sound_cloud sEnv iE /\ a_gas (o_set iE) = Some exGas /\
  ti_t (sBeam 1) < a_tion (o_set iE) /\ exists c' k', step_cloud sEnv no_args (sBeam 1) [] sSc 0 false iE = Some (c', k', false) /\ N_mp (o_mp c') = 1%nat.
Proof.
  split; [exact sChamber|]. split; [apply sBeam_ok|]. split; [exact iSound|]. split; [reflexivity|]. split; [cbn; lra|exact iStep].
Qed.
