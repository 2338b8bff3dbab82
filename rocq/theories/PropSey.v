(** C11, C31-C35, C46, C52: secondary emission. *)
From Coq Require Import Lra Lia Reals.
From Verif Require Import Num NumFacts Sey SpecSey SeyFacts SeyFacts2 SeyFacts3 SeyTab SeyFacts4 ExSey.

(** C11.  For every emission model, every batch of impacts and all random
    numbers: emitted charge is divided evenly over the replaced macroparticle
    and its clones, clones start at the impact point, elastic events are not
    split, pieces are at most the threshold and no clone is superfluous. *)
Theorem C11_split : forall m c th fs sr k ps e k',
  0 < th -> src_ok sr -> 0 < c_qe c -> 0 < c_mass c ->
  Forall unit_n ps -> Forall (fun p => 0 <= i_E p) ps ->
  impacts_on_surface m c th fs sr k ps = Some (e, k') ->
  exists counts, split_spec th ps counts e.
Proof.
  intros m c th fs sr k ps e k' A B C D E F G.
  destruct (impacts_spec m c th fs sr k ps e k' A B C D E F G) as ((counts & S & _) & _). exists counts. exact S.
Qed.
Print Assumptions C11_split.

(** C11.  The pieces add up to the emitted charge, and all returned arrays
    have matching lengths. *)
Theorem C11_total : forall m c th fs sr k ps e k',
  0 < th -> src_ok sr -> 0 < c_qe c -> 0 < c_mass c ->
  Forall unit_n ps -> Forall (fun p => 0 <= i_E p) ps ->
  impacts_on_surface m c th fs sr k ps = Some (e, k') ->
  rsum (o_nel e) + rsum (n_nel e) = rsum (o_tot e) /\ emis_sized (length ps) fs e.
Proof.
  intros m c th fs sr k ps e k' A B C D E F G.
  destruct (impacts_spec m c th fs sr k ps e k' A B C D E F G) as ((counts & S & _) & Z & _).
  split; [|exact Z]. destruct Z as (Z1 & _ & Z3 & _). exact (split_total th ps counts e S Z1 Z3).
Qed.
Print Assumptions C11_total.

Example C11_example : src_ok ex_sr /\ unit_n ex_imp /\
  exists e k, impacts_on_surface ex_mod ex_cfg (3/2) false ex_sr 0 [ex_imp] = Some (e, k) /\
  o_nel e = [2 / (1 + 1)] /\ n_nel e = [2 / (1 + 1)] /\ n_x e = [1/10].
Proof. split; [exact ex_src_ok|]. split; [unfold unit_n; cbn; lra|]. exact ex_run. Qed.

(** C31.  ECLOUD yield: valid fraction, total = true + reflected part. *)
Theorem C31_ECLOUD : forall Emax dm R0 E0 s sc sh E ct,
  0 <= E -> 0 <= ct <= 1 -> 0 < Emax -> 0 <= dm -> 0 <= R0 -> 0 < E0 -> 1 < s ->
  let '(d, f) := yield_ECLOUD Emax dm R0 E0 s sc sh E ct in
  0 <= f <= 1 /\ d = true_sec Emax dm s sc sh E ct + reflected R0 E0 E /\ f * d = reflected R0 E0 E /\
  0 <= d <= dm_tilde dm sc ct + R0.
Proof. exact yield_ECLOUD_ok. Qed.
Print Assumptions C31_ECLOUD.

(** C31.  The true secondary yield is nowhere above [del_max] (scaled with the
    angle if requested) and equals it at the peak energy. *)
Theorem C31_peak : forall Emax dm s (sc sh : bool) ct,
  0 <= ct <= 1 -> 0 < Emax -> 0 <= dm -> 1 < s ->
  let peak := if sh then Emax * (1 + (7/10) * (1 - ct)) else Emax in
  let dmax := if sc then dm * exp ((1/2) * (1 - ct)) else dm in
  true_sec Emax dm s sc sh peak ct = dmax /\
  forall E, 0 <= E -> 0 <= true_sec Emax dm s sc sh E ct <= dmax.
Proof.
  intros Emax dm s sc sh ct A B C D peak dmax. split.
  - exact (true_sec_peak Emax dm s sc sh peak ct A B D eq_refl).
  - intros E HE. exact (true_sec_range Emax dm s sc sh E ct HE A B C D).
Qed.
Print Assumptions C31_peak.

(** C31.  Reflected part: between 0 and [R0], equal to [R0] at zero energy. *)
Theorem C31_reflected : forall R0 E0, 0 <= R0 -> 0 < E0 ->
  reflected R0 E0 0 = R0 /\ forall E, 0 <= E -> 0 <= reflected R0 E0 E <= R0.
Proof.
  intros R0 E0 A B. split; [exact (reflected_zero R0 E0 B)|]. intros E HE. exact (reflected_range R0 E0 E A B HE).
Qed.
Print Assumptions C31_reflected.

(** C31.  Accurate low energy model: the reflection probability is valid and
    the mean emitted charge per impacting charge is the total yield. *)
Theorem C31_accurate : forall Emax dm R0 E0 E ct,
  0 <= E -> 0 <= ct <= 1 -> 0 < Emax -> 0 <= dm -> 0 <= R0 < 1 -> 0 < E0 ->
  let '(t, r) := yield_acc Emax dm R0 E0 E ct in
  0 <= r < 1 /\ 0 <= t / (1 - r) /\ r * 1 + (1 - r) * (t / (1 - r)) = t + r.
Proof. exact yield_acc_ok. Qed.
Print Assumptions C31_accurate.

(** C31.  Cosine model ([None]: no yield at all, 0/0 in the code). *)
Theorem C31_cos : forall Emax dm R0 E0 E ct,
  0 <= E -> 0 <= ct <= 1 -> 0 < Emax -> 0 <= dm -> 0 <= R0 -> 0 < E0 ->
  let '(d, f) := yield_cos Emax dm R0 E0 E ct in
  0 <= d /\ match f with
            | Some f => 0 <= f <= 1 /\ f * d = d - true_sec Emax dm s135 true true E ct
            | None => d = 0 end.
Proof. exact yield_cos_ok. Qed.
Print Assumptions C31_cos.

(** C31.  Flat model. *)
Theorem C31_flat : forall Emax dm R0 E ct,
  0 <= E -> 0 <= ct <= 1 -> 0 < Emax -> 0 <= dm -> 0 <= R0 ->
  let '(d, f) := yield_flat Emax dm R0 E ct in
  0 <= d /\ match f with Some f => 0 <= f <= 1 | None => d = 0 end.
Proof. exact yield_flat_ok. Qed.
Print Assumptions C31_flat.

(** C31.  Every model, every impact: there are exactly two outcomes, reflection
    with a probability in [0,1] and true emission, neither with a negative
    charge, and the mean charge of each is the impacting charge times the
    reflected and the true yield of the model. *)
Theorem C31_mean : forall m p t r, sey_params_ok m -> fair p -> law m p = Some (t, r) ->
  exists pr q_refl q_true, 0 <= pr <= 1 /\ 0 <= q_refl /\ 0 <= q_true /\
  (forall u, 0 <= u < 1 -> sey_one m u p = Some (if Rltb u pr then (q_refl, true) else (q_true, false))) /\
  pr * q_refl = i_nel p * r /\ (1 - pr) * q_true = i_nel p * t.
Proof. exact mean_yield. Qed.
Print Assumptions C31_mean.

Example C31_mean_example : sey_params_ok ex_mod /\ fair ex_imp /\ exists t r, law ex_mod ex_imp = Some (t, r).
Proof. unfold fair, s135. cbn. split; [unfold s135; lra|]. split; [lra|]. do 2 eexists. reflexivity. Qed.

Example C31_example : sey_one ex_mod (1/2) ex_imp = Some (2, false) /\ 0 <= i_E ex_imp /\ 0 <= i_ct ex_imp <= 1 /\ 1 < s135.
Proof. split; [exact ex_yield|]. unfold s135. cbn. lra. Qed.

(** C32.  The flat model lifts the yield to the plateau [R0] below the peak,
    but never reflects: the fraction it returns is zero (or 0/0). *)
Theorem C32_code : forall Emax dm R0 E ct,
  let t := true_sec Emax dm s135 true true E ct in
  fst (yield_flat Emax dm R0 E ct) = (if Rltb t R0 && Rltb E Emax then R0 else t) /\
  (snd (yield_flat Emax dm R0 E ct) = Some 0 \/ snd (yield_flat Emax dm R0 E ct) = None).
Proof. exact yield_flat_code. Qed.
Print Assumptions C32_code.

(** C32.  So the stated fraction [(R0 - true)/R0] is not what is used. *)
Theorem C32_fraction_refuted : exists Emax dm R0 E ct,
  0 < E < Emax /\ 0 <= ct <= 1 /\ 0 < R0 /\ 0 <= dm /\
  let t := true_sec Emax dm s135 true true E ct in
  t < R0 /\ fst (yield_flat Emax dm R0 E ct) = R0 /\
  snd (yield_flat Emax dm R0 E ct) = Some 0 /\ 0 < (R0 - t) / R0.
Proof. exact flat_witness. Qed.
Print Assumptions C32_fraction_refuted.

(** C33.  Mirror reflection. *)
Theorem C33_specular : forall vx vy vz nx ny, nx * nx + ny * ny = 1 ->
  let vn := vx * nx + vy * ny in
  let '(vx', vy') := specular_velocity vx vy nx ny vn in
  vx' * vx' + vy' * vy' + vz * vz = vx * vx + vy * vy + vz * vz /\
  normal_comp nx ny vx' vy' = - normal_comp nx ny vx vy /\
  normal_comp (- ny) nx vx' vy' = normal_comp (- ny) nx vx vy.
Proof. exact specular_ok. Qed.
Print Assumptions C33_specular.

Example C33_example : specular_velocity 3 4 (-1) 0 (3 * (-1) + 4 * 0) = (-3, 4).
Proof. unfold specular_velocity. f_equal; lra. Qed.

(** C33, C34 and C52.  Velocities after a batch of impacts: elastic events are
    mirrored (with the normal velocity [i_vn] of the impact); true secondaries
    and all clones leave the wall with an allowed energy and non-negative
    normal velocity. *)
Theorem C34_velocities : forall m c th fs sr k ps e k',
  0 < th -> src_ok sr -> 0 < c_qe c -> 0 < c_mass c ->
  Forall unit_n ps -> Forall (fun p => 0 <= i_E p) ps ->
  impacts_on_surface m c th fs sr k ps = Some (e, k') ->
  exists counts, split_spec th ps counts e /\ vel_spec c ps counts e.
Proof.
  intros m c th fs sr k ps e k' A B C D E F G. exact (proj1 (impacts_spec m c th fs sr k ps e k' A B C D E F G)).
Qed.
Print Assumptions C34_velocities.

(** C34.  The cosine routines, any sine of the polar angle and any azimuth. *)
Theorem C34_angle : forall qe mass en nx ny st phi,
  0 < qe -> 0 < mass -> 0 <= en -> nx * nx + ny * ny = 1 -> 0 <= st <= 1 ->
  let '(vx, vy, vz) := vel_angle qe mass en nx ny st phi in
  kin_eV qe mass vx vy vz = en /\ 0 <= normal_comp nx ny vx vy.
Proof. exact vel_angle_ok. Qed.
Print Assumptions C34_angle.

(** C34.  Normal emission. *)
Theorem C34_normal : forall qe mass en nx ny,
  0 < qe -> 0 < mass -> 0 <= en -> nx * nx + ny * ny = 1 ->
  let '(vx, vy, vz) := vel_normal qe mass en nx ny in
  kin_eV qe mass vx vy vz = en /\ 0 <= normal_comp nx ny vx vy.
Proof. exact vel_normal_ok. Qed.
Print Assumptions C34_normal.

Example C34_example : 0 < c_qe ex_cfg /\ 0 < c_mass ex_cfg /\ (-1) * (-1) + 0 * 0 = 1.
Proof. cbn. lra. Qed.

(** C52.  Energies of true secondaries: below the cut-off, and with
    [switch_no_increase_energy = 2] not above the impact energy. *)
Theorem C52_energies : forall c fuel sr k Es en k', src_ok sr -> Forall (fun E => 0 <= E) Es ->
  sec_energy_hilleret_model2 (c_switch c) fuel sr k (length Es) (c_Eth c) Es (c_thlow c) = Some (en, k') ->
  Forall2 (energy_ok c) Es en.
Proof.
  intros c fuel sr k Es en k' A B H. exact (energies_ok _ fuel sr k _ _ Es _ en k' c A eq_refl eq_refl eq_refl eq_refl B H).
Qed.
Print Assumptions C52_energies.

(** C52.  Each energy is an accepted draw of its own: no random number serves
    two secondaries, none was consumed before the call or is left to later
    calls.  Low energy impacts scale the impact energy by a uniform number. *)
Theorem C52_fresh : forall sw fuel sr k E_th Es th_low en k',
  sec_energy_hilleret_model2 sw fuel sr k (length Es) E_th Es th_low = Some (en, k') ->
  exists idx, length idx = length Es /\ NoDup idx /\ Forall (fun i => (k <= i < k')%nat) idx /\
  length en = length Es /\
  forall i, (i < length Es)%nat ->
    let j := nth i idx 0%nat in
    let E := nth i Es 0 in
    nth i en 0 = if andb (sw =? 2)%Z (Rltb E th_low) then E * sqrt (s_uni sr j) else s_logn sr j.
Proof. exact fresh_energies. Qed.
Print Assumptions C52_fresh.

Example C52_example : Forall (fun E => 0 <= E) [300] /\ gen_vel ex_cfg ex_sr 0 1 [300] [-1] [0] = Some ([vel_normal 1 1 5 (-1) 0], 1%nat).
Proof. split; [repeat constructor; lra|]. exact (ex_gen 0 300 (-1) 0). Qed.

(** C35.  Equally spaced table whose spacing is a multiple of 0.001 eV: the
    constructor accepts it; from the first energy on, the yields are the
    linear interpolation up to the last energy and the given linear
    extrapolation above, with the angular corrections applied to the true
    part, and values below 1e-10 set to zero; the yield is their sum and the
    reflected fraction that of the second. *)
Theorem C35_table_partial : forall a h n tr el gt ct ge ce (sc sh : bool) E co,
  0 < h -> round3 h = h -> (2 <= n)%nat -> length tr = n -> length el = n ->
  let Es := if sh then E / (1 + (7/10) * (1 - co)) else E in
  let sx := if sc then exp ((1/2) * (1 - co)) else 1 in
  let top := a + INR (n - 1) * h in
  let cut := fun x => if Rltb x (1 / 10 ^ 10) then 0 else x in
  a <= E -> a <= Es ->
  exists t y1 y2 d f, tab_ctor (grid a h n) tr el gt ct ge ce sc sh = Some t /\
    (if Rleb Es top then interpolates a h tr Es y1 else y1 = ct + gt * Es) /\
    (if Rleb E top then interpolates a h el E y2 else y2 = ce + ge * E) /\
    tab_values t E co = Some (d, f) /\ d = cut (y1 * sx) + cut y2 /\ d * f = cut y2 /\ (d = 0 -> f = 0).
Proof. exact tab_values_law. Qed.
Print Assumptions C35_table_partial.

(** C35.  Whatever the table: yields are non-negative and the fraction valid. *)
Theorem C35_fraction : forall t E ct d f, tab_values t E ct = Some (d, f) -> 0 <= d /\ 0 <= f <= 1.
Proof. exact tab_values_range. Qed.
Print Assumptions C35_fraction.

(** C35.  An equally spaced table with another spacing is accepted but read
    with the rounded spacing: even at a node the yield is not the tabulated
    one. *)
Theorem C35_spacing_refuted : exists a h n tr t,
  0 < h /\ tab_ctor (grid a h n) tr tr 0 0 0 0 false false = Some t /\ length tr = n /\
  tab_values t (a + h) 1 <> Some (2 * nth 1 tr 0, 1/2) /\ 0 < nth 1 tr 0.
Proof. exact tab_rounded. Qed.
Print Assumptions C35_spacing_refuted.

Example C35_example : round3 (1/2) = 1/2.
Proof. unfold round3. replace (1/2 * 1000) with (IZR 500) by lra. rewrite raround_IZR. lra. Qed.

(** C46.  An impact on an edge is treated as on a uniform surface with the
    parameters of that edge; negative entries mean the global value. *)
Theorem C46_segment : forall Emax dm R0 l E0 u p,
  match nth_error l (i_seg p) with
  | Some (e, d, r) =>
      sey_one (MNonUnif (nunif_segs Emax dm R0 l) E0) u p =
      sey_one (MEcloud (if Rlt_dec e 0 then Emax else e) (if Rlt_dec d 0 then dm else d)
                 (if Rlt_dec r 0 then R0 else r) E0 (135/100) true true) u p
  | None => sey_one (MNonUnif (nunif_segs Emax dm R0 l) E0) u p = None
  end.
Proof. exact nunif_segment. Qed.
Print Assumptions C46_segment.

(** C46.  Surface charge after any history of impacts and time steps: on each
    edge the sum of what was deposited, decaying if it has a decay time. *)
Theorem C46_charge : forall qe segs E0 gs sr cs k Qs Qf evs, length Qs = length gs ->
  wall_run qe segs E0 gs sr k Qs cs = Some (Qf, evs) ->
  length Qf = length gs /\
  forall i, (i < length gs)%nat -> nth i Qf 0 = edge_charge qe (nth i gs g0) i (nth i Qs 0) evs.
Proof. exact wall_run_ok. Qed.
Print Assumptions C46_charge.

(** C46.  Metallic edges stay neutral; without decay an insulating edge holds
    exactly the sum of emitted minus impacting charge. *)
Theorem C46_metal : forall qe g i Q evs, g_flag g = false -> edge_charge qe g i Q evs = Q.
Proof. exact metal_neutral. Qed.
Print Assumptions C46_metal.
Theorem C46_insulator : forall qe g i Q evs, g_flag g = true -> g_tau g <= 0 ->
  edge_charge qe g i Q evs = Q + qe * rsum (map (dep i) evs) / g_L g.
Proof. exact insulator_sum. Qed.
Print Assumptions C46_insulator.

(** C46.  Each impact on a charging wall emits its charge times the yield of
    its edge, corrected with the charge of that edge before the batch; it is an
    elastic one when its own random number is below the elastic fraction. *)
Theorem C46_emitted : forall qe segs E0 gs sr k ps Qs l Qs' k',
  charging_process qe segs E0 gs sr k ps Qs = Some (l, Qs', k') ->
  length l = length ps /\ k' = (k + length ps)%nat /\
  forall i, (i < length ps)%nat ->
    let p := impat ps i in
    exists Emax dm R0 g Q, nth_error segs (i_seg p) = Some (Emax, dm, R0) /\ nth_error gs (i_seg p) = Some g /\
      nth_error Qs (i_seg p) = Some Q /\
      let d := fst (yield_ECLOUD Emax dm R0 E0 s135 true true (i_E p) (i_ct p)) in
      let f := snd (yield_ECLOUD Emax dm R0 E0 s135 true true (i_E p) (i_ct p)) in
      fst (nth i l (0, false)) = i_nel p * (if g_flag g then charged_yield g Q d (i_E p) else d) /\
      (snd (nth i l (0, false)) = true <-> s_uni sr (k + i) < f).
Proof.
  intros qe segs E0 gs sr k ps Qs l Qs' k' H. destruct (charging_process_ok qe segs E0 gs sr k ps Qs l Qs' k' H) as (A & _ & C).
  split; [exact A|]. split; [unfold charging_process, bind in H; destruct (mapM2 _ _ _); [injection H as _ _ <-; reflexivity|discriminate]|].
  intros i Hi p. specialize (C i Hi). destruct (nth i l (0, false)) as [q b].
  exact (charging_one_ok segs E0 gs Qs _ p q b C).
Qed.
Print Assumptions C46_emitted.

(** C46.  The corrected yield is between 0 and the larger of the yield and 1;
    it is the plain yield on a neutral edge, and the saturated one at full
    charge. *)
Theorem C46_yield : forall g Q y E, 0 < g_Qmax g -> 0 < g_EQ g -> 0 <= E -> 0 <= y ->
  0 <= charged_yield g Q y E <= Rmax y 1 /\
  (Q <= 0 -> charged_yield g Q y E = y) /\ (g_Qmax g <= Q -> charged_yield g Q y E = 1 - exp (- E / g_EQ g)).
Proof. exact charged_yield_ok. Qed.
Print Assumptions C46_yield.

Example C46_example : exists evs,
  wall_run 1 [(300, 2, 0)] 150 [ex_seg] ex_sr 0 [0] [CallHits [ex_imp]; CallEvol 1] = Some ([1], evs).
Proof. exact ex_wall. Qed.
