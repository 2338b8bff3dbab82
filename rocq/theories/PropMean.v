(** C101: averages over the random numbers. *)
From Coquelicot Require Import Coquelicot.
From Coq Require Import Reals List Lra Lia.
From Verif Require Import Num MP SpecMP SpecRegen Sey SpecSey Furman SpecFurman Source SpecSource Impact SpecImpact
  SpecMean MeanFacts MeanFurman MeanRegen MeanSey MeanSoft ExSey ExImpact ExSource ExMean.
From Verif Require Poly Geom ExMP ExRegen ExFurman SourceFacts4.
Import ListNotations.
Local Open Scope R_scope.

(** C101.  The charge that gas ionisation adds in one step is on average the
    ionised charge: the rounding to whole macroparticles has no bias. *)
Theorem C101_gas_ionisation fuel kc g c mass lam Dt sx sy xb yb sr k s :
  wf s -> (N_mp s < capacity s)%nat -> 0 < nel_mp_ref s -> (forall j, 0 <= s_uni sr j < 1) ->
  gs_life g = flag_lifetime_hist s ->
  0 < kB kc -> 0 <= c_light kc -> 0 <= gs_P g -> 0 <= gs_sigma g -> 0 < gs_T g -> 0 <= lam -> 0 <= Dt ->
  (forall u, 0 <= u < 1 -> gas_generate fuel kc g c mass lam Dt sx sy xb yb (with_uni sr k u) k s <> None) ->
  average (fun u => gain s (gas_generate fuel kc g c mass lam Dt sx sy xb yb (with_uni sr k u) k s))
    (ionised kc (gs_P g) (gs_sigma g) (gs_T g) lam Dt).
Proof. exact (gas_average fuel kc g c mass lam Dt sx sy xb yb sr k s). Qed.
Print Assumptions C101_gas_ionisation.

Example C101_gas_ionisation_case : wf exS /\ (N_mp exS < capacity exS)%nat /\ 0 < nel_mp_ref exS /\ (forall j, 0 <= s_uni ex_sr j < 1) /\
  gs_life exGas = flag_lifetime_hist exS /\ 0 < kB exK /\ 0 <= c_light exK /\ 0 <= gs_P exGas /\ 0 <= gs_sigma exGas /\ 0 < gs_T exGas /\
  forall u, 0 <= u < 1 -> gas_generate 0 exK exGas exChamb 1 (1/2) 1 (1/10) (1/10) (1/2) 0 (with_uni ex_sr 0 u) 0 exS <> None.
Proof.
  split; [exact exS_wf|]. split; [cbn; lia|]. split; [cbn; lra|]. split; [intros; cbn; lra|]. split; [reflexivity|]. split; [cbn; lra|]. split; [cbn; lra|].
  split; [cbn -[pow]; lra|]. split; [cbn -[pow]; lra|]. split; [cbn; lra|]. exact gas_ret.
Qed.

(** C101.  The same for the three photoemission models. *)
Theorem C101_photoemission_1 fuel kc ph refl al x0 y0 cdf w p mass lam Dt sr k s :
  photo1_ctor ph refl al x0 y0 cdf w = Some p ->
  wf s -> (N_mp s < capacity s)%nat -> 0 < nel_mp_ref s -> src_ok sr -> 0 < q_e kc -> 0 < mass -> 0 < ph_sig ph ->
  wall_ok w -> w_out w 0 0 = false -> 0 <= photoemitted kc (ph_k ph) (ph_mean ph) lam Dt ->
  (forall u, 0 <= u < 1 -> photo1_generate fuel kc p w mass lam Dt (with_uni sr k u) k s <> None) ->
  average (fun u => gain s (photo1_generate fuel kc p w mass lam Dt (with_uni sr k u) k s)) (photoemitted kc (ph_k ph) (ph_mean ph) lam Dt).
Proof. exact (photo1_average fuel kc ph refl al x0 y0 cdf w p mass lam Dt sr k s). Qed.
Print Assumptions C101_photoemission_1.

Theorem C101_photoemission_2 fuel kc ph cdf w mass lam Dt sr k s :
  wf s -> (N_mp s < capacity s)%nat -> 0 < nel_mp_ref s -> src_ok sr -> 0 < q_e kc -> 0 < mass -> 0 < ph_sig ph ->
  wall_ok w -> w_out w 0 0 = false -> 0 <= photoemitted kc (ph_k ph) (ph_mean ph) lam Dt ->
  (forall u, 0 <= u < 1 -> photo2_generate fuel kc ph cdf w mass lam Dt (with_uni sr k u) k s <> None) ->
  average (fun u => gain s (photo2_generate fuel kc ph cdf w mass lam Dt (with_uni sr k u) k s)) (photoemitted kc (ph_k ph) (ph_mean ph) lam Dt).
Proof. exact (photo2_average fuel kc ph cdf w mass lam Dt sr k s). Qed.
Print Assumptions C101_photoemission_2.

Theorem C101_photoemission_3 vxs vys cx cy cdf pc fuel kc ph mass lam Dt sr k s :
  phcham_ctor vxs vys cx cy cdf = Some pc -> length vxs = length vys ->
  wf s -> (N_mp s < capacity s)%nat -> 0 < nel_mp_ref s -> src_ok sr -> 0 < q_e kc -> 0 < mass -> 0 < ph_sig ph ->
  0 <= photoemitted kc (ph_k ph) (ph_mean ph) lam Dt ->
  (forall u, 0 <= u < 1 -> photo3_generate fuel kc ph pc mass lam Dt (with_uni sr k u) k s <> None) ->
  average (fun u => gain s (photo3_generate fuel kc ph pc mass lam Dt (with_uni sr k u) k s)) (photoemitted kc (ph_k ph) (ph_mean ph) lam Dt).
Proof. exact (photo3_average vxs vys cx cy cdf pc fuel kc ph mass lam Dt sr k s). Qed.
Print Assumptions C101_photoemission_3.

Example C101_photoemission_case : wf exS /\ (N_mp exS < capacity exS)%nat /\ 0 < nel_mp_ref exS /\ src_ok ex_sr /\ 0 < q_e exK /\ 0 < ph_sig exPh /\
  wall_ok exW /\ w_out exW 0 0 = false /\ photoemitted exK (ph_k exPh) (ph_mean exPh) (1/2) 1 = 1/2 /\
  (exists p, photo1_ctor exPh (1/4) 1 (1/2) 0 None exW = Some p /\ forall u, 0 <= u < 1 -> photo1_generate 0 exK p exW 1 (1/2) 1 (with_uni ex_sr 0 u) 0 exS <> None) /\
  (forall u, 0 <= u < 1 -> photo2_generate 0 exK exPh None exW 1 (1/2) 1 (with_uni ex_sr 0 u) 0 exS <> None) /\
  (exists pc, phcham_ctor sqx sqy (99/100) (99/100) sqcdf = Some pc /\ forall u, 0 <= u < 1 -> photo3_generate 1 exK exPh pc 1 (1/2) 1 (with_uni ex_sr 0 u) 0 exS <> None).
Proof.
  split; [exact exS_wf|]. split; [cbn; lia|]. split; [cbn; lra|]. split; [exact ex_src_ok|]. split; [cbn; lra|]. split; [cbn; lra|].
  split; [exact exW_ok|]. split; [exact exW_origin|]. split; [rewrite <- SourceFacts4.photo_DNel_is; apply exPh_charge|].
  split; [eexists; split; [exact exPh1_ctor|exact photo1_ret]|]. split; [exact photo2_ret|exact photo3_ret].
Qed.

(** C101.  The same for the uniform initial distribution. *)
Theorem C101_uniform_charge fuel c DNel v0 oxa oxi oya oyi rng k s :
  wf s -> (N_mp s < capacity s)%nat -> 0 < nel_mp_ref s -> (forall j, 0 <= rng j < 1) -> 0 <= DNel ->
  odef oxi (- x_aper c) <= odef oxa (x_aper c) -> odef oyi (- y_aper c) <= odef oya (y_aper c) ->
  (forall u, 0 <= u < 1 -> add_uniform_MP_distrib fuel c DNel v0 oxa oxi oya oyi (with_at rng k u) k s <> None) ->
  average (fun u => gain s (add_uniform_MP_distrib fuel c DNel v0 oxa oxi oya oyi (with_at rng k u) k s)) DNel.
Proof. exact (uniform_average fuel c DNel v0 oxa oxi oya oyi rng k s). Qed.
Print Assumptions C101_uniform_charge.

Example C101_uniform_charge_case : wf exS /\ (N_mp exS < capacity exS)%nat /\ 0 < nel_mp_ref exS /\ - x_aper exChamb <= x_aper exChamb /\ - y_aper exChamb <= y_aper exChamb /\
  forall u, 0 <= u < 1 -> add_uniform_MP_distrib 0 exChamb (1/2) 1 None None None None (with_at (fun _ => 1/2) 0 u) 0 exS <> None.
Proof. split; [exact exS_wf|]. split; [cbn; lia|]. split; [cbn; lra|]. split; [cbn; lra|]. split; [cbn; lra|]. exact unif_ret. Qed.

(** C101.  A regeneration gives back, on average over the numbers that round
    the cells, exactly the charge of the macroparticles that the position cut
    keeps; the others hold at most the given fraction of the charge. *)
Theorem C101_regeneration fuel fuel_in cfg c rng k s :
  wf s -> tail_zero s -> unit_rng rng -> hist_cfg_ok cfg (x_aper c) -> 0 <= regen_hist_cut cfg ->
  (0 < N_mp_after_regen cfg)%nat -> 0 < nel_mp_ref_0 s ->
  Forall (fun p => Rabs (m_x p) <= x_aper c /\ 0 <= m_nel p) (live s) -> regen_due cfg s ->
  (forall us, Forall (fun u => 0 <= u < 1) us -> check_for_regeneration fuel fuel_in cfg c (with_list rng k us) k s <> None) ->
  exists x_max n, let kept := within_cut x_max (live s) in
    charge s - rsum (map m_nel kept) <= regen_hist_cut cfg * charge s /\
    averages n (fun us => match check_for_regeneration fuel fuel_in cfg c (with_list rng k us) k s with Some (s', _) => charge s' | None => 0 end)
      (rsum (map m_nel kept)).
Proof. exact (regen_average fuel fuel_in cfg c rng k s). Qed.
Print Assumptions C101_regeneration.

Example C101_regeneration_case : wf ExRegen.exR /\ tail_zero ExRegen.exR /\ unit_rng ExRegen.exRng /\ hist_cfg_ok ExRegen.exCfg (x_aper ExRegen.exCh) /\
  0 <= regen_hist_cut ExRegen.exCfg /\ (0 < N_mp_after_regen ExRegen.exCfg)%nat /\ 0 < nel_mp_ref_0 ExRegen.exR /\
  Forall (fun p => Rabs (m_x p) <= x_aper ExRegen.exCh /\ 0 <= m_nel p) (live ExRegen.exR) /\ regen_due ExRegen.exCfg ExRegen.exR /\
  forall us, Forall (fun u => 0 <= u < 1) us -> check_for_regeneration 100 0 ExRegen.exCfg ExRegen.exCh (with_list ExRegen.exRng 0 us) 0 ExRegen.exR <> None.
Proof.
  destruct ExRegen.exR_due_case as (H1 & H2 & H3 & H4 & H5 & H6 & H7 & H8 & H9 & _). repeat (split; [assumption|]). exact regen_ret.
Qed.

(** C101.  A soft or asynchronous regeneration leaves on average the number of
    macroparticles asked for (its charge is kept for all random numbers: C04). *)
Theorem C101_soft_regeneration target rng k s : wf s -> (target < N_mp s)%nat ->
  averages (N_mp s) (fun us => match perform_soft_regeneration target (with_list rng k us) k s with Some (s', _) => INR (N_mp s') | None => 0 end) (INR target).
Proof. exact (soft_average target rng k s). Qed.
Print Assumptions C101_soft_regeneration.

Example C101_soft_regeneration_case : wf (ExMP.sys3 3 1 2 3 true) /\ (2 < N_mp (ExMP.sys3 3 1 2 3 true))%nat.
Proof. split; [apply ExMP.sys3_wf; lia|cbn; lia]. Qed.

(** C101.  A batch of impacts on a surface of the ECLOUD type emits on average
    the impacting charges times their total yields, whatever the random choice
    between elastic and true secondary events. *)
Theorem C101_secondaries m c th fs sr k ps : sey_params_ok m ->
  0 < th -> src_ok sr -> 0 < c_qe c -> 0 < c_mass c ->
  Forall unit_n ps -> Forall (fun p => 0 <= i_E p) ps -> Forall (fun p => fair p /\ law m p <> None) ps ->
  (forall us, Forall (fun u => 0 <= u < 1) us -> impacts_on_surface m c th fs (with_unis sr k us) k ps <> None) ->
  averages (length ps) (fun us => leaving (impacts_on_surface m c th fs (with_unis sr k us) k ps))
    (rsum (map (fun p => i_nel p * total_yield m p) ps)).
Proof. exact (surface_average m c th fs sr k ps). Qed.
Print Assumptions C101_secondaries.

Example C101_secondaries_case : sey_params_ok mean_mod /\ src_ok ex_sr /\ 0 < c_qe ex_cfg /\ 0 < c_mass ex_cfg /\
  unit_n ex_imp /\ 0 <= i_E ex_imp /\ fair ex_imp /\ law mean_mod ex_imp <> None /\
  forall us, Forall (fun u => 0 <= u < 1) us -> impacts_on_surface mean_mod ex_cfg 4 false (with_unis ex_sr 0 us) 0 [ex_imp] <> None.
Proof.
  split; [unfold sey_params_ok, mean_mod, seg_params, s135; repeat split; lra|]. split; [exact ex_src_ok|]. split; [cbn; lra|]. split; [cbn; lra|].
  split; [unfold unit_n; cbn; lra|]. split; [cbn; lra|]. split; [unfold fair; cbn; repeat split; lra|]. split; [discriminate|].
  intros us _. exact (surface_ret us).
Qed.

(** C101.  An impact on a Furman-Pivi surface: averaged over the number that
    chooses the event and over the Poisson numbers, the emitted charge is that
    of backscattered and rediffused electrons plus the mean of a Poisson number
    that is drawn again, up to twelve times, while it is above [M_cut]. *)
Theorem C101_furman_pivi cfuel sp f th seg p k sr :
  sp_ok sp -> fp_energy_sane f -> imp_ok p -> 0 <= de_of f p /\ 0 <= dr_of f p /\ de_of f p + dr_of f p < 1 ->
  0 < delta_ts f (i_E p) (i_ct p) -> src_ok sr ->
  (forall u l, 0 <= u < 1 -> length l = 13%nat -> fp_impacts cfuel sp f (given_draws (with_uni sr k u) (S k) l) th seg [p] k <> None) ->
  let lam := delta_ts f (i_E p) (i_ct p) / (1 - de_of f p - dr_of f p) in
  exists h, (forall u, 0 <= u < 1 -> poisson_averages lam 13 (fun l => leaving (fp_impacts cfuel sp f (given_draws (with_uni sr k u) (S k) l) th seg [p] k)) (h u)) /\
    average h (i_nel p * (de_of f p + dr_of f p + (1 - de_of f p - dr_of f p) * cut_mean lam (f_Mcut f) 13)).
Proof. intros A B C D E G H. exact (mean_exact cfuel sp f th seg p k A B C D E sr G H). Qed.
Print Assumptions C101_furman_pivi.

(** C101.  This is below the impacting charge times the total yield, and not
    below what the numbers under [M_cut] contribute. *)
Theorem C101_furman_pivi_bounds f p : 0 <= de_of f p /\ 0 <= dr_of f p /\ de_of f p + dr_of f p < 1 -> 0 < delta_ts f (i_E p) (i_ct p) -> 0 < i_nel p ->
  let lam := delta_ts f (i_E p) (i_ct p) / (1 - de_of f p - dr_of f p) in
  let m := i_nel p * (de_of f p + dr_of f p + (1 - de_of f p - dr_of f p) * cut_mean lam (f_Mcut f) 13) in
  m < i_nel p * (de_of f p + dr_of f p + delta_ts f (i_E p) (i_ct p)) /\
  i_nel p * (de_of f p + dr_of f p + delta_ts f (i_E p) (i_ct p) * poisson_below lam (f_Mcut f)) <= m.
Proof. exact (mean_bounds f p). Qed.
Print Assumptions C101_furman_pivi_bounds.

(** C101 (refuted).  So the mean emission of the Furman-Pivi model is not the
    total yield: numbers above [M_cut] are drawn again. *)
Theorem C101_furman_pivi_refuted : exists sp f p sr,
  sp_ok sp /\ fp_energy_sane f /\ imp_ok p /\ (0 <= de_of f p /\ 0 <= dr_of f p /\ de_of f p + dr_of f p < 1) /\
  0 < delta_ts f (i_E p) (i_ct p) /\ 0 < i_nel p /\ src_ok sr /\
  (forall u l, 0 <= u < 1 -> length l = 13%nat -> fp_impacts 0 sp f (given_draws (with_uni sr 0 u) 1 l) 1 false [p] 0 <> None) /\
  let lam := delta_ts f (i_E p) (i_ct p) / (1 - de_of f p - dr_of f p) in
  ~ exists h, (forall u, 0 <= u < 1 -> poisson_averages lam 13 (fun l => leaving (fp_impacts 0 sp f (given_draws (with_uni sr 0 u) 1 l) 1 false [p] 0)) (h u)) /\
      average h (i_nel p * (de_of f p + dr_of f p + delta_ts f (i_E p) (i_ct p))).
Proof.
  exists ExFurman.exSp, (ExFurman.exF false 1), (ExFurman.exI 1), ex_sr.
  assert (A := ExFurman.exSp_ok). assert (B := ExFurman.exF_sane false 1). assert (C := ExFurman.exI_ok 1 ltac:(lra)).
  assert (D : 0 <= de_of (ExFurman.exF false 1) (ExFurman.exI 1) /\ 0 <= dr_of (ExFurman.exF false 1) (ExFurman.exI 1) /\
    de_of (ExFurman.exF false 1) (ExFurman.exI 1) + dr_of (ExFurman.exF false 1) (ExFurman.exI 1) < 1).
  { unfold de_of, dr_of. rewrite ExFurman.ex_de, ExFurman.ex_dr. destruct (f_excl _); lra. }
  assert (E : 0 < delta_ts (ExFurman.exF false 1) (i_E (ExFurman.exI 1)) (i_ct (ExFurman.exI 1))).
  { change (i_E (ExFurman.exI 1)) with 1. rewrite ExFurman.ex_ts by lra. lra. }
  assert (F : 0 < i_nel (ExFurman.exI 1)) by (cbn; lra).
  assert (H : forall u l, 0 <= u < 1 -> length l = 13%nat ->
    fp_impacts 0 ExFurman.exSp (ExFurman.exF false 1) (given_draws (with_uni ex_sr 0 u) 1 l) 1 false [ExFurman.exI 1] 0 <> None) by (intros u l _ _; apply fp_ret).
  repeat (split; [assumption|]). split; [exact ex_src_ok|]. split; [exact H|]. cbv zeta. intros (h & W & M).
  destruct (mean_exact 0 ExFurman.exSp (ExFurman.exF false 1) 1 false (ExFurman.exI 1) 0 A B C D E ex_sr ex_src_ok H) as (h' & W' & M').
  pose proof (two_averages _ _ _ _ _ _ _ W M W' M') as Q. destruct (mean_bounds _ _ D E F) as (L & _). cbv zeta in L. rewrite <- Q in L. exact (Rlt_irrefl _ L).
Qed.
Print Assumptions C101_furman_pivi_refuted.
