(** C93: the electric energy of the space-charge field. *)
From Coq Require Import String Lra.
From Verif Require Import Num MP Impact SpecImpact Source ExSource Sim SpecSim ExSim Saver SpecSaver ExSaver Whole SpecWhole ExWhole Energy SpecEnergy EnergyFacts ExEnergy.
Local Open Scope list_scope.
Local Open Scope R_scope.

(** C93.  With a cell size [h], the energy is half the permittivity times the
    squared field at the corner of each cell, times the cell area, in eV.  The
    cells cover the box of the chamber and 1% around it, each point once. *)
Theorem C93_energy : forall eps0 qe c h, 0 < h -> 0 < x_aper c -> 0 < y_aper c -> qe <> 0 ->
  exists u nx ny, sampling_ctor c (Some h) = Some (Some u) /\ cells (x_aper c) h nx /\ cells (y_aper c) h ny /\ (0 < nx)%nat /\ (0 < ny)%nat /\
    202/100 * x_aper c <= INR nx * h < 202/100 * x_aper c + h /\ 202/100 * y_aper c <= INR ny * h < 202/100 * y_aper c + h /\
    forall sc, get_potential_electric_energy eps0 qe (Some u) sc = Some (field_energy eps0 qe (sc_fld sc) (x_aper c) (y_aper c) h nx ny).
Proof. exact ctor_energy. Qed.
Print Assumptions C93_energy.

(** C93.  Without a cell size there is an exception and no number. *)
Theorem C93_not_configured : forall eps0 qe c sc, exists u, sampling_ctor c None = Some u /\ get_potential_electric_energy eps0 qe u sc = None.
Proof. exact ctor_missing. Qed.
Print Assumptions C93_not_configured.

(** C93.  The energy is never negative, and it is 0 exactly when the field is 0
    at all corners. *)
Theorem C93_zero : forall eps0 qe f a b h nx ny, 0 < eps0 -> 0 < qe -> 0 < h ->
  0 <= field_energy eps0 qe f a b h nx ny /\
  (field_energy eps0 qe f a b h nx ny = 0 <-> forall i j, (i < nx)%nat -> (j < ny)%nat -> f (edge a h i) (edge b h j) = (0, 0)).
Proof. intros. split; [apply energy_nonneg|apply energy_zero]; assumption. Qed.
Print Assumptions C93_zero.

(** C93.  A field [k] times as strong has [k] squared times the energy. *)
Theorem C93_scale : forall eps0 qe f a b h nx ny k,
  field_energy eps0 qe (fun x y => let '(ex, ey) := f x y in (k * ex, k * ey)) a b h nx ny = k * k * field_energy eps0 qe f a b h nx ny.
Proof. exact energy_scale. Qed.
Print Assumptions C93_scale.

(** C93.  The energy of a uniform field is its energy density times the area of
    the cells; for any field, the largest energy density bounds it. *)
Theorem C93_uniform : forall eps0 qe f a b h nx ny ex ey, (forall i j, (i < nx)%nat -> (j < ny)%nat -> f (edge a h i) (edge b h j) = (ex, ey)) ->
  field_energy eps0 qe f a b h nx ny = eps0 / (2 * qe) * ((ex * ex + ey * ey) * ((INR nx * h) * (INR ny * h))).
Proof. exact energy_uniform. Qed.
Print Assumptions C93_uniform.
Theorem C93_bound : forall eps0 qe f a b h nx ny M, 0 < eps0 -> 0 < qe -> 0 < h -> 0 <= M ->
  (forall i j, (i < nx)%nat -> (j < ny)%nat -> (let '(ex, ey) := f (edge a h i) (edge b h j) in ex * ex + ey * ey) <= M) ->
  INR nx * h < 202/100 * a + h -> INR ny * h < 202/100 * b + h ->
  field_energy eps0 qe f a b h nx ny <= eps0 / (2 * qe) * (M * ((202/100 * a + h) * (202/100 * b + h))).
Proof. exact energy_size. Qed.
Print Assumptions C93_bound.

(** C93.  The column [En_electric_eV_time] of the output holds, for each sample,
    the energy of the field of the last step of that sample. *)
Theorem C93_recorded : forall e y l m rs tr rs1 j k c w n eps0 qe u,
  chamber_ok e -> Forall (fun q => args_ok (q_args q) /\ Forall beam_ok (q_main q :: q_secs q)) l ->
  sound_sim e m -> whole_run e y l m rs = Some (tr, rs1) -> Forall xion_ok (m :: map snd tr) -> Forall (fun p => m_full (snd p) = false) tr ->
  nth_error (m_clouds m) j = Some k -> o_iman k = blank w -> nth_error rs j = Some (Some (mkRecorder c (start_observing c n) None)) ->
  cfg_ok c -> widths_ok c w -> (0 < n)%nat -> (forall x y, w_out (e_wall e) x y = false -> k_bias (c_ic c) <= x) ->
  c_elec c = true -> (forall sc, get_potential_electric_energy eps0 qe u sc = Some (y_elec y sc)) ->
  exists steps r1 d gs rest, nth_error rs1 j = Some (Some r1) /\ build_outp_dict c (r_st r1) = Some d /\
    Forall2 (fun p (st : step) => get_potential_electric_energy eps0 qe u (m_sc (fst p)) = Some (ob_elec (fst st))) tr steps /\
    steps = concat gs ++ rest /\ groups (sample_due c) (-1) gs rest /\
    get d "En_electric_eV_time" = Some (VArr (map (now ob_elec) gs)).
Proof. exact output_energy. Qed.
Print Assumptions C93_recorded.

(** C93.  The list [U_sc_eV] of the output has one entry per check that asked for
    a new field, and every entry is 0. *)
Theorem C93_U_sc_zero : forall e y l m rs tr rs1 j k c w n,
  chamber_ok e -> Forall (fun q => args_ok (q_args q) /\ Forall beam_ok (q_main q :: q_secs q)) l ->
  sound_sim e m -> whole_run e y l m rs = Some (tr, rs1) -> Forall xion_ok (m :: map snd tr) -> Forall (fun p => m_full (snd p) = false) tr ->
  nth_error (m_clouds m) j = Some k -> o_iman k = blank w -> nth_error rs j = Some (Some (mkRecorder c (start_observing c n) None)) ->
  cfg_ok c -> widths_ok c w -> (0 < n)%nat -> (forall x y, w_out (e_wall e) x y = false -> k_bias (c_ic c) <= x) ->
  (forall sc, y_U y sc = U_sc_eV_stp sc) ->
  exists r1 d us, nth_error rs1 j = Some (Some r1) /\ build_outp_dict c (r_st r1) = Some d /\ get d "U_sc_eV" = Some (VArr us) /\
    List.length us = List.length (filter (fun p => sc_check (m_sc (fst p))) tr) /\ Forall (fun v => v = 0) us.
Proof. exact output_U. Qed.
Print Assumptions C93_U_sc_zero.

(** C93.  So [U_sc_eV] is not the energy of the space-charge field: in this run
    the field has a positive energy and the list holds a 0. *)
Theorem C93_U_sc_refuted : exists e y l m rs tr rs1 j k c w n eps0 qe u,
  chamber_ok e /\ Forall (fun q => args_ok (q_args q) /\ Forall beam_ok (q_main q :: q_secs q)) l /\ sound_sim e m /\ whole_run e y l m rs = Some (tr, rs1) /\
  Forall xion_ok (m :: map snd tr) /\ Forall (fun p => m_full (snd p) = false) tr /\ nth_error (m_clouds m) j = Some k /\ o_iman k = blank w /\
  nth_error rs j = Some (Some (mkRecorder c (start_observing c n) None)) /\ cfg_ok c /\ widths_ok c w /\ (0 < n)%nat /\ c_elec c = true /\
  (forall x y, w_out (e_wall e) x y = false -> k_bias (c_ic c) <= x) /\
  (forall sc, get_potential_electric_energy eps0 qe u sc = Some (y_elec y sc)) /\ (forall sc, y_U y sc = U_sc_eV_stp sc) /\
  exists r1 d p v, nth_error rs1 j = Some (Some r1) /\ build_outp_dict c (r_st r1) = Some d /\ tr = [p] /\ sc_check (m_sc (fst p)) = true /\
    get_potential_electric_energy eps0 qe u (m_sc (fst p)) = Some v /\ 0 < v /\ get d "U_sc_eV" = Some (VArr [0]).
Proof. exact nRefuted. Qed.
Print Assumptions C93_U_sc_refuted.

(** The hypotheses are met: a uniform field in a round chamber. *)
Example C93_case : exists u nx ny, sampling_ctor exChamb (Some (1/2)) = Some (Some u) /\ cells 1 (1/2) nx /\ cells 1 (1/2) ny /\ (0 < nx)%nat /\ (0 < ny)%nat /\
  forall sc, get_potential_electric_energy 1 1 (Some u) sc = Some (field_energy 1 1 (sc_fld sc) 1 1 (1/2) nx ny).
Proof. exact nSampling. Qed.
Example C93_recorded_case : forall y, exists tr rs1, whole_run nEnv y [wCall 1] sM [Some wRec; None] = Some (tr, rs1) /\ Forall xion_ok (sM :: map snd tr) /\ Forall (fun p => m_full (snd p) = false) tr /\
  exists p, tr = [p] /\ sc_fld (m_sc (fst p)) = (fun _ _ => (1, 0)) /\ sc_check (m_sc (fst p)) = true.
Proof. exact nRun. Qed.
