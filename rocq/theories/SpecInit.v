(** What settings make a simulation, and which of them each of its parts uses. *)
From Coq Require Import String.
From Verif Require Import Num ConfigVal ConfigTable SpecConfig.
Local Open Scope string_scope.
Local Open Scope list_scope.

(** Python: a value that is equal to the number [x], and one that counts as
    true. *)
Definition equals (v : pval) (x : R) : Prop := v = PNum x \/ (v = PBool true /\ x = 1) \/ (v = PBool false /\ x = 0).
Definition yes (v : pval) : Prop := v <> PNone /\ v <> PBool false /\ v <> PNum 0 /\ v <> PStr "" /\ v <> PList [].

(** The file that a name stands for: one of the input folder, with the suffix
    ".mat" if need be, or else the name itself. *)
Definition file_for (folder : string) (isfile : string -> bool) (n p : string) : Prop :=
  let a := (folder ++ "/" ++ n)%string in
  let b := (folder ++ "/" ++ n ++ ".mat")%string in
  (isfile a = true /\ p = a) \/ (isfile a = false /\ isfile b = true /\ p = b) \/ (isfile a = false /\ isfile b = false /\ p = n).

Section Settings.
Variables m_e qe : R.
(** Main settings [cc], those of a cloud [t], of a beam [b]. *)
Variable cc : config.

Definition chamber_set : Prop :=
  cc "chamb_type" = Some (PStr "ellip") \/ cc "chamb_type" = Some (PStr "rect") \/
  ((cc "chamb_type" = Some (PStr "polyg") \/ cc "chamb_type" = Some (PStr "polyg_cython")) /\ exists f, cc "filename_chm" = Some (PStr f)).

(** The emission model [m], and the names of the two numeric ones. *)
Definition model_is (t : config) (n : string) : Prop :=
  t "switch_model" = Some (PStr n) \/
  exists v, t "switch_model" = Some v /\ ((n = "ECLOUD" /\ equals v 0) \/ (n = "ACC_LOW" /\ equals v 1)).
Definition emission_set (t : config) : Prop :=
  model_is t "perfect_absorber" \/
  model_is t "ECLOUD" \/
  (t "s_param" = Some PNone /\ exists n, In n ["ACC_LOW"; "ECLOUD_nunif"; "ECLOUD_nunif_charging"; "cos_low_ene"] /\ model_is t n) \/
  (t "s_param" = Some PNone /\ t "E0" = Some PNone /\
   (model_is t "flat_low_ene" \/ model_is t "furman_pivi" \/ (model_is t "from_file" /\ exists f, t "sey_file" = Some (PStr f)))).

Definition lifetime_set : Prop :=
  (exists v, cc "flag_lifetime_hist" = Some v /\ yes v) ->
  cc "Nbin_lifetime_hist" <> Some PNone /\ cc "lifetime_hist_max" <> Some PNone /\ cc "Dt_lifetime_hist" <> Some PNone.

(** Photoemission per segment needs a chamber file that fits the chamber. *)
Definition photo_is (t : config) (x : R) (n : string) : Prop :=
  exists v, t "photoem_flag" = Some v /\ (equals v x \/ v = PStr n).
Definition photo_settings (found : string -> string -> Prop) (subset : pval -> bool) (t : config) : Prop :=
  photo_is t 3 "per_segment" -> exists n p, t "filename_chm_photoem" = Some (PStr n) /\ found n p /\ subset (PStr p) = true.

(** Within a thousandth, the cloud is made of electrons. *)
Definition electrons (t : config) : Prop :=
  exists vq q vm m, t "cloud_charge" = Some vq /\ equals vq q /\ t "cloud_mass" = Some vm /\ equals vm m /\
    Rabs (q + qe) / Rabs qe < 1 / 1000 /\ Rabs (m - m_e) / m_e < 1 / 1000.
Definition electrostatic : Prop := exists v, cc "flag_em_tracking" = Some v /\ ~ equals v 1.
Definition tracker_is (n : string) : Prop := cc "track_method" = Some (PStr n).
(** A bending field of -1 stands for the field that keeps the beam on its orbit. *)
Definition bending (c : R) (b : option config) : Prop :=
  (exists v, cc "B" = Some v /\ ~ equals v (-1)) \/
  (exists v b0 beta en l, cc "B" = Some v /\ equals v (-1) /\ b = Some b0 /\ b0 "beta_rel" = Some (PNum beta) /\ b0 "energy_J" = Some (PNum en) /\
     cc "bm_totlen" = Some (PNum l) /\ c * qe * l <> 0).
Definition tracker_set (c : R) (b : option config) (t : config) : Prop :=
  (tracker_is "Boris" /\ electrostatic) \/
  (tracker_is "StrongBdip" /\ electrostatic /\ electrons t /\ bending c b) \/
  (tracker_is "StrongBgen" /\ electrostatic /\ electrons t) \/
  tracker_is "BorisMultipole".

(** The electromagnetic space charge needs a beam. *)
Definition field_set (b : option config) : Prop :=
  (exists v, cc "flag_em_tracking" = Some v /\ yes v) -> b <> None.

(** The output is saved every [save_mat_every] of [n] passages, which must
    divide [n]; secondary beams need a path for their progress files. *)
Definition beam_set (n : R) (nsec : nat) : Prop :=
  (exists v x k, cc "save_mat_every" = Some v /\ equals v x /\ x <> 0 /\ n = x * IZR k) /\
  ((exists p, cc "progress_path" = Some (PStr p)) \/ (cc "progress_path" = Some PNone /\ nsec = 0%nat)).

Definition cloud_set (found : string -> string -> Prop) (subset : pval -> bool) (c : R) (b : option config) (t : config) : Prop :=
  emission_set t /\ photo_settings found subset t /\ tracker_set c b t.
End Settings.

(** * Which part uses which setting of its cloud *)

(** Parameter of the part, setting of the cloud. *)
Definition same (l : list string) : list (string * string) := map (fun p => (p, p)) l.
Definition mp_uses : list (string * string) :=
  same ["N_mp_max"; "nel_mp_ref_0"; "fact_split"; "fact_clean"; "N_mp_regen_low"; "N_mp_regen"; "N_mp_after_regen"; "regen_hist_cut";
        "N_mp_soft_regen"; "N_mp_after_soft_regen"; "N_mp_async_regen"; "N_mp_after_async_regen"; "flag_lifetime_hist"] ++
  [("Dx_hist_reg", "Dx_hist"); ("Nx_reg", "Nx_regen"); ("Ny_reg", "Ny_regen"); ("Nvx_reg", "Nvx_regen"); ("Nvy_reg", "Nvy_regen");
   ("Nvz_reg", "Nvz_regen"); ("charge", "cloud_charge"); ("mass", "cloud_mass"); ("name", "cloud_name")].
Definition sey_common : list (string * string) :=
  same ["E_th"; "sigmafit"; "mufit"; "switch_no_increase_energy"; "thresh_low_energy"; "secondary_angle_distribution"].
Definition sey_scale : list (string * string) := same ["flag_costheta_delta_scale"; "flag_costheta_Emax_shift"].
(** By emission model. *)
Definition sey_uses (n : string) : list (string * string) :=
  if String.eqb n "perfect_absorber" then []
  else sey_common ++
    (if String.eqb n "ECLOUD" then same ["Emax"; "del_max"; "R0"] ++ sey_scale
     else if String.eqb n "from_file" then sey_scale
     else if String.eqb n "furman_pivi" then ("furman_pivi_surface", "furman_pivi_surface") :: sey_scale
     else same ["Emax"; "del_max"; "R0"]).
Definition impact_uses : list (string * string) := same ["Dx_hist"; "scrub_en_th"; "flag_En_hist_seg"].
Definition gas_uses : list (string * string) :=
  same ["unif_frac"; "P_nTorr"; "sigma_ion_MBarn"; "Temp_K"; "E_init_ion"; "flag_lifetime_hist"].
Definition photo_common : list (string * string) :=
  same ["energy_distribution"; "e_pe_sigma"; "e_pe_max"; "k_pe_st"; "photoelectron_angle_distribution"; "flag_continuous_emission"].
Definition photo_uses (n : string) : list (string * string) :=
  photo_common ++
  (if String.eqb n "photoemission" then
     ("resc_fac", "phem_resc_fac") :: same ["inv_CDF_refl_photoem_file"; "refl_frac"; "alimit"; "x0_refl"; "y0_refl"; "out_radius"]
   else if String.eqb n "photoemission_from_file" then ("resc_fac", "phem_resc_fac") :: same ["inv_CDF_all_photoem_file"; "out_radius"]
   else []).
Definition saver_uses : list (string * string) :=
  same ["r_center"; "Dt_En_hist"; "logfile_path"; "progress_path"; "flag_detailed_MP_info"; "flag_movie"; "flag_sc_movie";
        "save_mp_state_time_file"; "dec_fac_secbeam_prof"; "el_density_probes"; "save_simulation_state_time_file"; "x_min_hist_det";
        "x_max_hist_det"; "y_min_hist_det"; "y_max_hist_det"; "Dx_hist_det"; "filen_main_outp"; "flag_cos_angle_hist"; "cos_angle_width";
        "cloud_name"; "flag_lifetime_hist"; "Dt_lifetime_hist"; "save_only"].
Definition fill_uses (n : string) : list (string * string) :=
  if String.eqb n "add_uniform_MP_distrib" then
    [("DNel", "Nel_init_unif"); ("E_init", "E_init_unif"); ("x_max", "x_max_init_unif"); ("x_min", "x_min_init_unif");
     ("y_max", "y_max_init_unif"); ("y_min", "y_min_init_unif")]
  else if String.eqb n "add_uniform_ele_density" then
    [("n_ele", "init_unif_edens"); ("E_init", "E_init_unif_edens"); ("x_max", "x_max_init_unif_edens"); ("x_min", "x_min_init_unif_edens");
     ("y_max", "y_max_init_unif_edens"); ("y_min", "y_min_init_unif_edens")]
  else [("filename_MPs", "filename_init_MP_state")].
Definition cloud_uses : list (string * string) := [("cloudname", "cloud_name"); ("gas_ion_flag", "gas_ion_flag"); ("t_ion", "t_ion"); ("photoem_flag", "photoem_flag")].
(** Settings of the main configuration that the parts of every cloud use. *)
Definition impact_main : list (string * string) :=
  same ["Nbin_En_hist"; "En_hist_max"; "Nbin_lifetime_hist"; "lifetime_hist_max"; "flag_lifetime_hist"; "cos_angle_width"].
Definition saver_main : list (string * string) :=
  ("Dt_ref", "Dt") :: same ["dec_fact_out"; "stopfile"; "save_mat_every"; "checkpoint_DT"; "checkpoint_folder"; "copy_main_outp_folder"; "copy_main_outp_DT";
    "extract_sey"; "step_by_step_custom_observables"; "pass_by_pass_custom_observables"; "save_once_custom_observables"; "extract_ene_dist";
    "ene_dist_test_E_impact_eV"; "Nbin_extract_ene"; "factor_ene_dist_max"].

(** [o] uses the settings [c] as in the table. *)
Definition uses (o c : config) (tab : list (string * string)) : Prop := forall a p, In (a, p) tab -> o a = c p.

(** * Complete settings *)
Section Complete.
Variables m_e m_p qe : R.
(** Every parameter of a cloud has a value, and so have the name of the cloud
    and of its output. *)
Definition cloud_full (t : config) : Prop :=
  forall p, cloud_param m_e m_p qe p \/ p = "cloud_name" \/ p = "filen_main_outp" -> exists v, t p = Some v.
(** Every parameter of a beam has a value, and so have its derived quantities. *)
Definition beam_full (b : config) : Prop :=
  forall p, beam_param m_e m_p qe p \/ In p ["energy_J"; "gamma_rel"; "beta_rel"] -> exists v, b p = Some v.
End Complete.
