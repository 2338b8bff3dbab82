(** The table of the input parameters, default_input_parameters.py:6-461.
    Written by tools/mkconfigtable.py from the text of that file.  The physical
    constants are arguments.  Names in the order of the file; a key given twice
    is given twice here (see [dict_of] in Config.v). *)
From Coq Require Import String.
From Verif Require Import Num ConfigVal.
Local Open Scope string_scope.
Local Open Scope list_scope.
Local Open Scope R_scope.

(** lines 7-7 *)
Definition superparameters : list string := ["pi"].

(** lines 8-134 *)
Definition simulation_parameters_mandatory : list string :=
  [
   "machine_param_file"; "secondary_emission_parameters_file"; "beam_parameters_file";
   "logfile_path"; "progress_path"; "Dt"; "t_end"; "lam_th"; "N_mp_max"; "N_mp_regen";
   "N_mp_regen_low"; "t_ON_regen_low"; "N_mp_after_regen"; "fact_split"; "fact_clean";
   "nel_mp_ref_0"; "Nx_regen"; "Ny_regen"; "Nvx_regen"; "Nvy_regen"; "Nvz_regen"; "regen_hist_cut";
   "Dt_sc"; "Dh_sc"; "t_sc_ON"; "Dx_hist"; "r_center"; "Dt_En_hist"; "Nbin_En_hist"; "En_hist_max"].
Definition simulation_parameters_optional (m_e m_p qe : R) : list (string * pval) :=
  [
   ("secondary_beams_file_list", PList []); ("additional_clouds_file_list", PList []);
   ("cloud_name", PNone); ("cloud_mass", PNum m_e); ("cloud_charge", PNum (- qe));
   ("N_mp_soft_regen", PNone); ("N_mp_after_soft_regen", PNone); ("N_mp_async_regen", PNone);
   ("N_mp_after_async_regen", PNone); ("stopfile", PStr "stop");
   ("filen_main_outp", PStr "Pyecltest.mat"); ("save_only", PNone); ("flag_movie", PNum 0);
   ("flag_sc_movie", PNum 0); ("flag_cos_angle_hist", PBool true);
   ("cos_angle_width", PNum (1 / 20)); ("save_mp_state_time_file", PNum (-1));
   ("flag_detailed_MP_info", PNum 0); ("flag_hist_impact_seg", PNum 1);
   ("flag_En_hist_seg", PBool false); ("flag_verbose_file", PBool false);
   ("flag_verbose_stdout", PBool false); ("dec_fac_secbeam_prof", PNum 1);
   ("el_density_probes", PList []); ("save_simulation_state_time_file", PNum (-1));
   ("checkpoint_DT", PNone); ("checkpoint_folder", PNone); ("copy_main_outp_DT", PNone);
   ("copy_main_outp_folder", PNone); ("x_min_hist_det", PNone); ("y_min_hist_det", PNone);
   ("x_max_hist_det", PNone); ("y_max_hist_det", PNone); ("Dx_hist_det", PNone);
   ("flag_lifetime_hist", PBool false); ("Nbin_lifetime_hist", PNone); ("lifetime_hist_max", PNone);
   ("Dt_lifetime_hist", PNone); ("Dh_electric_energy", PNone); ("sparse_solver", PStr "scipy_slu");
   ("PyPICmode", PStr "FiniteDifferences_ShortleyWeller");
   ("flag_reinterp_fields_at_substeps", PBool false); ("f_telescope", PNone);
   ("target_grid", PNone); ("N_nodes_discard", PNone); ("N_min_Dh_main", PNone);
   ("dec_fact_out", PNum 1); ("save_mat_every", PNum 1); ("t_ion", PNum (-1));
   ("extract_sey", PBool true); ("step_by_step_custom_observables", PNone);
   ("pass_by_pass_custom_observables", PNone); ("save_once_custom_observables", PNone);
   ("extract_ene_dist", PBool false); ("ene_dist_test_E_impact_eV", PNone);
   ("Nbin_extract_ene", PNone); ("factor_ene_dist_max", PNone); ("flag_em_tracking", PBool false);
   ("cross_ion_definitions", PNone)].

(** lines 135-213 *)
Definition machine_parameters_mandatory : list string :=
  [
   ].
Definition machine_parameters_optional (m_e m_p qe : R) : list (string * pval) :=
  [
   ("chamb_type", PStr "ellip"); ("x_aper", PNone); ("y_aper", PNone); ("filename_chm", PNone);
   ("filename_chm_photoem", PNone); ("track_method", PStr "StrongBdip"); ("B", PNum 0);
   ("bm_totlen", PNum (-1)); ("B_map_file", PNone); ("fact_Bmap", PNum 1); ("B0x", PNone);
   ("B0y", PNone); ("B0z", PNone); ("B_zero_thrhld", PNone); ("N_sub_steps", PNum 1);
   ("B_multip", PList []); ("B_skew", PNone); ("betafx", PNone); ("betafy", PNone); ("Dx", PNum 0);
   ("Dy", PNum 0); ("gas_ion_flag", PNum 0); ("P_nTorr", PNum (-1)); ("sigma_ion_MBarn", PNum (-1));
   ("Temp_K", PNum (-1)); ("unif_frac", PNum (-1)); ("E_init_ion", PNum (-1));
   ("photoem_flag", PNum 0); ("inv_CDF_refl_photoem_file", PNum (-1));
   ("inv_CDF_all_photoem_file", PNum (-1)); ("k_pe_st", PNum (-1)); ("refl_frac", PNum (-1));
   ("alimit", PNum (-1)); ("e_pe_sigma", PNum (-1)); ("e_pe_max", PNum (-1));
   ("x0_refl", PNum (-1)); ("y0_refl", PNum (-1)); ("out_radius", PNum (-1));
   ("phem_resc_fac", PNum (9999 / 10000)); ("photoelectron_angle_distribution", PStr "undefined");
   ("energy_distribution", PStr "gaussian"); ("flag_continuous_emission", PBool false);
   ("init_unif_flag", PNum 0); ("Nel_init_unif", PNone); ("E_init_unif", PNum 0);
   ("x_max_init_unif", PNone); ("x_min_init_unif", PNone); ("y_max_init_unif", PNone);
   ("y_min_init_unif", PNone); ("filename_init_MP_state", PNone); ("init_unif_edens_flag", PNum 0);
   ("init_unif_edens", PNone); ("E_init_unif_edens", PNum 0); ("x_max_init_unif_edens", PNone);
   ("x_min_init_unif_edens", PNone); ("y_max_init_unif_edens", PNone);
   ("y_min_init_unif_edens", PNone); ("flag_assume_convex", PBool true)].

(** lines 214-275 *)
Definition beam_beam_mandatory : list string :=
  [
   "energy_eV"; "beam_field_file"; "b_spac"; "fact_beam"; "flag_bunched_beam"; "t_offs";
   "filling_pattern_file"].
Definition beam_beam_optional (m_e m_p qe : R) : list (string * pval) :=
  [
   ("q_part", PNum qe); ("m0_part", PNum m_p); ("Dp_p", PNum 0); ("nemittx", PNone);
   ("nemitty", PNone); ("x_beam_pos", PNum 0); ("y_beam_pos", PNum 0); ("sigmax", PNum (-1));
   ("sigmay", PNum (-1)); ("save_beam_field_file_as", PNone); ("Dh_beam_field", PNone);
   ("Nx", PNone); ("Ny", PNone); ("nimag", PNone); ("Dh_beam_field", PNone);
   ("f_telescope_beam", PNone); ("target_grid_beam", PNone); ("N_nodes_discard_beam", PNone);
   ("N_min_Dh_main_beam", PNone); ("sigmaz", PNum (-1)); ("beam_long_prof_file", PNone);
   ("Dx", PNone); ("Dy", PNone); ("betafx", PNone); ("betafy", PNone); ("coast_dens", PNum 0)].

(** lines 276-313 *)
Definition secondary_emission_parameters_mandatory : list string :=
  [
   "E_th"; "sigmafit"; "mufit"; "scrub_en_th"].
Definition secondary_emission_parameters_optional (m_e m_p qe : R) : list (string * pval) :=
  [
   ("Emax", PNone); ("del_max", PNone); ("R0", PNone); ("E0", PNone); ("s_param", PNone);
   ("switch_model", PNum 0); ("secondary_angle_distribution", PStr "undefined");
   ("switch_no_increase_energy", PNum 0); ("thresh_low_energy", PNum (-1)); ("sey_file", PNone);
   ("flag_costheta_Emax_shift", PBool true); ("flag_costheta_delta_scale", PBool true);
   ("furman_pivi_surface", PNone)].

(** lines 318-464 *)
Definition additional_cloud_parameters_mandatory : list string :=
  [
   "cloud_mass"; "cloud_charge"; "gas_ion_flag"; "photoem_flag"; "init_unif_flag";
   "init_unif_edens_flag"; "switch_model"].
Definition additional_cloud_parameters_optional (m_e m_p qe : R) : list (string * pval) :=
  [
   ("save_only", PList []); ("N_mp_max", PList []); ("N_mp_regen", PList []);
   ("N_mp_regen_low", PList []); ("t_ON_regen_low", PList []); ("N_mp_after_regen", PList []);
   ("fact_split", PList []); ("fact_clean", PList []); ("nel_mp_ref_0", PList []);
   ("Nx_regen", PList []); ("Ny_regen", PList []); ("Nvx_regen", PList []); ("Nvy_regen", PList []);
   ("Nvz_regen", PList []); ("regen_hist_cut", PList []); ("N_mp_soft_regen", PList []);
   ("N_mp_after_soft_regen", PList []); ("N_mp_async_regen", PList []);
   ("N_mp_after_async_regen", PList []); ("N_sub_steps", PList []); ("P_nTorr", PList []);
   ("sigma_ion_MBarn", PList []); ("Temp_K", PList []); ("unif_frac", PList []);
   ("E_init_ion", PList []); ("t_ion", PList []); ("inv_CDF_refl_photoem_file", PList []);
   ("inv_CDF_all_photoem_file", PList []); ("k_pe_st", PList []); ("refl_frac", PList []);
   ("alimit", PList []); ("e_pe_sigma", PList []); ("e_pe_max", PList []); ("x0_refl", PList []);
   ("y0_refl", PList []); ("out_radius", PList []); ("phem_resc_fac", PList []);
   ("photoelectron_angle_distribution", PList []); ("energy_distribution", PList []);
   ("flag_continuous_emission", PList []); ("filename_chm_photoem", PList []);
   ("Nel_init_unif", PList []); ("E_init_unif", PList []); ("x_max_init_unif", PList []);
   ("x_min_init_unif", PList []); ("y_max_init_unif", PList []); ("y_min_init_unif", PList []);
   ("filename_init_MP_state", PList []); ("init_unif_edens", PList []);
   ("E_init_unif_edens", PList []); ("x_max_init_unif_edens", PList []);
   ("x_min_init_unif_edens", PList []); ("y_max_init_unif_edens", PList []);
   ("y_min_init_unif_edens", PList []); ("E_th", PList []); ("sigmafit", PList []);
   ("mufit", PList []); ("Emax", PList []); ("s_param", PList []); ("del_max", PList []);
   ("R0", PList []); ("E0", PList []); ("switch_no_increase_energy", PList []);
   ("thresh_low_energy", PList []); ("scrub_en_th", PList []);
   ("secondary_angle_distribution", PList []); ("sey_file", PList []);
   ("flag_costheta_Emax_shift", PList []); ("flag_costheta_delta_scale", PList []);
   ("furman_pivi_surface", PList []); ("Dx_hist", PList []); ("r_center", PList []);
   ("Dt_En_hist", PList []); ("Nbin_En_hist", PList []); ("En_hist_max", PList []);
   ("flag_lifetime_hist", PList []); ("Nbin_lifetime_hist", PList []);
   ("lifetime_hist_max", PList []); ("Dt_lifetime_hist", PList []); ("flag_movie", PList []);
   ("flag_sc_movie", PList []); ("flag_cos_angle_hist", PList []); ("cos_angle_width", PList []);
   ("save_mp_state_time_file", PList []); ("flag_detailed_MP_info", PList []);
   ("flag_hist_impact_seg", PList []); ("flag_En_hist_seg", PList []);
   ("flag_verbose_file", PList []); ("flag_verbose_stdout", PList []);
   ("dec_fac_secbeam_prof", PList []); ("el_density_probes", PList []);
   ("save_simulation_state_time_file", PList []); ("x_min_hist_det", PList []);
   ("y_min_hist_det", PList []); ("x_max_hist_det", PList []); ("y_max_hist_det", PList []);
   ("Dx_hist_det", PList []); ("logfile_path", PList []); ("progress_path", PList [])].
