(** Model of the assembly of a simulation from its settings: init.py:147-563,
    with the signatures of the constructors it calls.  No proofs in this file.

    A constructor call is modelled up to the binding of its arguments: its
    result is the list of the values that the parameters receive.  What the
    constructors do is modelled in the other files; that they may raise is not
    repeated here.  Settings are dictionaries (Config.v).  Exceptions are [None].
    The printing and the order of the calls are left out. *)
From Coq Require Import String.
From Verif Require Import Num ConfigVal Ckpt Config.
Local Open Scope string_scope.
Local Open Scope list_scope.

(** * Python *)

(** [==] on the values that are compared with numbers, strings and booleans. *)
Definition num_of (v : pval) : option R :=
  match v with PNum x => Some x | PBool b => Some (if b then 1 else 0) | _ => None end.
Definition py_eqb (v w : pval) : bool :=
  match num_of v, num_of w with
  | Some x, Some y => Reqb x y
  | None, None => match v, w with PStr s, PStr t => String.eqb s t | PNone, PNone => true | _, _ => false end
  | _, _ => false
  end.
Definition py_in (v : pval) (l : list pval) : bool := existsb (py_eqb v) l.
(** Truth value. *)
Definition truthy (v : pval) : bool :=
  match v with
  | PNone => false | PBool b => b | PNum x => negb (Reqb x 0) | PStr s => negb (String.eqb s "")
  | PList l => negb (Nat.eqb (length l) 0) | PNan | PModule | POther _ => true
  end.

(** A function: its name, the parameters without and with a default. *)
Record fn := mkFn { f_name : string; f_req : list string; f_opt : attrs }.
Definition f_params (f : fn) : list string := f_req f ++ map fst (f_opt f).

(** What the arguments of the calls refer to: a setting of the cloud
    ([thiscloud]), of the main configuration ([cc]) or of the beam ([b_par],
    [sb_par]), or any other value. *)
Inductive arg := Own (p : string) | Main (p : string) | Beam (p : string) | Val (v : pval).

(** Binding of the arguments of a call. *)
Fixpoint bind_pos (ps : list string) (pos : list arg) : option (list (string * arg)) :=
  match pos, ps with
  | [], _ => Some []
  | a :: pos', p :: ps' => do r <- bind_pos ps' pos' ; Some ((p, a) :: r)
  | _ :: _, [] => None
  end.
Fixpoint distinct (l : list string) : bool :=
  match l with [] => true | x :: l' => negb (mem x l') && distinct l' end.
Definition bind_args (f : fn) (pos : list arg) (kw : list (string * arg)) : option (list (string * arg)) :=
  do b <- bind_pos (f_params f) pos ;
  let given := b ++ kw in
  if forallb (fun k => mem k (f_params f)) (map fst kw) && distinct (map fst given) && forallb (fun p => mem p (map fst given)) (f_req f)
  then Some (given ++ map (fun d => (fst d, Val (snd d))) (filter (fun d => negb (mem (fst d) (map fst given))) (f_opt f)))
  else None.

(** The objects that are passed on. *)
Definition the_chamb := Val (POther 1).
Definition the_MP := Val (POther 2).
Definition the_beam := Val (POther 3).
Definition the_impact := Val (POther 4).
Definition the_sey := Val (POther 5).
Definition the_sec_beams := Val (POther 6).
Definition the_phchamb := Val (POther 7).
Definition the_times := Val (POther 8).
Definition the_dynamics := Val (POther 9).
Definition the_gas := Val (POther 10).
Definition the_photo := Val (POther 11).
Definition the_saver := Val (POther 12).
Definition the_rho := Val (POther 13).

(** * Signatures *)

(** geom_impact_ellip.py:58, geom_impact_poly_fast_impact.py:71-72,
    geom_impact_rect_fast_impact.py:59 (its [**kwargs] are those of the polygon). *)
Definition ellip_fn := mkFn "ellip" ["x_aper"; "y_aper"] [("flag_verbose_file", PBool true)].
Definition verbose_opt : attrs := [("flag_verbose_file", PBool false); ("flag_verbose_stdout", PBool false); ("flag_assume_convex", PBool true)].
Definition polyg_fn := mkFn "polyg" ["filename_chm"; "flag_non_unif_sey"] verbose_opt.
Definition rect_fn := mkFn "rect" ["x_aper"; "y_aper"; "flag_non_unif_sey"] verbose_opt.

(** beam_and_timing.py:85-93. *)
Definition beam_fn := mkFn "beam_and_timing"
  ["flag_bunched_beam"; "fact_beam"; "coast_dens"; "beam_charge"; "beam_field_file"; "lam_th_beam_field"]
  [("b_spac", PNone); ("sigmaz", PNone); ("t_offs", PNone); ("filling_pattern_file", PNone); ("Dt", PNone); ("t_end", PNone);
   ("beam_long_prof_file", PNone); ("Dh_beam_field", PNone); ("f_telescope_beam", PNone); ("target_grid_beam", PNone);
   ("N_nodes_discard_beam", PNone); ("N_min_Dh_main_beam", PNone); ("chamb", PNone); ("sigmax", PNone); ("sigmay", PNone);
   ("x_beam_pos", PNum 0); ("y_beam_pos", PNum 0); ("save_beam_field_file_as", PNone);
   ("flag_secodary_beam", PBool false); ("t_primary_beam", PNone); ("Nx", PNone); ("Ny", PNone); ("nimag", PNone);
   ("progress_mapgen_file", PNone)].

(** space_charge_class.py:63-64, space_charge_class_electromagnetic.py:77-78. *)
Definition sc_opt : attrs :=
  [("Dt_sc", PNone); ("PyPICmode", PStr "FiniteDifferences_ShortleyWeller"); ("sparse_solver", PStr "scipy_slu");
   ("f_telescope", PNone); ("target_grid", PNone); ("N_nodes_discard", PNone); ("N_min_Dh_main", PNone); ("Dh_U_eV", PNone)].
Definition sc_fn := mkFn "space_charge" ["chamb"; "Dh"] sc_opt.
Definition sc_em_fn := mkFn "space_charge_electromagnetic" ["chamb"; "Dh"; "gamma"] sc_opt.

Section Signatures.
Variables m_e qe : R.
(** MP_system.py:67-72. *)
Definition mp_fn := mkFn "MP_system"
  ["N_mp_max"; "nel_mp_ref_0"; "fact_split"; "fact_clean"; "N_mp_regen_low"; "N_mp_regen"; "N_mp_after_regen";
   "Dx_hist_reg"; "Nx_reg"; "Ny_reg"; "Nvx_reg"; "Nvy_reg"; "Nvz_reg"; "regen_hist_cut"; "chamb"]
  [("N_mp_soft_regen", PNone); ("N_mp_after_soft_regen", PNone); ("N_mp_async_regen", PNone); ("N_mp_after_async_regen", PNone);
   ("charge", PNum (- qe)); ("mass", PNum m_e); ("flag_lifetime_hist", PBool false); ("name", PNone)].
End Signatures.

(** The constructors of the emission models. *)
Definition sey_opt : attrs :=
  [("E_th", PNone); ("sigmafit", PNone); ("mufit", PNone); ("switch_no_increase_energy", PNum 0); ("thresh_low_energy", PNone);
   ("secondary_angle_distribution", PNone)].
Definition scale_opt : attrs := [("flag_costheta_delta_scale", PBool true); ("flag_costheta_Emax_shift", PBool true)].
(** sec_emission_model_ECLOUD.py:90-95. *)
Definition ecloud_fn := mkFn "ECLOUD" ["Emax"; "del_max"; "R0"] (sey_opt ++ [("E0", PNum 150); ("s", PNum (27 / 20))] ++ scale_opt).
(** sec_emission_model_accurate_low_ene.py:78. *)
Definition acc_low_fn := mkFn "ACC_LOW" ["Emax"; "del_max"; "R0"] (("E0", PNum 150) :: sey_opt).
(** sec_emission_model_ECLOUD_nunif.py:81, 130. *)
Definition nunif_fn := mkFn "ECLOUD_nunif" ["chamb"; "Emax"; "del_max"; "R0"] (("E0", PNum 150) :: sey_opt).
Definition charging_fn := mkFn "ECLOUD_nunif_charging" ["chamb"; "Emax"; "del_max"; "R0"] (("E0", PNum 150) :: sey_opt).
(** sec_emission_model_cos_low_ener.py:80. *)
Definition cos_low_fn := mkFn "cos_low_ene" ["Emax"; "del_max"; "R0"] (("E0", PNum 30) :: sey_opt).
(** sec_emission_model_flat_low_ener.py:81. *)
Definition flat_low_fn := mkFn "flat_low_ene" ["Emax"; "del_max"; "R0"] sey_opt.
(** sec_emission_model_from_file.py:65. *)
Definition from_file_fn := mkFn "from_file" ["sey_file"; "flag_costheta_delta_scale"; "flag_costheta_Emax_shift"] sey_opt.
(** sec_emission_model_furman_pivi.py:100. *)
Definition furman_fn := mkFn "furman_pivi" ["furman_pivi_surface"] (sey_opt ++ scale_opt).
(** sec_emission_model_perfect_absorber.py:69. *)
Definition absorber_fn := mkFn "perfect_absorber" [] [].

(** impact_management_class.py:60-66. *)
Definition impact_fn := mkFn "impact_management"
  ["chamb"; "sey_mod"; "Dx_hist"; "scrub_en_th"; "Nbin_En_hist"; "En_hist_max"]
  [("Nbin_lifetime_hist", PNone); ("lifetime_hist_max", PNone); ("flag_lifetime_hist", PBool false); ("flag_seg", PBool false);
   ("flag_En_hist_seg", PBool false); ("cos_angle_width", PNum (1 / 20)); ("flag_cos_angle_hist", PBool true)].
(** gas_ionization_class.py:62. *)
Definition gas_fn := mkFn "residual_gas_ionization"
  ["unif_frac"; "P_nTorr"; "sigma_ion_MBarn"; "Temp_K"; "chamb"; "E_init_ion"] [("flag_lifetime_hist", PBool false)].
(** gen_photoemission_class.py:99, 211, 265. *)
Definition photo_opt : attrs := [("beamtim", PNone); ("flag_continuous_emission", PBool false)].
Definition photo1_fn := mkFn "photoemission"
  ["inv_CDF_refl_photoem_file"; "k_pe_st"; "refl_frac"; "e_pe_sigma"; "e_pe_max"; "alimit"; "x0_refl"; "y0_refl"; "out_radius";
   "chamb"; "resc_fac"; "energy_distribution"; "photoelectron_angle_distribution"] photo_opt.
Definition photo2_fn := mkFn "photoemission_from_file"
  ["inv_CDF_all_photoem_file"; "chamb"; "resc_fac"; "energy_distribution"; "e_pe_sigma"; "e_pe_max"; "k_pe_st"; "out_radius";
   "photoelectron_angle_distribution"] photo_opt.
Definition photo3_fn := mkFn "photoemission_per_segment"
  ["chamb"; "energy_distribution"; "e_pe_sigma"; "e_pe_max"; "k_pe_st"; "photoelectron_angle_distribution"] photo_opt.
(** dynamics_Boris_f2py.py:139, dynamics_Boris_multipole.py:60, dynamics_dipole.py:62,
    dynamics_strong_B_generalized.py:65. *)
Definition boris_fn := mkFn "Boris" ["Dt"; "B0x"; "B0y"; "B0z"; "B_map_file"; "fact_Bmap"] [("N_sub_steps", PNum 1)].
Definition multipole_fn := mkFn "BorisMultipole" ["Dt"]
  [("N_sub_steps", PNum 1); ("B_multip", PNone); ("B_skew", PNone); ("B0x", PNone); ("B0y", PNone); ("B0z", PNone)].
Definition dipole_fn := mkFn "StrongBdip" ["Dt"; "B"] [].
Definition strongB_fn := mkFn "StrongBgen" ["Dt"; "B0x"; "B0y"; "B_map_file"; "fact_Bmap"; "B_zero_thrhld"] [].
(** MP_system.py:441, 488, 553. *)
Definition fill_fn := mkFn "add_uniform_MP_distrib" ["DNel"; "E_init"; "x_max"; "x_min"; "y_max"; "y_min"] [].
Definition density_fn := mkFn "add_uniform_ele_density" ["n_ele"; "E_init"; "x_max"; "x_min"; "y_max"; "y_min"] [].
Definition load_fn := mkFn "add_from_file" ["filename_MPs"] [].
(** pyecloud_saver.py:107-131. *)
Definition saver_fn := mkFn "start_observing"
  ["Dt_ref"; "MP_e"; "beamtim"; "impact_man"; "r_center"; "Dt_En_hist"; "logfile_path"; "progress_path"]
  [("flag_detailed_MP_info", PNum 0); ("cos_angle_width", PNum (1 / 20)); ("flag_cos_angle_hist", PBool true); ("flag_movie", PNum 0);
   ("flag_sc_movie", PNum 0); ("save_mp_state_time_file", PNum (-1)); ("flag_presence_sec_beams", PBool false); ("sec_beams_list", PList []);
   ("dec_fac_secbeam_prof", PNum 1); ("el_density_probes", PList []); ("save_simulation_state_time_file", PNum (-1));
   ("x_min_hist_det", PNone); ("x_max_hist_det", PNone); ("y_min_hist_det", PNone); ("y_max_hist_det", PNone); ("Dx_hist_det", PNone);
   ("filen_main_outp", PStr "Pyecltest"); ("dec_fact_out", PNum 1); ("stopfile", PStr "stop"); ("save_mat_every", PNum 1);
   ("flag_multiple_clouds", PBool false); ("cloud_name", PNone); ("flag_last_cloud", PBool true); ("checkpoint_DT", PNone);
   ("checkpoint_folder", PNone); ("copy_main_outp_folder", PNone); ("copy_main_outp_DT", PNone); ("extract_sey", PNone);
   ("step_by_step_custom_observables", PNone); ("pass_by_pass_custom_observables", PNone); ("save_once_custom_observables", PNone);
   ("flag_lifetime_hist", PBool false); ("Dt_lifetime_hist", PNone); ("extract_ene_dist", PNone); ("ene_dist_test_E_impact_eV", PNone);
   ("Nbin_extract_ene", PNone); ("factor_ene_dist_max", PNone); ("flag_cross_ion", PBool false); ("save_only", PNone);
   ("flag_electric_energy", PBool false)].
(** cloud_manager.py:54-55. *)
Definition cloud_fn := mkFn "Cloud"
  ["cloudname"; "config_dict"; "MP_e"; "impact_man"; "dynamics"; "pyeclsaver"; "gas_ion_flag"; "resgasion"; "t_ion"; "photoem_flag"; "phemiss"; "rho"] [].

(** * Assembly *)

(** An object: the function that was called and the values of its parameters. *)
Record obj := mkObj { ob_name : string; ob_args : attrs }.
(** A cloud; [cp_init]: the calls that add its initial macroparticles. *)
Record cloud_plan := mkCloudPlan {
  cp_mp : obj; cp_sey : obj; cp_impact : obj; cp_gas : option obj; cp_photo : option obj; cp_saver : option obj;
  cp_dyn : obj; cp_init : list obj; cp_cloud : obj }.
Record plan := mkPlan {
  pl_chamb : obj; pl_beam : option obj; pl_sec : list obj; pl_sc : option obj; pl_clouds : list cloud_plan; pl_cross : bool }.

(** The attributes of a beam description (parse_beam_file.py:56-96). *)
Definition beam_obj (b : bdescr) : attrs :=
  dset (dset (dset (dset (dset (bd_cfg b) "sigmax" (bd_sigmax b)) "sigmay" (bd_sigmay b))
    "energy_J" (PNum (bd_energy_J b))) "gamma_rel" (PNum (bd_gamma b))) "beta_rel" (bd_beta b).

Section Build.
Variables m_e qe c : R.
(** The input folder and the files that exist; [npass]: [N_pass_tot] of the beam
    object; [subset]: the photoemission
    chamber of this file has its vertices on the chamber (line 445). *)
Variable folder : string.
Variable isfile : string -> bool.
Variable npass : R.
Variable subset : pval -> bool.

Section Eval.
Variables cc t : attrs.
Variable b : option attrs.
Definition eval (a : arg) : option pval :=
  match a with
  | Own p => dget t p
  | Main p => dget cc p
  | Beam p => do b <- b ; dget b p
  | Val v => Some v
  end.
Definition call (f : fn) (pos : list arg) (kw : list (string * arg)) : option obj :=
  do l <- bind_args f pos kw ;
  do l <- mapM (fun q => do v <- eval (snd q) ; Some (fst q, v)) l ;
  Some (mkObj (f_name f) l).
End Eval.

(** Keyword arguments that hand over a setting of the same name. *)
Definition own (l : list string) : list (string * arg) := map (fun p => (p, Own p)) l.
Definition main (l : list string) : list (string * arg) := map (fun p => (p, Main p)) l.
Definition beam (l : list string) : list (string * arg) := map (fun p => (p, Beam p)) l.

(** Lines 192-197, and the same lines for other files: a file of the input
    folder, with or without ".mat", or else the name as it is.  Adding a string
    to anything else raises. *)
Definition in_folder (n : string) : string := (folder ++ "/" ++ n)%string.
Definition find_file (v : pval) : option pval :=
  do n <- as_name v ;
  Some (PStr (if isfile (in_folder n) then in_folder n
              else if isfile (in_folder (n ++ ".mat")) then in_folder (n ++ ".mat") else n)).
(** Lines 207-215. *)
Definition profile_file (v : pval) : pval := match find_file v with Some w => w | None => v end.
(** Lines 240-249; [v] of the secondary beam, [w] of the main beam. *)
Definition sec_profile_file (v w : pval) : pval :=
  match as_name v with
  | None => v
  | Some n =>
      if isfile (in_folder n) then PStr (in_folder n)
      else match as_name w with
           | None => v
           | Some m => if isfile (in_folder (m ++ ".mat")) then PStr (in_folder (n ++ ".mat")) else PStr n
           end
  end.

(** Lines 177-202. *)
Definition non_unif (t : attrs) : option bool := do m <- dget t "switch_model" ; Some (py_in m [PStr "ECLOUD_nunif"; PStr "ECLOUD_nunif_charging"]).
Definition build_chamber (cc : attrs) (cl : list attrs) : option obj :=
  do nu <- mapM non_unif cl ;
  let flag := Val (PBool (existsb (fun b => b) nu)) in
  let kw := main ["flag_verbose_file"; "flag_verbose_stdout"; "flag_assume_convex"] in
  do ty <- dget cc "chamb_type" ;
  if py_eqb ty (PStr "ellip") then
    call cc [] None ellip_fn [Main "x_aper"; Main "y_aper"] [("flag_verbose_file", Main "flag_verbose_file")]
  else if py_in ty [PStr "polyg"; PStr "polyg_cython"] then
    do f <- dget cc "filename_chm" ;
    do f <- find_file f ;
    call cc [] None polyg_fn [Val f; flag] kw
  else if py_eqb ty (PStr "rect") then
    call cc [] None rect_fn [Main "x_aper"; Main "y_aper"; flag] kw
  else None.

(** Lines 222-228 and 251-258: the arguments that main and secondary beams share. *)
Definition beam_pos : list arg :=
  [Beam "flag_bunched_beam"; Beam "fact_beam"; Beam "coast_dens"; Beam "q_part"; Beam "beam_field_file"; Main "lam_th"].
Definition beam_kw (prof : pval) : list (string * arg) :=
  beam ["b_spac"; "sigmaz"; "t_offs"; "filling_pattern_file"] ++ main ["Dt"; "t_end"] ++
  [("beam_long_prof_file", Val prof)] ++
  beam ["Dh_beam_field"; "f_telescope_beam"; "target_grid_beam"; "N_nodes_discard_beam"; "N_min_Dh_main_beam"] ++
  [("chamb", the_chamb)] ++ beam ["sigmax"; "sigmay"; "x_beam_pos"; "y_beam_pos"; "save_beam_field_file_as"; "Nx"; "Ny"; "nimag"].
(** Lines 217-220. *)
Definition mapgen_file (v : pval) : option pval :=
  match v with PNone => Some PNone | _ => do n <- as_name v ; Some (PStr (n ++ "_mapgen")%string) end.
Definition build_beam (cc b : attrs) : option obj :=
  do p <- dget b "beam_long_prof_file" ;
  do g <- dget cc "progress_path" ;
  do g <- mapgen_file g ;
  call cc [] (Some b) beam_fn beam_pos (beam_kw (profile_file p) ++ [("progress_mapgen_file", Val g)]).
(** Lines 236-258; [sec_name ii]: ["_mapgen_sec_%d" % ii]. *)
Variable sec_name : nat -> string.
Definition build_sec_beam (cc b : attrs) (ii : nat) (sb : attrs) : option obj :=
  do p <- dget sb "beam_long_prof_file" ;
  do w <- dget b "beam_long_prof_file" ;
  do g <- dget cc "progress_path" ;
  do g <- as_name g ;
  call cc [] (Some sb) beam_fn beam_pos
    (beam_kw (sec_profile_file p w) ++
     [("flag_secodary_beam", Val (PBool true)); ("t_primary_beam", the_times); ("progress_mapgen_file", Val (PStr (g ++ sec_name ii)%string))]).
Fixpoint build_sec_beams (cc b : attrs) (ii : nat) (sbs : list attrs) : option (list obj) :=
  match sbs with
  | [] => Some []
  | sb :: sbs' => do o <- build_sec_beam cc b ii sb ; do r <- build_sec_beams cc b (S ii) sbs' ; Some (o :: r)
  end.
(** Lines 230-231: [%] of numbers. *)
Definition py_mod0 (a x : R) : option bool := if Reqb x 0 then None else Some (Reqb (a - x * IZR (rfloor (a / x))) 0).
Definition check_passages (cc : attrs) : option unit :=
  do s <- dget cc "save_mat_every" ;
  do x <- num_of s ;
  do z <- py_mod0 npass x ;
  if z then Some tt else None.

(** Lines 263-283; [given]: a space charge object is given ([spacech_ele]). *)
Definition build_sc (skip given : bool) (cc : attrs) (b : option attrs) : option (option obj) :=
  if skip || given then Some None
  else
    do sol <- dget cc "sparse_solver" ;
    let sol := if py_eqb sol (PStr "klu") then PStr "PyKLU" else sol in
    let kw := main ["Dt_sc"] ++ [("sparse_solver", Val sol)] ++
              main ["PyPICmode"; "f_telescope"; "target_grid"; "N_nodes_discard"; "N_min_Dh_main"] ++ [("Dh_U_eV", Main "Dh_electric_energy")] in
    do em <- dget cc "flag_em_tracking" ;
    do o <- (if truthy em then
               match b with
               | None => None
               | Some _ => call cc [] b sc_em_fn [the_chamb; Main "Dh_sc"; Beam "gamma_rel"] kw
               end
             else call cc [] b sc_fn [the_chamb; Main "Dh_sc"] kw) ;
    Some (Some o).

(** Lines 304-312. *)
Definition build_mp (cc t : attrs) : option obj :=
  call cc t None (mp_fn m_e qe)
    (map Own ["N_mp_max"; "nel_mp_ref_0"; "fact_split"; "fact_clean"; "N_mp_regen_low"; "N_mp_regen"; "N_mp_after_regen"; "Dx_hist";
              "Nx_regen"; "Ny_regen"; "Nvx_regen"; "Nvy_regen"; "Nvz_regen"; "regen_hist_cut"] ++ [the_chamb])
    (own ["N_mp_soft_regen"; "N_mp_after_soft_regen"; "N_mp_async_regen"; "N_mp_after_async_regen"] ++
     [("charge", Own "cloud_charge"); ("mass", Own "cloud_mass"); ("flag_lifetime_hist", Own "flag_lifetime_hist"); ("name", Own "cloud_name")]).

(** Lines 314-400. *)
Definition is_ecloud (m : pval) : bool := py_in m [PNum 0; PStr "ECLOUD"].
Definition sey_kw : list (string * arg) :=
  own ["E_th"; "sigmafit"; "mufit"; "switch_no_increase_energy"; "thresh_low_energy"; "secondary_angle_distribution"].
Definition scale_kw : list (string * arg) := own ["flag_costheta_delta_scale"; "flag_costheta_Emax_shift"].
Definition yield_pos : list arg := [Own "Emax"; Own "del_max"; Own "R0"].
Definition build_sey (cc t : attrs) : option obj :=
  let call := call cc t None in
  do m <- dget t "switch_model" ;
  if py_eqb m (PStr "perfect_absorber") then call absorber_fn [] []
  else
    do e0 <- dget t "E0" ;
    do s <- dget t "s_param" ;
    let kw := if is_none e0 then [] else [("E0", Own "E0")] in
    do kw <- (if is_none s then Some kw else if is_ecloud m then Some (kw ++ [("s", Own "s_param")]) else None) ;
    if is_ecloud m then call ecloud_fn yield_pos (sey_kw ++ kw ++ scale_kw)
    else if py_in m [PNum 1; PStr "ACC_LOW"] then call acc_low_fn yield_pos (sey_kw ++ kw)
    else if py_eqb m (PStr "ECLOUD_nunif") then call nunif_fn (the_chamb :: yield_pos) (sey_kw ++ kw)
    else if py_eqb m (PStr "ECLOUD_nunif_charging") then call charging_fn (the_chamb :: yield_pos) (sey_kw ++ kw)
    else if py_eqb m (PStr "cos_low_ene") then call cos_low_fn yield_pos (sey_kw ++ kw)
    else if py_eqb m (PStr "flat_low_ene") then call flat_low_fn yield_pos (sey_kw ++ kw)
    else if py_eqb m (PStr "from_file") then
      do f <- dget t "sey_file" ; do f <- find_file f ;
      call from_file_fn [Val f] (sey_kw ++ kw ++ scale_kw)
    else if py_eqb m (PStr "furman_pivi") then call furman_fn [] (sey_kw ++ [("furman_pivi_surface", Own "furman_pivi_surface")] ++ kw ++ scale_kw)
    else None.

(** Lines 402-418. *)
Definition build_impact (cc t : attrs) : option obj :=
  do sg <- dget t "flag_hist_impact_seg" ;
  let flag_seg := py_eqb sg (PNum 1) in
  do ty <- dget cc "chamb_type" ;
  let flag_seg := flag_seg && negb (py_eqb ty (PStr "ellip")) in
  do lt <- dget cc "flag_lifetime_hist" ;
  do n <- dget cc "Nbin_lifetime_hist" ;
  do m <- dget cc "lifetime_hist_max" ;
  do d <- dget cc "Dt_lifetime_hist" ;
  if truthy lt && (is_none n || is_none m || is_none d) then None
  else
    call cc t None impact_fn
      [the_chamb; the_sey; Own "Dx_hist"; Own "scrub_en_th"; Main "Nbin_En_hist"; Main "En_hist_max"; Main "Nbin_lifetime_hist";
       Main "lifetime_hist_max"; Main "flag_lifetime_hist"]
      [("flag_seg", Val (PBool flag_seg)); ("flag_En_hist_seg", Own "flag_En_hist_seg"); ("cos_angle_width", Main "cos_angle_width")].

(** Lines 420-425. *)
Definition build_gas (cc t : attrs) : option (option obj) :=
  do g <- dget t "gas_ion_flag" ;
  if py_eqb g (PNum 1) then
    do o <- call cc t None gas_fn [Own "unif_frac"; Own "P_nTorr"; Own "sigma_ion_MBarn"; Own "Temp_K"; the_chamb; Own "E_init_ion"; Own "flag_lifetime_hist"] [] ;
    Some (Some o)
  else Some None.

(** Lines 427-450; [beamtim] is [None] without a beam. *)
Definition build_photo (beamtim : arg) (cc t : attrs) : option (option obj) :=
  let call := call cc t None in
  do f <- dget t "photoem_flag" ;
  if py_eqb f (PNum 1) then
    do o <- call photo1_fn
      (map Own ["inv_CDF_refl_photoem_file"; "k_pe_st"; "refl_frac"; "e_pe_sigma"; "e_pe_max"; "alimit"; "x0_refl"; "y0_refl"; "out_radius"] ++
       [the_chamb; Own "phem_resc_fac"; Own "energy_distribution"; Own "photoelectron_angle_distribution"; beamtim; Own "flag_continuous_emission"]) [] ;
    Some (Some o)
  else if py_in f [PNum 2; PStr "from_file"] then
    do o <- call photo2_fn
      ([Own "inv_CDF_all_photoem_file"; the_chamb; Own "phem_resc_fac"] ++
       map Own ["energy_distribution"; "e_pe_sigma"; "e_pe_max"; "k_pe_st"; "out_radius"; "photoelectron_angle_distribution"] ++
       [beamtim; Own "flag_continuous_emission"]) [] ;
    Some (Some o)
  else if py_in f [PNum 3; PStr "per_segment"] then
    do n <- dget t "filename_chm_photoem" ;
    do n <- find_file n ;
    if subset n then
      do o <- call photo3_fn
        ([the_phchamb] ++ map Own ["energy_distribution"; "e_pe_sigma"; "e_pe_max"; "k_pe_st"; "photoelectron_angle_distribution"] ++
         [beamtim; Own "flag_continuous_emission"]) [] ;
      Some (Some o)
    else None
  else Some None.

(** Lines 452-480; [last]: the last cloud, [multiple]: there are several,
    [sec]: there are secondary beams, [cross]: there is cross-ionisation. *)
Definition build_saver (beamtim : arg) (last multiple sec cross : bool) (cc t : attrs) : option obj :=
  do dh <- dget cc "Dh_electric_energy" ;
  call cc t None saver_fn
    [Main "Dt"; the_MP; beamtim; the_impact; Own "r_center"; Own "Dt_En_hist"; Own "logfile_path"; Own "progress_path"]
    (own ["flag_detailed_MP_info"; "flag_movie"; "flag_sc_movie"; "save_mp_state_time_file"] ++
     [("flag_presence_sec_beams", Val (PBool sec)); ("sec_beams_list", the_sec_beams)] ++
     own ["dec_fac_secbeam_prof"; "el_density_probes"; "save_simulation_state_time_file"; "x_min_hist_det"; "x_max_hist_det";
          "y_min_hist_det"; "y_max_hist_det"; "Dx_hist_det"] ++
     main ["dec_fact_out"; "stopfile"; "save_mat_every"] ++
     own ["filen_main_outp"; "flag_cos_angle_hist"; "cos_angle_width"] ++
     [("flag_multiple_clouds", Val (PBool multiple)); ("cloud_name", Own "cloud_name"); ("flag_last_cloud", Val (PBool last))] ++
     main ["checkpoint_DT"; "checkpoint_folder"; "copy_main_outp_folder"; "copy_main_outp_DT"; "extract_sey"; "step_by_step_custom_observables";
           "pass_by_pass_custom_observables"; "save_once_custom_observables"] ++
     own ["flag_lifetime_hist"; "Dt_lifetime_hist"] ++
     main ["extract_ene_dist"; "ene_dist_test_E_impact_eV"; "Nbin_extract_ene"; "factor_ene_dist_max"] ++
     [("flag_cross_ion", Val (PBool cross)); ("save_only", Own "save_only"); ("flag_electric_energy", Val (PBool (negb (is_none dh))))]).

(** Lines 483-516. *)
Definition or_zero (v : pval) : arg := if is_none v then Val (PNum 0) else Val v.
Definition is_electron (t : attrs) : option bool :=
  do q <- dget t "cloud_charge" ; do q <- num_of q ;
  do m <- dget t "cloud_mass" ; do m <- num_of m ;
  Some (Rltb (Rabs (q - (- qe)) / Rabs qe) (1 / 1000) && Rltb (Rabs (m - m_e) / m_e) (1 / 1000)).
Definition build_dyn (cc t : attrs) (b : option attrs) : option obj :=
  let call := call cc t b in
  do m <- dget cc "track_method" ;
  do em <- dget cc "flag_em_tracking" ;
  let em := py_eqb em (PBool true) in
  if py_eqb m (PStr "Boris") then
    if em then None
    else
      do x <- dget cc "B0x" ; do y <- dget cc "B0y" ; do z <- dget cc "B0z" ;
      call boris_fn [Main "Dt"; or_zero x; or_zero y; or_zero z; Main "B_map_file"; Main "fact_Bmap"] [("N_sub_steps", Own "N_sub_steps")]
  else if py_eqb m (PStr "StrongBdip") then
    if em then None
    else
      do el <- is_electron t ;
      if negb el then None
      else
        do B <- dget cc "B" ;
        if py_eqb B (PNum (-1)) then
          do b <- b ;
          do beta <- nget b "beta_rel" ; do en <- nget b "energy_J" ; do l <- nget cc "bm_totlen" ;
          if Reqb (c * qe * l) 0 then None
          else call dipole_fn [Main "Dt"; Val (PNum (2 * PI * beta * en / (c * qe * l)))] []
        else call dipole_fn [Main "Dt"; Main "B"] []
  else if py_eqb m (PStr "StrongBgen") then
    if em then None
    else
      do el <- is_electron t ;
      if negb el then None
      else call strongB_fn [Main "Dt"; Main "B0x"; Main "B0y"; Main "B_map_file"; Main "fact_Bmap"; Main "B_zero_thrhld"] []
  else if py_eqb m (PStr "BorisMultipole") then
    call multipole_fn [] (main ["Dt"; "N_sub_steps"; "B_multip"; "B_skew"; "B0x"; "B0y"; "B0z"])
  else None.

(** Lines 518-533. *)
Definition build_init (cc t : attrs) : option (list obj) :=
  let call := call cc t None in
  do u <- dget t "init_unif_flag" ;
  do a <- (if py_eqb u (PNum 1) then
             do o <- call fill_fn [Own "Nel_init_unif"; Own "E_init_unif"; Own "x_max_init_unif"; Own "x_min_init_unif"; Own "y_max_init_unif"; Own "y_min_init_unif"] [] ;
             Some [o]
           else Some []) ;
  do d <- dget t "init_unif_edens_flag" ;
  do b <- (if py_eqb d (PNum 1) then
             do o <- call density_fn []
               [("n_ele", Own "init_unif_edens"); ("E_init", Own "E_init_unif_edens"); ("x_max", Own "x_max_init_unif_edens");
                ("x_min", Own "x_min_init_unif_edens"); ("y_max", Own "y_max_init_unif_edens"); ("y_min", Own "y_min_init_unif_edens")] ;
             Some [o]
           else Some []) ;
  do f <- dget t "filename_init_MP_state" ;
  do c <- (if negb (py_eqb f (PNum (-1))) && negb (is_none f) then do o <- call load_fn [Own "filename_init_MP_state"] [] ; Some [o] else Some []) ;
  Some (a ++ b ++ c).

(** Lines 291-544, one cloud. *)
Definition build_cloud (skip_saver : bool) (beamtim : arg) (last multiple sec cross : bool) (cc : attrs) (b : option attrs) (t : attrs) : option cloud_plan :=
  do mp <- build_mp cc t ;
  do sey <- build_sey cc t ;
  do imp <- build_impact cc t ;
  do gas <- build_gas cc t ;
  do photo <- build_photo beamtim cc t ;
  do saver <- (if skip_saver then Some None else do s <- build_saver beamtim last multiple sec cross cc t ; Some (Some s)) ;
  do dyn <- build_dyn cc t b ;
  do ini <- build_init cc t ;
  do cl <- call cc t None cloud_fn
    [Own "cloud_name"; Val (POther 0); the_MP; the_impact; the_dynamics; (if skip_saver then Val PNone else the_saver); Own "gas_ion_flag";
     (match gas with None => Val PNone | Some _ => the_gas end); Own "t_ion"; Own "photoem_flag";
     (match photo with None => Val PNone | Some _ => the_photo end); the_rho] [] ;
  Some (mkCloudPlan mp sey imp gas photo saver dyn ini cl).
Fixpoint build_clouds (skip_saver : bool) (beamtim : arg) (multiple sec cross : bool) (cc : attrs) (b : option attrs) (ts : list attrs) : option (list cloud_plan) :=
  match ts with
  | [] => Some []
  | t :: ts' =>
      do p <- build_cloud skip_saver beamtim (match ts' with [] => true | _ => false end) multiple sec cross cc b t ;
      do r <- build_clouds skip_saver beamtim multiple sec cross cc b ts' ;
      Some (p :: r)
  end.

(** Lines 147-563, after the files have been read: [b] is the main beam
    ([None]: [skip_beam]), [sbs] the secondary beams, [cl] the clouds. *)
Definition build (skip_saver skip_sc given_sc : bool) (cc : attrs) (b : option attrs) (sbs cl : list attrs) : option plan :=
  do ch <- build_chamber cc cl ;
  do (bo, so) <- (match b with
                  | None => Some (None, [])
                  | Some b =>
                      do o <- build_beam cc b ;
                      do _ <- check_passages cc ;
                      do s <- build_sec_beams cc b 0 sbs ;
                      Some (Some o, s)
                  end) ;
  do sc <- build_sc skip_sc given_sc cc b ;
  do x <- dget cc "cross_ion_definitions" ;
  let beamtim := match b with None => Val PNone | Some _ => the_beam end in
  let sec := match b, sbs with Some _, _ :: _ => true | _, _ => false end in
  do l <- build_clouds skip_saver beamtim (Nat.ltb 1 (length cl)) sec (negb (is_none x)) cc b cl ;
  Some (mkPlan ch bo so sc l (negb (is_none x))).
End Build.

(** Lines 128-563: reading the files and building the simulation.  The lists of
    files are lists of names; [os.path.join] with the folder is left out, as in
    [read_config]. *)
Definition as_names (v : pval) : option (list string) := match v with PList l => mapM as_name l | _ => None end.
Section Start.
Variables m_e m_p qe c : R.
Variable files : string -> option attrs.
Variable folder : string.
Variable isfile : string -> bool.
Variable npass : R.
Variable subset : pval -> bool.
Variable sec_name : nat -> string.
(** Lines 147-160. *)
Definition read_beam (cc : attrs) (n : string) : option attrs := do b <- beam_descr_from_fil m_e m_p qe files c n cc ; Some (beam_obj b).
Definition read_beams (skip_beam : bool) (cc : attrs) : option (option attrs * list attrs) :=
  if skip_beam then Some (None, [])
  else
    do l <- dget cc "secondary_beams_file_list" ; do l <- as_names l ;
    do n <- dget cc "beam_parameters_file" ; do n <- as_name n ;
    do b <- read_beam cc n ;
    do sbs <- mapM (read_beam cc) l ;
    Some (Some b, sbs).
Definition start (skip_beam skip_saver skip_sc given_sc : bool) (ignore : list string) (kwargs : attrs) : option plan :=
  do cc <- read_config m_e m_p qe files skip_beam ignore kwargs ;
  do (b, sbs) <- read_beams skip_beam cc ;
  do fl <- dget cc "additional_clouds_file_list" ; do fl <- as_names fl ;
  do cl <- cloud_par_list m_e m_p qe files fl cc ;
  build m_e qe c folder isfile npass subset sec_name skip_saver skip_sc given_sc cc b sbs cl.
End Start.
