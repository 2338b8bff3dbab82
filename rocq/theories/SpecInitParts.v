(** What a simulation consists of, by its settings. *)
From Coq Require Import String.
From Verif Require Import Num ConfigVal ConfigTable SpecConfig Config Init SpecInit.
Local Open Scope string_scope.
Local Open Scope list_scope.

(** Value of a parameter of a part. *)
Definition par (o : obj) : config := dget (ob_args o).
(** [v] or, without it, [d]. *)
Definition or_default (v : option pval) (d : pval) : option pval := match v with Some PNone => Some d | _ => v end.

Section Parts.
Variables m_e qe c : R.
Variable found : string -> string -> Prop.
(** Main settings and those of the cloud. *)
Variables cc t : config.

Definition emission_part (o : obj) : Prop :=
  model_is t (ob_name o) /\ uses (par o) t (sey_uses (ob_name o)) /\
  (In (ob_name o) ["ECLOUD"; "ACC_LOW"; "ECLOUD_nunif"; "ECLOUD_nunif_charging"] -> par o "E0" = or_default (t "E0") (PNum 150)) /\
  (ob_name o = "cos_low_ene" -> par o "E0" = or_default (t "E0") (PNum 30)) /\
  (ob_name o = "ECLOUD" -> par o "s" = or_default (t "s_param") (PNum (27 / 20))) /\
  (ob_name o = "from_file" -> exists n p, t "sey_file" = Some (PStr n) /\ found n p /\ par o "sey_file" = Some (PStr p)).

(** The angles of impact are always recorded: the setting of the cloud is not
    handed over. *)
Definition impact_part (o : obj) : Prop :=
  uses (par o) t impact_uses /\ uses (par o) cc impact_main /\
  (exists f, par o "flag_seg" = Some (PBool f) /\
     (f = true <-> (exists v, t "flag_hist_impact_seg" = Some v /\ equals v 1) /\ cc "chamb_type" <> Some (PStr "ellip"))) /\
  par o "flag_cos_angle_hist" = Some (PBool true).

Definition gas_part (g : option obj) : Prop :=
  (g <> None <-> exists v, t "gas_ion_flag" = Some v /\ equals v 1) /\
  (forall o, g = Some o -> uses (par o) t gas_uses).

(** Without a beam nothing is passed on in its place. *)
Definition photo_part (beamed : bool) (g : option obj) : Prop :=
  (forall o, g = Some o ->
     uses (par o) t (photo_uses (ob_name o)) /\ (par o "beamtim" = Some PNone <-> beamed = false) /\
     ((exists v, t "photoem_flag" = Some v /\ equals v 1) /\ ob_name o = "photoemission" \/
      photo_is t 2 "from_file" /\ ob_name o = "photoemission_from_file" \/
      photo_is t 3 "per_segment" /\ ob_name o = "photoemission_per_segment")) /\
  (g = None <-> ~ ((exists v, t "photoem_flag" = Some v /\ equals v 1) \/ photo_is t 2 "from_file" \/ photo_is t 3 "per_segment")).

Definition saver_part (beamed skip last multiple sec cross : bool) (g : option obj) : Prop :=
  (g = None <-> skip = true) /\
  forall o, g = Some o ->
    uses (par o) t saver_uses /\ uses (par o) cc saver_main /\
    (par o "beamtim" = Some PNone <-> beamed = false) /\
    par o "flag_last_cloud" = Some (PBool last) /\ par o "flag_multiple_clouds" = Some (PBool multiple) /\
    par o "flag_presence_sec_beams" = Some (PBool sec) /\ par o "flag_cross_ion" = Some (PBool cross) /\
    (par o "flag_electric_energy" = Some (PBool false) <-> cc "Dh_electric_energy" = Some PNone).

(** The number of sub-steps of the multipole tracker is that of the main
    settings, whatever the cloud. *)
Definition dynamics_part (b : option config) (o : obj) : Prop :=
  tracker_is cc (ob_name o) /\ par o "Dt" = cc "Dt" /\
  (ob_name o = "Boris" -> par o "N_sub_steps" = t "N_sub_steps" /\ uses (par o) cc (same ["B_map_file"; "fact_Bmap"]) /\
     forall a, In a ["B0x"; "B0y"; "B0z"] -> par o a = or_default (cc a) (PNum 0)) /\
  (ob_name o = "BorisMultipole" -> uses (par o) cc (same ["N_sub_steps"; "B_multip"; "B_skew"; "B0x"; "B0y"; "B0z"])) /\
  (ob_name o = "StrongBgen" -> uses (par o) cc (same ["B0x"; "B0y"; "B_map_file"; "fact_Bmap"; "B_zero_thrhld"])) /\
  (ob_name o = "StrongBdip" ->
     (exists v, cc "B" = Some v /\ ~ equals v (-1) /\ par o "B" = Some v) \/
     (exists v b0 beta en l, cc "B" = Some v /\ equals v (-1) /\ b = Some b0 /\ b0 "beta_rel" = Some (PNum beta) /\ b0 "energy_J" = Some (PNum en) /\
        cc "bm_totlen" = Some (PNum l) /\ par o "B" = Some (PNum (2 * PI * beta * en / (c * qe * l))))).

(** The calls that add the initial macroparticles. *)
Definition initial_part (l : list obj) : Prop :=
  (forall o, In o l -> uses (par o) t (fill_uses (ob_name o))) /\
  exists l1 l2 l3, map ob_name l = l1 ++ l2 ++ l3 /\
    (((exists v, t "init_unif_flag" = Some v /\ equals v 1) /\ l1 = ["add_uniform_MP_distrib"]) \/
     (~ (exists v, t "init_unif_flag" = Some v /\ equals v 1) /\ l1 = [])) /\
    (((exists v, t "init_unif_edens_flag" = Some v /\ equals v 1) /\ l2 = ["add_uniform_ele_density"]) \/
     (~ (exists v, t "init_unif_edens_flag" = Some v /\ equals v 1) /\ l2 = [])) /\
    (((exists v, t "filename_init_MP_state" = Some v /\ v <> PNone /\ ~ equals v (-1)) /\ l3 = ["add_from_file"]) \/
     ((exists v, t "filename_init_MP_state" = Some v /\ (v = PNone \/ equals v (-1))) /\ l3 = [])).

Definition cloud_parts (beamed skip last multiple sec cross : bool) (b : option config) (q : cloud_plan) : Prop :=
  uses (par (cp_mp q)) t mp_uses /\ emission_part (cp_sey q) /\ impact_part (cp_impact q) /\ gas_part (cp_gas q) /\
  photo_part beamed (cp_photo q) /\ saver_part beamed skip last multiple sec cross (cp_saver q) /\ dynamics_part b (cp_dyn q) /\ initial_part (cp_init q) /\
  uses (par (cp_cloud q)) t cloud_uses /\
  (par (cp_cloud q) "resgasion" = Some PNone <-> cp_gas q = None) /\ (par (cp_cloud q) "phemiss" = Some PNone <-> cp_photo q = None).
End Parts.

(** The clouds in order, the last one marked. *)
Fixpoint lasts {A} (l : list A) : list (A * bool) :=
  match l with [] => [] | [x] => [(x, true)] | x :: l' => (x, false) :: lasts l' end.

(** Parameter of the beam object, setting of the beam, of the main settings. *)
Definition beam_uses : list (string * string) :=
  ("beam_charge", "q_part") :: same ["flag_bunched_beam"; "fact_beam"; "coast_dens"; "beam_field_file"; "b_spac"; "sigmaz"; "t_offs"; "filling_pattern_file";
    "Dh_beam_field"; "f_telescope_beam"; "target_grid_beam"; "N_nodes_discard_beam"; "N_min_Dh_main_beam"; "sigmax"; "sigmay"; "x_beam_pos";
    "y_beam_pos"; "save_beam_field_file_as"; "Nx"; "Ny"; "nimag"].
Definition beam_main : list (string * string) := [("lam_th_beam_field", "lam_th"); ("Dt", "Dt"); ("t_end", "t_end")].
Definition sc_main : list (string * string) :=
  [("Dh", "Dh_sc"); ("Dh_U_eV", "Dh_electric_energy")] ++ same ["Dt_sc"; "PyPICmode"; "f_telescope"; "target_grid"; "N_nodes_discard"; "N_min_Dh_main"].
Definition chamber_part (found : string -> string -> Prop) (cc : config) (cl : list config) (o : obj) : Prop :=
  let flag := exists t, In t cl /\ (t "switch_model" = Some (PStr "ECLOUD_nunif") \/ t "switch_model" = Some (PStr "ECLOUD_nunif_charging")) in
  (cc "chamb_type" = Some (PStr (ob_name o)) \/ (cc "chamb_type" = Some (PStr "polyg_cython") /\ ob_name o = "polyg")) /\
  (ob_name o = "ellip" -> uses (par o) cc (same ["x_aper"; "y_aper"; "flag_verbose_file"])) /\
  (ob_name o = "rect" -> uses (par o) cc (same ["x_aper"; "y_aper"; "flag_verbose_file"; "flag_verbose_stdout"; "flag_assume_convex"])) /\
  (ob_name o = "polyg" -> uses (par o) cc (same ["flag_verbose_file"; "flag_verbose_stdout"; "flag_assume_convex"]) /\
     exists n p, cc "filename_chm" = Some (PStr n) /\ found n p /\ par o "filename_chm" = Some (PStr p)) /\
  (ob_name o <> "ellip" -> (par o "flag_non_unif_sey" = Some (PBool true) /\ flag) \/ (par o "flag_non_unif_sey" = Some (PBool false) /\ ~ flag)).
Definition field_part (cc : config) (b : option config) (g : option obj) : Prop :=
  forall o, g = Some o ->
    uses (par o) cc sc_main /\ (cc "sparse_solver" = Some (PStr "klu") -> par o "sparse_solver" = Some (PStr "PyKLU")) /\
    (cc "sparse_solver" <> Some (PStr "klu") -> par o "sparse_solver" = cc "sparse_solver") /\
    (((exists v, cc "flag_em_tracking" = Some v /\ yes v) /\ ob_name o = "space_charge_electromagnetic" /\
      exists b0, b = Some b0 /\ par o "gamma" = b0 "gamma_rel") \/
     (~ (exists v, cc "flag_em_tracking" = Some v /\ yes v) /\ ob_name o = "space_charge")).

(** The profile of the main beam is looked for like the other files; a value
    that is not a name is passed on. *)
Definition profile_part (found : string -> string -> Prop) (v w : option pval) : Prop :=
  (forall n, v = Some (PStr n) -> exists p, found n p /\ w = Some (PStr p)) /\ ((forall n, v <> Some (PStr n)) -> w = v).

Definition beam_part (found : string -> string -> Prop) (cc b : config) (o : obj) : Prop :=
  uses (par o) b beam_uses /\ uses (par o) cc beam_main /\ profile_part found (b "beam_long_prof_file") (par o "beam_long_prof_file") /\
  par o "flag_secodary_beam" = Some (PBool false) /\ par o "t_primary_beam" = Some PNone /\
  ((cc "progress_path" = Some PNone /\ par o "progress_mapgen_file" = Some PNone) \/
   exists p, cc "progress_path" = Some (PStr p) /\ par o "progress_mapgen_file" = Some (PStr (p ++ "_mapgen")%string)).
(** The profile is treated apart. *)
Definition sec_beam_part (cc b : config) (suffix : string) (o : obj) : Prop :=
  uses (par o) b beam_uses /\ uses (par o) cc beam_main /\ par o "flag_secodary_beam" = Some (PBool true) /\ par o "t_primary_beam" <> Some PNone /\
  exists p, cc "progress_path" = Some (PStr p) /\ par o "progress_mapgen_file" = Some (PStr (p ++ suffix)%string).

(** * What the input files hold: the main settings, the beams and the clouds *)
Definition read_all (m_e m_p qe c : R) (files : string -> option attrs) (skip_beam : bool) (ignore : list string) (kw : attrs)
  (cc : attrs) (b : option attrs) (sbs cl : list attrs) : Prop :=
  read_config m_e m_p qe files skip_beam ignore kw = Some cc /\ read_beams m_e m_p qe c files skip_beam cc = Some (b, sbs) /\
  exists v fl, dget cc "additional_clouds_file_list" = Some v /\ as_names v = Some fl /\ cloud_par_list m_e m_p qe files fl cc = Some cl.
