(** Specification for the electron clouds in a PyHEADTAIL machine: settings,
    twins and output files. *)
From Coq Require Import String DecimalString.
From Verif Require Import Num ConfigVal Config Init SpecInitParts PyHTInit.
Local Open Scope string_scope.
Local Open Scope list_scope.

(** * Names of files *)

Definition contains (sub s : string) : Prop := exists a b, s = (a ++ sub ++ b)%string.
(** A file name and the part of it that is kept: all of it, without the suffix
    ".mat".  The marks that the program looks for must not occur in it. *)
Definition plain_name (conf base : string) : Prop :=
  (conf = base \/ conf = (base ++ ".mat")%string) /\ ~ contains ".mat" base /\ ~ contains "__iter" base.
(** The file of passage number [i]. *)
Definition numbered (base : string) (i : nat) : string := (base ++ "__iter" ++ NilZero.string_of_uint (Nat.to_uint i) ++ ".mat")%string.

(** * Settings *)

(** The keyword argument [k], or [d] without it. *)
Definition keyword (kw : attrs) (k : string) (d v : pval) : Prop := In (k, v) kw \/ ((forall w, ~ In (k, w) kw) /\ v = d).
(** A position in a dictionary. *)
Definition position (d : attrs) (xy : pval * pval) : Prop := dget d "x" = Some (fst xy) /\ dget d "y" = Some (snd xy).

(** The keyword arguments that are not in [ig]. *)
Definition without (ig : list string) (kw : attrs) : attrs := filter (fun kv => negb (mem (fst kv) ig)) kw.

(** Two electron clouds with the same settings. *)
Definition same_settings (o p : ecl) : Prop :=
  ec_L o = ec_L p /\ ec_slicer o = ec_slicer p /\ ec_Dtref o = ec_Dtref p /\ ec_clean o = ec_clean p /\ ec_slicemode o = ec_slicemode p /\
  ec_kick o = ec_kick p /\ ec_monitor o = ec_monitor p /\ ec_verbose o = ec_verbose p /\ ec_outp o = ec_outp p /\ ec_reint o = ec_reint p /\
  ec_kw o = ec_kw p /\ ec_xoff o = ec_xoff p /\ ec_yoff o = ec_yoff p /\ ec_kx o = ec_kx p /\ ec_ky o = ec_ky p /\ ec_probes o = ec_probes p /\
  ec_cc o = ec_cc p.
(** Two build-up simulations with the same parts, the space charge apart. *)
Definition same_parts (p q : plan) : Prop :=
  pl_chamb p = pl_chamb q /\ pl_beam p = pl_beam q /\ pl_sec p = pl_sec q /\ pl_clouds p = pl_clouds q /\ pl_cross p = pl_cross q.
(** Nothing has been tracked or changed yet. *)
Definition untouched (o : ecl) : Prop := ec_rec o = [] /\ ec_once o = false /\ ec_map o = false /\ ec_n o = 0%nat /\ ec_i o = 0%nat.

(** * The recorder *)

(** The settings that it is started with again at every passage... *)
Definition recorder_kept : list string :=
  ["Dt_ref"; "MP_e"; "beamtim"; "impact_man"; "r_center"; "Dt_En_hist"; "logfile_path"; "progress_path"; "flag_detailed_MP_info"; "cos_angle_width";
   "flag_cos_angle_hist"; "flag_movie"; "flag_sc_movie"; "save_mp_state_time_file"; "flag_presence_sec_beams"; "sec_beams_list";
   "dec_fac_secbeam_prof"; "el_density_probes"; "save_simulation_state_time_file"; "x_min_hist_det"; "x_max_hist_det"; "y_min_hist_det";
   "y_max_hist_det"; "Dx_hist_det"; "dec_fact_out"; "stopfile"; "flag_multiple_clouds"; "cloud_name"; "flag_last_cloud"].
(** ... and those that go back to these values, whatever the input says. *)
Definition recorder_lost : attrs :=
  [("save_mat_every", PNum 1); ("checkpoint_DT", PNone); ("checkpoint_folder", PNone); ("copy_main_outp_folder", PNone); ("copy_main_outp_DT", PNone);
   ("extract_sey", PNone); ("step_by_step_custom_observables", PNone); ("pass_by_pass_custom_observables", PNone);
   ("save_once_custom_observables", PNone); ("flag_lifetime_hist", PBool false); ("Dt_lifetime_hist", PNone); ("extract_ene_dist", PNone);
   ("ene_dist_test_E_impact_eV", PNone); ("Nbin_extract_ene", PNone); ("factor_ene_dist_max", PNone); ("flag_cross_ion", PBool false);
   ("save_only", PNone); ("flag_electric_energy", PBool false)].

(** The file that the cloud is recorded in before the first passage: the one
    asked for, or that of the name of the cloud. *)
Definition first_file (cc : attrs) (asked f : string) : Prop :=
  (dget cc "cloud_name" = Some PNone /\ f = asked) \/ (exists n, dget cc "cloud_name" = Some (PStr n) /\ f = cloud_output asked n).

(** How often a bunch was tracked, and the cloud finalized and re-initialised. *)
Definition n_pass (l : list eop) : nat := List.length (filter (fun x => match x with Pass => true | _ => false end) l).
Definition n_next (l : list eop) : nat := List.length (filter (fun x => match x with Next => true | _ => false end) l).
(** The cloud is still tracked and recorded, at every passage. *)
Definition recorded (l : list eop) : Prop := ~ In Replace l /\ ~ In Remove l /\ ~ In (Once true) l.
(** Bunches are tracked without, slices with the slice-by-slice mode. *)
Definition usable (slices : bool) (x : eop) : Prop :=
  match x with Pass => slices = false | Slice | Next => slices = true | _ => True end.
