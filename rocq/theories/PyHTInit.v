(** Model of the construction of the electron cloud for PyHEADTAIL, of its twins
    and of the files it writes: PyEC4PyHT.py:94-122, 124-384, 385-390, 429-481,
    691-743, 797, 847-868.  No proofs in this file.

    The passages themselves are in PyHT.v.  Not modelled: the version messages,
    a checkpoint found at the start (buildup_simulation.py:113-129, Ckpt.v), the
    initial macroparticles read into [initial_MP_e_clouds] and the PyPIC state of
    the beam field. *)
From Coq Require Import String DecimalString.
From Verif Require Import Num ConfigVal Ckpt Config Init.
Local Open Scope string_scope.
Local Open Scope list_scope.

(** Lines 94-100. *)
Definition extra_allowed_kwargs : list string := ["x_beam_offset"; "y_beam_offset"; "probes_position"; "enable_kick_x"; "enable_kick_y"].

(** The arguments of the constructor (lines 124-139), without
    [pyecl_input_folder]: the input files are the same in the whole model.  A
    space charge object is a number. *)
Record eargs := mkEargs {
  ea_L : R; ea_slicer : pval; ea_Dtref : R; ea_clean : bool; ea_slicemode : bool; ea_sc : option nat; ea_kick : bool;
  ea_monitor : pval; ea_verbose : bool; ea_outp : option string; ea_reint : bool; ea_kw : attrs }.

(** The object.  [ec_cc]: [cloudsim.config_dict]; [ec_plan]: the parts of the
    build-up simulation; [ec_saver]: the recorder of its cloud, with the settings
    it was last started with; [ec_rec]: the [save_...] attributes that are set;
    [ec_once]: [track_only_first_time]; [ec_map]: there is an [efieldmap];
    [ec_n]: [N_tracks]; [ec_i]: [i_reinit]. *)
Record ecl := mkEcl {
  ec_L : R; ec_slicer : pval; ec_Dtref : R; ec_clean : bool; ec_slicemode : bool; ec_sc : nat; ec_kick : bool;
  ec_monitor : pval; ec_verbose : bool; ec_outp : option string; ec_reint : bool; ec_kw : attrs;
  ec_xoff : pval; ec_yoff : pval; ec_kx : pval; ec_ky : pval; ec_probes : option (list (pval * pval));
  ec_cc : attrs; ec_plan : plan; ec_saver : option obj;
  ec_rec : list string; ec_once : bool; ec_map : bool; ec_n : nat; ec_i : nat }.

Definition with_state (o : ecl) (saver : option obj) (rec : list string) (once map : bool) (n i : nat) : ecl :=
  mkEcl (ec_L o) (ec_slicer o) (ec_Dtref o) (ec_clean o) (ec_slicemode o) (ec_sc o) (ec_kick o) (ec_monitor o) (ec_verbose o) (ec_outp o)
    (ec_reint o) (ec_kw o) (ec_xoff o) (ec_yoff o) (ec_kx o) (ec_ky o) (ec_probes o) (ec_cc o) (ec_plan o) saver rec once map n i.

(** [default if key not in kwargs else kwargs[key]]. *)
Definition kw_or (kw : attrs) (k : string) (d : pval) : pval := match dget kw k with Some v => v | None => d end.

Section Coupling.
(** As in Init.v, section Start. *)
Variables m_e m_p qe c : R.
Variable files : string -> option attrs.
Variable folder : string.
Variable isfile : string -> bool.
Variable npass : R.
Variable subset : pval -> bool.
Variable sec_name : nat -> string.
(** The dictionaries in a value of [probes_position]; [None]: not a list of
    dictionaries. *)
Variable probe_list : pval -> option (list attrs).

(** Lines 279-288: keyword arguments that are given twice. *)
Definition taken : list string := ["pyecl_input_folder"; "skip_beam"; "spacech_ele"; "ignore_kwargs"; "skip_pyeclsaver"; "filen_main_outp"].
Definition outp_value (o : option string) : pval := match o with None => PNone | Some s => PStr s end.
(** buildup_simulation.py:63-72: [skip_spacech_ele] is a parameter of its own. *)
Definition sim_kwargs (a : eargs) : attrs :=
  ("filen_main_outp", outp_value (ea_outp a)) :: filter (fun kv => negb (String.eqb (fst kv) "skip_spacech_ele")) (ea_kw a).
Definition is_some {A} (o : option A) : bool := match o with Some _ => true | None => false end.

(** Lines 327-330. *)
Definition probe_xy (d : attrs) : option (pval * pval) := do x <- dget d "x" ; do y <- dget d "y" ; Some (x, y).
(** Lines 317-334. *)
Definition probes (kw : attrs) : option (option (list (pval * pval))) :=
  match dget kw "probes_position" with
  | None => Some None
  | Some v => do l <- probe_list v ; do r <- mapM probe_xy l ; Some (Some r)
  end.

(** Lines 124-384.  [fresh]: the space charge object that is built when none is
    given.  Without one (buildup_simulation.py:106) there is an exception. *)
Definition make (fresh : nat) (a : eargs) : option ecl :=
  if existsb (fun k => mem k (map fst (ea_kw a))) taken then None
  else
    let skip_sc := truthy (kw_or (ea_kw a) "skip_spacech_ele" (PBool false)) in
    do cc <- read_config m_e m_p qe files true extra_allowed_kwargs (sim_kwargs a) ;
    do p <- start m_e m_p qe c files folder isfile npass subset sec_name true (negb (is_some (ea_outp a))) skip_sc (is_some (ea_sc a))
              extra_allowed_kwargs (sim_kwargs a) ;
    if skip_sc then None
    else
      do m <- dget cc "track_method" ;
      if py_eqb m (PStr "Boris") || py_eqb m (PStr "BorisMultipole") then
        do pr <- probes (ea_kw a) ;
        if Nat.ltb 1 (List.length (pl_clouds p)) then None
        else if ea_slicemode a && negb (is_none (ea_slicer a)) then None
        else
          Some (mkEcl (ea_L a) (ea_slicer a) (ea_Dtref a) (ea_clean a) (ea_slicemode a)
                  (match ea_sc a with Some s => s | None => fresh end) (ea_kick a) (ea_monitor a) (ea_verbose a) (ea_outp a) (ea_reint a) (ea_kw a)
                  (kw_or (ea_kw a) "x_beam_offset" (PNum 0)) (kw_or (ea_kw a) "y_beam_offset" (PNum 0))
                  (kw_or (ea_kw a) "enable_kick_x" (PBool true)) (kw_or (ea_kw a) "enable_kick_y" (PBool true)) pr cc p
                  (match pl_clouds p with q :: _ => cp_saver q | [] => None end) [] false false 0 0)
      else None.

(** Lines 104-122. *)
Definition twin (fresh : nat) (o : ecl) : option ecl :=
  if ec_map o then None
  else make fresh (mkEargs (ec_L o) (ec_slicer o) (ec_Dtref o) (ec_clean o) (ec_slicemode o) (Some (ec_sc o)) (ec_kick o) (ec_monitor o)
                     (ec_verbose o) (ec_outp o) (ec_reint o) (ec_kw o)).

(** Lines 738-743. *)
Definition passage_file (conf : string) (i : nat) : string :=
  (before "__iter" (before ".mat" conf) ++ "__iter" ++ NilZero.string_of_uint (Nat.to_uint i) ++ ".mat")%string.

(** Lines 705-736: the recorder is started again, with the settings [t] of the
    cloud. *)
Definition restart (o : ecl) (t : attrs) : option obj :=
  call (ec_cc o) t None saver_fn
    [Main "Dt"; the_MP; Val PNone; the_impact; Own "r_center"; Own "Dt_En_hist"; Own "logfile_path"; Own "progress_path"]
    (own ["flag_detailed_MP_info"; "flag_movie"; "flag_sc_movie"; "save_mp_state_time_file"] ++
     [("flag_presence_sec_beams", Val (PBool false)); ("sec_beams_list", the_sec_beams)] ++
     own ["dec_fac_secbeam_prof"; "el_density_probes"; "save_simulation_state_time_file"; "x_min_hist_det"; "x_max_hist_det";
          "y_min_hist_det"; "y_max_hist_det"; "Dx_hist_det"] ++
     main ["dec_fact_out"; "stopfile"] ++
     own ["filen_main_outp"; "flag_cos_angle_hist"; "cos_angle_width"] ++
     [("flag_multiple_clouds", Val (PBool (Nat.ltb 1 (List.length (pl_clouds (ec_plan o)))))); ("cloud_name", Own "cloud_name");
      ("flag_last_cloud", Val (PBool true))]).
(** Lines 691-743 and 797, for the recorder of the only cloud. *)
Definition reinit (o : ecl) : option ecl :=
  match ec_saver o with
  | None => Some (with_state o None (ec_rec o) (ec_once o) (ec_map o) (ec_n o) (S (ec_i o)))
  | Some _ =>
      do t <- cloud_descr_from_file m_e m_p qe files None (ec_cc o) ;
      do s <- restart o t ;
      do n <- dget (ob_args s) "filen_main_outp" ; do n <- as_name n ;
      let s := mkObj (ob_name s) (dset (ob_args s) "filen_main_outp" (PStr (passage_file n (ec_i o)))) in
      Some (with_state o (Some s) (ec_rec o) (ec_once o) (ec_map o) (ec_n o) (S (ec_i o)))
  end.

(** The file into which the recorder writes. *)
Definition output_file (o : ecl) : list string :=
  match ec_saver o with
  | None => []
  | Some s => match dget (ob_args s) "filen_main_outp" with Some (PStr n) => [n] | _ => [] end
  end.

(** What a user does with the object: [Pass]: [track] with a bunch; [Slice]:
    [track] with a slice; [Next]: [finalize_and_reinitialize]; [Replace]:
    [replace_with_recorded_field_map] (where it raises nothing); [Rec]: setting
    one of the [save_...] attributes; [Once]: setting [track_only_first_time];
    [Remove]: [remove_savers]. *)
Inductive eop := Pass | Slice | Next | Replace | Rec (name : string) | Once (b : bool) | Remove.
(** The object after it, and the file into which the cloud of this passage goes.
    Lines 385-427, 852-864, 847-850, 429-463 and 866-868. *)
Definition eop_do (x : eop) (o : ecl) : option (ecl * list string) :=
  match x with
  | Pass =>
      if ec_map o then Some (o, [])
      else if ec_slicemode o then None
      else if ec_once o && Nat.ltb 0 (ec_n o) then Some (o, [])
      else
        do o <- reinit o ;
        Some (with_state o (ec_saver o) (ec_rec o) (ec_once o) (ec_map o) (S (ec_n o)) (ec_i o), output_file o)
  | Slice =>
      if ec_map o then Some (o, [])
      else if negb (ec_slicemode o) then None
      else Some (o, output_file o)
  | Next =>
      if ec_map o then Some (o, [])
      else if negb (ec_slicemode o) then None
      else do o <- reinit o ; Some (o, [])
  | Replace => Some (with_state o (ec_saver o) (ec_rec o) false true (ec_n o) (ec_i o), [])
  | Rec n => Some (with_state o (ec_saver o) (n :: ec_rec o) (ec_once o) (ec_map o) (ec_n o) (ec_i o), [])
  | Once b => Some (with_state o (ec_saver o) (ec_rec o) b (ec_map o) (ec_n o) (ec_i o), [])
  | Remove => Some (with_state o None (ec_rec o) (ec_once o) (ec_map o) (ec_n o) (ec_i o), [])
  end.
Fixpoint ops_do (l : list eop) (o : ecl) : option (ecl * list (list string)) :=
  match l with
  | [] => Some (o, [])
  | x :: l' => do (o1, w) <- eop_do x o ; do (o2, r) <- ops_do l' o1 ; Some (o2, w :: r)
  end.
End Coupling.
