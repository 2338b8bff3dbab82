(** Model of the reading of the input files: input_parameters_format_specification.py,
    init.py:95-142, parse_cloud_file.py and parse_beam_file.py.  No proofs in this
    file.

    A module is the list of its attributes ([dir] with [getattr]), without those
    that every module has, which begin with "__".  Exceptions are [None]. *)
From Coq Require Import String Ascii.
From Verif Require Import Num ConfigVal ConfigTable Ckpt.
Local Open Scope string_scope.
Local Open Scope list_scope.

(** * Dictionaries *)
Definition attrs := list (string * pval).
Fixpoint dget (d : attrs) (k : string) : option pval :=
  match d with [] => None | (q, v) :: d' => if String.eqb q k then Some v else dget d' k end.
Fixpoint dset (d : attrs) (k : string) (v : pval) : attrs :=
  match d with
  | [] => [(k, v)]
  | (q, w) :: d' => if String.eqb q k then (q, v) :: d' else (q, w) :: dset d' k v
  end.
Definition dhas (d : attrs) (k : string) : bool := match dget d k with Some _ => true | None => false end.
Definition dupdate (d e : attrs) : attrs := fold_left (fun a kv => dset a (fst kv) (snd kv)) e d.
(** A dictionary literal. *)
Definition dict_of (l : attrs) : attrs := dupdate [] l.
Definition mem (x : string) (l : list string) : bool := existsb (String.eqb x) l.

(** * The table *)
Record section := mkSection { s_mand : list string; s_opt : attrs }.

Section Table.
Variables m_e m_p qe : R.
(** default_input_parameters.py:6-461. *)
Definition simulation_sec := mkSection simulation_parameters_mandatory (dict_of (simulation_parameters_optional m_e m_p qe)).
Definition machine_sec := mkSection machine_parameters_mandatory (dict_of (machine_parameters_optional m_e m_p qe)).
Definition emission_sec := mkSection secondary_emission_parameters_mandatory (dict_of (secondary_emission_parameters_optional m_e m_p qe)).
Definition beam_sec := mkSection beam_beam_mandatory (dict_of (beam_beam_optional m_e m_p qe)).
Definition cloud_sec := mkSection additional_cloud_parameters_mandatory (dict_of (additional_cloud_parameters_optional m_e m_p qe)).
(** default_input_parameters.py:464-466 (sets of names as lists that may repeat
    a name). *)
Definition combined_sec :=
  fold_left (fun a s => mkSection (s_mand a ++ s_mand s) (dupdate (s_opt a) (s_opt s)))
    [emission_sec; machine_sec; simulation_sec] (mkSection [] []).
End Table.

(** * Checks *)
Definition hidden (name : string) : bool := match strip "_" name with Some _ => true | None => false end.
Definition is_module (v : pval) : bool := match v with PModule => true | _ => false end.

(** input_parameters_format_specification.py:14-44. *)
Definition contents (m : attrs) : list string :=
  map fst (filter (fun q => negb (hidden (fst q)) && negb (is_module (snd q))) m).
Definition assert_module_has_parameters (s : section) (m : attrs) : option unit :=
  let allowed := s_mand s ++ map fst (s_opt s) ++ superparameters in
  if forallb (fun x => mem x allowed) (contents m) && forallb (fun x => mem x (contents m)) (s_mand s) then Some tt else None.

(** Lines 47-63. *)
Fixpoint update_module (m new : attrs) : option attrs :=
  match new with
  | [] => Some m
  | (a, v) :: new' =>
      if String.eqb a "pi" then update_module m new'
      else if hidden a || is_module v then update_module m new'
      else if dhas m a then None
      else update_module (dset m a v) new'
  end.

(** Lines 66-95: the mandatory, then the optional parameters. *)
Fixpoint take_mandatory (cfg : attrs) (m : attrs) (l : list string) : option attrs :=
  match l with [] => Some cfg | p :: l' => do v <- dget m p ; take_mandatory (dset cfg p v) m l' end.
Definition choose (m : attrs) (default_obj : option attrs) (p : string) (default : pval) : pval :=
  match dget m p with
  | Some v => v
  | None => match default_obj with
            | Some o => match dget o p with Some v => v | None => default end
            | None => default
            end
  end.
Fixpoint take_optional (cfg : attrs) (m : attrs) (default_obj : option attrs) (l : attrs) : option attrs :=
  match l with
  | [] => Some cfg
  | (p, default) :: l' =>
      if dhas cfg p then None
      else take_optional (dset cfg p (choose m default_obj p default)) m default_obj l'
  end.
Definition update_config_dict (cfg : attrs) (m : attrs) (s : section) (default_obj : option attrs) : option attrs :=
  do cfg <- take_mandatory cfg m (s_mand s) ;
  take_optional cfg m default_obj (s_opt s).

(** Lines 98-115. *)
Definition copy_to_config_dict (cfg : attrs) (s : section) (default_obj : attrs) : option attrs :=
  do cfg <- take_mandatory cfg default_obj (s_mand s) ;
  take_mandatory cfg default_obj (map fst (s_opt s)).

(** Lines 118-156: the names that the file defines, after [from numpy import
    pi].  [files name]: the definitions of the file [name] of the input folder,
    [None] when it cannot be read or run. *)
Definition import_module_from_file (files : string -> option attrs) (name : string) : option attrs :=
  do f <- files name ; Some (if dhas f "pi" then f else ("pi", PNum PI) :: f).

Definition as_name (v : pval) : option string := match v with PStr s => Some s | _ => None end.

(** * Main input, init.py:95-125 *)
Section Read.
Variables m_e m_p qe : R.
Variable files : string -> option attrs.
Notation load := (import_module_from_file files).

Definition read_parameter_files (skip_beam_files : bool) : option attrs :=
  do inp <- load "simulation_parameters.input" ;
  do machine <- dget inp "machine_param_file" ;
  do emission <- dget inp "secondary_emission_parameters_file" ;
  do beam <- dget inp "beam_parameters_file" ;
  do machine <- as_name machine ;
  do machine <- load machine ;
  do emission <- as_name emission ;
  do emission <- load emission ;
  do inp <- update_module inp machine ;
  do inp <- update_module inp emission ;
  do _ <- assert_module_has_parameters (combined_sec m_e m_p qe) inp ;
  do cfg <- update_config_dict [] inp (combined_sec m_e m_p qe) None ;
  if skip_beam_files then Some cfg
  else
    do beam <- as_name beam ;
    do beam <- load beam ;
    do _ <- assert_module_has_parameters (beam_sec m_e m_p qe) beam ;
    Some cfg.

(** init.py:133-142. *)
Fixpoint override (ignore : list string) (kwargs : attrs) (cfg : attrs) : option attrs :=
  match kwargs with
  | [] => Some cfg
  | (a, v) :: kw =>
      if mem a ignore then override ignore kw cfg
      else if dhas cfg a then override ignore kw (dset cfg a v)
      else None
  end.
(** init.py:128-145: the configuration object. *)
Definition read_config (skip_beam : bool) (ignore : list string) (kwargs : attrs) : option attrs :=
  do cfg <- read_parameter_files skip_beam ; override ignore kwargs cfg.

(** * Clouds, parse_cloud_file.py:5-46 *)
Definition cloud_output (main cloud : string) : string := (before ".mat" main ++ "_" ++ cloud ++ ".mat")%string.
(** [None]: the cloud of the main input. *)
Definition cloud_descr_from_file (cloudfile : option string) (cc : attrs) : option attrs :=
  do main <- dget cc "filen_main_outp" ;
  match cloudfile with
  | None =>
      do name <- dget cc "cloud_name" ;
      do (name, out) <- (match name with
                         | PNone => Some ("default", main)
                         | v => do n <- as_name v ; do m <- as_name main ; Some (n, PStr (cloud_output m n))
                         end) ;
      do cfg <- copy_to_config_dict [] (cloud_sec m_e m_p qe) cc ;
      Some (dset (dset cfg "filen_main_outp" out) "cloud_name" (PStr name))
  | Some file =>
      do m <- load file ;
      do _ <- assert_module_has_parameters (cloud_sec m_e m_p qe) m ;
      do cfg <- update_config_dict [] m (cloud_sec m_e m_p qe) (Some cc) ;
      let name := before ".cloud" (after_last "/" file) in
      do main <- as_name main ;
      Some (dset (dset cfg "filen_main_outp" (PStr (cloud_output main name))) "cloud_name" (PStr name))
  end.
(** init.py:169-177; [os.path.join] with the folder does not change what comes
    after the last "/" and is left out. *)
Definition cloud_par_list (files_list : list string) (cc : attrs) : option (list attrs) :=
  do d <- cloud_descr_from_file None cc ;
  do l <- mapM (fun f => cloud_descr_from_file (Some f) cc) files_list ;
  Some (d :: l).

(** * Beam, parse_beam_file.py:8-98 *)
Definition as_num (v : pval) : option R := match v with PNum x => Some x | _ => None end.
Definition nget (d : attrs) (k : string) : option R := do v <- dget d k ; as_num v.
Definition is_none (v : pval) : bool := match v with PNone => true | _ => false end.
Definition is_minus1 (v : pval) : bool := match v with PNum x => Reqb x (-1) | _ => false end.
(** [np.sqrt]. *)
Definition nsqrt (x : R) : pval := if Rltb x 0 then PNan else PNum (sqrt x).

(** Lines 26-34: optics of the machine file when the beam file has none. *)
Definition fallback (cc : attrs) (mach : attrs) (p : string) : option attrs :=
  do v <- dget cc p ; if is_none v then do w <- dget mach p ; Some (dset cc p w) else Some cc.
(** Lines 40-54, for one plane; [bg] is beta times gamma. *)
Definition beam_size (cc : attrs) (sigma betaf nemitt disp : string) (bg : pval) : option pval :=
  do s <- dget cc sigma ;
  if is_minus1 s then
    do b <- dget cc betaf ;
    do e <- dget cc nemitt ;
    if is_none b || is_none e then None
    else
      do b <- as_num b ; do e <- as_num e ; do d <- nget cc disp ; do dp <- nget cc "Dp_p" ;
      match bg with
      | PNum g => if Reqb g 0 then None else Some (nsqrt (b * (e / g) + d ^ 2 * dp ^ 2))
      | _ => Some PNan
      end
  else Some s.

Record bdescr := mkBdescr {
  bd_energy_J : R; bd_gamma : R; bd_beta : pval; bd_sigmax : pval; bd_sigmay : pval; bd_cfg : attrs }.
(** [c] is the speed of light.  A beam whose computed size divides by a zero
    gives an error here (a warning and inf in the code). *)
Definition beam_descr_from_fil (c : R) (file : string) (mach : attrs) : option bdescr :=
  do m <- load file ;
  do _ <- assert_module_has_parameters (beam_sec m_e m_p qe) m ;
  do cc <- update_config_dict [] m (beam_sec m_e m_p qe) None ;
  do cc <- fallback cc mach "Dx" ;
  do cc <- fallback cc mach "Dy" ;
  do cc <- fallback cc mach "betafx" ;
  do cc <- fallback cc mach "betafy" ;
  do energy <- nget cc "energy_eV" ;
  do m0 <- nget cc "m0_part" ;
  let energy_J := energy * qe in
  if Reqb (m0 * c ^ 2) 0 then None
  else
    let gamma := energy_J / (m0 * c ^ 2) in
    if Reqb gamma 0 then None
    else
      let beta := nsqrt (1 - 1 / (gamma * gamma)) in
      let bg := match beta with PNum b => PNum (b * gamma) | _ => PNan end in
      do sx <- beam_size cc "sigmax" "betafx" "nemittx" "Dx" bg ;
      do sy <- beam_size cc "sigmay" "betafy" "nemitty" "Dy" bg ;
      Some (mkBdescr energy_J gamma beta sx sy cc).
End Read.
