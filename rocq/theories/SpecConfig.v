(** What is meant by valid input files and by the configuration they give. *)
From Coq Require Import String Ascii.
From Verif Require Import Num ConfigVal ConfigTable.
Local Open Scope string_scope.
Local Open Scope list_scope.

(** Definitions of a file: every name has one value. *)
Definition defs := list (string * pval).
Definition def_ok (f : defs) : Prop := NoDup (map fst f).

(** Names that begin with "_" and imported modules are private to the file. *)
Definition private (p : string) : Prop := exists s, p = String "_" s.
Definition given (f : defs) (p : string) (v : pval) : Prop := In (p, v) f /\ ~ private p /\ v <> PModule.

(** The parameters of the main input, of the beam file and of a cloud file. *)
Section Table.
Variables m_e m_p qe : R.
Definition main_mandatory (p : string) : Prop :=
  In p simulation_parameters_mandatory \/ In p machine_parameters_mandatory \/ In p secondary_emission_parameters_mandatory.
Definition main_default (p : string) (v : pval) : Prop :=
  In (p, v) (simulation_parameters_optional m_e m_p qe) \/ In (p, v) (machine_parameters_optional m_e m_p qe) \/
  In (p, v) (secondary_emission_parameters_optional m_e m_p qe).
Definition main_param (p : string) : Prop := main_mandatory p \/ exists v, main_default p v.
Definition beam_mandatory (p : string) : Prop := In p beam_beam_mandatory.
Definition beam_default (p : string) (v : pval) : Prop := In (p, v) (beam_beam_optional m_e m_p qe).
Definition beam_param (p : string) : Prop := beam_mandatory p \/ exists v, beam_default p v.
Definition cloud_mandatory (p : string) : Prop := In p additional_cloud_parameters_mandatory.
Definition cloud_default (p : string) (v : pval) : Prop := In (p, v) (additional_cloud_parameters_optional m_e m_p qe).
Definition cloud_param (p : string) : Prop := cloud_mandatory p \/ exists v, cloud_default p v.

(** A list of files (the three files of the main input) is valid: every
    mandatory parameter is given, everything that is given is a parameter, and
    no parameter is given in two files. *)
Definition valid (mandatory param : string -> Prop) (fs : list defs) : Prop :=
  (forall p, mandatory p -> exists f v, In f fs /\ given f p v) /\
  (forall f p v, In f fs -> given f p v -> param p \/ p = "pi") /\
  (forall i j f g p v w, nth_error fs i = Some f -> nth_error fs j = Some g -> given f p v -> given g p w -> i = j \/ p = "pi").

(** No imported module has the name of a parameter. *)
Definition clear_names (param : string -> Prop) (fs : list defs) : Prop :=
  forall f p, In f fs -> param p -> ~ In (p, PModule) f.

(** The value of a parameter: the one that is given, or else the default. *)
Definition value (fs : list defs) (default : string -> pval -> Prop) (p : string) (v : pval) : Prop :=
  (exists f, In f fs /\ given f p v) \/ (~ (exists f w, In f fs /\ given f p w) /\ default p v).

(** The files of the main input: the simulation file names the others. *)
Definition input_files (files : string -> option defs) (sim mac emi : defs) : Prop :=
  files "simulation_parameters.input" = Some sim /\
  (exists mf, In ("machine_param_file", PStr mf) sim /\ files mf = Some mac) /\
  (exists ef, In ("secondary_emission_parameters_file", PStr ef) sim /\ files ef = Some emi) /\
  (exists bv, In ("beam_parameters_file", bv) sim).
Definition beam_file (files : string -> option defs) (sim bea : defs) : Prop :=
  exists bf, In ("beam_parameters_file", PStr bf) sim /\ files bf = Some bea.

(** A configuration as a partial map. *)
Definition config := string -> option pval.
Definition full (cc : config) : Prop := forall p, main_param p -> exists v, cc p = Some v.

(** The parameters of an additional cloud: those of its file, or else those of
    the main configuration. *)
Definition cloud_value (b : defs) (cc : config) (p : string) (v : pval) : Prop :=
  given b p v \/ ((~ exists w, given b p w) /\ cc p = Some v).
(** The file [f] of the cloud [n]. *)
Definition without (c : ascii) (s : string) : Prop := ~ exists a b, s = (a ++ String c b)%string.
Definition cloud_file (f n : string) : Prop :=
  without "/" n /\ without "." n /\ (f = (n ++ ".cloud")%string \/ exists dir, f = (dir ++ "/" ++ n ++ ".cloud")%string).

(** A parameter of a beam: the value of the beam file or its default; the optics
    that are [None] there are those of the machine file. *)
Definition optics (p : string) : Prop := In p ["Dx"; "Dy"; "betafx"; "betafy"].
Definition beam_value (bea : defs) (mach : config) (p : string) (v : pval) : Prop :=
  exists w, value [bea] beam_default p w /\
    ((~ (optics p /\ w = PNone) /\ v = w) \/ (optics p /\ w = PNone /\ mach p = Some v)).

(** The size of a beam in one plane, with the relativistic factor [g] and the
    velocity [b] in units of c. *)
Definition size_ok (bv : string -> pval -> Prop) (sigma betaf nemitt disp : string) (g b : R) (out : pval) : Prop :=
  (bv sigma out /\ out <> PNum (-1)) \/
  (bv sigma (PNum (-1)) /\ exists f e d dp s,
     bv betaf (PNum f) /\ bv nemitt (PNum e) /\ bv disp (PNum d) /\ bv "Dp_p" (PNum dp) /\
     out = PNum s /\ 0 <= s /\ s * s = f * (e / (b * g)) + (d * dp) * (d * dp)).
(** The size is given or can be computed. *)
Definition plane_given (bv : string -> pval -> Prop) (sigma betaf nemitt disp : string) : Prop :=
  bv sigma (PNum (-1)) -> exists f e d dp, bv betaf (PNum f) /\ bv nemitt (PNum e) /\ bv disp (PNum d) /\ bv "Dp_p" (PNum dp).
End Table.
