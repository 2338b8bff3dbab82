(** C29, C30, C65, C66. *)
From Coq Require Import String Ascii Lia Bool Lra.
From Verif Require Import Num NumFacts ConfigVal ConfigTable Ckpt CkptFacts CkptFacts3 Config SpecConfig ConfigFacts ConfigFacts2 ConfigFacts3 ConfigFacts4 ConfigFacts5 ConfigFacts6 ConfigFacts7 ExConfig.
Local Open Scope string_scope.
Local Open Scope list_scope.

(** One file against one section of the table: it is accepted exactly when it
    gives every mandatory parameter and gives nothing else than parameters and "pi". *)
Theorem C29_module (s : section) (m : attrs) :
  assert_module_has_parameters s m = Some tt <->
  (forall p, In p (s_mand s) -> exists v, given m p v) /\
  (forall p v, given m p v -> In p (s_mand s) \/ In p (map fst (s_opt s)) \/ p = "pi").
Proof. exact (assert_spec s m). Qed.
Example C29_module_case :
  assert_module_has_parameters (cloud_sec 1 1 1) gClo = Some tt /\ assert_module_has_parameters (cloud_sec 1 1 1) gBad = None.
Proof. split; vm_compute; reflexivity. Qed.
Print Assumptions C29_module.

(** The main input: the simulation file names the machine, emission and beam files. *)
Section Main.
Variables m_e m_p qe : R.
Variable files : string -> option defs.
Hypothesis files_ok : forall name f, files name = Some f -> def_ok f.
Notation read := (read_parameter_files m_e m_p qe files).
Notation mparam := (main_param m_e m_p qe).
Notation bparam := (beam_param m_e m_p qe).

Theorem C29_accepted skip sim mac emi :
  input_files files sim mac emi -> clear_names mparam [sim; mac; emi] ->
  ((exists cfg, read skip = Some cfg) <->
   valid main_mandatory mparam [sim; mac; emi] /\
   (skip = false -> exists bea, beam_file files sim bea /\ valid beam_mandatory bparam [bea])).
Proof. exact (read_iff m_e m_p qe files files_ok skip sim mac emi). Qed.

(** Without the condition on module names: what is accepted is valid. *)
Theorem C29_sound skip cfg : read skip = Some cfg ->
  exists sim mac emi, input_files files sim mac emi /\ valid main_mandatory mparam [sim; mac; emi] /\
    (skip = false -> exists bea, beam_file files sim bea /\ valid beam_mandatory bparam [bea]).
Proof.
  intros H. destruct (read_sound m_e m_p qe files files_ok skip cfg H) as (sim & mac & emi & A & B & C & _). exists sim, mac, emi. auto.
Qed.

Theorem C29_values skip sim mac emi cfg :
  input_files files sim mac emi -> clear_names mparam [sim; mac; emi] -> read skip = Some cfg ->
  forall p v, dget cfg p = Some v <-> mparam p /\ value [sim; mac; emi] (main_default m_e m_p qe) p v.
Proof. exact (read_values m_e m_p qe files files_ok skip sim mac emi cfg). Qed.

(** Keyword arguments have distinct names. *)
Theorem C30_accepted skip ignore kw cfg : NoDup (map fst kw) -> read skip = Some cfg ->
  ((exists cfg', read_config m_e m_p qe files skip ignore kw = Some cfg') <-> forall a, In a (map fst kw) -> In a ignore \/ mparam a).
Proof. exact (override_iff m_e m_p qe files skip ignore kw cfg). Qed.

Theorem C30_override skip ignore kw cfg' : NoDup (map fst kw) -> read_config m_e m_p qe files skip ignore kw = Some cfg' ->
  exists cfg, read skip = Some cfg /\
    (forall p v, In (p, v) kw -> ~ In p ignore -> dget cfg' p = Some v) /\
    (forall p, ~ In p (map fst kw) \/ In p ignore -> dget cfg' p = dget cfg p).
Proof. exact (override_values m_e m_p qe files skip ignore kw cfg'). Qed.

(** The configuration always holds exactly the parameters of the main input. *)
Theorem C30_names skip ignore kw cfg' : NoDup (map fst kw) -> read_config m_e m_p qe files skip ignore kw = Some cfg' ->
  forall p, (exists v, dget cfg' p = Some v) <-> mparam p.
Proof. exact (override_full m_e m_p qe files skip ignore kw cfg'). Qed.

(** An additional cloud: its file is checked as the others; what it does not give
    comes from the main configuration [cc] (with the keyword arguments). *)
Theorem C65_cloud file b main cc :
  files file = Some b -> full m_e m_p qe (dget cc) ->
  valid cloud_mandatory (cloud_param m_e m_p qe) [b] -> clear_names (cloud_param m_e m_p qe) [b] ->
  dget cc "filen_main_outp" = Some (PStr main) ->
  exists d, cloud_descr_from_file m_e m_p qe files (Some file) cc = Some d /\
    (forall p v, cloud_param m_e m_p qe p -> (dget d p = Some v <-> cloud_value b (dget cc) p v)) /\
    (forall n, cloud_file file n -> dget d "cloud_name" = Some (PStr n) /\ dget d "filen_main_outp" = Some (PStr (cloud_output main n))).
Proof.
  intros F Fu V Cl M. destruct (cloud_reads m_e m_p qe files files_ok file b main cc F Fu V Cl M) as (d & H & G & N1 & N2).
  exists d. split; [exact H|]. split; [exact G|]. intros n Hn. rewrite (base_spec file n Hn) in N1, N2. split; [exact N1|exact N2].
Qed.

Theorem C65_checked file cc d : cloud_descr_from_file m_e m_p qe files (Some file) cc = Some d ->
  exists b, files file = Some b /\ valid cloud_mandatory (cloud_param m_e m_p qe) [b].
Proof. exact (cloud_rejects m_e m_p qe files files_ok file cc d). Qed.

(** The cloud of the main input takes the parameters of the main configuration. *)
Theorem C65_main main cc : full m_e m_p qe (dget cc) -> dget cc "filen_main_outp" = Some (PStr main) ->
  (dget cc "cloud_name" = Some PNone ->
     exists d, cloud_descr_from_file m_e m_p qe files None cc = Some d /\ (forall p, cloud_param m_e m_p qe p -> dget d p = dget cc p) /\
       dget d "cloud_name" = Some (PStr "default") /\ dget d "filen_main_outp" = Some (PStr main)) /\
  (forall n, dget cc "cloud_name" = Some (PStr n) ->
     exists d, cloud_descr_from_file m_e m_p qe files None cc = Some d /\ (forall p, cloud_param m_e m_p qe p -> dget d p = dget cc p) /\
       dget d "cloud_name" = Some (PStr n) /\ dget d "filen_main_outp" = Some (PStr (cloud_output main n))).
Proof. exact (cloud_main_reads m_e m_p qe files main cc). Qed.

(** Clouds with different names write different output files. *)
Theorem C65_outputs main cc fl ns l :
  dget cc "filen_main_outp" = Some (PStr main) -> Forall2 cloud_file fl ns -> NoDup ns ->
  (forall n, dget cc "cloud_name" = Some (PStr n) -> ~ In n ns) ->
  cloud_par_list m_e m_p qe files fl cc = Some l -> NoDup (map (fun d => dget d "filen_main_outp") l).
Proof. exact (outputs_distinct m_e m_p qe files main cc fl ns l). Qed.

(** The description of a beam.  [mach]: the main configuration, which has the
    optics of the machine file. *)
Theorem C66_beam c file bea mach b :
  files file = Some bea -> valid beam_mandatory bparam [bea] -> clear_names bparam [bea] -> (forall p, optics p -> dget mach p <> None) ->
  beam_descr_from_fil m_e m_p qe files c file mach = Some b ->
  exists E m0, beam_value m_e m_p qe bea (dget mach) "energy_eV" (PNum E) /\ beam_value m_e m_p qe bea (dget mach) "m0_part" (PNum m0) /\ m0 * c ^ 2 <> 0 /\
    bd_energy_J b = E * qe /\ bd_gamma b * (m0 * c ^ 2) = E * qe /\
    (forall p v, dget (bd_cfg b) p = Some v <-> bparam p /\ beam_value m_e m_p qe bea (dget mach) p v) /\
    (1 < bd_gamma b ->
       (forall f, beam_value m_e m_p qe bea (dget mach) "betafx" (PNum f) \/ beam_value m_e m_p qe bea (dget mach) "betafy" (PNum f) -> 0 <= f) ->
       (forall e, beam_value m_e m_p qe bea (dget mach) "nemittx" (PNum e) \/ beam_value m_e m_p qe bea (dget mach) "nemitty" (PNum e) -> 0 <= e) ->
       exists beta, bd_beta b = PNum beta /\ 0 < beta < 1 /\ bd_gamma b * bd_gamma b * (1 - beta * beta) = 1 /\
         size_ok (beam_value m_e m_p qe bea (dget mach)) "sigmax" "betafx" "nemittx" "Dx" (bd_gamma b) beta (bd_sigmax b) /\
         size_ok (beam_value m_e m_p qe bea (dget mach)) "sigmay" "betafy" "nemitty" "Dy" (bd_gamma b) beta (bd_sigmay b)).
Proof. intros F V Cl Hm. exact (beam_sound m_e m_p qe files files_ok c file bea mach F V Cl Hm b). Qed.

Theorem C66_raises c file bea mach :
  files file = Some bea -> valid beam_mandatory bparam [bea] -> clear_names bparam [bea] -> (forall p, optics p -> dget mach p <> None) ->
  (beam_value m_e m_p qe bea (dget mach) "sigmax" (PNum (-1)) /\
     (beam_value m_e m_p qe bea (dget mach) "betafx" PNone \/ beam_value m_e m_p qe bea (dget mach) "nemittx" PNone)) \/
  (beam_value m_e m_p qe bea (dget mach) "sigmay" (PNum (-1)) /\
     (beam_value m_e m_p qe bea (dget mach) "betafy" PNone \/ beam_value m_e m_p qe bea (dget mach) "nemitty" PNone)) ->
  beam_descr_from_fil m_e m_p qe files c file mach = None.
Proof. intros F V Cl Hm. exact (beam_raises m_e m_p qe files files_ok c file bea mach F V Cl Hm). Qed.

Theorem C66_complete c file bea mach E m0 :
  files file = Some bea -> valid beam_mandatory bparam [bea] -> clear_names bparam [bea] -> (forall p, optics p -> dget mach p <> None) ->
  beam_value m_e m_p qe bea (dget mach) "energy_eV" (PNum E) -> beam_value m_e m_p qe bea (dget mach) "m0_part" (PNum m0) ->
  0 < m0 * c ^ 2 -> m0 * c ^ 2 < E * qe ->
  plane_given (beam_value m_e m_p qe bea (dget mach)) "sigmax" "betafx" "nemittx" "Dx" ->
  plane_given (beam_value m_e m_p qe bea (dget mach)) "sigmay" "betafy" "nemitty" "Dy" ->
  exists b, beam_descr_from_fil m_e m_p qe files c file mach = Some b /\ 1 < bd_gamma b.
Proof. intros F V Cl Hm. exact (beam_complete m_e m_p qe files files_ok c file bea mach F V Cl Hm E m0). Qed.
End Main.

Example C29_accepted_case :
  (forall name f, gF name = Some f -> def_ok f) /\ input_files gF gSim gMac gEmi /\ clear_names (main_param 1 1 1) [gSim; gMac; gEmi] /\
  (exists cfg, read_parameter_files 1 1 1 gF false = Some cfg).
Proof. exact (conj gF_ok (conj (proj1 gSim_input) (conj gClear gReads))). Qed.
Print Assumptions C29_accepted.
Print Assumptions C29_sound.
Print Assumptions C29_values.

(** An imported module with the name of an optional parameter passes the checks
    unseen and becomes the value of the parameter: neither given nor the default. *)
Theorem C29_module_refuted : exists files sim mac emi cfg p,
  (forall name f, files name = Some f -> def_ok f) /\ input_files files sim mac emi /\
  read_parameter_files 1 1 1 files true = Some cfg /\ main_param 1 1 1 p /\
  ~ exists v, dget cfg p = Some v /\ value [sim; mac; emi] (main_default 1 1 1) p v.
Proof.
  destruct gMod_value as (cfg & H & D). exists (gFiles gMod), gMod, gMac, gEmi, cfg, "save_only".
  split; [exact (gFiles_ok gMod gMod_ok)|]. split; [apply gInput; cbn; tauto|]. split; [exact H|].
  split; [right; exists PNone; left; cbn; tauto|].
  intros (v & E & V). rewrite D in E. injection E as <-. destruct V as [(f & _ & _ & _ & X)|[_ [X|[X|X]]]]; [congruence| | |]; cbn in X; repeat (destruct X as [X|X]; [discriminate|]); exact X.
Qed.
Print Assumptions C29_module_refuted.

Example C30_case : NoDup (map fst gKw) /\ (exists cfg, read_config 1 1 1 gF false ["skip_me"] gKw = Some cfg) /\ read_config 1 1 1 gF false [] gKw = None.
Proof. split; [apply nodupb_ok; reflexivity|]. split; [exact gKw_reads|exact gKw_unknown]. Qed.
Print Assumptions C30_accepted.
Print Assumptions C30_override.
Print Assumptions C30_names.

Example C65_case : full 1 1 1 (dget gCfg) /\ dget gCfg "filen_main_outp" = Some (PStr "out.mat") /\ dget gCfg "cloud_name" = Some PNone /\
  gF "prot.cloud" = Some gClo /\ valid cloud_mandatory (cloud_param 1 1 1) [gClo] /\ clear_names (cloud_param 1 1 1) [gClo] /\
  Forall2 cloud_file ["low/ions.cloud"; "prot.cloud"] ["ions"; "prot"] /\ (exists l, cloud_par_list 1 1 1 gF ["low/ions.cloud"; "prot.cloud"] gCfg = Some l).
Proof.
  split; [exact gCfg_full|]. split; [exact gCfg_out|]. split; [exact gCfg_name|]. split; [reflexivity|]. split; [exact gCloud_valid|]. split; [exact gCloud_clear|].
  destruct gCloud_two as (A & _ & B). split; [constructor; [exact A|constructor; [exact B|constructor]]|exact gList].
Qed.
Print Assumptions C65_cloud.
Print Assumptions C65_checked.
Print Assumptions C65_main.
Print Assumptions C65_outputs.

(** The name of the output of a cloud. *)
Theorem C65_name stem n : without "." stem -> cloud_output (stem ++ ".mat") n = (stem ++ "_" ++ n ++ ".mat")%string.
Proof. intros H. unfold cloud_output. rewrite (before_app stem "." "mat" (without_has "." stem H)). reflexivity. Qed.
Example C65_name_case : cloud_output "out.mat" "ions" = "out_ions.mat".
Proof. reflexivity. Qed.
Print Assumptions C65_name.

(** Two files of the same name in different folders give the same output file. *)
Theorem C65_same_name_refuted : exists files cc f g d e,
  f <> g /\ cloud_descr_from_file 1 1 1 files (Some f) cc = Some d /\ cloud_descr_from_file 1 1 1 files (Some g) cc = Some e /\
  dget d "filen_main_outp" = dget e "filen_main_outp" /\ dget d "filen_main_outp" <> None.
Proof.
  destruct (gCloud_reads "low/ions.cloud" eq_refl) as [d D]. destruct (gCloud_reads "high/ions.cloud" eq_refl) as [e E].
  exists gF, gCfg, "low/ions.cloud", "high/ions.cloud", d, e. split; [discriminate|]. split; [exact D|]. split; [exact E|].
  destruct gCloud_two as (A & B & _). split; [exact (outputs_collide 1 1 1 gF "out.mat" gCfg _ _ d e "ions" gCfg_out A B D E)|].
  rewrite (names_of 1 1 1 gF "out.mat" gCfg _ d D gCfg_out). discriminate.
Qed.
Print Assumptions C65_same_name_refuted.

Example C66_case : (forall p, optics p -> dget gCfg p <> None) /\ valid beam_mandatory (beam_param 1 1 1) [gBea] /\ clear_names (beam_param 1 1 1) [gBea] /\
  (exists b, beam_descr_from_fil 1 1 1 gF 1 "lhc.beam" gCfg = Some b /\ 1 < bd_gamma b) /\
  beam_value 1 1 1 gBea (dget gMach0) "sigmax" (PNum (-1)) /\ beam_value 1 1 1 gBea (dget gMach0) "betafx" PNone.
Proof. split; [exact gOptics|]. split; [exact gBeam_valid|]. split; [exact gBeam_clear|]. split; [exact gBeam_reads|exact gBeam_raises]. Qed.
Print Assumptions C66_beam.
Print Assumptions C66_raises.
Print Assumptions C66_complete.
