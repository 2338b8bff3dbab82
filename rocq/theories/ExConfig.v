(** Concrete input files. *)
From Coq Require Import String Ascii Lia Bool Lra.
From Verif Require Import Num NumFacts ConfigVal ConfigTable Ckpt CkptFacts CkptFacts3 Config SpecConfig ConfigFacts ConfigFacts2 ConfigFacts3 ConfigFacts4 ConfigFacts5 ConfigFacts6 ConfigFacts7.
Local Open Scope string_scope.
Local Open Scope list_scope.

Definition gNames := [("machine_param_file", PStr "machine.input"); ("secondary_emission_parameters_file", PStr "sey.input"); ("beam_parameters_file", PStr "lhc.beam")].
Definition fill (l : list string) (given : attrs) (x : R) : attrs :=
  given ++ map (fun p => (p, PNum x)) (filter (fun p => negb (mem p (map fst given))) l).
Definition gSim : defs := fill simulation_parameters_mandatory (gNames ++ [("filen_main_outp", PStr "out.mat"); ("N_mp_max", PNum 100); ("_tmp", PNum 7)]) 1.
Definition gMac : defs := fill machine_parameters_mandatory [("betafx", PNum 8); ("betafy", PNum 8); ("pi", PNum 3)] 2.
Definition gEmi : defs := fill secondary_emission_parameters_mandatory [("numpy", PModule)] 3.
Definition gBea : defs := fill beam_beam_mandatory [("energy_eV", PNum 2); ("m0_part", PNum 1); ("nemittx", PNum 1); ("sigmay", PNum 5)] 4.
Definition gClo : defs := fill additional_cloud_parameters_mandatory [("N_mp_max", PNum 500)] 5.
(** A file with an unknown parameter, a main file with a module in the place of
    a parameter. *)
Definition gBad : defs := fill additional_cloud_parameters_mandatory [("N_mp_maximum", PNum 500)] 5.
Definition gMod : defs := ("save_only", PModule) :: gSim.
Definition gFiles (sim : defs) (name : string) : option defs :=
  if String.eqb name "simulation_parameters.input" then Some sim
  else if String.eqb name "machine.input" then Some gMac
  else if String.eqb name "sey.input" then Some gEmi
  else if String.eqb name "lhc.beam" then Some gBea
  else if mem name ["ions.cloud"; "low/ions.cloud"; "high/ions.cloud"; "prot.cloud"] then Some gClo
  else if String.eqb name "bad.cloud" then Some gBad
  else None.
Notation gF := (gFiles gSim).
Notation rd := (read_parameter_files 1 1 1 gF).

Lemma gFiles_ok sim : def_ok sim -> forall name f, gFiles sim name = Some f -> def_ok f.
Proof.
  intros S name f. unfold gFiles. repeat (match goal with |- (if ?b then _ else _) = _ -> _ => destruct b end); intros H; try discriminate; injection H as <-;
    auto; apply nodupb_ok; vm_compute; reflexivity.
Qed.
Lemma gSim_ok : def_ok gSim. Proof. apply nodupb_ok. vm_compute. reflexivity. Qed.
Lemma gMod_ok : def_ok gMod. Proof. apply nodupb_ok. vm_compute. reflexivity. Qed.
Lemma gF_ok name f : gF name = Some f -> def_ok f. Proof. exact (gFiles_ok gSim gSim_ok name f). Qed.
Lemma gInput sim : In ("machine_param_file", PStr "machine.input") sim -> In ("secondary_emission_parameters_file", PStr "sey.input") sim ->
  In ("beam_parameters_file", PStr "lhc.beam") sim -> input_files (gFiles sim) sim gMac gEmi /\ beam_file (gFiles sim) sim gBea.
Proof.
  intros H1 H2 H3. split; [|exists "lhc.beam"; auto]. split; [reflexivity|]. split; [exists "machine.input"; auto|]. split; [exists "sey.input"; auto|eauto].
Qed.
Lemma gSim_input : input_files gF gSim gMac gEmi /\ beam_file gF gSim gBea.
Proof. apply gInput; cbn; tauto. Qed.
Definition no_module (f : defs) : bool := forallb (fun q => negb (is_module (snd q)) || mem (fst q) ["numpy"]) f.
Lemma clear_of (param : string -> Prop) fs : ~ param "numpy" -> forallb no_module fs = true -> clear_names param fs.
Proof.
  intros N H f p F P I. rewrite forallb_forall in H. apply H in F. unfold no_module in F. rewrite forallb_forall in F. apply F in I. cbn [fst snd is_module negb orb] in I.
  apply mem_in in I. destruct I as [<-|[]]. auto.
Qed.
Lemma gClear : clear_names (main_param 1 1 1) [gSim; gMac; gEmi].
Proof.
  apply clear_of; [|vm_compute; reflexivity]. intros H. apply main_in, mem_in in H. vm_compute in H. discriminate.
Qed.
Lemma gBeam_clear : clear_names (beam_param 1 1 1) [gBea].
Proof. apply clear_of; [|vm_compute; reflexivity]. intros H. apply beam_all, mem_in in H. vm_compute in H. discriminate. Qed.
Lemma gCloud_clear : clear_names (cloud_param 1 1 1) [gClo].
Proof. apply clear_of; [|vm_compute; reflexivity]. intros H. apply cloud_in, mem_in in H. vm_compute in H. discriminate. Qed.
Lemma gReads : exists cfg, rd false = Some cfg.
Proof.
  assert (X : match rd false with Some _ => true | None => false end = true) by (vm_compute; reflexivity).
  destruct (rd false) as [cfg|]; [eauto|discriminate].
Qed.
Lemma gValid : valid main_mandatory (main_param 1 1 1) [gSim; gMac; gEmi] /\
  (false = false -> exists bea, beam_file gF gSim bea /\ valid beam_mandatory (beam_param 1 1 1) [bea]).
Proof. apply (read_iff 1 1 1 gF gF_ok false gSim gMac gEmi (proj1 gSim_input) gClear). exact gReads. Qed.
Lemma gBeam_valid : valid beam_mandatory (beam_param 1 1 1) [gBea].
Proof.
  apply (one_valid (beam_sec 1 1 1) beam_mandatory (beam_default 1 1 1) (beam_mand 1 1 1) (beam_opt 1 1 1) (beam_pi 1 1 1) gBea);
    [apply nodupb_ok|]; vm_compute; reflexivity.
Qed.
Lemma gCloud_valid : valid cloud_mandatory (cloud_param 1 1 1) [gClo].
Proof.
  apply (one_valid (cloud_sec 1 1 1) cloud_mandatory (cloud_default 1 1 1) (cloud_mand 1 1 1) (cloud_opt 1 1 1) (cloud_pi 1 1 1) gClo);
    [apply nodupb_ok|]; vm_compute; reflexivity.
Qed.

(** An unknown cloud parameter is refused. *)
Lemma gBad_refused cc : cloud_descr_from_file 1 1 1 gF (Some "bad.cloud") cc = None.
Proof.
  unfold cloud_descr_from_file. destruct (dget cc "filen_main_outp"); [|reflexivity]. cbn [bind].
  assert (A : import_module_from_file gF "bad.cloud" = Some (with_pi gBad)) by reflexivity. rewrite A. cbn [bind].
  assert (B : assert_module_has_parameters (cloud_sec 1 1 1) (with_pi gBad) = None) by (vm_compute; reflexivity). rewrite B. reflexivity.
Qed.

(** Keyword arguments. *)
Definition gKw : attrs := [("N_mp_max", PNum 200); ("skip_me", PBool true)].
Lemma gKw_reads : exists cfg, read_config 1 1 1 gF false ["skip_me"] gKw = Some cfg.
Proof.
  destruct gReads as [cfg H]. apply (override_iff 1 1 1 gF false ["skip_me"] gKw cfg); [apply nodupb_ok; reflexivity|exact H|].
  intros a [<-|[<-|[]]]; [right|left; left; reflexivity]. apply main_in_conv, mem_in. vm_compute. reflexivity.
Qed.
Lemma gKw_unknown : read_config 1 1 1 gF false [] gKw = None.
Proof. vm_compute. reflexivity. Qed.

(** A module in the place of an optional parameter becomes its value. *)
Lemma gMod_value : exists cfg, read_parameter_files 1 1 1 (gFiles gMod) true = Some cfg /\ dget cfg "save_only" = Some PModule.
Proof.
  assert (X : match read_parameter_files 1 1 1 (gFiles gMod) true with Some cfg => match dget cfg "save_only" with Some v => is_module v | None => false end | None => false end = true)
    by (vm_compute; reflexivity).
  destruct (read_parameter_files 1 1 1 (gFiles gMod) true) as [cfg|]; [|discriminate]. exists cfg. split; auto. destruct (dget cfg "save_only") as [v|]; [|discriminate].
  destruct v; try discriminate. reflexivity.
Qed.

(** The configuration, for clouds and beams. *)
Definition gCfg : attrs := match rd false with Some c => c | None => [] end.
Lemma gCfg_read : rd false = Some gCfg.
Proof. unfold gCfg. destruct gReads as [c ->]. reflexivity. Qed.
Lemma gCfg_full : full 1 1 1 (dget gCfg).
Proof. intros p H. apply (read_keys 1 1 1 gF false gCfg gCfg_read). auto. Qed.
Lemma gCfg_get p v : value [gSim; gMac; gEmi] (main_default 1 1 1) p v -> main_param 1 1 1 p -> dget gCfg p = Some v.
Proof. intros V P. apply (read_values 1 1 1 gF gF_ok false gSim gMac gEmi gCfg (proj1 gSim_input) gClear gCfg_read). auto. Qed.
Lemma gCfg_out : dget gCfg "filen_main_outp" = Some (PStr "out.mat").
Proof. vm_compute. reflexivity. Qed.
Lemma gCfg_name : dget gCfg "cloud_name" = Some PNone.
Proof. vm_compute. reflexivity. Qed.
Lemma gCloud_two : cloud_file "low/ions.cloud" "ions" /\ cloud_file "high/ions.cloud" "ions" /\ cloud_file "prot.cloud" "prot".
Proof.
  assert (W : forall c s, has c s = false -> without c s).
  { intros c s H (a & b & ->). rewrite has_app in H. cbn [has] in H. rewrite Ascii.eqb_refl in H. rewrite orb_true_r in H. discriminate. }
  repeat split; try (apply W; reflexivity); [right; exists "low"; reflexivity|right; exists "high"; reflexivity|left; reflexivity].
Qed.
Lemma gCloud_reads f : gF f = Some gClo -> exists d, cloud_descr_from_file 1 1 1 gF (Some f) gCfg = Some d.
Proof.
  intros F. destruct (cloud_reads 1 1 1 gF gF_ok f gClo "out.mat" gCfg F gCfg_full gCloud_valid gCloud_clear gCfg_out) as (d & H & _). eauto.
Qed.
Lemma gList : exists l, cloud_par_list 1 1 1 gF ["low/ions.cloud"; "prot.cloud"] gCfg = Some l.
Proof.
  destruct (cloud_main_reads 1 1 1 gF "out.mat" gCfg gCfg_full gCfg_out) as [M _]. destruct (M gCfg_name) as (d & H & _).
  unfold cloud_par_list. rewrite H. cbn [bind mapM].
  destruct (gCloud_reads "low/ions.cloud" eq_refl) as [d1 ->]. destruct (gCloud_reads "prot.cloud" eq_refl) as [d2 ->]. cbn [bind]. eauto.
Qed.
Lemma gOptics p : optics p -> dget gCfg p <> None.
Proof.
  intros H. assert (S : forallb (fun p => dhas gCfg p) ["Dx"; "Dy"; "betafx"; "betafy"] = true) by (vm_compute; reflexivity).
  rewrite forallb_forall in S. apply S in H. unfold dhas in H. destruct (dget gCfg p); discriminate.
Qed.
(** The beam. *)
Notation gBv := (beam_value 1 1 1 gBea (dget gCfg)).
Lemma gBv_file p x : In (p, PNum x) gBea -> hidden p = false -> gBv p (PNum x).
Proof.
  intros I H. exists (PNum x). split.
  - left. exists gBea. split; [left; auto|]. split; auto. split; [|discriminate]. intros P. apply hidden_spec in P. congruence.
  - left. split; auto. intros [_ X]. discriminate.
Qed.
Lemma gBv_default p v : beam_default 1 1 1 p v -> mem p (map fst gBea) = false -> v <> PNone -> gBv p v.
Proof.
  intros D M N. exists v. split; [|left; split; auto; tauto]. right. split; auto. intros (f & w & [<-|[]] & G & _). apply in_key, mem_in in G. congruence.
Qed.
Lemma gBv_mach p v : beam_default 1 1 1 p PNone -> mem p (map fst gBea) = false -> optics p -> dget gCfg p = Some v -> gBv p v.
Proof.
  intros D M O G. exists PNone. split; [|auto]. right. split; auto. intros (f & w & [<-|[]] & X & _). apply in_key, mem_in in X. congruence.
Qed.
Lemma gBv_all : gBv "energy_eV" (PNum 2) /\ gBv "m0_part" (PNum 1) /\
  plane_given gBv "sigmax" "betafx" "nemittx" "Dx" /\ plane_given gBv "sigmay" "betafy" "nemitty" "Dy".
Proof.
  split; [apply gBv_file; [cbn; tauto|reflexivity]|]. split; [apply gBv_file; [cbn; tauto|reflexivity]|]. split.
  - intros _. exists 8, 1, 0, 0. split; [|split; [|split]].
    + apply gBv_mach; [unfold beam_default; cbn; tauto|vm_compute; reflexivity|cbn; tauto|vm_compute; reflexivity].
    + apply gBv_file; [cbn; tauto|reflexivity].
    + apply gBv_mach; [unfold beam_default; cbn; tauto|vm_compute; reflexivity|cbn; tauto|vm_compute; reflexivity].
    + apply gBv_default; [unfold beam_default; cbn; tauto|vm_compute; reflexivity|discriminate].
  - intros H. exfalso. destruct H as (w & V & X). assert (Y : ~ optics "sigmay") by (cbn; intuition discriminate).
    destruct X as [[_ X]|(X & _)]; [|contradiction]. subst w.
    assert (Z : given gBea "sigmay" (PNum 5)).
    { split; [cbn; tauto|]. split; [|discriminate]. intros P. apply hidden_spec in P. discriminate. }
    assert (N : def_ok gBea) by (apply nodupb_ok; vm_compute; reflexivity).
    destruct V as [(f & [<-|[]] & G)|[G _]].
    + destruct Z as [Z _]. destruct G as [G _]. pose proof (in_same _ _ _ _ N Z G) as E. injection E. lra.
    + apply G. exists gBea, (PNum 5). split; [left; auto|auto].
Qed.
Lemma gBeam_reads : exists b, beam_descr_from_fil 1 1 1 gF 1 "lhc.beam" gCfg = Some b /\ 1 < bd_gamma b.
Proof.
  destruct gBv_all as (H1 & H2 & H3 & H4).
  apply (beam_complete 1 1 1 gF gF_ok 1 "lhc.beam" gBea gCfg eq_refl gBeam_valid gBeam_clear gOptics 2 1 H1 H2); auto; lra.
Qed.
(** Without the optics in the machine file. *)
Definition gMach0 : attrs := [("Dx", PNum 0); ("Dy", PNum 0); ("betafx", PNone); ("betafy", PNone)].
Lemma gBeam_raises : beam_value 1 1 1 gBea (dget gMach0) "sigmax" (PNum (-1)) /\ beam_value 1 1 1 gBea (dget gMach0) "betafx" PNone.
Proof.
  split.
  - exists (PNum (-1)). split; [|left; split; auto; intros [_ X]; discriminate]. right. split; [|unfold beam_default; cbn; tauto].
    intros (f & w & [<-|[]] & X & _). apply in_key, mem_in in X. vm_compute in X. discriminate.
  - exists PNone. split; [|right; split; [cbn; tauto|auto]]. right. split; [|unfold beam_default; cbn; tauto].
    intros (f & w & [<-|[]] & X & _). apply in_key, mem_in in X. vm_compute in X. discriminate.
Qed.
