(** C74, C75, C76. *)
From Coq Require Import String Lia Bool Lra.
From Verif Require Import Num NumFacts ConfigVal ConfigTable Ckpt Config SpecConfig Init SpecInit SpecInitParts InitFacts InitFacts2 InitFacts3 InitFacts4 InitFacts5 InitFacts6 ExInit InitFacts7.
Local Open Scope string_scope.
Local Open Scope list_scope.

Section Start.
(** The constants, the input files, the folder and the files in it, the number
    of passages of the beam and the test for the photoemission chamber. *)
Variables m_e m_p qe c : R.
Variable files : string -> option attrs.
Variable folder : string.
Variable isfile : string -> bool.
Variable npass : R.
Variable subset : pval -> bool.
Variable sec_name : nat -> string.
(** The arguments of the call. *)
Variables skip_beam skip_saver skip_sc given_sc : bool.
Variable ignore : list string.
Variable kw : attrs.
Notation go := (start m_e m_p qe c files folder isfile npass subset sec_name skip_beam skip_saver skip_sc given_sc ignore kw).
Notation found := (file_for folder isfile).
Notation reads := (read_all m_e m_p qe c files skip_beam ignore kw).

(** A simulation starts only from files that can be read, and the files fix its
    settings. *)
Theorem C74_read p : go = Some p -> exists cc b sbs cl, reads cc b sbs cl /\
  forall cc' b' sbs' cl', reads cc' b' sbs' cl' -> cc' = cc /\ b' = b /\ sbs' = sbs /\ cl' = cl.
Proof.
  intros H. destruct (start_reads _ _ _ _ _ _ _ _ _ _ _ _ _ _ _ _ p H) as (cc & b & sbs & cl & Ra). exists cc, b, sbs, cl. split; [exact Ra|].
  intros cc' b' sbs' cl' Rb. exact (read_same m_e m_p qe c files skip_beam ignore kw _ _ _ _ _ _ _ _ Rb Ra).
Qed.

(** It then starts exactly when the settings are consistent. *)
Theorem C74_accepted cc b sbs cl : reads cc b sbs cl ->
  (exists p, go = Some p) <->
  chamber_set (dget cc) /\ (skip_beam = false -> beam_set (dget cc) npass (List.length sbs)) /\
  (skip_sc || given_sc = false -> field_set (dget cc) (option_map dget b)) /\ lifetime_set (dget cc) /\
  Forall (fun t => cloud_set m_e qe (dget cc) found subset c (option_map dget b) (dget t)) cl.
Proof. exact (start_iff m_e m_p qe c files folder isfile npass subset sec_name skip_beam skip_saver skip_sc given_sc ignore kw cc b sbs cl). Qed.

(** The chamber, the main beam and the space charge. *)
Theorem C74_machine cc b sbs cl p : reads cc b sbs cl -> go = Some p ->
  chamber_part found (dget cc) (map dget cl) (pl_chamb p) /\
  (pl_beam p = None <-> skip_beam = true) /\
  (forall o, pl_beam p = Some o -> exists b0, b = Some b0 /\ beam_part found (dget cc) (dget b0) o) /\
  (pl_sc p = None <-> skip_sc || given_sc = true) /\ field_part (dget cc) (option_map dget b) (pl_sc p) /\
  (pl_cross p = false <-> dget cc "cross_ion_definitions" = Some PNone).
Proof. exact (machine_is m_e m_p qe c files folder isfile npass subset sec_name skip_beam skip_saver skip_sc given_sc ignore kw cc b sbs cl p). Qed.

(** The settings of a beam: those of its file (C66) with the size, the energy and
    the speed that follow from them. *)
Theorem C74_beam_object cc n b : read_beam m_e m_p qe c files cc n = Some b -> exists d, beam_descr_from_fil m_e m_p qe files c n cc = Some d /\
  dget b "sigmax" = Some (bd_sigmax d) /\ dget b "sigmay" = Some (bd_sigmay d) /\ dget b "energy_J" = Some (PNum (bd_energy_J d)) /\
  dget b "gamma_rel" = Some (PNum (bd_gamma d)) /\ dget b "beta_rel" = Some (bd_beta d) /\
  forall p, ~ In p ["sigmax"; "sigmay"; "energy_J"; "gamma_rel"; "beta_rel"] -> dget b p = dget (bd_cfg d) p.
Proof. exact (beam_object m_e m_p qe c files cc n b). Qed.

(** The secondary beams, each in its place. *)
Theorem C74_secondary cc b sbs cl p : reads cc b sbs cl -> go = Some p ->
  List.length (pl_sec p) = List.length sbs /\
  forall i sb, nth_error sbs i = Some sb -> exists o, nth_error (pl_sec p) i = Some o /\ sec_beam_part (dget cc) (dget sb) (sec_name i) o.
Proof. exact (secondary_is m_e m_p qe c files folder isfile npass subset sec_name skip_beam skip_saver skip_sc given_sc ignore kw cc b sbs cl p). Qed.

(** Every cloud, in its place, has the parts that its own settings ask for; what
    comes from the main settings instead is listed in [impact_part] and
    [dynamics_part]. *)
Theorem C75_parts_partial cc b sbs cl p : reads cc b sbs cl -> go = Some p ->
  List.length (pl_clouds p) = List.length cl /\
  forall i t, nth_error cl i = Some t -> exists q, nth_error (pl_clouds p) i = Some q /\
    cloud_parts qe c found (dget cc) (dget t) (negb skip_beam) skip_saver (Nat.eqb (Datatypes.S i) (List.length cl)) (Nat.ltb 1 (List.length cl))
      (negb skip_beam && negb (Nat.eqb (List.length sbs) 0)) (pl_cross p) (option_map dget b) q.
Proof. exact (parts_are m_e m_p qe c files folder isfile npass subset sec_name skip_beam skip_saver skip_sc given_sc ignore kw cc b sbs cl p). Qed.

(** The files named in the settings are those of the input folder. *)
Theorem C76_files cc b sbs cl p : reads cc b sbs cl -> go = Some p ->
  (ob_name (pl_chamb p) = "polyg" -> exists n f, dget cc "filename_chm" = Some (PStr n) /\ found n f /\ par (pl_chamb p) "filename_chm" = Some (PStr f)) /\
  (forall o b0, pl_beam p = Some o -> b = Some b0 -> profile_part found (dget b0 "beam_long_prof_file") (par o "beam_long_prof_file")) /\
  (forall i t q, nth_error cl i = Some t -> nth_error (pl_clouds p) i = Some q -> ob_name (cp_sey q) = "from_file" ->
     exists n f, dget t "sey_file" = Some (PStr n) /\ found n f /\ par (cp_sey q) "sey_file" = Some (PStr f)).
Proof. exact (files_are m_e m_p qe c files folder isfile npass subset sec_name skip_beam skip_saver skip_sc given_sc ignore kw cc b sbs cl p). Qed.

(** The profile of a secondary beam, only if adding ".mat" gives a file for both
    beams or for neither. *)
Theorem C76_secondary_partial cc b sbs cl p : reads cc (Some b) sbs cl -> go = Some p -> forall i sb o m,
  nth_error sbs i = Some sb -> nth_error (pl_sec p) i = Some o -> dget b "beam_long_prof_file" = Some (PStr m) ->
  (forall n, dget sb "beam_long_prof_file" = Some (PStr n) -> isfile (folder ++ "/" ++ m ++ ".mat")%string = isfile (folder ++ "/" ++ n ++ ".mat")%string) ->
  profile_part found (dget sb "beam_long_prof_file") (par o "beam_long_prof_file").
Proof. exact (sec_files_are m_e m_p qe c files folder isfile npass subset sec_name skip_beam skip_saver skip_sc given_sc ignore kw cc b sbs cl p). Qed.

(** One setting changes nothing, although every input must give it. *)
Theorem C75_unused cc cc' b sbs cl cl' : agree "t_ON_regen_low" cc cc' -> Forall2 (agree "t_ON_regen_low") cl cl' ->
  build m_e qe c folder isfile npass subset sec_name skip_saver skip_sc given_sc cc b sbs cl =
  build m_e qe c folder isfile npass subset sec_name skip_saver skip_sc given_sc cc' b sbs cl'.
Proof. intros H. exact (all_build m_e qe c folder isfile npass subset sec_name cc cc' H skip_saver skip_sc given_sc b sbs cl cl'). Qed.
End Start.

(** Two clouds and two beams. *)
Example C74_case : (exists p, hStart "Boris" false = Some p) /\
  exists b sb, read_all 1 1 1 1 hFiles false [] (hKw "Boris" false) (hCfg "Boris" false) (Some b) [sb] [hMain "Boris" false; hIons "Boris" false].
Proof. split; [exact (hStarts "Boris" (or_introl eq_refl))|]. rewrite <- hTwo. exact (hRead "Boris" false). Qed.
Print Assumptions C74_read.
Print Assumptions C74_accepted.
Print Assumptions C74_machine.
Print Assumptions C74_secondary.
Print Assumptions C74_beam_object.
Print Assumptions C75_parts_partial.
Print Assumptions C76_files.
Print Assumptions C76_secondary_partial.
Print Assumptions C75_unused.

(** The second cloud asks for 77 bins in its energy histograms and gets those of
    the main settings. *)
Theorem C75_histogram_refuted : exists p q t, hStart "Boris" false = Some p /\
  (exists cc b sbs cl, read_all 1 1 1 1 hFiles false [] (hKw "Boris" false) cc b sbs cl /\ nth_error cl 1 = Some t) /\ nth_error (pl_clouds p) 1 = Some q /\
  dget t "Nbin_En_hist" = Some (PNum 77) /\ par (cp_impact q) "Nbin_En_hist" <> Some (PNum 77).
Proof. exact own_refuted. Qed.
Print Assumptions C75_histogram_refuted.

(** It asks for seven sub-steps and, with the multipole tracker, gets those of
    the main settings. *)
Theorem C75_substeps_refuted : exists p q t, hStart "BorisMultipole" false = Some p /\
  (exists cc b sbs cl, read_all 1 1 1 1 hFiles false [] (hKw "BorisMultipole" false) cc b sbs cl /\ nth_error cl 1 = Some t) /\ nth_error (pl_clouds p) 1 = Some q /\
  dget t "N_sub_steps" = Some (PNum 7) /\ par (cp_dyn q) "N_sub_steps" <> Some (PNum 7).
Proof. exact substeps_refuted. Qed.
Print Assumptions C75_substeps_refuted.

(** The folder holds "sec.mat", the second beam names "sec", and the name is
    passed on as it is because the main beam has no profile. *)
Theorem C76_secondary_refuted : exists p o sb, hStart "Boris" false = Some p /\
  (exists cc b cl, read_all 1 1 1 1 hFiles false [] (hKw "Boris" false) cc (Some b) [sb] cl) /\ pl_sec p = [o] /\
  dget sb "beam_long_prof_file" = Some (PStr "sec") /\ file_for "in" hIs "sec" "in/sec.mat" /\ par o "beam_long_prof_file" = Some (PStr "sec").
Proof. exact profile_refuted. Qed.
Print Assumptions C76_secondary_refuted.
