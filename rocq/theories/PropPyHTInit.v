(** C96. *)
From Coq Require Import String Lia Bool Lra.
From Verif Require Import Num ConfigVal Config Init SpecInit SpecInitParts PyHTInit SpecPyHTInit PyHTInitFacts PyHTInitFacts2 PyHTInitFacts3 PyHTInitFacts4 ExPyHTInit ExConfig.
Local Open Scope string_scope.
Local Open Scope list_scope.

Section Coupling.
(** The constants, the input files, the folder and the files in it, the test for
    the photoemission chamber and the dictionaries in a list of probes. *)
Variables m_e m_p qe c : R.
Variable files : string -> option attrs.
Variable folder : string.
Variable isfile : string -> bool.
Variable npass : R.
Variable subset : pval -> bool.
Variable sec_name : nat -> string.
Variable probe_list : pval -> option (list attrs).
Notation make := (make m_e m_p qe c files folder isfile npass subset sec_name probe_list).
Notation twin := (twin m_e m_p qe c files folder isfile npass subset sec_name probe_list).
Notation does := (ops_do m_e m_p qe files).
Notation once := (eop_do m_e m_p qe files).
Notation found := (file_for folder isfile).
(** The call: the number of a new space charge, and the arguments. *)
Variables (fresh : nat) (a : eargs).
Hypothesis names : NoDup (map fst (ea_kw a)).

(** An electron cloud can be made exactly when no argument is given twice, the
    settings of the input files and keywords are read and consistent, there is
    one cloud, tracked by Boris, the probes are positions and slices are not
    asked for with a slicer. *)
Theorem C96_accepted : ~ In "skip_spacech_ele" (map fst (ea_kw a)) ->
  (exists o, make fresh a = Some o) <->
  (forall k, In k ["pyecl_input_folder"; "skip_beam"; "spacech_ele"; "ignore_kwargs"; "skip_pyeclsaver"; "filen_main_outp"] -> ~ In k (map fst (ea_kw a))) /\
  (exists cc t,
     read_all m_e m_p qe c files true ["x_beam_offset"; "y_beam_offset"; "probes_position"; "enable_kick_x"; "enable_kick_y"]
       (("filen_main_outp", match ea_outp a with None => PNone | Some s => PStr s end) :: ea_kw a) cc None [] [t] /\
     (tracker_is (dget cc) "Boris" \/ tracker_is (dget cc) "BorisMultipole") /\
     chamber_set (dget cc) /\ (ea_sc a = None -> field_set (dget cc) None) /\ lifetime_set (dget cc) /\
     cloud_set m_e qe (dget cc) found subset c None (dget t)) /\
  (forall v, In ("probes_position", v) (ea_kw a) -> exists l r, probe_list v = Some l /\ Forall2 position l r) /\
  (ea_slicemode a = true -> ea_slicer a = PNone).
Proof. exact (accepted_iff m_e m_p qe c files folder isfile npass subset sec_name probe_list fresh a names). Qed.

Variable o : ecl.
Hypothesis made : make fresh a = Some o.

(** It has the settings that were given; a keyword argument of the build-up
    simulation takes the place of the value in the input files. *)
Theorem C96_settings :
  (ec_L o = ea_L a /\ ec_slicer o = ea_slicer a /\ ec_Dtref o = ea_Dtref a /\ ec_clean o = ea_clean a /\ ec_slicemode o = ea_slicemode a /\
   ec_kick o = ea_kick a /\ ec_monitor o = ea_monitor a /\ ec_verbose o = ea_verbose a /\ ec_outp o = ea_outp a /\ ec_reint o = ea_reint a /\ ec_kw o = ea_kw a) /\
  (keyword (ea_kw a) "x_beam_offset" (PNum 0) (ec_xoff o) /\ keyword (ea_kw a) "y_beam_offset" (PNum 0) (ec_yoff o) /\
   keyword (ea_kw a) "enable_kick_x" (PBool true) (ec_kx o) /\ keyword (ea_kw a) "enable_kick_y" (PBool true) (ec_ky o)) /\
  ec_sc o = (match ea_sc a with Some s => s | None => fresh end) /\
  (match ec_probes o with
   | None => forall v, ~ In ("probes_position", v) (ea_kw a)
   | Some r => exists v l, In ("probes_position", v) (ea_kw a) /\ probe_list v = Some l /\ Forall2 position l r
   end) /\
  (forall p v, In (p, v) (ea_kw a) -> ~ In p ["x_beam_offset"; "y_beam_offset"; "probes_position"; "enable_kick_x"; "enable_kick_y"] -> p <> "skip_spacech_ele" ->
     dget (ec_cc o) p = Some v) /\
  dget (ec_cc o) "filen_main_outp" = Some (match ea_outp a with None => PNone | Some s => PStr s end) /\ untouched o.
Proof. exact (settings_are m_e m_p qe c files folder isfile npass subset sec_name probe_list fresh a o names made). Qed.

(** The keyword arguments of the coupling do not change the build-up simulation. *)
Theorem C96_extras fresh' a' o' : make fresh' a' = Some o' -> ea_outp a = ea_outp a' -> (ea_sc a = None <-> ea_sc a' = None) ->
  (let own := without ["x_beam_offset"; "y_beam_offset"; "probes_position"; "enable_kick_x"; "enable_kick_y"] in own (ea_kw a) = own (ea_kw a')) ->
  ec_cc o = ec_cc o' /\ ec_plan o = ec_plan o'.
Proof. exact (extras_only m_e m_p qe c files folder isfile npass subset sec_name probe_list fresh fresh' a a' o o' made). Qed.

(** Whatever was tracked and set before, a twin can be made, unless the cloud was
    replaced by field maps.  It has the same settings and parts, uses the space
    charge of the original, and starts where the original started. *)
Theorem C96_twin fresh' l o' w : does l o = Some (o', w) -> ~ In Replace l ->
  exists o2, twin fresh' o' = Some o2 /\ same_settings o2 o' /\ ec_sc o2 = ec_sc o' /\ same_parts (ec_plan o2) (ec_plan o') /\ untouched o2 /\ ec_saver o2 = ec_saver o.
Proof. exact (twin_of m_e m_p qe c files folder isfile npass subset sec_name probe_list fresh fresh' a o l o' w made). Qed.
Theorem C96_replaced fresh' l o' w : does l o = Some (o', w) -> In Replace l -> twin fresh' o' = None.
Proof. exact (twin_refused m_e m_p qe c files folder isfile npass subset sec_name probe_list fresh fresh' a o l o' w made). Qed.

(** With an output file (and without marks in its name) the cloud can be tracked
    and recorded as often as wanted... *)
Theorem C96_runs asked f base l : ea_outp a = Some asked -> first_file (ec_cc o) asked f -> plain_name f base ->
  Forall (usable (ea_slicemode a)) l -> recorded l -> exists o1 w, does l o = Some (o1, w).
Proof. exact (runs m_e m_p qe c files folder isfile npass subset sec_name probe_list fresh a o asked f base l names made). Qed.
(** ... each passage of a bunch into the file with its number... *)
Theorem C96_passage asked f base l o1 w : ea_outp a = Some asked -> first_file (ec_cc o) asked f -> plain_name f base ->
  ea_slicemode a = false -> recorded l -> does l o = Some (o1, w) -> exists o2, once Pass o1 = Some (o2, [numbered base (n_pass l)]).
Proof. exact (pass_file m_e m_p qe c files folder isfile npass subset sec_name probe_list fresh a o asked f base l o1 w names made). Qed.
(** ... and the slices of the first bunch into the file asked for, those of the
    next ones into numbered files. *)
Theorem C96_slices asked f base l o1 w : ea_outp a = Some asked -> first_file (ec_cc o) asked f -> plain_name f base ->
  ea_slicemode a = true -> recorded l -> does l o = Some (o1, w) ->
  once Slice o1 = Some (o1, [match n_next l with 0%nat => f | S k => numbered base k end]) /\ exists o2, once Next o1 = Some (o2, []).
Proof. exact (slice_file m_e m_p qe c files folder isfile npass subset sec_name probe_list fresh a o asked f base l o1 w names made). Qed.

(** Without an output file nothing is ever written, and the cloud has no name. *)
Theorem C96_no_output : ea_outp a = None <-> ec_saver o = None.
Proof. apply iff_sym. exact (no_output m_e m_p qe c files folder isfile npass subset sec_name probe_list fresh a o made). Qed.
Theorem C96_nothing_written l o1 w : ea_outp a = None -> does l o = Some (o1, w) -> concat w = [].
Proof. intros A H. apply (none_written m_e m_p qe files l o o1 w H). apply C96_no_output, A. Qed.
Theorem C96_unnamed : ea_outp a = None -> dget (ec_cc o) "cloud_name" = Some PNone.
Proof. exact (unnamed m_e m_p qe c files folder isfile npass subset sec_name probe_list fresh a o names made). Qed.

(** The settings of the recorder after a passage: those of [recorder_kept] are
    still the ones it was made with, those of [recorder_lost] are not. *)
Theorem C96_recorder l o1 w x o2 w2 s s2 : recorded l -> does l o = Some (o1, w) -> x = Pass \/ x = Next -> once x o1 = Some (o2, w2) ->
  ec_saver o = Some s -> ec_saver o2 = Some s2 ->
  (forall k, In k recorder_kept -> par s2 k = par s k) /\ (forall k v, In (k, v) recorder_lost -> par s2 k = Some v).
Proof. exact (recorder_op m_e m_p qe c files folder isfile npass subset sec_name probe_list fresh a o l o1 w x o2 w2 s s2 names made). Qed.
End Coupling.

(** Two passages, or two names without marks, never share a file. *)
Theorem C96_files_apart base base' i j : ~ contains "__iter" base -> ~ contains "__iter" base' -> numbered base i = numbered base' j -> base = base' /\ i = j.
Proof. exact (numbered_inj base base' i j). Qed.

Example C96_case : exists o, jMake 0 (jArgs false (Some "ecl.mat") jOne) = Some o /\ NoDup (map fst (ea_kw (jArgs false (Some "ecl.mat") jOne))) /\
  first_file (ec_cc o) "ecl.mat" "ecl.mat" /\ plain_name "ecl.mat" "ecl" /\ recorded jRun /\ Forall (usable false) jRun /\ exists o1 w, jDo jRun o = Some (o1, w).
Proof.
  assert (I : In jOne jExtra) by (cbn; tauto). destruct (jMakes false (Some "ecl.mat") jOne I ltac:(discriminate)) as [o H]. exists o. split; [exact H|]. split; [exact (jNoDup _ I)|].
  split; [exact (jFirst _ _ _ _ I ltac:(discriminate) H)|]. split; [exact jPlain|]. split; [exact (proj1 jRecorded)|]. split; [repeat constructor|]. exact (jRan false jOne o I ltac:(discriminate) H).
Qed.
Example C96_slice_case : exists o, jMake 0 (jArgs true (Some "ecl.mat") jTwo) = Some o /\ exists o1 w, jDo jSlices o = Some (o1, w).
Proof. assert (I : In jTwo jExtra) by (cbn; tauto). destruct (jMakes true (Some "ecl.mat") jTwo I ltac:(discriminate)) as [o H]. exists o. split; [exact H|]. exact (jRan true jTwo o I ltac:(discriminate) H). Qed.
Example C96_silent_case : exists o, jMake 0 (jArgs false None jOne) = Some o.
Proof. exact (jMakes false None jOne (or_intror (or_introl eq_refl)) ltac:(discriminate)). Qed.

(** What is set on the object after it was made does not pass to the twin: which
    recordings are wanted, and that only the first bunch is tracked. *)
Theorem C96_twin_flags_refuted : exists o w o1 o2, jMake 0 (jArgs false (Some "ecl.mat") jOne) = Some o /\
  jDo [Rec "save_ele_distributions_last_track"; Once true] o = Some (o1, w) /\ jTwin 0 o1 = Some o2 /\
  ec_rec o1 = ["save_ele_distributions_last_track"] /\ ec_once o1 = true /\ ec_rec o2 = [] /\ ec_once o2 = false.
Proof. exact jTwins. Qed.
(** A cloud and its twin write to the same file. *)
Theorem C96_twin_file_refuted : exists o o1 o2 o3 f, jMake 0 (jArgs false (Some "ecl.mat") []) = Some o /\ jTwin 0 o = Some o1 /\
  eop_do 1 1 1 gF Pass o = Some (o2, [f]) /\ eop_do 1 1 1 gF Pass o1 = Some (o3, [f]).
Proof. exact jTwinFile. Qed.
(** Two clouds with different output files write to the same one. *)
Theorem C96_two_names_refuted : exists a b o o' o2 o2' f, a <> b /\ jMake 0 (jArgs false (Some a) []) = Some o /\ jMake 0 (jArgs false (Some b) []) = Some o' /\
  eop_do 1 1 1 gF Pass o = Some (o2, [f]) /\ eop_do 1 1 1 gF Pass o' = Some (o2', [f]).
Proof. exact jTwoNames. Qed.
(** One quantity is asked for, and every passage records all of them. *)
Theorem C96_recording_refuted : exists o s o2 w s2, jMake 0 (jArgs false (Some "ecl.mat") jTwo) = Some o /\ ec_saver o = Some s /\
  par s "save_only" = Some (PList [PStr "Nel_timep"]) /\ eop_do 1 1 1 gF Pass o = Some (o2, w) /\ ec_saver o2 = Some s2 /\ par s2 "save_only" = Some PNone.
Proof. exact jLost. Qed.
(** A cloud with a name cannot be made without an output file. *)
Theorem C96_named_refuted : (exists o, jMake 0 (jArgs false (Some "ecl.mat") jThree) = Some o) /\ jMake 0 (jArgs false None jThree) = None.
Proof. exact jUnnamed. Qed.

Print Assumptions C96_accepted.
Print Assumptions C96_settings.
Print Assumptions C96_extras.
Print Assumptions C96_twin.
Print Assumptions C96_replaced.
Print Assumptions C96_runs.
Print Assumptions C96_passage.
Print Assumptions C96_slices.
Print Assumptions C96_no_output.
Print Assumptions C96_nothing_written.
Print Assumptions C96_unnamed.
Print Assumptions C96_recorder.
Print Assumptions C96_files_apart.
Print Assumptions C96_twin_flags_refuted.
Print Assumptions C96_twin_file_refuted.
Print Assumptions C96_two_names_refuted.
Print Assumptions C96_recording_refuted.
Print Assumptions C96_named_refuted.
