(** C68, C69, C70: recorded runs and continued runs. *)
From Coq Require Import String Lra Lia.
From Verif Require Import Num MP SpecMP Impact SpecImpact CrossIon SpecCrossIon Sim SpecSim Saver SpecSaver Whole SpecWhole
  WholeFacts WholeFacts3 WholeFacts4 WholeFacts5 WholeFacts6 ExSim ExSaver ExWhole.
Local Open Scope list_scope.
Local Open Scope R_scope.

(** C68.  Two runs with the same beams, one with these recorders and histogram
    settings, the other with those: after every step, when the output is saved
    and at the end, they have the same macroparticles, densities, surface
    charges, space charge, targets of the cross ionisation and position in the
    random stream. *)
Theorem C68_same : forall e y y' l l' m n rs rs' tr rs1 tr' rs2,
  same_sim m n -> Forall2 (fun q q' => q_args q = q_args q' /\ q_main q = q_main q' /\ q_secs q = q_secs q') l l' ->
  whole_run e y l m rs = Some (tr, rs1) -> whole_run e y' l' n rs' = Some (tr', rs2) ->
  Forall2 (fun p p' => same_sim (fst p) (fst p') /\ same_sim (snd p) (snd p')) tr tr'.
Proof. exact whole_run_same. Qed.
Print Assumptions C68_same.

(** C68.  A recorded run goes through the states of the run without recorders,
    but for the content of the histograms. *)
Theorem C68_unrecorded : forall e y l m rs tr rs1,
  whole_run e y l m rs = Some (tr, rs1) ->
  exists ms, sim_run e (map tuple l) m = Some ms /\ Forall2 (fun p m' => emptied (snd p) = emptied m') tr ms.
Proof. exact (fun e y l m rs tr rs1 => whole_run_unrec e y l m m rs tr rs1 eq_refl). Qed.
Print Assumptions C68_unrecorded.

(** C68.  With no recorder at all the two are the same function. *)
Theorem C68_none : forall e y rs l m,
  Forall (fun r => r = None) rs -> option_map (fun r => map snd (fst r)) (whole_run e y l m rs) = sim_run e (map tuple l) m.
Proof. exact (fun e y rs l m H => whole_run_none e y rs H l m). Qed.
Print Assumptions C68_none.

(** C68.  Recording does not stop a run: if the run without recorders goes
    through, so does the one with well configured recorders, of any number of
    steps. *)
Theorem C68_succeeds : forall e y l m rs ms,
  chamber_ok e -> Forall (fun q => args_ok (q_args q) /\ Forall beam_ok (q_main q :: q_secs q)) l -> sound_sim e m ->
  Forall2 (ready e) (m_clouds m) rs -> sim_run e (map tuple l) m = Some ms -> Forall xion_ok (m :: ms) -> Forall (fun m' => m_full m' = false) ms ->
  exists tr rs1, whole_run e y l m rs = Some (tr, rs1) /\ Forall2 (fun p m' => emptied (snd p) = emptied m') tr ms.
Proof. exact whole_run_succeeds. Qed.
Print Assumptions C68_succeeds.

Example C68_case : chamber_ok sEnv /\ Forall (fun q => args_ok (q_args q) /\ Forall beam_ok (q_main q :: q_secs q)) [wCall 1] /\ sound_sim sEnv sM /\
  Forall2 (ready sEnv) (m_clouds sM) [Some wRec; None] /\
  (exists ms, sim_run sEnv (map tuple [wCall 1]) sM = Some ms /\ Forall xion_ok (sM :: ms) /\ Forall (fun m' => m_full m' = false) ms /\ List.length ms = 1%nat) /\
  (forall y, exists tr rs1, whole_run sEnv y [wCall 1] sM [Some wRec; None] = Some (tr, rs1) /\ Forall xion_ok (sM :: map snd tr) /\ Forall (fun p => m_full (snd p) = false) tr /\ List.length tr = 1%nat) /\
  same_sim sM sM.
Proof.
  split; [exact sChamber|]. split; [exact wCalls|]. split; [exact sM_sound|]. split; [exact wReady|]. split; [exact wRun|]. split; [exact wWhole|].
  split; [|repeat split]. repeat constructor.
Qed.

(** C69.  Loading a checkpoint into a simulation with as many clouds: the clouds
    and the space charge are those at the moment the output was saved, before
    the cleaning and the regeneration of that step; targets of the cross
    ionisation and random stream are those of the new simulation.  With more
    clouds than saved ones loading fails. *)
Theorem C69_loaded : forall mid tEn m0,
  (List.length (m_clouds m0) = List.length (m_clouds mid) ->
     load_state (checkpoint_of mid tEn) m0 = Some (mkSim (m_clouds mid) (m_sc mid) (m_xion m0) (m_k m0) (m_full m0))) /\
  ((List.length (m_clouds mid) < List.length (m_clouds m0))%nat -> load_state (checkpoint_of mid tEn) m0 = None).
Proof.
  intros mid tEn m0. split; [apply load_is|]. intros L. unfold load_state, checkpoint_of. cbn [sv_clouds]. rewrite (replace_more _ _ L). reflexivity.
Qed.
Print Assumptions C69_loaded.

(** C69.  If the cleaning and the regenerations had nothing to do at that step,
    the loaded simulation is the one at the end of the step, hence every
    continuation is the same; given the same random numbers and targets. *)
Theorem C69_continues_partial : forall e y a main secs pass m rs mid m1 rs1 m0 tEn,
  whole_step e y a main secs pass m rs = Some (mid, m1, rs1) -> Forall (fun c => settled (o_set c) (o_mp c)) (m_clouds mid) ->
  List.length (m_clouds m0) = List.length (m_clouds mid) -> m_xion m0 = m_xion mid -> m_k m0 = m_k m1 -> m_full m0 = m_full m1 ->
  exists m', load_state (checkpoint_of mid tEn) m0 = Some m' /\ forall y' l rs', whole_run e y' l m' rs' = whole_run e y' l m1 rs'.
Proof.
  intros e y a main secs pass m rs mid m1 rs1 m0 tEn H S L X K F. exists m1. split; [|reflexivity].
  exact (load_continues e y a main secs pass m rs mid m1 rs1 m0 tEn H S L X K F).
Qed.
Print Assumptions C69_continues_partial.

Example C69_case : exists mid m1, whole_step sEnv (mkEyes (fun _ => 0) (fun _ => 0) (fun _ _ => (0, 0, 0)) (fun _ _ _ => 0) (fun _ => (0, 0))) no_args (sBeam 1) [] 0 iM [None] = Some (mid, m1, [None]) /\
  Forall (fun c => settled (o_set c) (o_mp c)) (m_clouds mid) /\ map (fun c => N_mp (o_mp c)) (m_clouds mid) = [1%nat] /\
  List.length (m_clouds iM) = List.length (m_clouds mid) /\ m_xion iM = m_xion mid /\ m_k iM = m_k m1 /\ m_full iM = m_full m1.
Proof. exact (iSettled _). Qed.

(** C69.  In general the continued run differs from the uninterrupted one, even
    with the same random numbers and targets: at the passage where the
    checkpoint is written, the uninterrupted run puts the reference size of an
    empty cloud back to its initial value; the continued one goes on with twice
    that size. *)
Theorem C69_refuted : exists e y a main secs pass m rs mid m1 rs1 m0 tEn m',
  chamber_ok e /\ sound_sim e m /\ ti_new main = true /\ whole_step e y a main secs pass m rs = Some (mid, m1, rs1) /\
  List.length (m_clouds m0) = List.length (m_clouds mid) /\ m_xion m0 = m_xion mid /\ m_k m0 = m_k m1 /\ m_full m0 = m_full m1 /\
  load_state (checkpoint_of mid tEn) m0 = Some m' /\
  map (fun c => nel_mp_ref (o_mp c)) (m_clouds m1) = [1] /\ map (fun c => nel_mp_ref (o_mp c)) (m_clouds m') = [2].
Proof. exact wRefuted. Qed.
Print Assumptions C69_refuted.

(** C70.  The output of a whole run.  Cloud number [j] has a recorder that has
    just been made, the others have whatever they have.  Cut the run into the
    groups that end where a sample is due.  Each column of the output is then
    the list of its values for these groups, computed from the clouds as they
    were when the output was saved and from what each step alone has added to
    the histograms. *)
Theorem C70_output : forall e y l m rs tr rs1 j k c w n,
  chamber_ok e -> Forall (fun q => args_ok (q_args q) /\ Forall beam_ok (q_main q :: q_secs q)) l ->
  sound_sim e m -> whole_run e y l m rs = Some (tr, rs1) -> Forall xion_ok (m :: map snd tr) -> Forall (fun p => m_full (snd p) = false) tr ->
  nth_error (m_clouds m) j = Some k -> o_iman k = blank w -> nth_error rs j = Some (Some (mkRecorder c (start_observing c n) None)) ->
  cfg_ok c -> widths_ok c w -> (0 < n)%nat -> (forall x y, w_out (e_wall e) x y = false -> k_bias (c_ic c) <= x) ->
  exists steps r1 d gs rest, shown_run e y j l (m :: map snd tr) = Some steps /\ nth_error rs1 j = Some (Some r1) /\
    Forall2 (fun p (st : step) => exists cm, nth_error (m_clouds (fst p)) j = Some cm /\ o_mp cm = ob_mp (fst st) /\ o_set cm = o_set k) tr steps /\
    build_outp_dict c (r_st r1) = Some d /\ steps = concat gs ++ rest /\ groups (sample_due c) (-1) gs rest /\
    (forall nm f, In (nm, f) (columns c ++ custom_columns c) -> get d nm = Some (VArr (map f gs))).
Proof. exact output_samples. Qed.
Print Assumptions C70_output.

(** C70.  The numbers recorded for a step balance: the charge of the cloud when
    the output is saved is the charge before the step, minus what has hit the
    wall, plus what the wall has emitted, plus the primaries, plus the cross
    ionisation. *)
Theorem C70_balance : forall e y j q m st c,
  chamber_ok e -> Forall beam_ok (q_main q :: q_secs q) -> xion_ok m -> sound_sim e m -> shown e y j q m = Some st ->
  nth_error (m_clouds m) j = Some c -> (forall m1, step_main e (q_args q) (q_main q) (q_secs q) m = Some m1 -> m_full m1 = false) ->
  exists prim cross,
    charge (ob_mp (fst st)) = charge (o_mp c) - l_nimp (snd st) + l_nemit (snd st) + rsum (map m_nel prim) + rsum (map m_nel cross) /\
    Rabs (rsum (map m_nel prim) - expected e (q_main q) (q_secs q) (o_set c)) <= INR (n_sources (q_main q) (q_secs q) (o_set c)) * nel_mp_ref (o_mp c) /\
    exists mid, live (ob_mp (fst st)) = mid ++ prim ++ cross.
Proof. exact shown_balance. Qed.
Print Assumptions C70_balance.

Example C70_case : chamber_ok sEnv /\ Forall (fun q => args_ok (q_args q) /\ Forall beam_ok (q_main q :: q_secs q)) [wCall 1] /\ sound_sim sEnv sM /\
  (forall y, exists tr rs1, whole_run sEnv y [wCall 1] sM [Some wRec; None] = Some (tr, rs1) /\ Forall xion_ok (sM :: map snd tr) /\ Forall (fun p => m_full (snd p) = false) tr /\ List.length tr = 1%nat) /\
  nth_error (m_clouds sM) 0 = Some sE /\ (exists w, o_iman sE = blank w /\ cfg_ok (vC 1 [] None) /\ widths_ok (vC 1 [] None) w) /\
  (forall x y, w_out (e_wall sEnv) x y = false -> k_bias (c_ic (vC 1 [] None)) <= x) /\ N_mp (o_mp sE) = 2%nat.
Proof.
  split; [exact sChamber|]. split; [exact wCalls|]. split; [exact sM_sound|]. split; [exact wWhole|]. split; [reflexivity|].
  pose proof wReady as W. inversion W as [|? ? ? ? R1 _]; subst. destruct R1 as (n & w & _ & _ & A & B & C & D). split; [exists w; auto|]. split; [exact D|reflexivity].
Qed.
