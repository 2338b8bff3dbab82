(** C99: saving and loading states of the simulation. *)
From Coq Require Import String List Reals.
From Verif Require Import Num Ckpt CkptFacts SaveState SpecSaveState SaveStateFacts ExSaveState.
Local Open Scope string_scope.
Local Open Scope list_scope.
Local Open Scope R_scope.

(** C99.  Only the recorder of the last cloud saves.  It writes a file exactly
    if the parts to be left out are there and the file can be written; then the
    simulation goes on as before, every cloud with its own recorder, and the
    file holds all but recorders, factorisation and potentials.  Otherwise an
    exception comes out. *)
Theorem C99_saved : forall (Lu St Pic Be Cl Re : Type) (o : objs Lu St Pic Be Cl Re) last multi tEn tlife dumps o' r,
  sim_state_single_save last multi tEn tlife dumps o = (o', r) ->
  (last = false -> r = Nothing /\ o' = o) /\
  (last = true -> savable (ob_sc o) -> dumps = true -> same_simulation o o' /\ exists f, r = Written f /\ file_of o multi tEn tlife f) /\
  (last = true -> ~ (savable (ob_sc o) /\ dumps = true) -> r = Raised).
Proof.
  intros Lu St Pic Be Cl Re o last multi tEn tlife dumps o' r H. split; [|split].
  - intros ->. rewrite save_not_last in H. injection H as <- <-. split; reflexivity.
  - intros -> S ->. destruct (save_ok multi tEn tlife o S) as (o2 & f & E & A & B). rewrite E in H. injection H as <- <-.
    split; [exact A|]. exists f. split; [reflexivity|exact B].
  - intros -> N. destruct (save_raised multi tEn tlife dumps o N) as (o2 & E). rewrite E in H. injection H as _ <-. reflexivity.
Qed.
Print Assumptions C99_saved.

(** C99.  Which simulations can be saved.  In a simulation that was not loaded
    from a file, whatever was computed and saved before: those with a solver
    that has a factorisation and without electromagnetic tracking, and no
    others. *)
Theorem C99_modes : forall (Lu St Pic Be Cl Re : Type) (factor : Pic -> Lu) (new_state : Pic -> St) lu em (o : objs Lu St Pic Be Cl Re) multi tEn tlife,
  in_use (Be:=Be) (Cl:=Cl) (Re:=Re) factor new_state lu em (ob_sc o) ->
  ((exists o' f, sim_state_single_save true multi tEn tlife true o = (o', Written f)) <-> lu = true /\ em = false).
Proof.
  intros Lu St Pic Be Cl Re factor new_state lu em o multi tEn tlife U. rewrite <- (use_savable factor new_state lu em _ U). split.
  - intros (o' & f & E). exact (proj2 (proj2 (save_written _ _ _ _ _ _ _ _ E))).
  - intros S. destruct (save_ok multi tEn tlife o S) as (o' & f & E & _). exists o', f. exact E.
Qed.
Print Assumptions C99_modes.

Example C99_saved_case : savable (ob_sc ySim) /\ in_use (Be:=nat) (Cl:=nat) (Re:=nat) yFactor yState true false (ob_sc ySim) /\
  List.length (ob_clouds ySim) = 2%nat.
Proof. split; [exact yCan|]. split; [exact yUse|reflexivity]. Qed.

(** C99.  So with electromagnetic tracking the first save ends the simulation
    with an exception: a setting that is accepted at the start and asked for by
    the user cannot be honoured. *)
Theorem C99_em_refuted : exists (o : objs nat nat nat nat nat nat) factor new_state,
  in_use (Be:=nat) (Cl:=nat) (Re:=nat) factor new_state true true (ob_sc o) /\
  forall multi tEn tlife dumps, exists o', sim_state_single_save true multi tEn tlife dumps o = (o', Raised).
Proof.
  exists (mkObjs 5%nat yEmUsed 2 true [] false []), yFactor, yState. split; [exact yUseEm|].
  intros multi tEn tlife dumps. apply save_raised. intros (S & _). destruct S as (_ & S). destruct (S eq_refl) as (_ & _ & A & _). exact (A eq_refl).
Qed.
Print Assumptions C99_em_refuted.

(** C99.  A save that fails (a full disk, a missing folder) leaves the
    simulation without solver and without recorders. *)
Theorem C99_failed_refuted : exists (o : objs nat nat nat nat nat nat) o',
  savable (ob_sc o) /\ sim_state_single_save true false 0 None false o = (o', Raised) /\
  sp_pic_lu (ob_sc o') = Some None /\ map oc_saver (ob_clouds o') = [Removed; Removed].
Proof. exists ySim. destruct yFailed as (o' & H). exists o'. split; [exact yCan|exact H]. Qed.
Print Assumptions C99_failed_refuted.

(** C99.  Loading a state into a simulation whose [n] clouds have recorders: with
    [n] at most the number of saved clouds, it takes over the first [n] clouds
    and all the rest of the file, and keeps its own recorders, which go on under
    the new name; with more clouds loading raises. *)
Theorem C99_loaded : forall (Lu St Pic Be Cl Re : Type) (factor : Pic -> Lu) (new_state : Pic -> St) (o o0 : objs Lu St Pic Be Cl Re) multi tEn tlife f force name rs,
  file_of o multi tEn tlife f -> map oc_saver (ob_clouds o0) = map Saver rs ->
  ((List.length (ob_clouds o0) <= List.length (ob_clouds o))%nat ->
     exists o1 rs', load_state factor new_state force name f o0 = Some o1 /\
       taken_over factor new_state f (fun i => nth i (map Saver rs') NoSaver) (List.length (ob_clouds o0)) o1 /\
       Forall2 (goes_on force) rs rs' /\
       Forall2 (fun r r' => (name = None -> r_file r' = r_file r) /\
         (forall root ext, name = Some ("Pyecltest" ++ ext)%string -> r_file r = (root ++ ".mat")%string ->
            ~ occurs "Pyecltest" ext -> ~ occurs ".mat" root -> r_file r' = (root ++ ext ++ ".mat")%string)) rs rs') /\
  ((List.length (ob_clouds o) < List.length (ob_clouds o0))%nat -> load_state factor new_state force name f o0 = None).
Proof.
  intros Lu St Pic Be Cl Re factor new_state o o0 multi tEn tlife f force name rs FO E.
  destruct FO as (_ & _ & _ & _ & _ & _ & _ & F8 & _ & _ & _ & F12 & _).
  assert (L : List.length (ob_clouds (fi_objs f)) = List.length (ob_clouds o)) by (rewrite <- (map_length oc_rest), F8, map_length; reflexivity).
  rewrite <- L. split; [|apply load_short]. intros G.
  destruct (load_spec factor new_state force name f o0 F12 G rs E) as (o1 & rs' & A & B & C). exists o1, rs'. split; [exact A|]. split; [exact B|].
  clear - C. induction C as [|r r' l l' (H1 & H2) C (IH1 & IH2)]; [split; constructor|]. split; constructor; try assumption.
  rewrite H2. split; [intros ->; reflexivity|]. intros root ext -> RF N1 N2. rewrite RF, (before_mat root N2), (split_last_after _ _ ext N1). reflexivity.
Qed.
Print Assumptions C99_loaded.

(** C99.  Saved and loaded again, without electromagnetic tracking: the loaded
    simulation is the saved one with the recorders of the new one. *)
Theorem C99_round_trip : forall (Lu St Pic Be Cl Re : Type) (factor : Pic -> Lu) (new_state : Pic -> St) (o : objs Lu St Pic Be Cl Re) multi tEn tlife o' f,
  in_use (Be:=Be) (Cl:=Cl) (Re:=Re) factor new_state true false (ob_sc o) ->
  sim_state_single_save true multi tEn tlife true o = (o', Written f) ->
  forall force name o0 rs, List.length (ob_clouds o0) = List.length (ob_clouds o) -> map oc_saver (ob_clouds o0) = map Saver rs ->
  exists o1 rs', load_state factor new_state force name f o0 = Some o1 /\ Forall2 (goes_on force) rs rs' /\
    same_simulation (mkObjs (ob_beam o) (ob_sc o) (ob_tsc o) (ob_pres o) (ob_secs o) multi (map2 with_saver (ob_clouds o) (map Saver rs'))) o1.
Proof.
  intros Lu St Pic Be Cl Re factor new_state o multi tEn tlife o' f U V force name o0 rs L E.
  exact (round_trip factor new_state force name multi tEn tlife o f o' V U o0 rs L E).
Qed.
Print Assumptions C99_round_trip.

Example C99_loaded_case : List.length (ob_clouds yNew) = List.length (ob_clouds ySim) /\
  map oc_saver (ob_clouds yNew) = map Saver [yRec "Pyecltest_a.mat" 0%nat; yRec "Pyecltest_b.mat" 0%nat] /\
  exists o' f, sim_state_single_save true false 0 None true ySim = (o', Written f) /\
    option_map (fun o => map (fun c => match oc_saver c with Saver r => r_file r | _ => "" end) (ob_clouds o))
      (load_state yFactor yState true (Some "Pyecltest_restarted") f yNew) = Some ["Pyecltest_a_restarted.mat"; "Pyecltest_b_restarted.mat"].
Proof. split; [reflexivity|]. split; [reflexivity|]. do 2 eexists. split; [reflexivity|]. vm_compute. reflexivity. Qed.

(** C99.  With electromagnetic tracking the vector potentials do not survive. *)
Theorem C99_potentials_refuted : exists (o o0 : objs nat nat nat nat nat nat) factor new_state o' f o1,
  savable (ob_sc o) /\ sim_state_single_save true false 0 None true o = (o', Written f) /\
  load_state factor new_state true (Some "Pyecltest_restarted") f o0 = Some o1 /\
  sp_Ax (ob_sc o) = Some (Some 1%nat) /\ sp_Ax (ob_sc o1) = Some (Some 0%nat).
Proof.
  exists (yEmSim (Some (Some 0%nat))), yEmNew, yFactor, yState. destruct yLost as (o' & f & o1 & H). exists o', f, o1. split; [exact yCanEm|exact H].
Qed.
Print Assumptions C99_potentials_refuted.

(** C99.  Loading checkpoint number [i]: as before, and every recorder, after
    reading its output file, counts the next checkpoint from here and has the
    time of the energy histogram that is in the file. *)
Theorem C99_checkpoint : forall (Lu St Pic Be Cl Re : Type) (factor : Pic -> Lu) (new_state : Pic -> St) (tt : Be -> R) (output : R -> recd Re -> option (recd Re))
  (o o0 : objs Lu St Pic Be Cl Re) multi tEn tlife f i rs rs2,
  file_of o multi tEn tlife f -> (List.length (ob_clouds o0) <= List.length (ob_clouds o))%nat -> map oc_saver (ob_clouds o0) = map Saver rs ->
  Forall2 (fun r r2 => output (tt (ob_beam o)) r = Some r2) rs rs2 ->
  exists o1 rs', load_checkpoint factor new_state tt output (ck_name i) f o0 = Some o1 /\
    taken_over factor new_state f (fun k => nth k (map Saver rs') NoSaver) (List.length (ob_clouds o0)) o1 /\
    Forall2 (fun r r' => r_ick r' = S i /\ r_tck r' = tt (ob_beam o) /\ r_tEn r' = tEn /\ r_sim r' = r_sim r /\ r_file r' = r_file r /\ r_rest r' = r_rest r) rs2 rs'.
Proof.
  intros Lu St Pic Be Cl Re factor new_state tt output o o0 multi tEn tlife f i rs rs2 FO G E F.
  destruct FO as (F1 & _ & _ & _ & _ & F6 & _ & F8 & _ & _ & _ & F12 & _).
  assert (L : List.length (ob_clouds (fi_objs f)) = List.length (ob_clouds o)) by (rewrite <- (map_length oc_rest), F8, map_length; reflexivity).
  rewrite <- L in G. rewrite <- F1 in *.
  destruct (checkpoint_spec factor new_state tt output (ck_name i) i f o0 rs rs2 (number_name i) F12 G E F) as (o1 & A & B).
  exists o1, (map (at_checkpoint i (tt (ob_beam (fi_objs f))) (fi_tEn f)) rs2). split; [exact A|]. rewrite map_map. split; [exact B|].
  rewrite <- F6. clear. induction rs2 as [|r rs2 IH]; constructor; [|exact IH]. repeat split.
Qed.
Print Assumptions C99_checkpoint.

Example C99_checkpoint_case : exists o' f, sim_state_single_save true false 0 None true ySim = (o', Written f) /\ file_of ySim false 0 None f /\
  (List.length (ob_clouds yNew) <= List.length (ob_clouds ySim))%nat /\
  Forall2 (fun r r2 => (fun (t : R) r => Some r) (INR (ob_beam ySim)) r = Some r2)
    [yRec "Pyecltest_a.mat" 0%nat; yRec "Pyecltest_b.mat" 0%nat] [yRec "Pyecltest_a.mat" 0%nat; yRec "Pyecltest_b.mat" 0%nat].
Proof.
  destruct (save_ok false 0 None ySim yCan) as (o' & f & A & _ & B). exists o', f. split; [exact A|]. split; [exact B|].
  split; [apply le_n|]. repeat constructor.
Qed.

(** C99.  Between two saves.  A recomputation of the field replaces the solver
    and nothing else; with electromagnetic tracking it always finds the two
    potentials it needs, they become the old ones, component by component, and
    the new ones take their place. *)
Theorem C99_recomputation : forall (Lu St Pic Be Cl Re : Type) (factor : Pic -> Lu) (new_state : Pic -> St) lu em ax ay p (s : spc Lu St Pic),
  in_use (Be:=Be) (Cl:=Cl) (Re:=Re) factor new_state lu em s -> sp_em s = em ->
  exists s', recomputed ax ay p s = Some s' /\ sp_rest s' = p /\ sp_pic_lu s' = sp_pic_lu s /\ sp_lu s' = sp_lu s /\ sp_em s' = em /\ sp_As s' = sp_As s /\
    (em = false -> sp_Ax s' = sp_Ax s /\ sp_Ay s' = sp_Ay s /\ sp_Axo s' = sp_Axo s /\ sp_Ayo s' = sp_Ayo s) /\
    (em = true -> sp_Ax s' = Some (Some ax) /\ sp_Ay s' = Some (Some ay) /\ sp_Axo s' = sp_Ax s /\ sp_Ayo s' = sp_Ay s /\ there (sp_Axo s') /\ there (sp_Ayo s')).
Proof.
  intros Lu St Pic Be Cl Re factor new_state lu em ax ay p s U E. destruct em.
  - destruct (recompute_em factor new_state lu ax ay p s U) as (oax & oay & A & B & C). eexists. split; [exact C|]. cbn.
    rewrite A, B. do 5 (split; [reflexivity|]). split; [discriminate|]. intros _. do 4 (split; [reflexivity|]). split; unfold there; discriminate.
  - eexists. split; [exact (recompute_plain ax ay p s E)|]. cbn. do 5 (split; [reflexivity|]). split; [|discriminate].
    intros _. repeat split.
Qed.
Print Assumptions C99_recomputation.

(** C99.  Loading into a simulation with a cloud that has no recorder: with a new
    name, or with saving of states switched off (as by default), it raises;
    with neither, every cloud is taken over and what it had for a recorder
    stays. *)
Theorem C99_no_recorder : forall (Lu St Pic Be Cl Re : Type) (factor : Pic -> Lu) (new_state : Pic -> St) (o o0 : objs Lu St Pic Be Cl Re) multi tEn tlife f v,
  file_of o multi tEn tlife f -> (forall r, v <> Saver r) -> In v (map oc_saver (ob_clouds o0)) ->
  (forall name, load_state factor new_state true name f o0 = None) /\
  (forall x force, load_state factor new_state force (Some x) f o0 = None) /\
  ((List.length (ob_clouds o0) <= List.length (ob_clouds o))%nat ->
     exists o1, load_state factor new_state false None f o0 = Some o1 /\ map oc_saver (ob_clouds o1) = map oc_saver (ob_clouds o0) /\
       map oc_rest (ob_clouds o1) = firstn (List.length (ob_clouds o0)) (map oc_rest (ob_clouds o))).
Proof.
  intros Lu St Pic Be Cl Re factor new_state o o0 multi tEn tlife f v FO V H.
  destruct FO as (_ & _ & _ & _ & _ & _ & _ & F8 & _ & _ & _ & F12 & _).
  split; [intros name; exact (proj1 (load_none factor new_state name f o0 v V H))|]. split.
  - intros x [|]; [exact (proj1 (load_none factor new_state (Some x) f o0 v V H))|exact (proj2 (load_none factor new_state (Some x) f o0 v V H) x eq_refl)].
  - intros L. rewrite <- F8. apply load_as_is; [exact F12|]. rewrite <- (map_length oc_rest (ob_clouds (fi_objs f))), F8, map_length. exact L.
Qed.
Print Assumptions C99_no_recorder.

Example C99_recomputation_case : in_use (Be:=nat) (Cl:=nat) (Re:=nat) yFactor yState true true yEmUsed /\ sp_em yEmUsed = true /\
  recomputed 8%nat 9%nat 3%nat yEmUsed = Some (mkSpc (Some (Some 7%nat)) None true (Some (Some 8%nat)) (Some (Some 9%nat)) None (Some (Some 1%nat)) (Some (Some 2%nat)) 3%nat) /\
  (exists o' f, sim_state_single_save true false 0 None true ySim = (o', Written f) /\
     load_state yFactor yState true None f (mkObjs 0%nat ySc 0 false [] false [mkOcloud NoSaver 0%nat]) = None).
Proof. split; [exact yUseEm|]. split; [reflexivity|]. split; [reflexivity|]. do 2 eexists. split; reflexivity. Qed.
