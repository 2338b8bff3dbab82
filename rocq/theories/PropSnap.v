(** C87: states saved at requested times. C88: videos. C89: log, progress and
    stop file. *)
From Coq Require Import String Lra Lia.
From Verif Require Import Num NumFacts MP SpecMP ExMP Snap SpecSnap SnapFacts.
Local Open Scope list_scope.
Local Open Scope R_scope.

(** File k is written at the first step, after the one that wrote file k-1, at
    or after the k-th time and with macroparticles in the cloud; it holds the
    time and the macroparticles of that step. No other file is written. *)
Theorem C87_states : forall multiple cloud v l st steps, asked v l -> MP_state_init v = Some (Some st) -> (forall t s, In (t, s) steps -> wf s) ->
  let files := MP_state_run multiple cloud (Some st) steps in
  exists ns, schedule (fun k a => nth k l 0 <= fst a /\ live (snd a) <> []) (length l) steps ns /\ length files = length ns /\
    forall k n, nth_error ns k = Some n -> exists t s f, nth_error steps n = Some (t, s) /\ nth_error files k = Some (mp_state_name multiple cloud k, f) /\ holds_cloud f t s.
Proof. exact states_saved. Qed.
Print Assumptions C87_states.

(** These conditions leave one choice of steps. *)
Theorem C87_unique : forall A ok N (steps : list A) ns ns', schedule ok N steps ns -> schedule ok N steps ns' -> ns = ns'.
Proof. exact @schedule_unique. Qed.
Print Assumptions C87_unique.

(** With ordered times of which no step passes over two, and a cloud that is
    never empty: each file holds the first step at or after its time. *)
Theorem C87_on_time_partial : forall multiple cloud v l st steps k n t s, asked v l -> MP_state_init v = Some (Some st) -> (forall t s, In (t, s) steps -> wf s /\ live s <> []) ->
  apart l steps -> (forall i j, (i <= j < length l)%nat -> nth i l 0 <= nth j l 0) -> (k < length l)%nat -> first_at (nth k l 0) steps n (t, s) ->
  exists f, nth_error (MP_state_run multiple cloud (Some st) steps) k = Some (mp_state_name multiple cloud k, f) /\ holds_cloud f t s.
Proof. exact states_on_time. Qed.
Print Assumptions C87_on_time_partial.

(** States of the whole simulation: the same, and they do not wait for
    macroparticles; only the recorder of the last cloud writes them. *)
Theorem C87_simulation : forall D v l st (steps : list (R * D)), asked v l -> sim_state_init v = Some (Some st) ->
  let files := sim_state_run true (Some st) steps in
  exists ns, schedule (fun k a => nth k l 0 <= fst a) (length l) steps ns /\ files_of sim_state_name snd steps ns files.
Proof. exact @sims_saved. Qed.
Print Assumptions C87_simulation.
Theorem C87_one_recorder : forall D st (steps : list (R * D)), sim_state_run false st steps = [].
Proof. exact @sim_others. Qed.
Print Assumptions C87_one_recorder.

(** No file is overwritten by a later one or by another cloud. *)
Theorem C87_names : (forall cloud cloud' i j, mp_state_name true cloud i = mp_state_name true cloud' j -> cloud = cloud' /\ i = j) /\
  (forall cloud i j, mp_state_name false cloud i = mp_state_name false cloud j -> i = j).
Proof. exact (conj mp_names (fun cloud i j => mp_name i j cloud)). Qed.
Print Assumptions C87_names.

(** A list of times, or a file with at least two, is accepted. *)
Theorem C87_settings : forall v l, asked v l -> (forall x, l = [x] -> v = TList l) -> l <> [] -> MP_state_init v = Some (Some (mkSnaps l 0)).
Proof. exact mp_init_asked. Qed.
Print Assumptions C87_settings.
(** A file with one time is ignored without a message. *)
Theorem C87_single_refuted : exists v l, asked v l /\ l <> [] /\ MP_state_init v = Some None /\ forall multiple cloud steps, MP_state_run multiple cloud None steps = [].
Proof.
  exists (TFile [1]), [1]. split; [right; reflexivity|]. split; [discriminate|]. split; [reflexivity|]. intros multiple cloud steps. induction steps as [|[t s] r IH]; [reflexivity|exact IH].
Qed.
Print Assumptions C87_single_refuted.
(** Of two times between the same steps the second one gets the state of a later
    step. *)
Theorem C87_crowded_refuted : exists l steps n t s t' s' f, first_at (nth 1 l 0) steps n (t, s) /\ live s <> [] /\ nth_error steps (S n) = Some (t', s') /\ t < t' /\
  nth_error (MP_state_run false "e" (Some (mkSnaps l 0)) steps) 1 = Some (mp_state_name false "e" 1, f) /\ holds_cloud f t' s'.
Proof.
  set (s := sys3 2 1 1 1 false). assert (W : wf s) by (apply sys3_wf; lia). assert (L : live s <> []) by discriminate.
  exists [1; 2], [(3, s); (4, s)], 0%nat, 3, s, 4, s. eexists.
  split; [split; [reflexivity|]; cbn; split; [lra|intros; lia]|]. split; [exact L|]. split; [reflexivity|]. split; [lra|].
  split; [|apply content_holds; exact W].
  cbn [MP_state_run MP_state_save s_i s_obs length nth]. assert (N : (0 <? N_mp s)%nat = true) by reflexivity. rewrite N. cbn [andb Nat.ltb Nat.leb]. unfold Rgeb. rewrite (proj2 (Rleb_true 1 3)) by lra.
  cbn [app MP_state_run MP_state_save s_i s_obs length nth]. rewrite ?N. cbn [andb Nat.ltb Nat.leb]. unfold Rgeb. rewrite (proj2 (Rleb_true 2 4)) by lra. reflexivity.
Qed.
Print Assumptions C87_crowded_refuted.
(** Ordered times that are apart, and a cloud with macroparticles. *)
Example C87_case : exists l st steps, asked (TList l) l /\ MP_state_init (TList l) = Some (Some st) /\ (forall t s, In (t, s) steps -> wf s /\ live s <> []) /\
  apart l steps /\ (forall i j, (i <= j < length l)%nat -> nth i l 0 <= nth j l 0) /\ exists t s, first_at (nth 1 l 0) steps 1 (t, s).
Proof.
  exists [1; 3], (mkSnaps [1; 3] 0), [(2, (sys3 2 1 1 1 false)); (4, (sys3 2 1 1 1 false))]. split; [left; reflexivity|]. split; [reflexivity|]. split; [intros t s [E|[E|[]]]; injection E as _ <-; (split; [apply sys3_wf; lia|discriminate])|].
  split.
  - intros [|k] n a F K; [|cbn in K; lia]. destruct F as (F1 & F2 & F3). destruct n as [|n]; [cbn in F1; injection F1 as <-; cbn; lra|]. specialize (F3 0%nat _ ltac:(lia) eq_refl). cbn in F3. lra.
  - split; [intros [|[|i]] [|[|j]] H; cbn in *; try lia; lra|]. exists 4, (sys3 2 1 1 1 false). split; [reflexivity|]. cbn. split; [lra|]. intros [|m] b M B; [cbn in B; injection B as <-; cbn; lra|lia].
Qed.

(** The video file written when a passage starts holds, in order, the pictures
    of the steps since the passage before, this step included, with their
    times. *)
Theorem C88_frames : forall F (pre mid post : list (vstep F)) v, ends_new pre -> no_new mid -> v_new v = true ->
  nth_error (video_run None (pre ++ mid ++ v :: post)) (length pre + length mid) =
  Some [mkVfile (v_pass v - 1) (map v_t (taken (mid ++ [v]))) (map v_pic (taken (mid ++ [v])))].
Proof. exact @video_file. Qed.
Print Assumptions C88_frames.
(** Other steps write nothing. *)
Theorem C88_others : forall F (steps : list (vstep F)) n v, nth_error steps n = Some v -> v_new v = false -> forall st, nth_error (video_run st steps) n = Some [].
Proof. exact @video_none. Qed.
Print Assumptions C88_others.
(** The videos of single clouds are made in the same way. *)
Theorem C88_cloud : forall F (steps : list (vstep F)) st,
  cloud_video_run st (map (fun v => mkVstep (v_check v) (v_t v) (v_new v) (v_pass v) (Some (v_pic v))) steps) = video_run st steps.
Proof. exact @cloud_video_is. Qed.
Print Assumptions C88_cloud.
(** The folder of a video is made once and found in every later step. *)
Theorem C88_folders : forall folder kind n ds, exists ds', steps_folder (fun ds => video_folder ds folder kind) n ds = Some ds' /\ (n <> 0%nat -> dir_there ds' (folder ++ "/" ++ kind) = true).
Proof. exact video_folders. Qed.
Print Assumptions C88_folders.
(** For single clouds another folder is made than the one that is looked for,
    unless the name of the folder ends with a slash: the second step fails. *)
Theorem C88_cloud_folder_refuted : exists folder cloud, cloud_video_folder [] folder cloud <> None /\ forall n, steps_folder (fun ds => cloud_video_folder ds folder cloud) (S (S n)) [] = None.
Proof. exists "out"%string, "e"%string. split; [discriminate|]. intros n. reflexivity. Qed.
Print Assumptions C88_cloud_folder_refuted.
Theorem C88_cloud_folder : forall a cloud ds, let folder := (a ++ "/")%string in
  cloud_video_folder ds folder cloud = video_folder ds folder ("rho_video_" ++ cloud).
Proof. exact cloud_folder_slash. Qed.
Print Assumptions C88_cloud_folder.
(** Two passages with pictures. *)
Example C88_case : exists (pre mid : list (vstep nat)) v, ends_new pre /\ no_new mid /\ v_new v = true /\ length (taken (mid ++ [v])) = 2%nat /\ pre <> [].
Proof.
  exists [mkVstep true 1 true 0%Z 5%nat], [mkVstep true 2 false 0%Z 6%nat; mkVstep false 3 false 0%Z 7%nat], (mkVstep true 4 true 1%Z 8%nat).
  split; [right; exists [], (mkVstep true 1 true 0%Z 5%nat); split; reflexivity|]. split; [intros w [<-|[<-|[]]]; reflexivity|]. split; [reflexivity|]. split; [reflexivity|discriminate].
Qed.

(** While there is no stop file at the start of a passage the run goes on, and at
    each passage the recorder of each cloud saves its output (every so many
    passages), its line of the log and the progress. *)
Theorem C89_runs : forall every N clouds steps, (forall new pass w, In (new, pass, w) steps -> new = true -> p_stop w = false) ->
  passes every N clouds steps = (map (fun q => let '(new, pass, w) := q in if (new : bool) then flat_map (saves w every N pass) clouds else []) steps, true).
Proof. exact passes_go. Qed.
Print Assumptions C89_runs.
(** The run stops at the first passage at which there is a stop file, after the
    first cloud has saved its output, log and progress. *)
Theorem C89_stops : forall every N c clouds pre pass w post, (forall new pass w, In (new, pass, w) pre -> new = true -> p_stop w = false) -> p_stop w = true ->
  exists evs, passes every N (c :: clouds) pre = (evs, true) /\ passes every N (c :: clouds) (pre ++ (true, pass, w) :: post) = (evs ++ [saves w every N pass c], false).
Proof. exact passes_stop. Qed.
Print Assumptions C89_stops.
(** With more clouds the others do not save the last passage. *)
Theorem C89_other_clouds_refuted : exists c c' pass w, let '(evs, go) := passes 1 10 [c; c'] [(true, pass, w)] in
  go = false /\ In (POutput c pass) (concat evs) /\ ~ In (POutput c' pass) (concat evs).
Proof.
  exists 0%nat, 1%nat, 3%Z, (mkPworld true true true). cbn. split; [reflexivity|]. split; [auto|]. intros [E|[E|[E|[]]]]; discriminate.
Qed.
Print Assumptions C89_other_clouds_refuted.
(** A run of three steps that is stopped, with a log that cannot be written. *)
Example C89_case : exists steps, passes 1 10 [0%nat] steps = ([[POutput 0 0; PProgress (0 / 10)]; []; [POutput 0 1; PLog 0 1; PProgress (1 / 10)]], false).
Proof. exists [(true, 0%Z, mkPworld false true false); (false, 0%Z, mkPworld true true true); (true, 1%Z, mkPworld true true true); (true, 2%Z, mkPworld true true false)]. reflexivity. Qed.
