(** Checkpoints: C28, C64. *)
From Coq Require Import String Ascii.
From Verif Require Import Num Ckpt SpecCkpt CkptFacts CkptFacts3 CkptFacts4 CkptFacts5 ExCkpt.
Local Open Scope string_scope.
Local Open Scope list_scope.

(** ** C28 *)

(** Whatever the runs so far, each killed at any point: the checkpoint completed
    last is in the folder, complete. *)
Theorem C28_kept : forall (D M S : Type) (restore : M -> R -> option S) (c : kcfg) (dir : string) (DT : R),
  ck_ok c dir DT ->
  forall (fs : fsys D M) (log : list (op D M)) (p : string) (t : R) (d : D),
  lives restore c fs log -> newest log = Some (p, t, d) ->
  exists i, p = (dir ++ ck_name i)%string /\ fget fs p = Some (Pkl t d) /\
    In (ck_name i) (listdir fs dir) /\ (length (listdir fs dir) <= 2)%nat.
Proof. exact @kept. Qed.
Print Assumptions C28_kept.

Example C28_kept_ex : ck_ok (kC 1 "ck/") "ck/" 1 /\ lives kR (kC 1 "ck/") kFs8 (firstn 8 (kOps "ck/")) /\
  newest (firstn 8 (kOps "ck/")) = Some (("ck/" ++ ck_name 1)%string, 2, 20%nat).
Proof. split; [apply kC_ok|]. split; [apply kLives8|reflexivity]. Qed.

(** It is accepted, except at exactly these points: a new checkpoint was begun
    and the one before it is still there, or an output that is read again is
    half-written or was never written. *)
Theorem C28_refused : forall (D M S : Type) (restore : M -> R -> option S) (c : kcfg) (dir : string) (DT : R),
  ck_ok c dir DT -> (forall m t, restore m t <> None) ->
  forall (fs : fsys D M) (log : list (op D M)) (x : string * R * D),
  lives restore c fs log -> newest log = Some x ->
  (new_run restore c fs = None <->
     two_checkpoints dir log = true \/
     exists o, In o (k_outs c) /\ (half log (read_path o) = true \/ never_written log (read_path o))).
Proof. exact @refused. Qed.
Print Assumptions C28_refused.

Example C28_refused_ex : lives kR (kC 1 "ck/") kFs9 (kOps "ck/") /\ newest (kOps "ck/") <> None /\
  two_checkpoints "ck/" (kOps "ck/") = false /\ half (kOps "ck/") "out.mat" = false /\ ~ never_written (kOps "ck/") "out.mat".
Proof. split; [apply kLives9|]. split; [discriminate|]. split; [reflexivity|]. split; [reflexivity|discriminate]. Qed.

(** Runs that are only killed between passages, with the output written at every
    passage: a new run continues from the checkpoint completed last, or starts
    afresh when there is none.  Missing: kills during a passage. *)
Theorem C28_between_partial : forall (D M S : Type) (restore : M -> R -> option S) (c : kcfg) (dir : string) (DT : R),
  ck_ok c dir DT -> k_every c = 1%Z -> (forall m t, restore m t <> None) ->
  forall (fs : fsys D M) (log : list (op D M)), lives_between restore c fs log ->
  exists st ss, new_run restore c fs = Some (st, ss) /\
    match newest log, st with
    | None, Fresh => True
    | Some (_, t, d), Resumed t' d' svs => t' = t /\ d' = d /\ length svs = length (k_outs c)
    | _, _ => False
    end.
Proof. exact @between_accepted. Qed.
Print Assumptions C28_between_partial.

Example C28_between_ex : k_every (kC 1 "ck/") = 1%Z /\ lives_between kR (kC 1 "ck/") kFs9 (kOps "ck/") /\
  new_run kR (kC 1 "ck/") kFs9 = Some (Resumed 2 20%nat [200%nat], [mkKst 2 2 0]).
Proof. split; [reflexivity|]. split; [apply kBetween|reflexivity]. Qed.

(** A run that is accepted never fails on one of these files. *)
Theorem C28_no_failure : forall (D M S : Type) (restore : M -> R -> option S) (c : kcfg) (dir : string) (DT : R),
  ck_ok c dir DT -> k_every c = 1%Z ->
  forall (fs : fsys D M) (log : list (op D M)) (vs : list (passage D M)) (os : list (op D M)),
  lives restore c fs log -> ops_of restore c fs vs = Some os ->
  Forall (fun v => length (v_outs v) = length (k_outs c)) vs -> exists fs', exec fs os = Some fs'.
Proof. exact @no_failure. Qed.
Print Assumptions C28_no_failure.

(** The claim is false at every one of those points: the run is killed before
    the old checkpoint is removed, ... *)
Theorem C28_two_refuted : exists (c : kcfg) (dir : string) (restore : nat -> R -> option nat) (fs : fsys nat nat) (log : list (op nat nat)),
  ck_ok c dir 1 /\ k_every c = 1%Z /\ (forall m t, restore m t <> None) /\ lives restore c fs log /\
  newest log <> None /\ (forall p, half log p = false) /\ new_run restore c fs = None.
Proof.
  exists (kC 1 "ck/"), "ck/", kR, kFs8, (firstn 8 (kOps "ck/")). split; [apply kC_ok|]. split; [reflexivity|]. split; [apply kC_readable|].
  split; [apply kLives8|]. split; [discriminate|]. split; [|reflexivity].
  intros p. unfold half. cbn -[ck_name append]. unfold upd. repeat match goal with |- context [String.eqb ?a ?b] => destruct (String.eqb a b) end; reflexivity.
Qed.
Print Assumptions C28_two_refuted.

(** ... or while an output is written (no checkpoint is being written), ... *)
Theorem C28_output_refuted : exists (c : kcfg) (dir : string) (restore : nat -> R -> option nat) (fs : fsys nat nat) (log : list (op nat nat)),
  ck_ok c dir 1 /\ k_every c = 1%Z /\ (forall m t, restore m t <> None) /\ lives restore c fs log /\
  newest log <> None /\ length (listdir fs dir) = 1%nat /\ new_run restore c fs = None.
Proof.
  exists (kC 1 "ck/"), "ck/", kR, kFs5, (firstn 5 (kOps "ck/")). split; [apply kC_ok|]. split; [reflexivity|]. split; [apply kC_readable|].
  split; [apply kLives5|]. split; [discriminate|]. split; reflexivity.
Qed.
Print Assumptions C28_output_refuted.

(** ... or, with copies, after the first checkpoint and before the first copy, ... *)
Theorem C28_copy_refuted : exists (c : kcfg) (dir : string) (restore : nat -> R -> option nat) (fs : fsys nat nat) (log : list (op nat nat)),
  ck_ok c dir 1 /\ k_every c = 1%Z /\ (forall m t, restore m t <> None) /\ lives restore c fs log /\
  newest log <> None /\ length (listdir fs dir) = 1%nat /\ (forall p, half log p = false) /\ new_run restore c fs = None.
Proof.
  exists kC2, "ck/", kR, kFsC, (firstn 8 kOpsC). split; [apply kC2_ok|]. split; [reflexivity|]. split; [apply kC_readable|].
  split; [apply kLivesC|]. split; [discriminate|]. split; [reflexivity|]. split; [|reflexivity].
  intros p. unfold half. cbn -[ck_name append]. unfold upd. repeat match goal with |- context [String.eqb ?a ?b] => destruct (String.eqb a b) end; reflexivity.
Qed.
Print Assumptions C28_copy_refuted.

(** ... or even between passages, when the output is not written at every
    passage. *)
Theorem C28_every_refuted : exists (c : kcfg) (dir : string) (restore : nat -> R -> option nat) (fs : fsys nat nat) (log : list (op nat nat)),
  ck_ok c dir 1 /\ (forall m t, restore m t <> None) /\ lives_between restore c fs log /\
  newest log <> None /\ new_run restore c fs = None.
Proof.
  exists (kC 2 "ck/"), "ck/", kR, kFs2, kOps2. split; [apply kC_ok|]. split; [apply kC_readable|].
  split; [apply kBetween2|]. split; [discriminate|]. reflexivity.
Qed.
Print Assumptions C28_every_refuted.

(** When the folder is written without a final "/", no run ever continues from a
    checkpoint, whatever the history. *)
Theorem C28_no_slash : forall (D M S : Type) (restore : M -> R -> option S) (c : kcfg) (dir : string),
  k_dir c = Some dir -> after_last "/" dir <> "" ->
  (forall p, In p (paths c) -> strip (dir ++ "/") p = None) ->
  (k_copyDT c <> None -> forall o, In o (k_outs c) -> snd o <> None) ->
  forall (fs : fsys D M) (log : list (op D M)), lives restore c fs log ->
  exists ss, new_run restore c fs = Some (Fresh, ss).
Proof. exact @no_slash. Qed.
Print Assumptions C28_no_slash.

Example C28_no_slash_ex : k_dir (kC 1 "ck") = Some "ck" /\ after_last "/" "ck" <> "" /\
  (forall p, In p (paths (kC 1 "ck")) -> strip ("ck" ++ "/") p = None) /\
  lives kR (kC 1 "ck") kFs9' (kOps "ck") /\ newest (kOps "ck") = Some (("ck" ++ ck_name 1)%string, 2, 20%nat).
Proof.
  split; [reflexivity|]. split; [discriminate|]. split; [intros p [<-|[]]; reflexivity|]. split; [apply kLives9'|reflexivity].
Qed.

(** ** C64 *)

(** The number in the name of a checkpoint is read back. *)
Theorem C64_number : forall i, ck_number (ck_name i) = Some i.
Proof. exact number_name. Qed.
Print Assumptions C64_number.

(** Over all the runs, each killed at any point, the checkpoints are numbered
    from 0 without gaps and each is at least [DT] after the one before. *)
Theorem C64_spaced : forall (D M S : Type) (restore : M -> R -> option S) (c : kcfg) (dir : string) (DT : R),
  ck_ok c dir DT ->
  forall (fs : fsys D M) (log : list (op D M)), lives restore c fs log -> spaced dir DT 0 0 (checkpoints log).
Proof. exact @checkpoints_spaced. Qed.
Print Assumptions C64_spaced.

Example C64_spaced_ex : lives kR (kC 1 "ck/") kFs9 (kOps "ck/") /\
  checkpoints (kOps "ck/") = [(("ck/" ++ ck_name 0)%string, 1, 10%nat); (("ck/" ++ ck_name 1)%string, 2, 20%nat)].
Proof. split; [apply kLives9|reflexivity]. Qed.

(** A run makes a checkpoint at exactly the passages that are due, counting from
    the time of the last checkpoint of the runs before it. *)
Theorem C64_due : forall (D M S : Type) (restore : M -> R -> option S) (c : kcfg) (dir : string) (DT : R),
  ck_ok c dir DT ->
  forall (fs : fsys D M) (log : list (op D M)) (vs : list (passage D M)) (os : list (op D M)),
  lives restore c fs log -> ops_of restore c fs vs = Some os ->
  Forall (fun v => length (v_outs v) = length (k_outs c)) vs ->
  let ds := due DT (last_time log) vs in
  checkpoints os = map (fun q => ((dir ++ ck_name (fst q))%string, v_t (snd q), v_state (snd q)))
                       (combine (seq (length (checkpoints log)) (length ds)) ds).
Proof.
  intros D M S restore c dir DT ok fs log vs os L O V ds.
  exact (checkpoints_due restore c dir DT ok fs log vs os L O V (checkpoints_spaced restore c dir DT ok fs log L)).
Qed.
Print Assumptions C64_due.

Example C64_due_ex : lives kR (kC 1 "ck/") ([] : fsys nat nat) ([] : list (op nat nat)) /\ ops_of kR (kC 1 "ck/") [] [kV1; kV2] = Some (kOps "ck/") /\
  Forall (fun v => length (v_outs v) = length (k_outs (kC 1 "ck/"))) [kV1; kV2].
Proof. split; [constructor|]. split; [apply kOps_run|]. repeat constructor. Qed.

(** A run that is to save checkpoints or copies without being told where does
    not start; without files from earlier runs that is the only reason. *)
Theorem C64_nowhere : forall (D M S : Type) (restore : M -> R -> option S) c,
  (nowhere c -> forall fs : fsys D M, new_run restore c fs = None) /\ (new_run restore c ([] : fsys D M) = None -> nowhere c).
Proof. exact @nowhere_refused. Qed.
Print Assumptions C64_nowhere.

Example C64_nowhere_ex : nowhere (mkKcfg (Some 1) None None 1 [("out.mat", None)]) /\ ~ nowhere (kC 1 "ck/").
Proof.
  split; [exists ("out.mat", None); split; [left; reflexivity|left; split; [discriminate|reflexivity]]|].
  intros (out & _ & [[_ H]|[H _]]); [discriminate|apply H; reflexivity].
Qed.
