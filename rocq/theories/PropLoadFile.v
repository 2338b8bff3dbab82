(** C102: reading an input file leaves no trace and does not depend on what
    other processes do. *)
From Coq Require Import List String Bool Arith Lia.
From Verif Require Import LoadFile SpecLoadFile LoadFileFacts ExLoadFile.
Import ListNotations.
Local Open Scope string_scope.

(** The call on its own, whatever is in the file system, also when the file is
    missing or raises: it gives the module of the text, or the exception; the
    temporary directory is gone and everything else is as before. *)
Theorem C102_alone : forall {M} (exec : string -> option M) p n fs, c_sdir p <> c_dir p -> 8 <= n ->
  exists fs', steps exec p n Start fs = (Done (meaning exec fs p), fs') /\ gone (c_dir p) fs' /\ same_but [c_dir p] fs fs'.
Proof. exact @alone. Qed.
Print Assumptions C102_alone.
Example C102_alone_meets : fst (steps ex_exec ex_a 8 Start ex_fs) = Done (Some (preamble ++ "T = 1")). Proof. exact ex_alone. Qed.
Example C102_alone_meets2 : fst (steps ex_exec ex_w 8 Start ex_fs) = Done None /\ isdir (snd (steps ex_exec ex_w 8 Start ex_fs)) "/tmp/PyECLOUD_9" = false. Proof. exact ex_raises. Qed.

(** Any number of processes with their own directories, any schedule: at every
    moment everything outside the temporary directories is as it was, and each
    call that has been given its eight steps has given its own result. *)
Theorem C102_schedule : forall {M} (exec : string -> option M) ps sched fs ss' fs', separate ps ->
  interleave exec ps sched (repeat Start (List.length ps)) fs = (ss', fs') ->
  same_but (map c_dir ps) fs fs' /\
  forall i p, nth_error ps i = Some p -> 8 <= count_occ Nat.eq_dec sched i ->
    nth_error ss' i = Some (Done (meaning exec fs p)) /\ gone (c_dir p) fs'.
Proof. exact @schedule_main. Qed.
Print Assumptions C102_schedule.
Example C102_schedule_meets : separate [ex_a; ex_b; ex_w]. Proof. exact ex_separate. Qed.

(** All processes are stopped at any moment: a later call with the directory of
    any of them, left as it was, still gives the right result and tidies up. *)
Theorem C102_crash : forall {M} (exec : string -> option M) ps sched fs ss' fs' p n, separate ps -> In p ps ->
  interleave exec ps sched (repeat Start (List.length ps)) fs = (ss', fs') -> 8 <= n ->
  exists fs2, steps exec p n Start fs' = (Done (meaning exec fs p), fs2) /\ gone (c_dir p) fs2.
Proof. exact @after_crash. Qed.
Print Assumptions C102_crash.
Example C102_crash_meets : let fs := snd (interleave ex_exec [ex_a; ex_b] [0; 1; 0; 1; 0] [Start; Start] ex_fs) in
  isdir fs "/tmp/PyECLOUD_7" = true /\ file fs "/tmp/PyECLOUD_7" "temp_a.py" = Some "T = 1". Proof. exact ex_crash. Qed.

(** Not so for two calls with one process number (threads, or machines that
    share [/tmp]): the first call removes the directory of the second, which
    then fails although its file is good. *)
Theorem C102_one_process_refuted : exists (exec : string -> option string) p q sched fs,
  c_dir p = c_dir q /\ c_tmp p <> c_tmp q /\ (exists m, meaning exec fs q = Some m) /\
  count_occ Nat.eq_dec sched 0 = 8 /\ count_occ Nat.eq_dec sched 1 = 8 /\
  nth_error (fst (interleave exec [p; q] sched [Start; Start] fs)) 1 = Some (Done None).
Proof. exists ex_exec, ex_a, ex_c, ex_sched, ex_fs. exact ex_clash_all. Qed.
Print Assumptions C102_one_process_refuted.
