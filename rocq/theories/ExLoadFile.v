(** Examples for reading input files (C102). *)
From Coq Require Import List String Bool Arith Lia.
From Verif Require Import LoadFile SpecLoadFile.
Import ListNotations.
Local Open Scope string_scope.

(** A folder with two files; the text "bad" raises. *)
Definition ex_fs : fsys :=
  mkFs (fun d => String.eqb d "in")
       (fun d n => if String.eqb d "in" then if String.eqb n "beam" then Some "T = 1" else if String.eqb n "mach" then Some "B = 2" else if String.eqb n "wrong" then Some "bad" else None else None).
Definition ex_exec (c : string) : option string := if String.eqb c (preamble ++ "bad") then None else Some c.
Definition ex_a : call := mkCall "/tmp/PyECLOUD_7" "temp_a.py" "in" "beam".
Definition ex_b : call := mkCall "/tmp/PyECLOUD_8" "temp_b.py" "in" "mach".
Definition ex_c : call := mkCall "/tmp/PyECLOUD_7" "temp_c.py" "in" "mach".
Definition ex_w : call := mkCall "/tmp/PyECLOUD_9" "temp_d.py" "in" "wrong".

Lemma ex_separate : separate [ex_a; ex_b; ex_w].
Proof.
  split; [|cbn; intros p q; intuition (subst; cbn; discriminate)].
  cbn. repeat constructor; cbn; intuition discriminate.
Qed.
Lemma ex_alone : fst (steps ex_exec ex_a 8 Start ex_fs) = Done (Some (preamble ++ "T = 1")).
Proof. reflexivity. Qed.
Lemma ex_raises : fst (steps ex_exec ex_w 8 Start ex_fs) = Done None /\ isdir (snd (steps ex_exec ex_w 8 Start ex_fs)) "/tmp/PyECLOUD_9" = false.
Proof. split; reflexivity. Qed.
(** A crash after the copy: the directory and the copy are left. *)
Lemma ex_crash : let fs := snd (interleave ex_exec [ex_a; ex_b] [0; 1; 0; 1; 0] [Start; Start] ex_fs) in
  isdir fs "/tmp/PyECLOUD_7" = true /\ file fs "/tmp/PyECLOUD_7" "temp_a.py" = Some "T = 1".
Proof. split; reflexivity. Qed.

(** Two calls of one process, the second started before the first has ended. *)
Definition ex_sched : list nat := [0; 0; 1; 0; 0; 0; 0; 0; 0; 1; 1; 1; 1; 1; 1; 1].
Lemma ex_clash : fst (interleave ex_exec [ex_a; ex_c] ex_sched [Start; Start] ex_fs) = [Done (Some (preamble ++ "T = 1")); Done None].
Proof. reflexivity. Qed.
Lemma ex_clash_all : c_dir ex_a = c_dir ex_c /\ c_tmp ex_a <> c_tmp ex_c /\
  (exists m, meaning ex_exec ex_fs ex_c = Some m) /\ count_occ Nat.eq_dec ex_sched 0 = 8 /\ count_occ Nat.eq_dec ex_sched 1 = 8 /\
  nth_error (fst (interleave ex_exec [ex_a; ex_c] ex_sched [Start; Start] ex_fs)) 1 = Some (Done None).
Proof. repeat split; [discriminate|eexists; reflexivity]. Qed.
