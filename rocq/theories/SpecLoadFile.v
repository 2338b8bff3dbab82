(** Specification side of reading an input file (C102). *)
From Coq Require Import List String Bool Arith.
From Verif Require Import LoadFile.
Import ListNotations.

(** What reading the file should give: the module of its text with [pi]
    available, or an exception if there is no such file or it raises. *)
Definition meaning {M} (exec : string -> option M) (fs : fsys) (p : call) : option M :=
  match file fs (c_sdir p) (c_sname p) with
  | Some text => exec (String.append "from numpy import pi

" text)
  | None => None
  end.

(** [fs'] is [fs] but for the directories [ds]. *)
Definition same_but (ds : list string) (fs fs' : fsys) : Prop :=
  forall e, ~ In e ds -> isdir fs' e = isdir fs e /\ forall n, file fs' e n = file fs e n.
(** No trace of the directory. *)
Definition gone (d : string) (fs : fsys) : Prop := isdir fs d = false /\ forall n, file fs d n = None.

(** The directories of the calls are different and hold none of the input files. *)
Definition separate (ps : list call) : Prop :=
  NoDup (map c_dir ps) /\ forall p q, In p ps -> In q ps -> c_sdir p <> c_dir q.
