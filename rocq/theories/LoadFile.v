(** Reading of a python input file through a temporary copy:
    input_parameters_format_specification.py:118-156.  No proofs in this file. *)
From Coq Require Import List String Bool Arith.
Import ListNotations.
Local Open Scope string_scope.

(** The file system as far as it matters: which directories exist and what the
    files in them hold. *)
Record fsys := mkFs { isdir : string -> bool; file : string -> string -> option string }.

Definition set_dir (fs : fsys) (d : string) : fsys := mkFs (fun e => if String.eqb e d then true else isdir fs e) (file fs).
Definition write (fs : fsys) (d n c : string) : fsys :=
  mkFs (isdir fs) (fun e m => if String.eqb e d && String.eqb m n then Some c else file fs e m).
(** [shutil.rmtree]. *)
Definition rmtree (fs : fsys) (d : string) : fsys :=
  mkFs (fun e => if String.eqb e d then false else isdir fs e) (fun e m => if String.eqb e d then None else file fs e m).

Section Load.
Context {M : Type}.
(** [spec.loader.exec_module] (and [imp.load_source]): the module that the text
    of a file gives, [None] if it raises.  A simplification: the text does not
    itself write files. *)
Variable exec : string -> option M.

(** Where a call stands.  The lines of the function are its steps; other
    processes can run in between. *)
Inductive pc :=
| Start                 (* line 127 *)
| ToMake                (* line 128 *)
| Made                  (* line 132 *)
| Copied                (* lines 135-136 *)
| HaveText (c : string) (* lines 137-139 *)
| Written               (* lines 141-152 *)
| Ran (m : M)           (* line 154, after the last line of the try *)
| Raised                (* line 154, after an exception *)
| Done (r : option M).  (* line 156, or the exception has left the function *)

(** One call: directory from the process number (line 125), name of the copy
    from the clock (line 131), directory and name of the file to read. *)
Record call := mkCall { c_dir : string; c_tmp : string; c_sdir : string; c_sname : string }.

(** Line 138: numpy's [pi] is made available in the file. *)
Definition preamble : string := "from numpy import pi

".

(** Lines 127-156, one step.  Opening or copying into a directory that is not
    there raises, and so does removing it. *)
Definition step (p : call) (s : pc) (fs : fsys) : pc * fsys :=
  match s with
  | Start => (if isdir fs (c_dir p) then Made else ToMake, fs)
  | ToMake => if isdir fs (c_dir p) then (Done None, fs) else (Made, set_dir fs (c_dir p))
  | Made =>
      match file fs (c_sdir p) (c_sname p) with
      | Some c => if isdir fs (c_dir p) then (Copied, write fs (c_dir p) (c_tmp p) c) else (Raised, fs)
      | None => (Raised, fs)
      end
  | Copied => (match file fs (c_dir p) (c_tmp p) with Some c => HaveText c | None => Raised end, fs)
  | HaveText c => if isdir fs (c_dir p) then (Written, write fs (c_dir p) (c_tmp p) (preamble ++ c)) else (Raised, fs)
  | Written =>
      (match file fs (c_dir p) (c_tmp p) with
       | Some c => match exec c with Some m => Ran m | None => Raised end
       | None => Raised
       end, fs)
  | Ran m => if isdir fs (c_dir p) then (Done (Some m), rmtree fs (c_dir p)) else (Done None, fs)
  | Raised => (Done None, if isdir fs (c_dir p) then rmtree fs (c_dir p) else fs)
  | Done r => (Done r, fs)
  end.

(** The call on its own: [n] steps. *)
Fixpoint steps (p : call) (n : nat) (s : pc) (fs : fsys) : pc * fsys :=
  match n with
  | O => (s, fs)
  | S n' => let (s', fs') := step p s fs in steps p n' s' fs'
  end.

(** Several calls at once: the schedule says whose step is next. *)
Definition set_nth {A} (i : nat) (x : A) (l : list A) : list A :=
  map (fun '(j, y) => if Nat.eqb j i then x else y) (combine (seq 0 (List.length l)) l).
Fixpoint interleave (ps : list call) (sched : list nat) (ss : list pc) (fs : fsys) : list pc * fsys :=
  match sched with
  | [] => (ss, fs)
  | i :: sched' =>
      match nth_error ps i, nth_error ss i with
      | Some p, Some s => let (s', fs') := step p s fs in interleave ps sched' (set_nth i s' ss) fs'
      | _, _ => interleave ps sched' ss fs
      end
  end.
End Load.
Arguments pc : clear implicits.
