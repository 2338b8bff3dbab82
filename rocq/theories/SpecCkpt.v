(** What is meant by a usable checkpoint: histories of runs, each stopped at any
    point, on one file system. *)
From Coq Require Import String Ascii.
From Verif Require Import Num Ckpt.
Local Open Scope string_scope.
Local Open Scope list_scope.

(** Where the outputs are: main outputs and copies. *)
Definition paths (c : kcfg) : list string :=
  flat_map (fun o => fst o :: match snd o with Some p => [p] | None => [] end) (k_outs c).
(** The one of them that a new run reads. *)
Definition read_path (out : string * option string) : string := match snd out with Some p => p | None => fst out end.

(** Checkpoints are switched on, the folder is written with a final "/" and
    holds none of the outputs, which are different files. *)
Record ck_ok (c : kcfg) (dir : string) (DT : R) : Prop := mkCkOk {
  cko_DT : k_DT c = Some DT;
  cko_dir : k_dir c = Some dir;
  cko_slash : exists d, dir = (d ++ "/")%string;
  cko_outs : k_outs c <> [];
  cko_outside : forall p, In p (paths c) -> strip dir p = None;
  cko_nodup : NoDup (paths c);
  cko_copy : k_copyDT c <> None -> forall o, In o (k_outs c) -> snd o <> None }.

Section Hist.
Context {D M S : Type}.
Variable restore : M -> R -> option S.
Variable c : kcfg.
Notation op := (op D M).
Notation fsys := (fsys D M).
Notation passage := (passage D M).

(** The file operations of a run from the file system [fs] that lives through
    the passages [vs]. *)
Definition ops_of (fs : fsys) (vs : list passage) : option (list op) :=
  do (_, ss) <- new_run restore c fs ; Some (fst (run_ops c vs ss)).

(** Histories: nothing yet, or a run after another history, killed after [n] of
    its file operations.  The log is the list of operations done so far. *)
Inductive lives : fsys -> list op -> Prop :=
| born : lives [] []
| lived fs log vs os n fs' :
    lives fs log -> ops_of fs vs = Some os -> Forall (fun v => length (v_outs v) = length (k_outs c)) vs ->
    exec fs (firstn n os) = Some fs' -> lives fs' (log ++ firstn n os).

(** The same with runs that are only killed between passages. *)
Inductive lives_between : fsys -> list op -> Prop :=
| born_b : lives_between [] []
| lived_b fs log vs os fs' :
    lives_between fs log -> ops_of fs vs = Some os -> Forall (fun v => length (v_outs v) = length (k_outs c)) vs ->
    exec fs os = Some fs' -> lives_between fs' (log ++ os).

(** The checkpoint completed last. *)
Definition newest (log : list op) : option (string * R * D) :=
  fold_left (fun a o => match o with Fill p (Pkl t d) => Some (p, t, d) | _ => a end) log None.

(** A file that was begun and not finished. *)
Definition upd {A} (h : string -> A) (q : string) (b : A) : string -> A := fun p => if String.eqb q p then b else h p.
Definition half_step (h : string -> bool) (o : op) : string -> bool :=
  match o with
  | Trunc q => upd h q true
  | Fill q Broken => upd h q true
  | Fill q _ => upd h q false
  | Del q => upd h q false
  | Copy0 _ q => upd h q true
  | Copy1 s q => upd h q (h s)
  end.
Definition half (log : list op) (p : string) : bool := fold_left half_step log (fun _ => false) p.

(** A checkpoint after the first was begun, and the one before it has not been
    removed. *)
Definition pend_step (dir : string) (b : bool) (o : op) : bool :=
  match o with
  | Trunc p => match strip dir p with Some n => if String.eqb n (ck_name 0) then b else true | None => b end
  | Del _ => false
  | _ => b
  end.
Definition two_checkpoints (dir : string) (log : list op) : bool := fold_left (pend_step dir) log false.

(** No operation has written the file. *)
Definition writes_to (p : string) (o : op) : bool :=
  match o with Trunc q | Fill q _ | Copy0 _ q | Copy1 _ q => String.eqb q p | Del _ => false end.
Definition never_written (log : list op) (p : string) : Prop := existsb (writes_to p) log = false.
End Hist.

(** The passages at which a checkpoint is due: the first ones at least [DT]
    after the one before. *)
Fixpoint due {D M : Type} (DT t0 : R) (vs : list (passage D M)) : list (passage D M) :=
  match vs with
  | [] => []
  | v :: vs' => if Rleb (t0 + DT) (v_t v) then v :: due DT (v_t v) vs' else due DT t0 vs'
  end.

(** The checkpoints completed, in order. *)
Definition checkpoints {D M : Type} (log : list (op D M)) : list (string * R * D) :=
  flat_map (fun o => match o with Fill p (Pkl t d) => [(p, t, d)] | _ => [] end) log.
(** The time of the last one, and how many there are. *)
Definition last_time {D M : Type} (log : list (op D M)) : R := match newest log with Some (_, t, _) => t | None => 0 end.

(** Consecutive numbers from [i], each at least [DT] after the one before. *)
Fixpoint spaced {D : Type} (dir : string) (DT : R) (i : nat) (t0 : R) (l : list (string * R * D)) : Prop :=
  match l with
  | [] => True
  | (p, t, _) :: l' => p = (dir ++ ck_name i)%string /\ t0 + DT <= t /\ spaced dir DT (S i) t l'
  end.

(** Saving is asked for without saying where. *)
Definition nowhere (c : kcfg) : Prop :=
  exists out, In out (k_outs c) /\ ((k_DT c <> None /\ k_dir c = None) \/ (k_copyDT c <> None /\ snd out = None)).
