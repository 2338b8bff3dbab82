(** Model of the checkpoints: pyecloud_saver.py:510-574 and 300-317, and the
    start of a run in buildup_simulation.py:113-129 and 476-547.  No proofs in
    this file.

    A file operation that a crash can interrupt is two operations here: the
    file is first truncated, then complete.  Directories are not modelled
    (missing and empty folders both start a new simulation); paths are strings
    and each file has one path. *)
From Coq Require Import String Ascii DecimalString.
From Verif Require Import Num.
Local Open Scope string_scope.
Local Open Scope list_scope.

(** * Names *)

Fixpoint strip (pre s : string) : option string :=
  match pre, s with
  | EmptyString, _ => Some s
  | String a pre', String b s' => if Ascii.eqb a b then strip pre' s' else None
  | String _ _, EmptyString => None
  end.

(** [s.split(sub)[0]]. *)
Fixpoint before (sub s : string) : string :=
  match strip sub s with
  | Some _ => EmptyString
  | None => match s with EmptyString => EmptyString | String a s' => String a (before sub s') end
  end.

Fixpoint has (c : ascii) (s : string) : bool :=
  match s with EmptyString => false | String a s' => Ascii.eqb a c || has c s' end.

(** [s.split(c)[-1]]. *)
Fixpoint after_last (c : ascii) (s : string) : string :=
  if has c s then match s with EmptyString => EmptyString | String _ s' => after_last c s' end else s.

(** pyecloud_saver.py:533 and 542: ['simulation_checkpoint_%d.pkl' % i]. *)
Definition ck_name (i : nat) : string :=
  ("simulation_checkpoint_" ++ NilZero.string_of_uint (Nat.to_uint i) ++ ".pkl")%string.

(** buildup_simulation.py:535.  Only digits are accepted here ([int] also takes
    signs, blanks and underscores). *)
Definition ck_number (name : string) : option nat :=
  do d <- NilZero.uint_of_string (after_last "_" (before ".pkl" name)) ; Some (Nat.of_uint d).

(** * Files *)
Section Files.
Context {D M : Type}.

(** [Broken]: truncated or half written.  [Pkl t d]: a pickled state with time
    [t].  [Mat m]: a main output file. *)
Inductive file := Broken | Pkl (t : R) (d : D) | Mat (m : M).
Definition fsys := list (string * file).

Fixpoint fget (fs : fsys) (p : string) : option file :=
  match fs with [] => None | (q, f) :: fs' => if String.eqb q p then Some f else fget fs' p end.
Fixpoint fput (fs : fsys) (p : string) (f : file) : fsys :=
  match fs with
  | [] => [(p, f)]
  | (q, g) :: fs' => if String.eqb q p then (p, f) :: fs' else (q, g) :: fput fs' p f
  end.
Definition fdel (fs : fsys) (p : string) : fsys := filter (fun q => negb (String.eqb (fst q) p)) fs.

(** [os.listdir] of a folder that holds only files. *)
Definition as_dir (dir : string) : string :=
  if String.eqb (after_last "/" dir) "" then dir else (dir ++ "/")%string.
Definition listdir (fs : fsys) (dir : string) : list string :=
  flat_map (fun q => match strip (as_dir dir) (fst q) with
                     | Some n => if has "/" n then [] else [n]
                     | None => [] end) fs.

(** [Copy0], [Copy1]: [shutil.copy], which opens the source first. *)
Inductive op := Trunc (p : string) | Fill (p : string) (f : file) | Del (p : string)
  | Copy0 (src dst : string) | Copy1 (src dst : string).
Definition op_do (fs : fsys) (o : op) : option fsys :=
  match o with
  | Trunc p => Some (fput fs p Broken)
  | Fill p f => Some (fput fs p f)
  | Del p => do _ <- fget fs p ; Some (fdel fs p)
  | Copy0 s d => do _ <- fget fs s ; Some (fput fs d Broken)
  | Copy1 s d => do f <- fget fs s ; Some (fput fs d f)
  end.
(** Operations in order; [None]: one of them raises. *)
Fixpoint exec (fs : fsys) (os : list op) : option fsys :=
  match os with [] => Some fs | o :: os' => do fs <- op_do fs o ; exec fs os' end.

(** * Savers *)

(** [checkpoint_DT] ([None] also for -1), [checkpoint_folder],
    [copy_main_outp_DT] ([None] also for negative integers), [save_mat_every],
    and for each cloud the main output file and its copy in
    [copy_main_outp_folder]. *)
Record kcfg := mkKcfg {
  k_DT : option R; k_dir : option string; k_copyDT : option R; k_every : Z; k_outs : list (string * option string) }.
(** [i_checkp], [t_last_checkp], [t_last_copy] of one saver. *)
Record kst := mkKst { k_i : nat; k_t : R; k_tc : R }.

(** pyecloud_saver.py:510-525, 553-569.  [None]: ValueError. *)
Definition saver_init (c : kcfg) (out : string * option string) : option kst :=
  match k_DT c, k_dir c with
  | Some _, None => None
  | _, _ => match k_copyDT c, snd out with Some _, None => None | _, _ => Some (mkKst 0 0 0) end
  end.
Fixpoint mapM {A B} (f : A -> option B) (l : list A) : option (list B) :=
  match l with [] => Some [] | x :: l' => do y <- f x ; do r <- mapM f l' ; Some (y :: r) end.

(** Lines 549-551. *)
Definition copy_out (out : string * option string) : list op :=
  match snd out with None => [] | Some c => [Copy0 (fst out) c; Copy1 (fst out) c] end.

(** Lines 527-547.  [last]: [flag_last_cloud] (only that saver writes the state,
    lines 956 and 541). *)
Definition checkpoint_save (c : kcfg) (last : bool) (out : string * option string) (t : R) (d : D) (s : kst) : list op * kst :=
  match k_DT c, k_dir c with
  | Some DT, Some dir =>
      if Rgeb (t - k_t s) DT then
        let path := (dir ++ ck_name (k_i s))%string in
        let write := if last then [Trunc path; Fill path (Pkl t d)] else [] in
        let remove := if (0 <? k_i s)%nat && last then [Del (dir ++ ck_name (k_i s - 1))%string] else [] in
        (write ++ copy_out out ++ remove, mkKst (S (k_i s)) t (match snd out with Some _ => t | None => k_tc s end))
      else ([], s)
  | _, _ => ([], s)
  end.

(** Lines 571-574. *)
Definition copy_save (c : kcfg) (out : string * option string) (t : R) (s : kst) : list op * kst :=
  match k_copyDT c with
  | Some D => if Rgeb (t - k_tc s) D then (copy_out out, mkKst (k_i s) (k_t s) t) else ([], s)
  | None => ([], s)
  end.

(** A passage: time, number, state of the simulation and output of each
    cloud. *)
Record passage := mkPassage { v_t : R; v_pass : Z; v_state : D; v_outs : list M }.

(** Lines 310-317. *)
Definition witness_ops (c : kcfg) (last : bool) (out : string * option string) (v : passage) (m : M) (s : kst) : list op * kst :=
  let mat := if ((v_pass v + 1) mod k_every c =? 0)%Z then [Trunc (fst out); Fill (fst out) (Mat m)] else [] in
  let '(ck, s) := checkpoint_save c last out (v_t v) (v_state v) s in
  let '(cp, s) := copy_save c out (v_t v) s in
  (mat ++ ck ++ cp, s).

(** buildup_simulation.py:429-455 on a passage: the clouds in order. *)
Fixpoint passage_ops (c : kcfg) (v : passage) (outs : list (string * option string)) (ms : list M) (ss : list kst) : list op * list kst :=
  match outs, ms, ss with
  | out :: outs', m :: ms', s :: ss' =>
      let last := match outs' with [] => true | _ => false end in
      let '(o, s) := witness_ops c last out v m s in
      let '(os, ss) := passage_ops c v outs' ms' ss' in
      (o ++ os, s :: ss)
  | _, _, _ => ([], [])
  end.
Fixpoint run_ops (c : kcfg) (vs : list passage) (ss : list kst) : list op * list kst :=
  match vs with
  | [] => ([], ss)
  | v :: vs' =>
      let '(o, ss) := passage_ops c v (k_outs c) (v_outs v) ss in
      let '(os, ss) := run_ops c vs' ss in
      (o ++ os, ss)
  end.

(** * Start of a run *)

(** pyecloud_saver.py:581-588: the output that is reloaded.  [restore m t] is
    [load_from_output(last_t=t)]. *)
Definition load_out {S : Type} (restore : M -> R -> option S) (fs : fsys) (t : R) (out : string * option string) : option S :=
  do f <- fget fs (match snd out with Some c => c | None => fst out end) ;
  match f with Mat m => restore m t | _ => None end.

(** What the new simulation continues from: nothing, or the state [d] with time
    [t] and the restored savers. *)
Inductive start {S : Type} := Fresh | Resumed (t : R) (d : D) (svs : list S).

(** buildup_simulation.py:527-547. *)
Definition load_checkpoint {S : Type} (restore : M -> R -> option S) (c : kcfg) (fs : fsys) (dir name : string) : option (@start S * list kst) :=
  do i <- ck_number name ;
  do f <- fget fs (dir ++ name)%string ;
  match f with
  | Pkl t d =>
      do svs <- mapM (load_out restore fs t) (k_outs c) ;
      Some (Resumed t d svs, map (fun _ => mkKst (i + 1) t 0) (k_outs c))
  | _ => None
  end.

(** buildup_simulation.py:113-129, after the savers have been made.  [None]: an
    exception. *)
Definition new_run {S : Type} (restore : M -> R -> option S) (c : kcfg) (fs : fsys) : option (@start S * list kst) :=
  do ss <- mapM (saver_init c) (k_outs c) ;
  match k_dir c with
  | None => Some (Fresh, ss)
  | Some dir =>
      match listdir fs dir with
      | [] => Some (Fresh, ss)
      | [name] => load_checkpoint restore c fs dir name
      | _ => None
      end
  end.
End Files.
Arguments file : clear implicits.
Arguments fsys : clear implicits.
Arguments op : clear implicits.
Arguments passage : clear implicits.
Arguments start : clear implicits.
