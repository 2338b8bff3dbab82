(** Finding and loading a yield table: sec_emission_model_from_file.py:87-136.
    No proofs in this file. *)
From Coq Require Import String.
From Verif Require Import Num Sey.
Local Open Scope string_scope.
Local Open Scope list_scope.

(** The contents of a mat file or a dictionary: arrays by name, after
    [squeeze]; a number is an array with one entry. *)
Definition mat := string -> option (list R).
(** [float(a.squeeze())] raises unless there is one entry. *)
Definition as_float (v : list R) : option R := match v with [x] => Some x | _ => None end.
Definition scalar_of (m : mat) (k : string) : option R := do v <- m k ; as_float v.

(** Lines 105-136; a missing name is a KeyError. *)
Definition from_mat (m : mat) (scale shift : bool) : option seytab :=
  do e <- m "energy_eV" ;
  do t <- m "sey_true" ;
  do l <- m "sey_elast" ;
  do gt <- scalar_of m "extrapolate_grad_true" ;
  do ct <- scalar_of m "extrapolate_const_true" ;
  do ge <- scalar_of m "extrapolate_grad_elast" ;
  do ce <- scalar_of m "extrapolate_const_elast" ;
  tab_ctor e t l gt ct ge ce scale shift.

Section Files.
(** The mat files that can be read, by their path; the home directory; the
    directory of the package. *)
Variable files : string -> option mat.
Variables home pkg : string.

Definition isfile (p : string) : bool := match files p with Some _ => true | None => false end.
(** [os.path.expanduser] for the user's own home directory; names of other
    users are not modelled. *)
Definition expanduser (p : string) : string :=
  if String.eqb p "~" then home
  else if prefix "~/" p then (home ++ substring 1 (String.length p - 1) p)%string else p.
Definition ends_in_mat (p : string) : bool :=
  Nat.leb 4 (String.length p) && String.eqb (substring (String.length p - 4) 4 p) ".mat".
(** scipy's [loadmat]: the file of this name, else the one with ".mat" added
    unless the name ends so. *)
Definition loadmat (p : string) : option mat :=
  match files p with
  | Some m => Some m
  | None => if ends_in_mat p then None else files (p ++ ".mat")%string
  end.

(** The argument [sey_file]: a dictionary or a name. *)
Inductive sey_arg := Given (m : mat) | Named (n : string).

(** Lines 91-94. *)
Definition candidates (n : string) : list string := [expanduser n; (pkg ++ "/sey_files/" ++ n)%string].
(** Lines 87-136.  Line 101 loads [sey_file], not [sey_file_real]. *)
Definition file_ctor (a : sey_arg) (scale shift : bool) : option seytab :=
  match a with
  | Given m => from_mat m scale shift
  | Named n =>
      match filter isfile (candidates n) with
      | [] => None
      | _ => do m <- loadmat n ; from_mat m scale shift
      end
  end.
(** init.py:377-383: first the folder of the input files. *)
Definition init_path (folder n : string) : string :=
  if isfile (folder ++ "/" ++ n) then (folder ++ "/" ++ n)%string
  else if isfile (folder ++ "/" ++ n ++ ".mat") then (folder ++ "/" ++ n ++ ".mat")%string else n.
Definition init_table (folder n : string) (scale shift : bool) : option seytab := file_ctor (Named (init_path folder n)) scale shift.
End Files.
