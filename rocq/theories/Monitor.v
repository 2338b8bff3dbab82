(** Reading of monitor files and joining of several: myfilemanager.py:45-80.
    No proofs in this file. *)
From Coq Require Import String Bool Arith Reals List.
Import ListNotations.
Local Open Scope list_scope.

(** Arrays of no, one and two dimensions; a matrix carries its number of
    columns.  A simplification: no arrays of more dimensions. *)
Inductive arr := Scal (x : R) | Vec (l : list R) | Mat (n : nat) (rows : list (list R)).

(** What a call gives: a value, an IOError, or an exception of another kind. *)
Inductive res (A : Type) := Ok (a : A) | IOErr | OtherErr.
Arguments Ok {A}. Arguments IOErr {A}. Arguments OtherErr {A}.

Definition dict := list (string * arr).
Fixpoint get (k : string) (d : dict) : option arr :=
  match d with [] => None | (n, v) :: d' => if String.eqb k n then Some v else get k d' end.

(** A file: its groups, each with named arrays; [None] if h5py cannot open or
    read it (an [OSError], which is [IOError]). *)
Definition h5 := option (list (string * dict)).
Fixpoint group (k : string) (g : list (string * dict)) : option dict :=
  match g with [] => None | (n, d) :: g' => if String.eqb k n then Some d else group k g' end.

(** Lines 45-53; a missing group is a [KeyError]. *)
Definition monitorh5_to_dict (key : string) (f : h5) : res dict :=
  match f with
  | None => IOErr
  | Some g => match group key g with Some d => Ok d | None => OtherErr end
  end.

(** [list(a)]: numbers or rows; a [TypeError] without dimension. *)
Definition items (a : arr) : option (list (R + list R)) :=
  match a with
  | Scal _ => None
  | Vec l => Some (map inl l)
  | Mat _ rows => Some (map inr rows)
  end.

Fixpoint numbers (l : list (R + list R)) : option (list R) :=
  match l with
  | [] => Some []
  | inl x :: l' => match numbers l' with Some r => Some (x :: r) | None => None end
  | inr _ :: _ => None
  end.
Fixpoint rows_of (n : nat) (l : list (R + list R)) : option (list (list R)) :=
  match l with
  | [] => Some []
  | inr r :: l' =>
      if Nat.eqb (length r) n then match rows_of n l' with Some q => Some (r :: q) | None => None end else None
  | inl _ :: _ => None
  end.
(** [np.array(l)]: items of unequal shapes are a [ValueError] (older releases of
    numpy warn and make an array of objects, which is not modelled). *)
Definition np_array (l : list (R + list R)) : option arr :=
  match l with
  | inr r :: _ => match rows_of (length r) l with Some q => Some (Mat (length r) q) | None => None end
  | _ => match numbers l with Some q => Some (Vec q) | None => None end
  end.

(** [a.T]. *)
Definition transpose (a : arr) : arr :=
  match a with
  | Mat n rows => Mat (length rows) (map (fun j => map (fun r => nth j r 0%R) rows) (seq 0 n))
  | _ => a
  end.

(** Lines 67 and 70. *)
Definition join (tr : bool) (a b : arr) : option arr :=
  let t := fun x => if tr then transpose x else x in
  match items (t a), items (t b) with
  | Some p, Some q => match np_array (p ++ q) with Some r => Some (t r) | None => None end
  | _, _ => None
  end.

(** Lines 65-70: all names of the dictionary so far. *)
Fixpoint join_all (tr : bool) (d cur : dict) : option dict :=
  match d with
  | [] => Some []
  | (n, a) :: d' =>
      match get n cur with
      | Some b =>
          match join tr a b, join_all tr d' cur with
          | Some c, Some r => Some ((n, c) :: r)
          | _, _ => None
          end
      | None => None
      end
  end.

(** Lines 61-77. *)
Fixpoint more (key : string) (tr permissive : bool) (d : dict) (fs : list h5) : res dict :=
  match fs with
  | [] => Ok d
  | f :: fs' =>
      match monitorh5_to_dict key f with
      | Ok cur => match join_all tr d cur with Some d' => more key tr permissive d' fs' | None => OtherErr end
      | IOErr => if permissive then more key tr permissive d fs' else IOErr
      | OtherErr => OtherErr
      end
  end.

(** Lines 59-77; an empty list is an [IndexError]. *)
Definition monitorh5list_to_dict (key : string) (tr permissive : bool) (fs : list h5) : res dict :=
  match fs with
  | [] => OtherErr
  | f :: fs' => match monitorh5_to_dict key f with Ok d => more key tr permissive d fs' | e => e end
  end.
