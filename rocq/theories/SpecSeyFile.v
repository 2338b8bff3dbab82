(** Specification side of finding and loading yield tables (C103). *)
From Coq Require Import String.
From Verif Require Import Num Sey SeyFile.
Local Open Scope string_scope.
Local Open Scope list_scope.

(** Where a table is to be found: "either as an absolute path or in the
    dedicated folder.  Absolute path has precedence." *)
Definition intended (files : string -> option mat) (home pkg n : string) : option mat :=
  match files (expanduser home n) with
  | Some m => Some m
  | None => files (pkg ++ "/sey_files/" ++ n)%string
  end.
(** A name without reference to a home directory. *)
Definition plain (n : string) : Prop := n <> "~" /\ prefix "~/" n = false.

(** A file that holds a table: the seven entries. *)
Definition holds (m : mat) (e t l : list R) (gt ct ge ce : R) : Prop :=
  m "energy_eV" = Some e /\ m "sey_true" = Some t /\ m "sey_elast" = Some l /\
  m "extrapolate_grad_true" = Some [gt] /\ m "extrapolate_const_true" = Some [ct] /\
  m "extrapolate_grad_elast" = Some [ge] /\ m "extrapolate_const_elast" = Some [ce].
