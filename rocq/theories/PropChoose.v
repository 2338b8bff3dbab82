(** C98. *)
From Coq Require Import String Lia Bool Lra.
From Verif Require Import Num ConfigVal ConfigTable Config SpecConfig Init SpecInit SpecInitParts ExInit Sey Source Choose SpecChoose ChooseFacts ExChoose.
Local Open Scope string_scope.
Local Open Scope list_scope.

Section Start.
(** As in C74: the constants, the files and the arguments of the call. *)
Variables m_e m_p qe c : R.
Variable files : string -> option attrs.
Variable folder : string.
Variable isfile : string -> bool.
Variable npass : R.
Variable subset : pval -> bool.
Variable sec_name : nat -> string.
Variables skip_beam skip_saver skip_sc given_sc : bool.
Variable ignore : list string.
Variable kw : attrs.
Notation go := (start m_e m_p qe c files folder isfile npass subset sec_name skip_beam skip_saver skip_sc given_sc ignore kw).
Notation reads := (read_all m_e m_p qe c files skip_beam ignore kw).

(** The simulation uses the models that its settings name, and no others. *)
Theorem C98_chosen cc b sbs cl p x : reads cc b sbs cl -> go = Some p ->
  construct p = Some x <-> all_chosen (dget cc) (map dget cl) (skip_sc || given_sc) x.
Proof. exact (chosen m_e m_p qe c files folder isfile npass subset sec_name skip_beam skip_saver skip_sc given_sc ignore kw cc b sbs cl p x). Qed.

(** A distribution of angles is never assumed: the files or the call name it,
    unless nothing is emitted. *)
Theorem C98_named cc b sbs cl sim mac emi p x : (forall name f, files name = Some f -> def_ok f) -> input_files files sim mac emi ->
  clear_names (main_param m_e m_p qe) [sim; mac; emi] -> NoDup (map fst kw) -> reads cc b sbs cl -> go = Some p -> construct p = Some x ->
  (model_is (dget cc) "perfect_absorber" \/ In "secondary_angle_distribution" (map fst kw) \/
   exists f v, In f [sim; mac; emi] /\ given f "secondary_angle_distribution" v) /\
  (~ photo_on (dget cc) \/ In "photoelectron_angle_distribution" (map fst kw) \/
   exists f v, In f [sim; mac; emi] /\ given f "photoelectron_angle_distribution" v).
Proof.
  intros Ok. exact (named_required m_e m_p qe c files Ok folder isfile npass subset sec_name skip_beam skip_saver skip_sc given_sc ignore kw cc b sbs cl sim mac emi p x).
Qed.
End Start.

(** Two clouds in a rectangular chamber; three simulations that are refused. *)
Example C98_case : (exists p, jStart "cosine_3D" "FFT_PEC_Boundary" "rect" = Some p /\ construct p = Some jChoice) /\
  (exists p, jStart "undefined" "FFT_PEC_Boundary" "rect" = Some p /\ construct p = None) /\
  (exists p, jStart "cosine_3D" "FFT" "rect" = Some p /\ construct p = None) /\
  (exists p, jStart "cosine_3D" "FFT_OpenBoundary" "ellip" = Some p /\ construct p = None).
Proof.
  split; [exact jChosen|]. split; [|split].
  - apply jRefused; [auto|]. left. intros d X. inversion X.
  - apply jRefused; [auto|]. right. left. intros d X. inversion X.
  - apply jRefused; auto.
Qed.
Print Assumptions C98_chosen.
Print Assumptions C98_named.
