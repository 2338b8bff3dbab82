(** Concrete cases for the trackers. *)
From Coq Require Import Lra Lia Reals.
From Verif Require Import Num NumFacts MP SpecMP MPFacts ExMP Push SpecPush PushFacts.

Definition exP : p6 := mkP6 1 2 3 4 5 6.

(** A rotation angle of about 1.76 for B = 1 T and Dt = 1e-11 s. *)
Lemma ex_angle : 1 / 10000 <= Rabs (1 * qm_e * (1 / 10 ^ 11)).
Proof.
  rewrite Rabs_right.
  - unfold qm_e, qe, me. lra.
  - pose proof qm_e_pos. lra.
Qed.

Lemma ex_small : Rabs (1 * qm_e * (1 / 10 ^ 16)) < 1 / 10000.
Proof.
  rewrite Rabs_right.
  - unfold qm_e, qe, me. lra.
  - pose proof qm_e_pos. lra.
Qed.

(** A skew list shorter than the normal one. *)
Lemma short_skew :
  exists bf bs, mult_ctor (Some [0; 0]) (Some [1]) = Some (bf, bs) /\
    mult_field bf bs None 1 0 = (2, 0, 0).
Proof.
  eexists _, _. split; [reflexivity|]. unfold mult_field; simpl. f_equal; try f_equal; field.
Qed.

(** A skew list longer than a normal list with one entry. *)
Lemma long_skew :
  exists bf bs, mult_ctor (Some [0]) (Some [0; 1]) = Some (bf, bs) /\
    forall x y, mult_field bf bs None x y = (0, 0, 0).
Proof.
  eexists _, _. split; [reflexivity|]. intros x y. unfold mult_field; simpl. f_equal; try f_equal; field.
Qed.
