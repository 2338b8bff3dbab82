(** Three events: the first has too much energy, the second emits one electron,
    the third is in its budget. *)
From Coq Require Import Lra Lia Reals.
From Verif Require Import Num NumFacts Sey Furman SpecKeep ExFurman.
Local Open Scope R_scope.

Definition kE : R := ln 4.
Definition ke : R := ex_e exSp kE (1/3).

Lemma ke_val : ke = ln (4/3).
Proof.
  unfold ke, ex_e, kE. cbn [ginc gincinv exSp]. rewrite exp_Ropp, exp_ln by lra.
  replace (1 - 1 / 3 * (1 - / 4)) with (/ (4/3)) by lra. rewrite ln_Rinv by lra. lra.
Qed.
Lemma ke_pos : 0 < ke.
Proof. rewrite ke_val, <- ln_1. apply ln_increasing; lra. Qed.
Lemma ke_half : ke + ke <= kE.
Proof. rewrite ke_val. unfold kE. rewrite <- ln_mult by lra. left. apply ln_increasing; lra. Qed.
Lemma kE_pos : 0 < kE.
Proof. unfold kE. rewrite <- ln_1. apply ln_increasing; lra. Qed.

Lemma k_true n : (1 <= n <= 10)%nat -> en_true1 exSp (exF true kE) n kE (1/3) = Some ke.
Proof.
  intros H. apply ex_true1; auto; [exact kE_pos|]. unfold kE. cbn [ginc exSp]. rewrite exp_Ropp, exp_ln by lra. lra.
Qed.

Lemma k_run : conserve 1 exSp (exF true kE) (f_src (exRng 3 (1/3))) 0 [1; 0; 1]%nat [2; 1; 2]%nat [kE; kE; kE] [kE; 0; ke] [kE; ke] =
  Some ([ke; ke; ke], [ke; ke], 3%nat).
Proof.
  pose proof kE_pos. pose proof ke_half.
  assert (V : viol [1; 0; 1]%nat [kE; kE; kE] [kE; 0; ke] [kE; ke] = [true; false]).
  { unfold viol. cbn [repeat_each repeat app map2]. rewrite (proj2 (Rgtb_true (kE + kE) kE)), (proj2 (Rgtb_false (ke + ke) kE)) by lra. auto. }
  assert (W : viol [1; 0; 1]%nat [kE; kE; kE] [ke; ke; ke] [ke; ke] = [false; false]).
  { unfold viol. cbn [repeat_each repeat app map2]. rewrite (proj2 (Rgtb_false (ke + ke) kE)) by lra. auto. }
  cbn [conserve]. rewrite V. change (inverse_repeat [true; false] [1; 0; 1]%nat) with (Some [true; true; false]). cbn [bind count_true Nat.eqb].
  cbn [repeat_each repeat app mask_get].
  assert (T1 : en_true exSp (exF true kE) (f_src (exRng 3 (1/3))) 0 [2%nat] [kE] = Some ([ke], 1%nat)).
  { unfold en_true. cbn [f_ecl_energy exF length Nat.eqb combine draw seq map mapM2 fst snd s_uni f_src exRng]. rewrite k_true by lia. auto. }
  assert (T2 : en_true exSp (exF true kE) (f_src (exRng 3 (1/3))) 1 [2; 1]%nat [kE; kE] = Some ([ke; ke], 3%nat)).
  { unfold en_true. cbn [f_ecl_energy exF length Nat.eqb combine draw seq map mapM2 fst snd s_uni f_src exRng]. rewrite !k_true by lia. auto. }
  cbn [count_true]. 
  match goal with |- context [if ?b then _ else _] => change b with false end. cbv iota.
  rewrite T1. cbn [bind]. change (mask_set [true; false] [kE; ke] [ke]) with (Some [ke; ke]). cbn [bind]. rewrite T2. cbn [bind].
  change (mask_set [true; true; false] [kE; 0; ke] [ke; ke]) with (Some [ke; ke; ke]). cbn [bind]. rewrite W.
  change (inverse_repeat [false; false] [1; 0; 1]%nat) with (Some [false; false; false]). cbn [bind]. reflexivity.
Qed.

Lemma k_budget : in_budget [1; 0; 1]%nat [kE; kE; kE] [kE; 0; ke] [kE; ke] 2 /\ in_budget [1; 0; 1]%nat [kE; kE; kE] [kE; 0; ke] [kE; ke] 1.
Proof. split; intros j H; cbn [nth] in H; [|lia]. destruct j; [|lia]. cbn. exact ke_half. Qed.
