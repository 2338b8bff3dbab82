(** A small simulation to be saved and loaded: the parts that the other files
    model are numbers. *)
From Coq Require Import String List Reals Lra.
From Verif Require Import Num Ckpt SaveState SpecSaveState SaveStateFacts.
Local Open Scope string_scope.
Local Open Scope list_scope.
Local Open Scope R_scope.

Definition yFactor (p : nat) : nat := 7.
Definition yState (p : nat) : nat := 0.
Definition yRec (file : string) (x : nat) : recd nat := mkRecd true file 0%nat 0 0 x.
Definition ySc : spc nat nat nat := new_sc yFactor yState true false 3%nat.
Definition ySim : objs nat nat nat nat nat nat :=
  mkObjs 5%nat ySc 2 true [6%nat] false [mkOcloud (Saver (yRec "Pyecltest_a.mat" 11%nat)) 21; mkOcloud (Saver (yRec "Pyecltest_b.mat" 12%nat)) 22]%nat.
Definition yNew : objs nat nat nat nat nat nat :=
  mkObjs 0%nat ySc 0 false [] false [mkOcloud (Saver (yRec "Pyecltest_a.mat" 0%nat)) 0; mkOcloud (Saver (yRec "Pyecltest_b.mat" 0%nat)) 0]%nat.
(** With vector potentials, loaded once and recomputed. *)
Definition yEm (as_ : attr nat) : spc nat nat nat := mkSpc (Some (Some 7%nat)) None true (Some (Some 1%nat)) (Some (Some 2%nat)) as_ (Some None) (Some None) 3%nat.
Definition yEmSim (as_ : attr nat) : objs nat nat nat nat nat nat :=
  mkObjs 5%nat (yEm as_) 2 true [] false [mkOcloud (Saver (yRec "Pyecltest.mat" 11%nat)) 21]%nat.
Definition yEmNew : objs nat nat nat nat nat nat :=
  mkObjs 0%nat (new_sc yFactor yState true true 3%nat) 0 false [] false [mkOcloud (Saver (yRec "Pyecltest.mat" 0%nat)) 0]%nat.

Lemma yUse : in_use (Be:=nat) (Cl:=nat) (Re:=nat) yFactor yState true false ySc.
Proof. constructor. Qed.
Lemma yCan : savable ySc.
Proof. split; cbn; discriminate. Qed.
Definition yEmUsed : spc nat nat nat := mkSpc (Some (Some 7%nat)) None true (Some (Some 1%nat)) (Some (Some 2%nat)) None (Some (Some 0%nat)) (Some (Some 0%nat)) 3%nat.
Lemma yUseEm : in_use (Be:=nat) (Cl:=nat) (Re:=nat) yFactor yState true true yEmUsed.
Proof. eapply (use_field yFactor yState true true _ 1%nat 2%nat 3%nat); [apply (use_new _ _ _ _ 3%nat)|reflexivity|reflexivity]. Qed.
Lemma yCanEm : savable (yEm (Some (Some 0%nat))).
Proof. split; [cbn; discriminate|]. intros _. repeat split; cbn; discriminate. Qed.

Lemma yFailed : exists o', sim_state_single_save true false 0 None false ySim = (o', Raised) /\
  sp_pic_lu (ob_sc o') = Some None /\ map oc_saver (ob_clouds o') = [Removed; Removed].
Proof. eexists. split; [reflexivity|]. split; reflexivity. Qed.

Lemma yLost : exists o' f o1, sim_state_single_save true false 0 None true (yEmSim (Some (Some 0%nat))) = (o', Written f) /\
  load_state yFactor yState true (Some "Pyecltest_restarted") f yEmNew = Some o1 /\
  sp_Ax (ob_sc (yEmSim (Some (Some 0%nat)))) = Some (Some 1%nat) /\ sp_Ax (ob_sc o1) = Some (Some 0%nat).
Proof. do 3 eexists. split; [reflexivity|]. split; [reflexivity|]. split; reflexivity. Qed.
