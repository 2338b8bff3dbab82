(** Concrete histories of runs with checkpoints. *)
From Coq Require Import String Ascii Lia Lra Bool.
From Verif Require Import Num NumFacts Ckpt SpecCkpt.
Local Open Scope string_scope.
Local Open Scope list_scope.

(** One cloud, a checkpoint every second, the output written at every passage
    or at every second one. *)
Definition kC (every : Z) (dir : string) : kcfg := mkKcfg (Some 1) (Some dir) None every [("out.mat", None)].
Definition kR (m : nat) (t : R) : option nat := Some m.
Definition kV1 : passage nat nat := mkPassage 1 0 10%nat [100%nat].
Definition kV2 : passage nat nat := mkPassage 2 1 20%nat [200%nat].

Lemma kC_ok every : ck_ok (kC every "ck/") "ck/" 1.
Proof.
  split; cbn; auto.
  - exists "ck". auto.
  - discriminate.
  - intros p [<-|[]]. reflexivity.
  - repeat constructor. intros [].
Qed.
Lemma kC_readable (m : nat) (t : R) : kR m t <> None.
Proof. discriminate. Qed.

Definition kOps (dir : string) : list (op nat nat) :=
  [Trunc "out.mat"; Fill "out.mat" (Mat 100%nat);
   Trunc (dir ++ ck_name 0); Fill (dir ++ ck_name 0) (Pkl 1 10%nat);
   Trunc "out.mat"; Fill "out.mat" (Mat 200%nat);
   Trunc (dir ++ ck_name 1); Fill (dir ++ ck_name 1) (Pkl 2 20%nat); Del (dir ++ ck_name 0)].
Lemma kDue1 : Rgeb (1 - 0) 1 = true.
Proof. apply Rgeb_true. lra. Qed.
Lemma kDue2 : Rgeb (2 - 1) 1 = true.
Proof. apply Rgeb_true. lra. Qed.

Lemma kOps_run dir : ops_of kR (kC 1 dir) [] [kV1; kV2] = Some (kOps dir).
Proof.
  unfold ops_of, new_run. cbn -[ck_name append Rgeb]. 
  unfold witness_ops, checkpoint_save. cbn -[ck_name append Rgeb].
  rewrite kDue1. cbn -[ck_name append Rgeb]. rewrite kDue2. reflexivity.
Qed.

(** The history that is killed after [n] operations. *)
Lemma kLives dir n fs : exec [] (firstn n (kOps dir)) = Some fs -> lives kR (kC 1 dir) fs (firstn n (kOps dir)).
Proof.
  intros H. change (firstn n (kOps dir)) with ([] ++ firstn n (kOps dir)).
  eapply lived; [constructor|apply kOps_run| |exact H]. repeat constructor.
Qed.

(** Killed after the new checkpoint was completed and before the old one was
    removed. *)
Definition kFs8 : fsys nat nat :=
  [("out.mat", Mat 200%nat); ("ck/" ++ ck_name 0, Pkl 1 10%nat); ("ck/" ++ ck_name 1, Pkl 2 20%nat)]%string.
Lemma kLives8 : lives kR (kC 1 "ck/") kFs8 (firstn 8 (kOps "ck/")).
Proof. apply kLives. reflexivity. Qed.

(** Killed while the output of the second passage is written. *)
Definition kFs5 : fsys nat nat := [("out.mat", Broken); ("ck/" ++ ck_name 0, Pkl 1 10%nat)]%string.
Lemma kLives5 : lives kR (kC 1 "ck/") kFs5 (firstn 5 (kOps "ck/")).
Proof. apply kLives. reflexivity. Qed.

(** The complete run. *)
Definition kFs9 : fsys nat nat := [("out.mat", Mat 200%nat); ("ck/" ++ ck_name 1, Pkl 2 20%nat)]%string.
Lemma kBetween : lives_between kR (kC 1 "ck/") kFs9 (kOps "ck/").
Proof.
  change (kOps "ck/") with ([] ++ kOps "ck/"). eapply lived_b; [constructor|apply kOps_run| |reflexivity]. repeat constructor.
Qed.
Lemma kLives9 : lives kR (kC 1 "ck/") kFs9 (kOps "ck/").
Proof. apply (kLives "ck/" 9). reflexivity. Qed.

(** The output is written at every second passage, and the checkpoint is due
    before it. *)
Definition kOps2 : list (op nat nat) := [Trunc ("ck/" ++ ck_name 0)%string; Fill ("ck/" ++ ck_name 0)%string (Pkl 1 10%nat)].
Definition kFs2 : fsys nat nat := [("ck/" ++ ck_name 0, Pkl 1 10%nat)]%string.
Lemma kBetween2 : lives_between kR (kC 2 "ck/") kFs2 kOps2.
Proof.
  change kOps2 with ([] ++ kOps2). eapply (lived_b kR (kC 2 "ck/") [] [] [kV1]); [constructor| |repeat constructor|reflexivity].
  unfold ops_of, new_run. cbn -[ck_name append Rgeb]. unfold witness_ops, checkpoint_save. cbn -[ck_name append Rgeb]. rewrite kDue1. reflexivity.
Qed.

(** The folder is written without "/". *)
Definition kFs9' : fsys nat nat := [("out.mat", Mat 200%nat); ("ck" ++ ck_name 1, Pkl 2 20%nat)]%string.
Lemma kLives9' : lives kR (kC 1 "ck") kFs9' (kOps "ck").
Proof. apply (kLives "ck" 9). reflexivity. Qed.

(** Two clouds and a folder for the copies: killed after the first checkpoint
    was completed and before the first copy of the second cloud. *)
Definition kC2 : kcfg := mkKcfg (Some 1) (Some "ck/") None 1 [("a.mat", Some "cp/a.mat"); ("b.mat", Some "cp/b.mat")].
Lemma kC2_ok : ck_ok kC2 "ck/" 1.
Proof.
  split; cbn; auto.
  - exists "ck". auto.
  - discriminate.
  - intros p [<-|[<-|[<-|[<-|[]]]]]; reflexivity.
  - repeat constructor; cbn; intuition discriminate.
Qed.
Definition kW : passage nat nat := mkPassage 1 0 10%nat [100%nat; 101%nat].
Definition kOpsC : list (op nat nat) :=
  [Trunc "a.mat"; Fill "a.mat" (Mat 100%nat); Copy0 "a.mat" "cp/a.mat"; Copy1 "a.mat" "cp/a.mat";
   Trunc "b.mat"; Fill "b.mat" (Mat 101%nat); Trunc ("ck/" ++ ck_name 0); Fill ("ck/" ++ ck_name 0) (Pkl 1 10%nat);
   Copy0 "b.mat" "cp/b.mat"; Copy1 "b.mat" "cp/b.mat"]%string.
Lemma kOpsC_run : ops_of kR kC2 [] [kW] = Some kOpsC.
Proof.
  unfold ops_of, new_run. cbn -[ck_name append Rgeb]. unfold witness_ops, checkpoint_save. cbn -[ck_name append Rgeb]. rewrite kDue1. reflexivity.
Qed.
Definition kFsC : fsys nat nat :=
  [("a.mat", Mat 100%nat); ("cp/a.mat", Mat 100%nat); ("b.mat", Mat 101%nat); ("ck/" ++ ck_name 0, Pkl 1 10%nat)]%string.
Lemma kLivesC : lives kR kC2 kFsC (firstn 8 kOpsC).
Proof.
  change (firstn 8 kOpsC) with ([] ++ firstn 8 kOpsC).
  eapply lived; [constructor|apply kOpsC_run| |]; [repeat constructor|reflexivity].
Qed.
