(** Facts on file names and on the construction of an electron cloud for
    PyHEADTAIL. *)
From Coq Require Import String Ascii DecimalString DecimalNat DecimalFacts Lia Bool.
From Verif Require Import Num ConfigVal Ckpt CkptFacts Config SpecConfig ConfigFacts ConfigFacts4 Init SpecInit SpecInitParts InitFacts InitFacts4 InitFacts5 InitFacts6 InitFacts7 PyHTInit SpecPyHTInit.
Local Open Scope string_scope.
Local Open Scope list_scope.

(** * Names *)
Lemma strip_app_some pre : forall s r, strip pre s = Some r -> s = (pre ++ r)%string.
Proof.
  induction pre as [|a pre IH]; intros s r; [cbn; congruence|]. destruct s as [|b s]; cbn; [discriminate|].
  destruct (Ascii.eqb_spec a b) as [->|]; [|discriminate]. intros H. apply IH in H. subst s. reflexivity.
Qed.
Lemma before_none sub s : ~ contains sub s -> before sub s = s.
Proof.
  induction s as [|a s IH]; intros H.
  - cbn. destruct (strip sub ""); reflexivity.
  - cbn [before]. destruct (strip sub (String a s)) as [r|] eqn:E.
    + destruct H. exists "", r. cbn. apply strip_app_some. exact E.
    + f_equal. apply IH. intros (x & y & ->). apply H. exists (String a x), y. reflexivity.
Qed.
Lemma strip_cons a pre b s r : strip (String a pre) (String b s) = Some r -> a = b /\ strip pre s = Some r.
Proof. cbn [strip]. destruct (Ascii.eqb_spec a b); [auto|discriminate]. Qed.
Lemma append_cons a s t : (String a s ++ t)%string = String a (s ++ t).
Proof. reflexivity. Qed.
Lemma append_nil t : ("" ++ t)%string = t.
Proof. reflexivity. Qed.
Ltac chars E :=
  repeat (rewrite ?append_cons, ?append_nil in E;
    match type of E with strip (String _ _) (String _ _) = Some _ => apply strip_cons in E; let X := fresh in destruct E as [X E]; try discriminate X; subst end);
  try (eexists "", _; reflexivity).
Lemma before_mat s r : ~ contains ".mat" s -> before ".mat" (s ++ ".mat" ++ r) = s.
Proof.
  induction s as [|a s IH]; intros H.
  - cbn. destruct r; reflexivity.
  - change (String a s ++ ".mat" ++ r)%string with (String a (s ++ ".mat" ++ r)).
    cbn [before]. destruct (strip ".mat" (String a (s ++ ".mat" ++ r))) as [x|] eqn:E.
    + exfalso. apply H. destruct s as [|b [|c [|d s]]]; chars E.
    + f_equal. apply IH. intros (x & y & ->). apply H. exists (String a x), y. reflexivity.
Qed.
Lemma before_iter s r : ~ contains "__iter" s -> before "__iter" (s ++ "__iter" ++ r) = s.
Proof.
  induction s as [|a s IH]; intros H.
  - cbn. destruct r; reflexivity.
  - change (String a s ++ "__iter" ++ r)%string with (String a (s ++ "__iter" ++ r)).
    cbn [before]. destruct (strip "__iter" (String a (s ++ "__iter" ++ r))) as [x|] eqn:E.
    + exfalso. apply H. destruct s as [|b [|c [|d [|e [|f s]]]]]; chars E.
    + f_equal. apply IH. intros (x & y & ->). apply H. exists (String a x), y. reflexivity.
Qed.
Lemma app_empty_s s : (s ++ "")%string = s.
Proof. induction s as [|a s IH]; cbn; [|rewrite IH]; reflexivity. Qed.
Lemma plain_file conf base i : plain_name conf base -> passage_file conf i = numbered base i.
Proof.
  intros (H & M & I). unfold passage_file, numbered.
  assert (E : before ".mat" conf = base).
  { destruct H as [->| ->]; [apply before_none, M|]. rewrite <- (app_empty_s ".mat"). apply before_mat, M. }
  rewrite E, (before_none _ _ I). reflexivity.
Qed.
Lemma digits_inj i j : NilZero.string_of_uint (Nat.to_uint i) = NilZero.string_of_uint (Nat.to_uint j) -> i = j.
Proof.
  intros H. apply (f_equal NilZero.uint_of_string) in H. rewrite !NilZero.usu in H by apply to_uint_nn.
  injection H as H. apply (f_equal Nat.of_uint) in H. rewrite !Unsigned.of_to in H. exact H.
Qed.
Lemma numbered_inj base base' i j : ~ contains "__iter" base -> ~ contains "__iter" base' -> numbered base i = numbered base' j -> base = base' /\ i = j.
Proof.
  unfold numbered. intros A B H. pose proof (f_equal (before "__iter") H) as X. rewrite !before_iter in X by assumption. subst base'. split; [reflexivity|].
  apply app_inj_s in H. apply (app_inj_s "__iter") in H. apply app_inj_r_s in H. apply digits_inj. exact H.
Qed.
Lemma file_inj conf i j : passage_file conf i = passage_file conf j -> i = j.
Proof. unfold passage_file. intros H. apply app_inj_s in H. apply (app_inj_s "__iter") in H. apply app_inj_r_s in H. apply digits_inj. exact H. Qed.
