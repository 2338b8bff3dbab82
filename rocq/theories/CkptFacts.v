(** Names of checkpoints, and the part of the file system inside the folder. *)
From Coq Require Import String Ascii DecimalString DecimalNat Lia Lra Bool.
From Verif Require Import Num NumFacts Ckpt SpecCkpt.
Local Open Scope string_scope.
Local Open Scope list_scope.

(** * Strings *)
Lemma strip_app a b : strip a (a ++ b)%string = Some b.
Proof. induction a as [|x a IH]; cbn; auto. rewrite Ascii.eqb_refl. exact IH. Qed.
Lemma strip_spec a s b : strip a s = Some b -> s = (a ++ b)%string.
Proof.
  revert s. induction a as [|x a IH]; intros s H; cbn in *; [congruence|].
  destruct s as [|y s]; [discriminate|]. destruct (Ascii.eqb x y) eqn:E; [|discriminate].
  apply Ascii.eqb_eq in E. subst. f_equal. auto.
Qed.
Lemma app_nil_s a : (a ++ "")%string = a.
Proof. induction a; cbn; congruence. Qed.
Lemma app_assoc_s a b c : ((a ++ b) ++ c)%string = (a ++ b ++ c)%string.
Proof. induction a; cbn; congruence. Qed.
Lemma has_app c a b : has c (a ++ b)%string = has c a || has c b.
Proof. induction a as [|x a IH]; cbn; auto. rewrite IH. apply orb_assoc. Qed.
Lemma after_last_app c a b : has c b = false -> after_last c (a ++ String c b) = b.
Proof.
  intros H. assert (T : forall s, has c s = false -> after_last c s = s).
  { intros [|x s]; cbn; auto. intros ->. auto. }
  induction a as [|x a IH].
  - cbn. rewrite Ascii.eqb_refl. cbn. auto.
  - cbn [append after_last]. cbn [has]. rewrite has_app. cbn [has]. rewrite Ascii.eqb_refl, !orb_true_r. exact IH.
Qed.
Lemma before_app s c b : has c s = false -> before (String c b) (s ++ String c b) = s.
Proof.
  induction s as [|x s IH]; cbn [append before].
  - intros _. pose proof (strip_app (String c b) "") as E. rewrite app_nil_s in E. rewrite E. auto.
  - cbn [has]. intros H. apply orb_false_iff in H. destruct H as [H1 H2].
    cbn [strip]. rewrite Ascii.eqb_sym, H1. rewrite IH; auto.
Qed.

Definition digitb (c : ascii) : bool := existsb (Ascii.eqb c) (list_ascii_of_string "0123456789").
Lemma digits_has c d : digitb c = false -> has c (NilEmpty.string_of_uint d) = false.
Proof.
  intros H. assert (N : forall x, digitb x = true -> Ascii.eqb x c = false).
  { intros x Hx. destruct (Ascii.eqb x c) eqn:E; auto. apply Ascii.eqb_eq in E. congruence. }
  induction d; cbn [NilEmpty.string_of_uint has]; auto; rewrite IHd, orb_false_r; apply N; reflexivity.
Qed.
Lemma number_has c i : digitb c = false -> has c (NilZero.string_of_uint (Nat.to_uint i)) = false.
Proof. intros H. unfold NilZero.string_of_uint. destruct (Nat.to_uint i); try (apply digits_has; auto). exact (digits_has c (Decimal.D0 Decimal.Nil) H). Qed.

Lemma name_has c i : digitb c = false -> has c "simulation_checkpoint_.pkl" = false -> has c (ck_name i) = false.
Proof.
  intros H1 H2. unfold ck_name. rewrite !has_app, number_has by auto.
  change "simulation_checkpoint_.pkl" with ("simulation_checkpoint_" ++ ".pkl")%string in H2. rewrite has_app in H2.
  apply orb_false_iff in H2. destruct H2 as [-> ->]. reflexivity.
Qed.

Lemma to_uint_nn i : Nat.to_uint i <> Decimal.Nil.
Proof. intros H. pose proof (Unsigned.of_to i) as E. rewrite H in E. cbn in E. subst i. discriminate. Qed.

Theorem number_name i : ck_number (ck_name i) = Some i.
Proof.
  unfold ck_number, ck_name. rewrite <- app_assoc_s.
  rewrite before_app by (rewrite has_app, number_has by reflexivity; reflexivity).
  set (x := NilZero.string_of_uint _).
  change ("simulation_checkpoint_" ++ x)%string with ("simulation_checkpoint" ++ String "_" x)%string.
  rewrite after_last_app by (apply number_has; reflexivity). unfold x.
  rewrite NilZero.usu by apply to_uint_nn. cbn [bind]. f_equal. apply Unsigned.of_to.
Qed.
Lemma name_inj i j : ck_name i = ck_name j -> i = j.
Proof. intros H. pose proof (number_name i). rewrite H, number_name in H0. congruence. Qed.
Lemma name_slash i : has "/" (ck_name i) = false.
Proof. apply name_has; reflexivity. Qed.
Lemma app_inj_s a x y : (a ++ x)%string = (a ++ y)%string -> x = y.
Proof. induction a; cbn; intros H; auto. injection H as H. auto. Qed.

(** * Files *)
Section Files.
Context {D M : Type}.
Notation fsys := (fsys D M).
Notation file := (file D M).
Notation op := (op D M).

Lemma fget_put (fs : fsys) p f q : fget (fput fs p f) q = if String.eqb p q then Some f else fget fs q.
Proof.
  induction fs as [|[a g] fs IH]; cbn; auto. destruct (String.eqb a p) eqn:E; cbn.
  - apply String.eqb_eq in E. subst. destruct (String.eqb p q); auto.
  - destruct (String.eqb a q) eqn:E2; auto. apply String.eqb_eq in E2. subst. rewrite String.eqb_sym, E. auto.
Qed.
Lemma fget_del (fs : fsys) p q : fget (fdel fs p) q = if String.eqb p q then None else fget fs q.
Proof.
  unfold fdel. induction fs as [|[a g] fs IH]; cbn; [destruct (String.eqb p q); auto|].
  destruct (String.eqb a p) eqn:E; cbn.
  - apply String.eqb_eq in E. subst. rewrite IH. destruct (String.eqb p q); auto.
  - rewrite IH. destruct (String.eqb a q) eqn:E2; auto. apply String.eqb_eq in E2. subst. rewrite String.eqb_sym, E. auto.
Qed.

Lemma exec_app (fs : fsys) a b : exec fs (a ++ b) = do g <- exec fs a ; exec g b.
Proof. revert fs. induction a as [|o a IH]; intros fs; cbn; auto. destruct (op_do fs o); cbn; auto. Qed.

(** ** Inside the folder *)
Variable dir : string.
Definition within (p : string) : bool := match strip dir p with Some _ => true | None => false end.
Definition target (o : op) : string := match o with Trunc p | Fill p _ | Del p | Copy0 _ p | Copy1 _ p => p end.
Definition inner (fs : fsys) : fsys := filter (fun q => within (fst q)) fs.
(** Operations that copy do so outside the folder. *)
Definition plain (o : op) : Prop := match o with Copy0 _ q | Copy1 _ q => within q = false | _ => True end.

Lemma inner_put fs p f : inner (fput fs p f) = if within p then fput (inner fs) p f else inner fs.
Proof.
  unfold inner. induction fs as [|[a g] fs IH]; cbn; [destruct (within p); auto|].
  destruct (String.eqb a p) eqn:E; cbn.
  - apply String.eqb_eq in E. subst. destruct (within p); cbn; auto. rewrite String.eqb_refl. auto.
  - rewrite IH. destruct (within p) eqn:P; destruct (within a) eqn:A; cbn; auto. rewrite E. auto.
Qed.
Lemma inner_del fs p : inner (fdel fs p) = if within p then fdel (inner fs) p else inner fs.
Proof.
  unfold inner, fdel.
  induction fs as [|[a g] fs IH]; cbn; [destruct (within p); auto|].
  destruct (String.eqb a p) eqn:E; cbn.
  - apply String.eqb_eq in E. subst. rewrite IH. destruct (within p) eqn:P; cbn; auto.
    rewrite String.eqb_refl. cbn. auto.
  - rewrite IH. destruct (within a) eqn:A; cbn; auto; destruct (within p) eqn:P; cbn; auto. rewrite E. cbn. auto.
Qed.
Lemma inner_get fs p : within p = true -> fget (inner fs) p = fget fs p.
Proof.
  intros P. unfold inner. induction fs as [|[a g] fs IH]; cbn; auto. destruct (within a) eqn:A; cbn; [rewrite IH; auto|].
  rewrite IH. destruct (String.eqb a p) eqn:E; auto. apply String.eqb_eq in E. congruence.
Qed.

Lemma inner_exec fs os fs' : Forall plain os -> exec fs os = Some fs' ->
  exec (inner fs) (filter (fun o => within (target o)) os) = Some (inner fs').
Proof.
  revert fs. induction os as [|o os IH]; intros fs P H; cbn in *; [congruence|]. inversion P as [|? ? P1 P2]; subst.
  destruct (op_do fs o) as [g|] eqn:E; [|discriminate]. cbn [bind] in H.
  specialize (IH _ P2 H).
  destruct o as [p|p f|p|s q|s q]; cbn [target op_do plain] in *.
  - injection E as <-. rewrite inner_put in IH. destruct (within p); cbn; auto.
  - injection E as <-. rewrite inner_put in IH. destruct (within p); cbn; auto.
  - destruct (fget fs p) eqn:G; [|discriminate]. injection E as <-. rewrite inner_del in IH.
    destruct (within p) eqn:W; cbn; auto. rewrite inner_get, G by auto. cbn. auto.
  - destruct (fget fs s); [|discriminate]. injection E as <-. rewrite inner_put, P1 in IH. rewrite P1. auto.
  - destruct (fget fs s); [|discriminate]. injection E as <-. rewrite inner_put, P1 in IH. rewrite P1. auto.
Qed.

Hypothesis slash : exists d, dir = (d ++ "/")%string.
Lemma as_dir_slash : as_dir dir = dir.
Proof. destruct slash as [d ->]. unfold as_dir. rewrite after_last_app by reflexivity. reflexivity. Qed.
Lemma listdir_inner (fs : fsys) : listdir fs dir = listdir (inner fs) dir.
Proof.
  unfold listdir, inner. rewrite as_dir_slash. induction fs as [|[a g] fs IH]; cbn; auto. unfold within.
  destruct (strip dir a) as [n|] eqn:E; cbn; [rewrite E, IH; auto|]. auto.
Qed.
Lemma within_name i : within (dir ++ ck_name i) = true.
Proof. unfold within. rewrite strip_app. auto. Qed.
Lemma path_neq i j : i <> j -> String.eqb (dir ++ ck_name i) (dir ++ ck_name j) = false.
Proof. intros H. apply String.eqb_neq. intros E. apply app_inj_s in E. apply name_inj in E. auto. Qed.
End Files.
