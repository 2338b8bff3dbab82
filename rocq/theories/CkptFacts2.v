(** The file operations of a run inside the folder of the checkpoints, and the
    state of the folder at any point. *)
From Coq Require Import String Ascii Lia Lra Bool.
From Verif Require Import Num NumFacts Ckpt SpecCkpt CkptFacts.
Local Open Scope string_scope.
Local Open Scope list_scope.

Lemma firstn_filter {A} (f : A -> bool) n l : exists m, filter f (firstn n l) = firstn m (filter f l).
Proof.
  revert n. induction l as [|x l IH]; intros [|n]; cbn; try (exists 0%nat; auto; fail).
  destruct (IH n) as [m H]. destruct (f x).
  - exists (S m). cbn. rewrite H. auto.
  - exists m. auto.
Qed.

Lemma firstn_app_cases {A} n (a b : list A) : (exists m, (m < length a)%nat /\ firstn n (a ++ b) = firstn m a) \/ (exists m, firstn n (a ++ b) = a ++ firstn m b).
Proof.
  destruct (Compare_dec.lt_dec n (length a)) as [H|H].
  - left. exists n. split; auto. rewrite firstn_app. replace (n - length a)%nat with 0%nat by lia. cbn. apply app_nil_r.
  - right. exists (n - length a)%nat. rewrite firstn_app. rewrite firstn_all2 by lia. auto.
Qed.

Section Run.
Context {D M S : Type}.
Variable c : kcfg.
Variable dir : string.
Variable DT : R.
Hypothesis ok : ck_ok c dir DT.
Notation fsys := (fsys D M).
Notation op := (op D M).
Notation passage := (passage D M).

Definition dop (o : op) : bool := within dir (target o).
Definition pth (i : nat) : string := (dir ++ ck_name i)%string.
Definition ckops (i : nat) (v : passage) : list op :=
  [Trunc (pth i); Fill (pth i) (Pkl (v_t v) (v_state v))] ++ match i with O => [] | Datatypes.S j => [Del (pth j)] end.
Fixpoint drun (i : nat) (vs : list passage) : list op := match vs with [] => [] | v :: vs' => ckops i v ++ drun (Datatypes.S i) vs' end.

Lemma within_out p : In p (paths c) -> within dir p = false.
Proof. intros H. unfold within. rewrite (cko_outside _ _ _ ok) by auto. auto. Qed.
Lemma in_paths o : In o (k_outs c) -> In (fst o) (paths c).
Proof. intros H. apply in_flat_map. exists o. cbn. auto. Qed.
Lemma in_paths_copy o q : In o (k_outs c) -> snd o = Some q -> In q (paths c).
Proof. intros H E. apply in_flat_map. exists o. rewrite E. cbn. auto. Qed.

Definition is_due (t0 : R) (v : passage) : bool := Rleb (t0 + DT) (v_t v).
Lemma due_code t0 v : Rgeb (v_t v - t0) DT = is_due t0 v.
Proof.
  unfold is_due. destruct (Rleb _ _) eqn:E.
  - apply Rleb_true in E. apply Rgeb_true. lra.
  - apply Rleb_false in E. apply Rgeb_false. lra.
Qed.
Definition lock (i : nat) (t0 : R) (s : kst) : Prop := k_i s = i /\ k_t s = t0.

Lemma copy_filter out : In out (k_outs c) -> filter dop (copy_out out) = [].
Proof.
  intros H. unfold copy_out. destruct (snd out) as [q|] eqn:E; auto. cbn. unfold dop. cbn.
  rewrite (within_out q) by (eapply in_paths_copy; eauto). auto.
Qed.
Lemma within_pth i : within dir (pth i) = true.
Proof. apply within_name. Qed.

Lemma witness_dops last out v m s i t0 : In out (k_outs c) -> lock i t0 s ->
  let r := witness_ops c last out v m s in
  filter dop (fst r) = (if is_due t0 v && last then ckops i v else []) /\
  lock (if is_due t0 v then Datatypes.S i else i) (if is_due t0 v then v_t v else t0) (snd r).
Proof.
  intros Ho [L1 L2]. unfold witness_ops, checkpoint_save. rewrite (cko_DT _ _ _ ok), (cko_dir _ _ _ ok), L2, due_code, L1.
  fold (pth i) (pth (i - 1)).
  assert (P : filter dop (if ((v_pass v + 1) mod k_every c =? 0)%Z then [Trunc (fst out); Fill (fst out) (Mat m)] else []) = []).
  { destruct (_ =? 0)%Z; auto. cbn. unfold dop. cbn. rewrite (within_out _ (in_paths _ Ho)). auto. }
  assert (Cp : forall s', let r := copy_save c out (v_t v) s' in filter dop (fst r) = @nil op /\ k_i (snd r) = k_i s' /\ k_t (snd r) = k_t s').
  { intros s'. unfold copy_save. destruct (k_copyDT c); cbn; auto. destruct (Rgeb _ _); cbn; auto. split; auto. apply copy_filter; auto. }
  destruct (is_due t0 v); cbn [andb].
  - specialize (Cp (mkKst (Datatypes.S i) (v_t v) match snd out with Some _ => v_t v | None => k_tc s end)).
    destruct (copy_save _ _ _ _) as [cp s']. cbn [fst snd k_i k_t] in *. destruct Cp as (C1 & C2 & C3).
    split; [|split; auto]. rewrite !filter_app, P, C1, app_nil_r. cbn [app]. rewrite (copy_filter _ Ho). cbn [app].
    destruct last; cbn [app].
    + cbn [filter]. unfold dop at 1 2. cbn [target]. rewrite !within_pth. unfold ckops. cbn [app]. do 2 f_equal.
      destruct i as [|i]; cbn; auto. rewrite Nat.sub_0_r. unfold dop. cbn. rewrite within_pth. auto.
    + rewrite andb_false_r. auto.
  - specialize (Cp s). destruct (copy_save _ _ _ _) as [cp s']. cbn [fst snd k_i k_t] in *. destruct Cp as (C1 & C2 & C3).
    split; [|split; congruence]. cbn [app]. rewrite filter_app, P, C1. auto.
Qed.

Lemma passage_dops v i t0 : forall outs ms ss, (forall o, In o outs -> In o (k_outs c)) -> length ms = length outs -> length ss = length outs ->
  Forall (lock i t0) ss ->
  let r := passage_ops c v outs ms ss in
  filter dop (fst r) = (match outs with [] => [] | _ => if is_due t0 v then ckops i v else [] end) /\
  length (snd r) = length outs /\
  Forall (lock (if is_due t0 v then Datatypes.S i else i) (if is_due t0 v then v_t v else t0)) (snd r).
Proof.
  induction outs as [|out outs IH]; intros [|m ms] [|s ss] Ho Lm Ls F; cbn in Lm, Ls; try discriminate; cbn [passage_ops fst snd]; auto.
  inversion F as [|? ? F1 F2]; subst.
  pose proof (witness_dops (match outs with [] => true | _ => false end) out v m s i t0 (Ho _ (or_introl eq_refl)) F1) as W.
  specialize (IH ms ss (fun o H => Ho o (or_intror H)) ltac:(lia) ltac:(lia) F2).
  destruct (witness_ops _ _ _ _ _ _) as [o s']. destruct (passage_ops _ _ _ _ _) as [os ss']. cbn [fst snd] in *.
  destruct W as [W1 W2]. destruct IH as (I1 & I2 & I3). rewrite filter_app, W1, I1. split; [|split; [cbn; lia|constructor; auto]].
  destruct outs as [|o2 outs]; destruct (is_due t0 v); cbn [andb]; auto using app_nil_r.
Qed.

Lemma run_dops vs : forall i t0 ss, Forall (fun v => length (v_outs v) = length (k_outs c)) vs ->
  length ss = length (k_outs c) -> Forall (lock i t0) ss ->
  filter dop (fst (run_ops c vs ss)) = drun i (due DT t0 vs).
Proof.
  induction vs as [|v vs IH]; intros i t0 ss F L K; cbn [run_ops due drun]; auto.
  inversion F as [|? ? F1 F2]; subst.
  pose proof (passage_dops v i t0 (k_outs c) (v_outs v) ss (fun o H => H) F1 L K) as P.
  destruct (passage_ops _ _ _ _ _) as [o ss']. cbn [fst snd] in P. destruct P as (P1 & P2 & P3).
  specialize (IH _ _ ss' F2 P2 P3). destruct (run_ops _ _ _) as [os ss2]. cbn [fst] in *. rewrite filter_app, P1, IH.
  destruct (k_outs c) eqn:E; [destruct (cko_outs _ _ _ ok); auto|]. fold (is_due t0 v).
  destruct (is_due t0 v); cbn [drun app]; auto.
Qed.

(** Copies are made outside the folder. *)
Definition shaped (o : op) : Prop :=
  match o with
  | Trunc p => In p (paths c) \/ exists i, p = pth i
  | Fill p (Mat _) => In p (paths c)
  | Fill p (Pkl _ _) => exists i, p = pth i
  | Fill _ Broken => False
  | Del p => exists i, p = pth i
  | Copy0 s q | Copy1 s q => In s (paths c) /\ In q (paths c)
  end.
Lemma copy_shaped out : In out (k_outs c) -> Forall shaped (copy_out out).
Proof.
  intros H. unfold copy_out. destruct (snd out) as [q|] eqn:E; auto.
  repeat constructor; cbn; auto using in_paths; eapply in_paths_copy; eauto.
Qed.
Lemma witness_shaped last out v m s : In out (k_outs c) -> Forall shaped (fst (witness_ops c last out v m s)).
Proof.
  intros H. unfold witness_ops, checkpoint_save, copy_save. rewrite (cko_DT _ _ _ ok), (cko_dir _ _ _ ok).
  assert (Cp : Forall shaped (copy_out out)) by (apply copy_shaped; auto).
  assert (P : Forall shaped (if ((v_pass v + 1) mod k_every c =? 0)%Z then [Trunc (fst out); Fill (fst out) (Mat m)] else [])).
  { destruct (_ =? 0)%Z; auto. repeat constructor; cbn; auto using in_paths. }
  assert (W : forall i, Forall shaped (if last then [Trunc (dir ++ ck_name i); Fill (dir ++ ck_name i) (Pkl (v_t v) (v_state v))] else [])).
  { intros i. destruct last; [|constructor]. constructor; [right; exists i; reflexivity|]. constructor; [exists i; reflexivity|constructor]. }
  assert (X : forall i, Forall shaped (if (0 <? i)%nat && last then [Del (dir ++ ck_name (i - 1))] else [])).
  { intros i. destruct (_ && _); [|constructor]. constructor; [exists (i - 1)%nat; reflexivity|constructor]. }
  destruct (Rgeb (v_t v - k_t s) DT); destruct (k_copyDT c) as [x|]; cbn [k_tc]; try destruct (Rgeb _ x); cbn [fst];
    repeat (apply Forall_app; split); auto.
Qed.
Lemma passage_shaped v : forall outs ms ss, (forall o, In o outs -> In o (k_outs c)) -> Forall shaped (fst (passage_ops c v outs ms ss)).
Proof.
  induction outs as [|out outs IH]; intros [|m ms] [|s ss] Ho; cbn [passage_ops fst]; auto.
  pose proof (witness_shaped (match outs with [] => true | _ => false end) out v m s (Ho _ (or_introl eq_refl))) as W.
  specialize (IH ms ss (fun o H => Ho o (or_intror H))).
  destruct (witness_ops _ _ _ _ _ _). destruct (passage_ops _ _ _ _ _). cbn [fst] in *. apply Forall_app. auto.
Qed.
Lemma run_shaped vs : forall ss, Forall shaped (fst (run_ops c vs ss)).
Proof.
  induction vs as [|v vs IH]; intros ss; cbn [run_ops fst]; auto.
  pose proof (passage_shaped v (k_outs c) (v_outs v) ss (fun o H => H)) as P.
  destruct (passage_ops _ _ _ _ _) as [o ss']. specialize (IH ss'). destruct (run_ops _ _ _). cbn [fst] in *. apply Forall_app. auto.
Qed.
Lemma shaped_plain os : Forall shaped os -> Forall (plain dir) os.
Proof. apply Forall_impl. intros [| | |s q|s q]; cbn; auto; intros [_ H]; apply within_out; auto. Qed.

(** * State of the folder *)
Inductive folder : fsys -> option (string * R * D) -> bool -> Prop :=
| f_none : folder [] None false
| f_first : folder [(pth 0, Broken)] None false
| f_one i t d : folder [(pth i, Pkl t d)] (Some (pth i, t, d)) false
| f_write i t d : folder [(pth i, Pkl t d); (pth (Datatypes.S i), Broken)] (Some (pth i, t, d)) true
| f_two i t d t' d' : folder [(pth i, Pkl t d); (pth (Datatypes.S i), Pkl t' d')] (Some (pth (Datatypes.S i), t', d')) true.

(** The part of the summaries that matters. *)
Definition newest_step (a : option (string * R * D)) (o : op) : option (string * R * D) :=
  match o with Fill p (Pkl t d) => Some (p, t, d) | _ => a end.
Lemma newest_filter os : Forall shaped os -> forall a, fold_left newest_step os a = fold_left newest_step (filter dop os) a.
Proof.
  induction 1 as [|o os H _ IH]; intros a; cbn [filter fold_left]; auto.
  destruct (dop o) eqn:E; cbn [fold_left]; [apply IH|]. rewrite IH. f_equal.
  destruct o as [|p f| | |]; auto. destruct f; auto. cbn in H. destruct H as [i ->]. unfold dop in E. cbn in E. rewrite within_pth in E. discriminate.
Qed.
Lemma pend_filter os : Forall shaped os -> forall b, fold_left (pend_step dir) os b = fold_left (pend_step dir) (filter dop os) b.
Proof.
  induction 1 as [|o os H _ IH]; intros b; cbn [filter fold_left]; auto.
  destruct (dop o) eqn:E; cbn [fold_left]; [apply IH|]. rewrite IH. f_equal. unfold dop in E.
  destruct o as [p|p f|p| |]; auto; cbn in *.
  - unfold within in E. destruct (strip dir p); [discriminate|auto].
  - destruct H as [i ->]. rewrite within_pth in E. discriminate.
Qed.

Lemma pth_eqb i : String.eqb (pth i) (pth i) = true.
Proof. apply String.eqb_refl. Qed.
Lemma pth_neqb i : String.eqb (pth i) (pth (Datatypes.S i)) = false.
Proof. apply path_neq. lia. Qed.
Lemma pth_neqb' i : String.eqb (pth (Datatypes.S i)) (pth i) = false.
Proof. apply path_neq. lia. Qed.
Lemma strip_pth i : strip dir (pth i) = Some (ck_name i).
Proof. apply strip_app. Qed.
Lemma name_0 i : String.eqb (ck_name i) (ck_name 0) = Nat.eqb i 0.
Proof.
  destruct i; cbn [Nat.eqb]; [apply String.eqb_refl|]. apply String.eqb_neq. intros E. apply name_inj in E. discriminate.
Qed.

(** States between two checkpoints, when [i] is the next number. *)
Definition settled (i : nat) (fs : fsys) (a : option (string * R * D)) : Prop :=
  match i with
  | O => fs = [] /\ a = None
  | Datatypes.S j => exists t d, fs = [(pth j, Pkl t d)] /\ a = Some (pth j, t, d)
  end.
Lemma settled_folder i fs a : settled i fs a -> folder fs a false.
Proof. destruct i; cbn; [intros [-> ->]; constructor|]. intros (t & d & -> & ->). constructor. Qed.

Ltac go := cbn [exec op_do fput fget fdel bind filter negb fst]; rewrite ?pth_neqb, ?pth_neqb', ?pth_eqb; cbn [exec op_do fput fget fdel bind filter negb fst];
  rewrite ?pth_neqb, ?pth_neqb', ?pth_eqb; cbn [exec op_do fput fget fdel bind filter negb fst]; rewrite ?pth_neqb, ?pth_neqb', ?pth_eqb; cbn [negb].

Lemma ck_prefix i v n fs a fs' : settled i fs a -> (n < length (ckops i v))%nat -> exec fs (firstn n (ckops i v)) = Some fs' ->
  folder fs' (fold_left newest_step (firstn n (ckops i v)) a) (fold_left (pend_step dir) (firstn n (ckops i v)) false).
Proof.
  intros Hs Hn H. destruct i as [|i]; cbn in Hs.
  - destruct Hs as [-> ->]. unfold ckops in *. cbn [app length] in *.
    destruct n as [|[|n]]; [| |lia]; cbn [firstn fold_left] in *; unfold pend_step, newest_step; rewrite ?strip_pth, ?name_0; cbn [Nat.eqb].
    + injection H as <-. constructor.
    + injection H as <-. constructor.
  - destruct Hs as (t & d & -> & ->). unfold ckops in *. cbn [app length] in *.
    destruct n as [|[|[|n]]]; [| | |lia]; cbn [firstn fold_left] in *; unfold pend_step, newest_step; rewrite ?strip_pth, ?name_0; cbn [Nat.eqb].
    + injection H as <-. constructor.
    + revert H. go. intros H. injection H as <-. constructor.
    + revert H. go. intros H. injection H as <-. constructor.
Qed.
Lemma ck_full i v fs a : settled i fs a -> exists fs', exec fs (ckops i v) = Some fs' /\
  settled (Datatypes.S i) fs' (fold_left newest_step (ckops i v) a) /\ fold_left (pend_step dir) (ckops i v) false = false.
Proof.
  intros Hs. destruct i as [|i]; cbn in Hs.
  - destruct Hs as [-> ->]. unfold ckops. cbn [app fold_left exec op_do fput bind]. go. eexists. split; [reflexivity|].
    split; [|unfold pend_step; rewrite ?strip_pth, ?name_0; reflexivity]. cbn. eauto.
  - destruct Hs as (t & d & -> & ->). unfold ckops. cbn [app fold_left].
    assert (E : exec [(pth i, Pkl t d)] [Trunc (pth (Datatypes.S i)); Fill (pth (Datatypes.S i)) (Pkl (v_t v) (v_state v)); Del (pth i)] =
      Some [(pth (Datatypes.S i), @Pkl D M (v_t v) (v_state v))]).
    { repeat go. unfold fdel. cbn [filter fst]. rewrite ?pth_neqb, ?pth_neqb', ?pth_eqb. reflexivity. }
    eexists. split; [exact E|]. split; [|unfold pend_step; rewrite ?strip_pth, ?name_0; reflexivity]. cbn. eauto.
Qed.

Lemma drun_prefix vs : forall i n fs a fs', settled i fs a -> exec fs (firstn n (drun i vs)) = Some fs' ->
  folder fs' (fold_left newest_step (firstn n (drun i vs)) a) (fold_left (pend_step dir) (firstn n (drun i vs)) false).
Proof.
  induction vs as [|v vs IH]; intros i n fs a fs' Hs H; cbn [drun] in *.
  - rewrite firstn_nil in *. cbn in *. injection H as <-. eapply settled_folder; eauto.
  - destruct (firstn_app_cases n (ckops i v) (drun (Datatypes.S i) vs)) as [(m & Hm & E)|(m & E)]; rewrite E in *.
    + eapply ck_prefix; eauto.
    + destruct (ck_full i v fs a Hs) as (f1 & E1 & S1 & P1). rewrite exec_app, E1 in H. cbn [bind] in H.
      rewrite !fold_left_app, P1. eapply IH; eauto.
Qed.
Lemma drun_full vs : forall i fs a, settled i fs a -> exists fs', exec fs (drun i vs) = Some fs' /\
  settled (i + length vs) fs' (fold_left newest_step (drun i vs) a) /\ fold_left (pend_step dir) (drun i vs) false = false.
Proof.
  induction vs as [|v vs IH]; intros i fs a Hs; cbn [drun length].
  - exists fs. rewrite Nat.add_0_r. auto.
  - destruct (ck_full i v fs a Hs) as (f1 & E1 & S1 & P1). destruct (IH _ _ _ S1) as (f2 & E2 & S2 & P2).
    exists f2. rewrite exec_app, E1. cbn [bind]. rewrite !fold_left_app, P1, Nat.add_succ_r. auto.
Qed.
End Run.
