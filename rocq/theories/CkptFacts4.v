(** Runs that are killed between passages, and that no file operation fails. *)
From Coq Require Import String Ascii Lia Lra Bool.
From Verif Require Import Num NumFacts Ckpt SpecCkpt CkptFacts CkptFacts2 CkptFacts3.
Local Open Scope string_scope.
Local Open Scope list_scope.

Lemma nodup_app_r {A} (l1 l2 : list A) : NoDup (l1 ++ l2) -> NoDup l2.
Proof. induction l1; cbn; auto. intros H. inversion H. auto. Qed.

Section Run.
Context {D M S : Type}.
Variable restore : M -> R -> option S.
Variable c : kcfg.
Variable dir : string.
Variable DT : R.
Hypothesis ok : ck_ok c dir DT.
Notation fsys := (fsys D M).
Notation op := (op D M).
Notation passage := (passage D M).
Notation pth := (pth dir).
Notation inner := (@inner D M dir).
Notation folder := (@folder D M dir).
Notation settled := (@settled D M dir).

(** * No file is left half-written *)
Definition calm (os : list op) : Prop := forall h, (forall p, h p = false) -> forall p, fold_left half_step os h p = false.
Lemma calm_nil : calm [].
Proof. intros h H p. apply H. Qed.
Lemma calm_app a b : calm a -> calm b -> calm (a ++ b).
Proof. intros A B h H p. rewrite fold_left_app. apply B. apply A. auto. Qed.
Lemma calm_put p f : f <> Broken -> calm [Trunc p; Fill p f].
Proof. intros N h H q. cbn. destruct f; [congruence| |]; unfold upd; destruct (String.eqb p q); auto. Qed.
Lemma calm_copy out : fst out <> read_path out \/ snd out = None -> calm (copy_out out).
Proof.
  unfold copy_out, read_path. destruct (snd out) as [q|]; [|intros _; apply calm_nil]. intros [N|N]; [|discriminate].
  intros h H p. cbn. unfold upd. destruct (String.eqb q p); auto.
  destruct (String.eqb q (fst out)) eqn:E; auto. apply String.eqb_eq in E. congruence.
Qed.
Lemma calm_del p : calm [Del p].
Proof. intros h H q. cbn. unfold upd. destruct (String.eqb p q); auto. Qed.

Lemma copy_neq out : In out (k_outs c) -> fst out <> read_path out \/ snd out = None.
Proof.
  intros H. unfold read_path. destruct (snd out) as [q|] eqn:E; auto. left.
  pose proof (cko_nodup _ _ _ ok) as N. unfold paths in N.
  apply in_split in H. destruct H as (l1 & l2 & H). rewrite H, flat_map_app in N. cbn in N. rewrite E in N.
  intros X. apply nodup_app_r in N. cbn in N. inversion N as [|? ? N1 _]. apply N1. left. auto.
Qed.

Lemma witness_calm last out (v : passage) (m : M) s : In out (k_outs c) -> calm (fst (witness_ops c last out v m s)).
Proof.
  intros H. unfold witness_ops, checkpoint_save, copy_save. rewrite (cko_DT _ _ _ ok), (cko_dir _ _ _ ok).
  pose proof (calm_copy out (copy_neq out H)) as Cp.
  assert (P : calm (if ((v_pass v + 1) mod k_every c =? 0)%Z then [Trunc (fst out); Fill (fst out) (Mat m)] else [])).
  { destruct (_ =? 0)%Z; [apply calm_put; discriminate|apply calm_nil]. }
  assert (W : forall i, calm (if last then [Trunc (dir ++ ck_name i)%string; Fill (dir ++ ck_name i)%string (Pkl (v_t v) (v_state v))] else [])).
  { intros i. destruct last; [apply calm_put; discriminate|apply calm_nil]. }
  assert (X : forall i, calm (if (0 <? i)%nat && last then [Del (dir ++ ck_name (i - 1))%string] else [])).
  { intros i. destruct (_ && _); [apply calm_del|apply calm_nil]. }
  destruct (Rgeb (v_t v - k_t s) DT); destruct (k_copyDT c) as [x|]; cbn [k_tc]; try destruct (Rgeb _ x); cbn [fst];
    repeat apply calm_app; auto using calm_nil.
Qed.
Lemma passage_calm v : forall outs ms ss, (forall o, In o outs -> In o (k_outs c)) -> calm (fst (passage_ops c v outs ms ss)).
Proof.
  induction outs as [|out outs IH]; intros [|m ms] [|s ss] Ho; cbn [passage_ops fst]; auto using calm_nil.
  pose proof (witness_calm (match outs with [] => true | _ => false end) out v m s (Ho _ (or_introl eq_refl))) as W.
  specialize (IH ms ss (fun o H => Ho o (or_intror H))).
  destruct (witness_ops _ _ _ _ _ _). destruct (passage_ops _ _ _ _ _). cbn [fst] in *. apply calm_app; auto.
Qed.
Lemma run_calm vs : forall ss, calm (fst (run_ops c vs ss)).
Proof.
  induction vs as [|v vs IH]; intros ss; cbn [run_ops fst]; auto using calm_nil.
  pose proof (passage_calm v (k_outs c) (v_outs v) ss (fun o H => H)) as P.
  destruct (passage_ops _ _ _ _ _) as [o ss']. specialize (IH ss'). destruct (run_ops _ _ _). cbn [fst] in *. apply calm_app; auto.
Qed.

(** * Every file that is read is written *)
Hypothesis every : k_every c = 1%Z.

Lemma witness_writes last out (v : passage) (m : M) s i t0 : In out (k_outs c) -> lock i t0 s -> is_due DT t0 v = true ->
  existsb (writes_to (read_path out)) (fst (witness_ops c last out v m s)) = true.
Proof.
  intros H [_ L]. intros Du. unfold witness_ops, checkpoint_save, copy_save. rewrite (cko_DT _ _ _ ok), (cko_dir _ _ _ ok), every, Z.mod_1_r, L.
  rewrite due_code, Du. cbn [Z.eqb]. 
  assert (Q : existsb (writes_to (read_path out)) ([@Trunc D M (fst out); Fill (fst out) (Mat m)] ++ copy_out out) = true).
  { rewrite existsb_app. unfold copy_out, read_path. destruct (snd out); cbn; rewrite String.eqb_refl, ?orb_true_r; auto. }
  rewrite existsb_app in Q. apply orb_true_iff in Q.
  destruct (k_copyDT c) as [x|]; cbn [k_tc]; try destruct (Rgeb _ x); cbn [fst]; rewrite !existsb_app; destruct Q as [Q|Q]; rewrite Q; rewrite ?orb_true_r; auto.
Qed.
Lemma passage_writes (v : passage) i t0 : is_due DT t0 v = true -> forall outs ms ss, (forall o, In o outs -> In o (k_outs c)) ->
  length ms = length outs -> length ss = length outs -> Forall (lock i t0) ss ->
  forall o, In o outs -> existsb (writes_to (read_path o)) (fst (passage_ops c v outs ms ss)) = true.
Proof.
  intros Du. induction outs as [|out outs IH]; intros [|m ms] [|s ss] Ho Lm Ls F o Hin; cbn in Lm, Ls; try discriminate; [destruct Hin|]. cbn [passage_ops fst].
  inversion F as [|? ? F1 F2]; subst.
  pose proof (witness_writes (match outs with [] => true | _ => false end) out v m s i t0 (Ho _ (or_introl eq_refl)) F1 Du) as W.
  specialize (IH ms ss (fun o H => Ho o (or_intror H)) ltac:(lia) ltac:(lia) F2).
  destruct (witness_ops _ _ _ _ _ _). destruct (passage_ops _ _ _ _ _). cbn [fst] in *. rewrite existsb_app.
  destruct Hin as [<-|Hin]; [rewrite W; auto|]. rewrite (IH o Hin). apply orb_true_r.
Qed.
Lemma run_writes (vs : list passage) : forall i t0 ss, Forall (fun v => length (v_outs v) = length (k_outs c)) vs ->
  length ss = length (k_outs c) -> Forall (lock i t0) ss -> due DT t0 vs <> [] ->
  forall o, In o (k_outs c) -> existsb (writes_to (read_path o)) (fst (run_ops c vs ss)) = true.
Proof.
  induction vs as [|v vs IH]; intros i t0 ss F L K N o Ho; cbn [run_ops due] in *; [congruence|].
  inversion F as [|? ? F1 F2]; subst.
  pose proof (passage_dops c dir DT ok v i t0 (k_outs c) (v_outs v) ss (fun o H => H) F1 L K) as P.
  pose proof (fun Du => passage_writes v i t0 Du (k_outs c) (v_outs v) ss (fun o H => H) F1 L K o Ho) as W.
  destruct (passage_ops _ _ _ _ _) as [os ss']. cbn [fst snd] in P, W. destruct P as (_ & P2 & P3). fold (is_due DT t0 v) in N.
  destruct (is_due DT t0 v).
  - specialize (W eq_refl). destruct (run_ops _ _ _). cbn [fst]. rewrite existsb_app, W. auto.
  - specialize (IH _ _ ss' F2 P2 P3 N o Ho). destruct (run_ops _ _ _). cbn [fst] in *. rewrite existsb_app, IH. apply orb_true_r.
Qed.

Lemma between_lives (fs : fsys) log : lives_between restore c fs log -> lives restore c fs log.
Proof.
  induction 1 as [|fs log vs os fs' L IH O V E]; [constructor|].
  rewrite <- (firstn_all os). eapply lived; eauto. rewrite firstn_all. auto.
Qed.

Lemma newest_app (a b : list op) : newest (a ++ b) = fold_left newest_step b (newest a).
Proof. unfold newest. rewrite fold_left_app. reflexivity. Qed.
Lemma half_app (a b : list op) p : half (a ++ b) p = fold_left half_step b (half a) p.
Proof. unfold half. rewrite fold_left_app. reflexivity. Qed.

Lemma between_calm (fs : fsys) log : lives_between restore c fs log ->
  two_checkpoints dir log = false /\ (forall p, half log p = false) /\
  (newest log <> None -> forall o, In o (k_outs c) -> ~ never_written log (read_path o)).
Proof.
  induction 1 as [|fs log vs os fs' L IH O V E].
  - split; [auto|]. split; [auto|]. intros N. destruct N. auto.
  - destruct IH as (I1 & I2 & I3). pose proof (lives_folder restore c dir DT ok _ _ (between_lives _ _ L)) as F.
    pose proof (ops_shaped restore c dir DT ok _ _ _ O) as Sh.
    unfold ops_of in O. destruct (new_run restore c fs) as [[st ss]|] eqn:N; [|discriminate]. cbn [bind] in O.
    assert (X : os = fst (run_ops c vs ss)) by congruence. clear O.
    destruct (accepted restore c dir DT ok _ _ _ _ _ F N) as (B & Ls & i & t0 & St & Lk & _).
    pose proof (run_dops c dir DT ok vs i t0 ss V Ls Lk) as R. rewrite <- X in R.
    split; [|split].
    + unfold two_checkpoints. rewrite fold_left_app. fold (two_checkpoints dir log). rewrite I1, (pend_filter c dir _ Sh), R.
      destruct (drun_full dir (due DT t0 vs) i _ _ St) as (? & _ & _ & P). exact P.
    + intros p. rewrite half_app. rewrite X. apply run_calm. auto.
    + intros Nn o Ho Nw. unfold never_written in Nw. rewrite existsb_app in Nw. apply orb_false_iff in Nw. destruct Nw as [N1 N2].
      rewrite newest_app, (newest_filter c dir _ Sh), R in Nn.
      destruct (due DT t0 vs) as [|v ws] eqn:Du.
      * cbn in Nn. apply (I3 Nn o Ho N1).
      * rewrite X, (run_writes vs i t0 ss V Ls Lk) in N2; auto; [discriminate|congruence].
Qed.

Hypothesis readable : forall m t, restore m t <> None.

Theorem between_accepted (fs : fsys) log : lives_between restore c fs log ->
  exists st ss, new_run restore c fs = Some (st, ss) /\
    match newest log, st with
    | None, Fresh => True
    | Some (_, t, d), Resumed t' d' svs => t' = t /\ d' = d /\ length svs = length (k_outs c)
    | _, _ => False
    end.
Proof.
  intros L. pose proof (between_lives _ _ L) as L'. pose proof (lives_folder restore c dir DT ok _ _ L') as F.
  destruct (between_calm _ _ L) as (T & H & W).
  destruct (newest log) as [[[p t] d]|] eqn:N.
  - destruct (new_run restore c fs) as [[st ss]|] eqn:Nr.
    + exists st, ss. split; auto. destruct (run_cases restore c dir DT ok fs _ _ F) as (_ & _ & C3).
      destruct (C3 p t d eq_refl T) as (i & _ & _ & E). rewrite Nr in E. destruct (mapM _ _) as [svs|] eqn:Em; [|discriminate].
      injection E as -> _. split; auto. split; auto. clear -Em. revert svs Em. induction (k_outs c) as [|o l IH]; cbn; intros svs Em.
      * injection Em as <-. auto.
      * destruct (load_out _ _ _ _); [|discriminate]. cbn in Em. destruct (mapM _ _) eqn:E; [|discriminate]. injection Em as <-. cbn. f_equal. apply IH. auto.
    + exfalso. apply (refused restore c dir DT ok readable fs log _ L' N) in Nr. destruct Nr as [Nr|(o & Ho & [Nr|Nr])]; [congruence| |].
      * rewrite H in Nr. discriminate.
      * apply (W ltac:(discriminate) o Ho Nr).
  - destruct (run_cases restore c dir DT ok fs _ _ F) as (C1 & _ & _).
    destruct (C1 eq_refl T) as [_ E].
    + destruct (fget fs (pth 0)) eqn:G; auto. exfalso.
      assert (Hb : inner fs = [(pth 0, Broken)]).
      { pose proof (inner_get dir fs (pth 0) (within_pth dir 0)) as Gi. rewrite G in Gi. inversion F as [E|E|? ? ? E|? ? ? E|? ? ? ? ? E]; auto. rewrite <- E in Gi. discriminate. }
      pose proof (lives_known restore c dir DT ok _ _ L') as (K1 & _). specialize (K1 (pth 0)). rewrite H in K1.
      rewrite <- (inner_get dir fs (pth 0) (within_pth dir 0)), Hb in K1. cbn [fget] in K1. rewrite pth_eqb in K1. destruct K1 as [K1 _]. specialize (K1 eq_refl). discriminate.
    + rewrite E. eexists _, _. split; [reflexivity|]. cbn. auto.
Qed.

(** * No operation fails *)
Fixpoint ready (w : list string) (os : list op) : Prop :=
  match os with
  | [] => True
  | Trunc p :: r | Fill p _ :: r => ready (p :: w) r
  | Del _ :: r => ready w r
  | Copy0 s q :: r | Copy1 s q :: r => In s w /\ ready (q :: w) r
  end.
Lemma ready_mono os : forall w w', (forall p, In p w -> In p w') -> ready w os -> ready w' os.
Proof.
  induction os as [|[p|p f|p|s q|s q] os IH]; intros w w' H R; cbn in *; auto.
  - refine (IH _ _ _ R). intros x [->|X]; cbn; auto.
  - refine (IH _ _ _ R). intros x [->|X]; cbn; auto.
  - exact (IH _ _ H R).
  - destruct R as [R1 R2]. split; auto. refine (IH _ _ _ R2). intros x [->|X]; cbn; auto.
  - destruct R as [R1 R2]. split; auto. refine (IH _ _ _ R2). intros x [->|X]; cbn; auto.
Qed.
Lemma ready_app a b : forall w, ready w a -> ready w b -> ready w (a ++ b).
Proof.
  induction a as [|[p|p f|p|s q|s q] a IH]; intros w A B; cbn in *; auto.
  - apply IH; auto. eapply ready_mono; [|exact B]. intros ? ?; apply in_cons; auto.
  - apply IH; auto. eapply ready_mono; [|exact B]. intros ? ?; apply in_cons; auto.
  - destruct A as [A1 A2]. split; auto. apply IH; auto. eapply ready_mono; [|exact B]. intros ? ?; apply in_cons; auto.
  - destruct A as [A1 A2]. split; auto. apply IH; auto. eapply ready_mono; [|exact B]. intros ? ?; apply in_cons; auto.
Qed.
Lemma ready_exec os : forall fs w y, Forall (shaped c dir) os -> (forall p, In p w -> within dir p = false -> fget fs p <> None) -> ready w os ->
  exec (inner fs) (filter (dop dir) os) = Some y -> exists fs', exec fs os = Some fs'.
Proof.
  induction os as [|o os IH]; intros fs w y Sh W R E; cbn [exec]; [eauto|].
  inversion Sh as [|? ? S1 S2]; subst.
  assert (P : forall q f, within dir q = false -> (dop dir o = within dir q) -> target o = q -> ready (q :: w) os -> op_do fs o = Some (fput fs q f) ->
    exists fs', (do g <- op_do fs o ; exec g os) = Some fs').
  { intros q f Wq Dq _ Rq ->. cbn [bind]. eapply (IH _ (q :: w) y); eauto.
    - intros p [->|Hp] Wp; rewrite fget_put; [rewrite String.eqb_refl; discriminate|]. destruct (String.eqb q p); [discriminate|]. apply W; auto.
    - rewrite inner_put, Wq. cbn [filter] in E. rewrite Dq, Wq in E. exact E. }
  assert (P' : forall q f, within dir q = true -> dop dir o = true -> ready (q :: w) os -> (forall x : fsys, op_do x o = Some (fput x q f)) ->
    exists fs', (do g <- op_do fs o ; exec g os) = Some fs').
  { intros q f Wq Dq Rq Hx. rewrite Hx. cbn [bind]. eapply (IH _ (q :: w) y); eauto.
    - intros p Hp Wp. rewrite fget_put. destruct (String.eqb q p) eqn:Q; [discriminate|]. destruct Hp as [->|Hp]; [rewrite String.eqb_refl in Q; discriminate|]. apply W; auto.
    - rewrite inner_put, Wq. cbn [filter] in E. rewrite Dq in E. cbn [exec] in E. rewrite Hx in E. exact E. }
  destruct o as [p|p f|p|s q|s q]; cbn [ready] in R.
  - destruct (within dir p) eqn:Wp; [eapply (P' p Broken)|eapply (P p Broken)]; eauto.
  - destruct (within dir p) eqn:Wp; [eapply (P' p f)|eapply (P p f)]; eauto.
  - cbn in S1. destruct S1 as [i ->]. cbn [filter] in E. unfold dop at 1 in E. cbn [target] in E. rewrite within_pth in E. cbn [exec op_do] in E.
    rewrite (inner_get dir fs _ (within_pth dir i)) in E. cbn [op_do]. destruct (fget fs (pth i)); [|discriminate]. cbn [bind] in *.
    eapply (IH _ w y); eauto.
    + intros q Hq Wq. rewrite fget_del. destruct (String.eqb (pth i) q) eqn:Q; [apply String.eqb_eq in Q; subst q; rewrite within_pth in Wq; discriminate|]. auto.
    + rewrite inner_del, within_pth. exact E.
  - cbn in S1. destruct S1 as [A1 A2]. destruct R as [R1 R2]. specialize (W s R1 (within_out c dir DT ok _ A1)).
    eapply (P q Broken); eauto; [apply (within_out c dir DT ok); auto|]. cbn. destruct (fget fs s); [auto|congruence].
  - cbn in S1. destruct S1 as [A1 A2]. destruct R as [R1 R2]. specialize (W s R1 (within_out c dir DT ok _ A1)).
    destruct (fget fs s) as [f|] eqn:G; [|congruence].
    eapply (P q f); eauto; [apply (within_out c dir DT ok); auto|]. cbn. rewrite G. auto.
Qed.

Lemma witness_ready last out v m s w : ready w (fst (witness_ops c last out v m s)).
Proof.
  unfold witness_ops, checkpoint_save, copy_save. rewrite (cko_DT _ _ _ ok), (cko_dir _ _ _ ok), every, Z.mod_1_r. cbn [Z.eqb].
  assert (Cp : forall w, In (fst out) w -> ready w (copy_out out)).
  { intros u Hu. unfold copy_out. destruct (snd out); cbn; auto 8. }
  assert (W : forall i u, ready u (if last then [Trunc (dir ++ ck_name i)%string; Fill (dir ++ ck_name i)%string (Pkl (v_t v) (v_state v))] else [])).
  { intros i u. destruct last; cbn; auto. }
  assert (X : forall i u, ready u (if (0 <? i)%nat && last then [Del (dir ++ ck_name (i - 1))%string] else [])).
  { intros i u. destruct (_ && _); cbn; auto. }
  destruct (Rgeb (v_t v - k_t s) DT); destruct (k_copyDT c) as [x|]; cbn [k_tc]; try destruct (Rgeb _ x); cbn [fst app ready];
    repeat apply ready_app; cbn [ready]; auto; apply Cp; cbn; auto.
Qed.
Lemma passage_ready v : forall outs ms ss w, ready w (fst (passage_ops c v outs ms ss)).
Proof.
  induction outs as [|out outs IH]; intros [|m ms] [|s ss] w; cbn [passage_ops fst ready]; auto.
  pose proof (witness_ready (match outs with [] => true | _ => false end) out v m s w) as W.
  specialize (IH ms ss w). destruct (witness_ops _ _ _ _ _ _). destruct (passage_ops _ _ _ _ _). cbn [fst] in *. apply ready_app; auto.
Qed.
Lemma run_ready vs : forall ss w, ready w (fst (run_ops c vs ss)).
Proof.
  induction vs as [|v vs IH]; intros ss w; cbn [run_ops fst ready]; auto.
  pose proof (passage_ready v (k_outs c) (v_outs v) ss w) as P.
  destruct (passage_ops _ _ _ _ _) as [o ss']. specialize (IH ss' w). destruct (run_ops _ _ _). cbn [fst] in *. apply ready_app; auto.
Qed.

(** A run that is accepted, from any history, never fails on a file. *)
Theorem no_failure (fs : fsys) log vs os : lives restore c fs log -> ops_of restore c fs vs = Some os ->
  Forall (fun v => length (v_outs v) = length (k_outs c)) vs -> exists fs', exec fs os = Some fs'.
Proof.
  intros L O V. pose proof (lives_folder restore c dir DT ok _ _ L) as F. pose proof (ops_shaped restore c dir DT ok _ _ _ O) as Sh.
  unfold ops_of in O. destruct (new_run restore c fs) as [[st ss]|] eqn:N; [|discriminate]. cbn [bind] in O.
  assert (X : os = fst (run_ops c vs ss)) by congruence. clear O.
  destruct (accepted restore c dir DT ok _ _ _ _ _ F N) as (B & Ls & i & t0 & St & Lk & _).
  pose proof (run_dops c dir DT ok vs i t0 ss V Ls Lk) as R. rewrite <- X in R.
  destruct (drun_full dir (due DT t0 vs) i _ _ St) as (y & E & _). rewrite <- R in E.
  eapply (ready_exec os fs [] y); eauto.
  rewrite X. apply run_ready.
Qed.
End Run.
