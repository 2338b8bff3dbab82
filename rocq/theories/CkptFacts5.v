(** Numbers and times of the checkpoints; a folder written without "/". *)
From Coq Require Import String Ascii Lia Lra Bool.
From Verif Require Import Num NumFacts Ckpt SpecCkpt CkptFacts CkptFacts2 CkptFacts3 CkptFacts4.
Local Open Scope string_scope.
Local Open Scope list_scope.

Lemma spaced_app {D} dir DT (a b : list (string * R * D)) : forall i t0, spaced dir DT i t0 a ->
  spaced dir DT (i + length a) (match rev a with (_, t, _) :: _ => t | [] => t0 end) b -> spaced dir DT i t0 (a ++ b).
Proof.
  induction a as [|[[p t] d] a IH]; intros i t0 A B; cbn in *; [rewrite Nat.add_0_r in B; auto|].
  destruct A as (A1 & A2 & A3). split; auto. split; auto. apply IH; auto. rewrite Nat.add_succ_r in B. cbn.
  destruct (rev a) as [|[[p' t'] d'] r]; cbn in *; auto.
Qed.
Lemma spaced_firstn {D} dir DT (a : list (string * R * D)) : forall n i t0, spaced dir DT i t0 a -> spaced dir DT i t0 (firstn n a).
Proof. induction a as [|[[p t] d] a IH]; intros [|n] i t0 A; cbn in *; auto. destruct A as (A1 & A2 & A3). auto. Qed.
Lemma spaced_last {D} dir DT (a : list (string * R * D)) p t d : forall i t0, spaced dir DT i t0 (a ++ [(p, t, d)]) -> p = (dir ++ ck_name (i + length a))%string.
Proof.
  induction a as [|[[p' t'] d'] a IH]; intros i t0 H; cbn in H.
  - cbn. rewrite Nat.add_0_r. tauto.
  - destruct H as (_ & _ & H). apply IH in H. cbn. rewrite Nat.add_succ_r. auto.
Qed.

Section Run.
Context {D M S : Type}.
Variable restore : M -> R -> option S.
Variable c : kcfg.
Variable dir : string.
Variable DT : R.
Notation fsys := (fsys D M).
Notation op := (op D M).
Notation passage := (passage D M).
Notation pth := (pth dir).
Notation inner := (@inner D M dir).

Definition stamp (q : nat * passage) : string * R * D := (pth (fst q), v_t (snd q), v_state (snd q)).
Definition stamps (i : nat) (vs : list passage) : list (string * R * D) := map stamp (combine (seq i (length vs)) vs).

Lemma checkpoints_app (a b : list op) : checkpoints (a ++ b) = checkpoints a ++ checkpoints b.
Proof. apply flat_map_app. Qed.
Lemma checkpoints_drun vs : forall i, checkpoints (drun dir i vs) = stamps i vs.
Proof.
  induction vs as [|v vs IH]; intros i; [reflexivity|]. cbn [drun]. rewrite checkpoints_app, IH. unfold stamps. cbn [length seq combine map].
  destruct i; reflexivity.
Qed.
Lemma checkpoints_firstn os : forall n, exists m, checkpoints (firstn n os) = firstn m (checkpoints (os : list op)).
Proof.
  induction os as [|o os IH]; intros [|n]; try (exists 0%nat; reflexivity). destruct (IH n) as [m H]. cbn [firstn]. unfold checkpoints in *. cbn [flat_map].
  rewrite H. destruct o as [|p f| | |]; try (exists m; reflexivity). destruct f; try (exists m; reflexivity). exists (Datatypes.S m). reflexivity.
Qed.
Lemma checkpoints_filter os : Forall (shaped c dir) os -> checkpoints os = checkpoints (filter (@dop D M dir) os).
Proof.
  induction 1 as [|o os H _ IH]; [reflexivity|]. unfold checkpoints in *. cbn [flat_map filter]. rewrite IH.
  destruct (dop dir o) eqn:E; [reflexivity|]. destruct o as [|p f| | |]; auto. destruct f; auto.
  cbn in H. destruct H as [i ->]. unfold dop in E. cbn in E. rewrite within_pth in E. discriminate.
Qed.
Lemma stamps_spaced vs : forall i t0, spaced dir DT i t0 (stamps i (due DT t0 vs)).
Proof.
  induction vs as [|v vs IH]; intros i t0; cbn [due]; [exact I|]. destruct (Rleb (t0 + DT) (v_t v)) eqn:E; [|apply IH].
  unfold stamps. cbn [length seq combine map spaced stamp fst snd]. apply Rleb_true in E. split; [reflexivity|]. split; [auto|apply IH].
Qed.
Lemma newest_checkpoints (log : list op) : newest log = match rev (checkpoints log) with [] => None | x :: _ => Some x end.
Proof.
  induction log as [|o log IH] using rev_ind; [reflexivity|]. rewrite newest_app, checkpoints_app, rev_app_distr. cbn [fold_left].
  unfold newest_step. destruct o as [|p f| | |]; cbn; auto. destruct f; cbn; auto.
Qed.

Hypothesis ok : ck_ok c dir DT.

Theorem checkpoints_due (fs : fsys) log vs os : lives restore c fs log -> ops_of restore c fs vs = Some os ->
  Forall (fun v => length (v_outs v) = length (k_outs c)) vs -> spaced dir DT 0 0 (checkpoints log) ->
  checkpoints os = stamps (length (checkpoints log)) (due DT (last_time log) vs).
Proof.
  intros L O V Sp. pose proof (lives_folder restore c dir DT ok _ _ L) as F. pose proof (ops_shaped restore c dir DT ok _ _ _ O) as Sh.
  unfold ops_of in O. destruct (new_run restore c fs) as [[st ss]|] eqn:N; [|discriminate]. cbn [bind] in O.
  assert (X : os = fst (run_ops c vs ss)) by congruence. clear O.
  destruct (accepted restore c dir DT ok _ _ _ _ _ F N) as (B & Ls & i & t0 & St & Lk & Sk).
  pose proof (run_dops c dir DT ok vs i t0 ss V Ls Lk) as R. rewrite <- X in R.
  rewrite (checkpoints_filter os Sh), R, checkpoints_drun.
  assert (Q : i = length (checkpoints log) /\ t0 = last_time log).
  { unfold last_time. rewrite newest_checkpoints in *. destruct st as [|t d svs].
    - destruct Sk as (-> & -> & Sk). destruct (rev (checkpoints log)) eqn:E; [|discriminate]. split; auto.
      rewrite <- rev_length, E. auto.
    - destruct Sk as (-> & j & -> & Sk). destruct (rev (checkpoints log)) as [|[[p t'] d'] r] eqn:E; [discriminate|].
      injection Sk as -> -> ->. split; auto. apply (f_equal (@rev _)) in E. rewrite rev_involutive in E. cbn in E. rewrite E in Sp.
      apply spaced_last in Sp. apply app_inj_s, name_inj in Sp. rewrite E, app_length. cbn [length]. lia. }
  destruct Q as [-> ->]. reflexivity.
Qed.

Theorem checkpoints_spaced (fs : fsys) log : lives restore c fs log -> spaced dir DT 0 0 (checkpoints log).
Proof.
  induction 1 as [|fs log vs os n fs' L IH O V E]; [exact I|].
  rewrite checkpoints_app. apply spaced_app; auto. destruct (checkpoints_firstn os n) as [m ->].
  rewrite (checkpoints_due fs log vs os L O V IH). apply spaced_firstn. cbn [Nat.add].
  replace (match rev (checkpoints log) with [] => 0 | (_, t, _) :: _ => t end) with (last_time log).
  - apply stamps_spaced.
  - unfold last_time. rewrite newest_checkpoints. destruct (rev (checkpoints log)) as [|[[p t] d] r]; auto.
Qed.
End Run.

(** * A folder written without "/" at the end *)
Lemma strip_other a b s : strip a s = None -> strip (a ++ b) s = None.
Proof.
  revert s. induction a as [|x a IH]; intros s; cbn; [discriminate|]. destruct s as [|y s]; auto. destruct (Ascii.eqb x y); auto.
Qed.
Lemma strip_slash d i : strip (d ++ "/") (d ++ ck_name i) = None.
Proof.
  induction d as [|x d IH]; [reflexivity|]. cbn [append strip]. rewrite Ascii.eqb_refl. exact IH.
Qed.

Section NoSlash.
Context {D M S : Type}.
Variable restore : M -> R -> option S.
Variable c : kcfg.
Variable dir : string.
Hypothesis Hdir : k_dir c = Some dir.
Hypothesis bare : after_last "/" dir <> "".
Hypothesis outside : forall p, In p (paths c) -> strip (dir ++ "/") p = None.
Hypothesis copies : k_copyDT c <> None -> forall o, In o (k_outs c) -> snd o <> None.
Notation fsys := (fsys D M).
Notation op := (op D M).
Notation passage := (passage D M).

Definition apart (p : string) : Prop := strip (dir ++ "/") p = None.
Definition apart_op (o : op) : Prop := apart (target o).

Lemma copy_apart out : In out (k_outs c) -> Forall apart_op (copy_out out).
Proof.
  intros H. unfold copy_out. destruct (snd out) as [q|] eqn:E; auto.
  repeat constructor; apply outside; eapply in_paths_copy; eauto.
Qed.
Lemma witness_apart last out v m s : In out (k_outs c) -> Forall apart_op (fst (witness_ops c last out v m s)).
Proof.
  intros H. unfold witness_ops, checkpoint_save, copy_save. rewrite Hdir.
  assert (Cp : Forall apart_op (copy_out out)) by (apply copy_apart; auto).
  assert (P : Forall apart_op (if ((v_pass v + 1) mod k_every c =? 0)%Z then [Trunc (fst out); Fill (fst out) (Mat m)] else [])).
  { destruct (_ =? 0)%Z; auto. repeat constructor; apply outside, in_paths; auto. }
  assert (W : forall i, Forall apart_op (if last then [Trunc (dir ++ ck_name i); Fill (dir ++ ck_name i) (Pkl (v_t v) (v_state v))] else [])).
  { intros i. destruct last; repeat constructor; apply strip_slash. }
  assert (X : forall i, Forall apart_op (if (0 <? i)%nat && last then [Del (dir ++ ck_name (i - 1))] else [])).
  { intros i. destruct (_ && _); repeat constructor. apply strip_slash. }
  destruct (k_DT c) as [DT|]; [destruct (Rgeb (v_t v - k_t s) DT)|]; destruct (k_copyDT c) as [x|]; cbn [k_tc]; try destruct (Rgeb _ x); cbn [fst];
    repeat (apply Forall_app; split); auto.
Qed.
Lemma passage_apart v : forall outs ms ss, (forall o, In o outs -> In o (k_outs c)) -> Forall apart_op (fst (passage_ops c v outs ms ss)).
Proof.
  induction outs as [|out outs IH]; intros [|m ms] [|s ss] Ho; cbn [passage_ops fst]; auto.
  pose proof (witness_apart (match outs with [] => true | _ => false end) out v m s (Ho _ (or_introl eq_refl))) as W.
  specialize (IH ms ss (fun o H => Ho o (or_intror H))).
  destruct (witness_ops _ _ _ _ _ _). destruct (passage_ops _ _ _ _ _). cbn [fst] in *. apply Forall_app. auto.
Qed.
Lemma run_apart vs : forall ss, Forall apart_op (fst (run_ops c vs ss)).
Proof.
  induction vs as [|v vs IH]; intros ss; cbn [run_ops fst]; auto.
  pose proof (passage_apart v (k_outs c) (v_outs v) ss (fun o H => H)) as P.
  destruct (passage_ops _ _ _ _ _) as [o ss']. specialize (IH ss'). destruct (run_ops _ _ _). cbn [fst] in *. apply Forall_app. auto.
Qed.

Definition clear_of (fs : fsys) : Prop := Forall (fun q => apart (fst q)) fs.
Lemma clear_put fs p f : clear_of fs -> apart p -> clear_of (fput fs p f).
Proof. unfold clear_of. induction 1 as [|[q g] fs H1 H2 IH]; intros P; cbn; [repeat constructor; auto|]. destruct (String.eqb q p); constructor; auto. Qed.
Lemma clear_exec os : forall fs fs', Forall apart_op os -> clear_of fs -> exec fs os = Some fs' -> clear_of fs'.
Proof.
  induction os as [|o os IH]; intros fs fs' A C E; cbn in E; [congruence|]. inversion A as [|? ? A1 A2]; subst.
  destruct (op_do fs o) as [g|] eqn:G; [|discriminate]. cbn in E. apply (IH g fs'); auto. unfold apart_op in A1.
  destruct o as [p|p f|p|s q|s q]; cbn in G, A1.
  - injection G as <-. apply clear_put; auto.
  - injection G as <-. apply clear_put; auto.
  - destruct (fget fs p); [|discriminate]. injection G as <-. unfold clear_of, fdel. apply Forall_forall. intros x Hx. apply filter_In in Hx.
    destruct Hx as [Hx _]. unfold clear_of in C. rewrite Forall_forall in C. auto.
  - destruct (fget fs s); [|discriminate]. injection G as <-. apply clear_put; auto.
  - destruct (fget fs s); [|discriminate]. injection G as <-. apply clear_put; auto.
Qed.

Theorem no_slash (fs : fsys) log : lives restore c fs log -> exists ss, new_run restore c fs = Some (Fresh, ss).
Proof.
  intros L. assert (C : clear_of fs).
  { induction L as [|fs log vs os n fs' L IH O V E]; [constructor|]. eapply clear_exec; [|exact IH|exact E].
    apply Forall_firstn. unfold ops_of in O. destruct (new_run restore c fs) as [[st ss]|]; [|discriminate]. injection O as <-. apply run_apart. }
  unfold new_run. rewrite (mapM_all _ (mkKst 0 0 0)).
  2:{ intros o Ho. unfold saver_init. rewrite Hdir. destruct (k_DT c); destruct (k_copyDT c); auto; destruct (snd o) eqn:E; auto; exfalso; apply (copies ltac:(discriminate) o Ho E). }
  cbn [bind]. rewrite Hdir. assert (Li : listdir fs dir = []).
  { unfold listdir, as_dir. destruct (String.eqb_spec (after_last "/" dir) ""); [contradiction|].
    unfold clear_of, apart in C. clear L. induction C as [|q fs H _ IH]; [reflexivity|]. cbn [flat_map]. rewrite H. exact IH. }
  rewrite Li. eauto.
Qed.
End NoSlash.

(** Settings that are refused. *)
Lemma init_none c out : saver_init c out = None <-> (k_DT c <> None /\ k_dir c = None) \/ (k_copyDT c <> None /\ snd out = None).
Proof.
  assert (X : forall A (a : A), Some a <> None) by discriminate.
  unfold saver_init. destruct (k_DT c), (k_dir c), (k_copyDT c), (snd out); intuition (try discriminate; auto).
Qed.
Lemma nowhere_refused {D M S} (restore : M -> R -> option S) c : 
  (nowhere c -> forall fs : fsys D M, new_run restore c fs = None) /\ (new_run restore c ([] : fsys D M) = None -> nowhere c).
Proof.
  split.
  - intros (out & H1 & H2) fs. unfold new_run. assert (mapM (saver_init c) (k_outs c) = None) as -> by (apply mapM_none; exists out; split; auto; apply init_none; auto). reflexivity.
  - unfold new_run. destruct (mapM (saver_init c) (k_outs c)) eqn:E.
    + cbn [bind]. destruct (k_dir c); discriminate.
    + intros _. apply mapM_none in E. destruct E as (out & H1 & H2). exists out. split; auto. apply init_none; auto.
Qed.
