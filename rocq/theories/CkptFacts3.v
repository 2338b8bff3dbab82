(** Histories of runs: what the folder holds at any point, and when a new run
    is refused. *)
From Coq Require Import String Ascii Lia Lra Bool.
From Verif Require Import Num NumFacts Ckpt SpecCkpt CkptFacts CkptFacts2.
Local Open Scope string_scope.
Local Open Scope list_scope.

Lemma mapM_all {A B} (f : A -> option B) (y : B) l : (forall x, In x l -> f x = Some y) -> mapM f l = Some (map (fun _ => y) l).
Proof. induction l as [|x l IH]; cbn; intros H; auto. rewrite H by auto. cbn [bind]. rewrite IH by auto. auto. Qed.
Lemma mapM_none {A B} (f : A -> option B) l : mapM f l = None <-> exists x, In x l /\ f x = None.
Proof.
  induction l as [|x l IH]; cbn.
  - split; [discriminate|intros (? & [] & _)].
  - destruct (f x) eqn:E; cbn [bind].
    + destruct (mapM f l); cbn [bind].
      * split; [discriminate|]. intros (y & [->|H] & F); [congruence|]. assert (Some l0 = None) by (apply IH; eauto). discriminate.
      * split; auto. intros _. destruct (proj1 IH eq_refl) as (y & H & F). eauto.
    + split; eauto.
Qed.

Section Run.
Context {D M S : Type}.
Variable restore : M -> R -> option S.
Variable c : kcfg.
Variable dir : string.
Variable DT : R.
Hypothesis ok : ck_ok c dir DT.
Notation fsys := (fsys D M).
Notation op := (op D M).
Notation passage := (passage D M).
Notation start := (start D S).
Notation pth := (pth dir).
Notation inner := (@inner D M dir).
Notation folder := (@folder D M dir).
Notation settled := (@settled D M dir).

Lemma init_all : mapM (saver_init c) (k_outs c) = Some (map (fun _ => mkKst 0 0 0) (k_outs c)).
Proof.
  apply mapM_all. intros o Ho. unfold saver_init. rewrite (cko_DT _ _ _ ok), (cko_dir _ _ _ ok).
  pose proof (cko_copy _ _ _ ok) as C. destruct (k_copyDT c); auto. destruct (snd o) eqn:E; auto.
  exfalso. apply (C ltac:(discriminate) o Ho E).
Qed.

Lemma listdir_pth (l : fsys) : (forall q, In q l -> exists i, fst q = pth i) ->
  exists is, map fst l = map pth is /\ listdir l dir = map ck_name is.
Proof.
  intros H. unfold listdir. rewrite (as_dir_slash _ (cko_slash _ _ _ ok)). induction l as [|[p f] l IH]; [exists []; auto|].
  destruct IH as (is & E1 & E2); [intros; apply H; cbn; auto|]. destruct (H (p, f) (or_introl eq_refl)) as [i Hi]. cbn in Hi. subst p.
  exists (i :: is). cbn [map flat_map fst]. rewrite strip_pth, name_slash, E2, E1. auto.
Qed.

Lemma run_cases fs a b : folder (inner fs) a b ->
  (a = None -> b = false -> fget fs (pth 0) = None -> inner fs = [] /\ new_run restore c fs = Some (Fresh, map (fun _ => mkKst 0 0 0) (k_outs c))) /\
  (b = true \/ a = None /\ fget fs (pth 0) <> None -> new_run restore c fs = None) /\
  (forall p t d, a = Some (p, t, d) -> b = false -> exists i, p = pth i /\ inner fs = [(pth i, Pkl t d)] /\
     new_run restore c fs = do svs <- mapM (load_out restore fs t) (k_outs c) ; Some (Resumed t d svs, map (fun _ => mkKst (i + 1) t 0) (k_outs c))).
Proof.
  intros F. unfold new_run. rewrite init_all, (cko_dir _ _ _ ok). cbn [bind].
  rewrite (listdir_inner dir (cko_slash _ _ _ ok) fs).
  assert (G : forall i, fget fs (pth i) = fget (inner fs) (pth i)) by (intros; symmetry; apply inner_get, within_pth).
  assert (L : exists is, map fst (inner fs) = map pth is /\ listdir (inner fs) dir = map ck_name is).
  { apply listdir_pth. intros q Hq. inversion F as [E|E|i t d E|i t d E|i t d t' d' E]; rewrite <- E in Hq; cbn in Hq; intuition subst; cbn; eauto. }
  destruct L as (is & E1 & E2). rewrite E2.
  inversion F as [E|E|i t d E|i t d E|i t d t' d' E]; rewrite <- E in E1, G; cbn in E1.
  - destruct is; [|discriminate]. cbn [map]. split; [auto|]. split.
    + intros [H|[_ H]]; [discriminate|]. rewrite G in H. cbn in H. congruence.
    + intros; discriminate.
  - destruct is as [|j [|]]; try discriminate. injection E1 as E1. assert (j = 0)%nat by (apply app_inj_s in E1; apply name_inj in E1; auto). subst j.
    cbn [map]. split; [|split].
    + intros _ _ H. rewrite G in H. cbn in H. rewrite String.eqb_refl in H. discriminate.
    + intros _. unfold load_checkpoint. rewrite number_name. cbn [bind]. fold (pth 0). rewrite G. cbn. rewrite String.eqb_refl. auto.
    + intros; discriminate.
  - destruct is as [|j [|]]; try discriminate. injection E1 as E1. assert (j = i)%nat by (apply app_inj_s in E1; apply name_inj in E1; auto). subst j.
    cbn [map]. split; [|split].
    + intros; discriminate.
    + intros [H|[H _]]; discriminate.
    + intros p t2 d2 H _. injection H as <- <- <-. exists i. split; [auto|]. split; [auto|]. unfold load_checkpoint. rewrite number_name. cbn [bind].
      fold (pth i). rewrite G. cbn. rewrite String.eqb_refl. auto.
  - destruct is as [|j [|k [|]]]; try discriminate. cbn [map]. split; [intros; discriminate|]. split; auto. intros; discriminate.
  - destruct is as [|j [|k [|]]]; try discriminate. cbn [map]. split; [intros; discriminate|]. split; auto. intros; discriminate.
Qed.

(** What an accepted start gives. *)
Lemma accepted fs a b st ss : folder (inner fs) a b -> new_run restore c fs = Some (st, ss) ->
  b = false /\ length ss = length (k_outs c) /\ exists i t0, settled i (inner fs) a /\ Forall (lock i t0) ss /\
    match st with Fresh => i = 0%nat /\ t0 = 0 /\ a = None | Resumed t d _ => t0 = t /\ exists j, i = Datatypes.S j /\ a = Some (pth j, t, d) end.
Proof.
  intros F H. destruct (run_cases fs a b F) as (C1 & C2 & C3).
  destruct b; [rewrite C2 in H by auto; discriminate|]. split; auto.
  destruct a as [[[p t] d]|].
  - destruct (C3 p t d eq_refl eq_refl) as (i & -> & E & N). rewrite N in H. destruct (mapM _ _) as [svs|]; [|discriminate].
    injection H as <- <-. rewrite map_length. split; auto. exists (i + 1)%nat, t. rewrite Nat.add_comm. cbn [Nat.add]. split; [|split].
    + cbn. eauto.
    + apply Forall_map, Forall_forall. intros. split; auto.
    + eauto.
  - destruct (fget fs (pth 0)) eqn:E; [rewrite C2 in H by (right; split; congruence); discriminate|].
    destruct (C1 eq_refl eq_refl eq_refl) as [I N]. rewrite N in H. injection H as <- <-. rewrite map_length. split; auto.
    exists 0%nat, 0. split; [cbn; auto|]. split; auto. apply Forall_map, Forall_forall. intros. split; auto.
Qed.

Lemma ops_shaped (fs : fsys) vs (os : list op) : ops_of restore c fs vs = Some os -> Forall (shaped c dir) os.
Proof.
  unfold ops_of. destruct (new_run restore c fs) as [[st ss]|]; [|discriminate]. cbn. intros H. injection H as <-. eapply run_shaped; eauto.
Qed.

Lemma Forall_firstn {A} (P : A -> Prop) n l : Forall P l -> Forall P (firstn n l).
Proof. intros H. revert n. induction H; intros [|n]; cbn; constructor; auto. Qed.

Theorem lives_folder (fs : fsys) log : lives restore c fs log -> folder (inner fs) (newest log) (two_checkpoints dir log).
Proof.
  induction 1 as [|fs log vs os n fs' L IH O V E]; [constructor|].
  pose proof (ops_shaped _ _ _ O) as Sh. unfold ops_of in O. destruct (new_run restore c fs) as [[st ss]|] eqn:N; [|discriminate].
  cbn [bind] in O. assert (os = fst (run_ops c vs ss)) by congruence. clear O.
  destruct (accepted _ _ _ _ _ IH N) as (B & Ls & i & t0 & St & Lk & _).
  pose proof (run_dops c dir DT ok vs i t0 ss V Ls Lk) as R. rewrite <- H in R.
  pose proof (Forall_firstn _ n _ Sh) as Shn.
  apply (inner_exec dir) in E; [|eapply shaped_plain; eauto].
  destruct (firstn_filter (fun o => within dir (target o)) n os) as [m Fm]. rewrite Fm in E.
  change (filter (fun o => within dir (target o)) os) with (filter (dop dir) os) in E. rewrite R in E.
  unfold newest, two_checkpoints in *. rewrite !fold_left_app. fold (newest_step (D:=D) (M:=M)).
  rewrite B in *.
  change (fold_left (fun a o => match o with Fill p (Pkl t d) => Some (p, t, d) | _ => a end)) with (fold_left (newest_step (D:=D) (M:=M))) in *.
  rewrite (newest_filter c dir _ Shn), (pend_filter c dir _ Shn).
  change (filter (dop dir) (firstn n os)) with (filter (fun o => within dir (target o)) (firstn n os)). rewrite Fm.
  change (filter (fun o => within dir (target o)) os) with (filter (dop dir) os). rewrite R.
  eapply drun_prefix; eauto.
Qed.

(** * Outputs *)
Definition known (fs : fsys) (log : list op) : Prop :=
  (forall p, fget fs p = Some Broken <-> half log p = true) /\
  (forall p, In p (paths c) -> match fget fs p with Some (Pkl _ _) => False | None => never_written log p | _ => True end) /\
  (forall p, In p (paths c) -> never_written log p -> fget fs p = None).

Lemma known_step fs log o fs' : known fs log -> shaped c dir o -> op_do fs o = Some fs' -> known fs' (log ++ [o]).
Proof.
  intros (K1 & K2 & K3) Sh H. unfold known, half, never_written. 
  assert (Hh : forall p, fold_left half_step (log ++ [o]) (fun _ => false) p = half_step (half log) o p).
  { intros p. rewrite fold_left_app. reflexivity. }
  assert (Wr : forall p, existsb (writes_to p) (log ++ [o]) = existsb (writes_to p) log || writes_to p o).
  { intros p. rewrite existsb_app. cbn. rewrite orb_false_r. auto. }
  assert (Put : forall q f, fs' = fput fs q f -> writes_to q o = true -> (forall p, writes_to p o = String.eqb q p) ->
    (forall p, half_step (half log) o p = if String.eqb q p then match f with Broken => true | _ => false end else half log p) ->
    (In q (paths c) -> match f with Pkl _ _ => False | _ => True end) -> known fs' (log ++ [o])).
  { intros q f -> _ W Hf Hq. split; [|split].
    - intros p. unfold half. rewrite Hh, Hf, fget_put. destruct (String.eqb q p) eqn:Q; [|apply K1].
      destruct f; split; intros; congruence.
    - intros p Hp. rewrite fget_put. destruct (String.eqb q p) eqn:Q.
      + apply String.eqb_eq in Q. subst p. specialize (Hq Hp). destruct f; auto.
      + specialize (K2 p Hp). destruct (fget fs p) as [[]|]; auto. unfold never_written in *. rewrite Wr, K2, W, Q. auto.
    - intros p Hp N. unfold never_written in N. rewrite Wr, W in N. apply orb_false_iff in N. destruct N as [N1 N2].
      rewrite fget_put, N2. apply K3; auto. }
  change (known fs' (log ++ [o])).
  destruct o as [p|p f|p|s q|s q]; cbn [op_do] in H.
  - apply (Put p Broken); cbn; auto; [congruence|apply String.eqb_refl].
  - apply (Put p f); cbn; auto; [congruence|apply String.eqb_refl|destruct f; auto|].
    cbn in Sh. destruct f; auto. destruct Sh as [i ->]. intros Q. apply (within_out c dir DT ok) in Q. rewrite within_pth in Q. discriminate.
  - destruct (fget fs p) eqn:G; [|discriminate]. cbn in H. assert (fs' = fdel fs p) by congruence. subst fs'. cbn in Sh.
    assert (NP : forall q, In q (paths c) -> String.eqb p q = false).
    { intros q Q. destruct (String.eqb p q) eqn:E; auto. apply String.eqb_eq in E. subst q. destruct Sh as [i ->].
      apply (within_out c dir DT ok) in Q. rewrite within_pth in Q. discriminate. }
    split; [|split].
    + intros q. unfold half. rewrite Hh, fget_del. cbn. unfold upd. destruct (String.eqb p q); [split; discriminate|apply K1].
    + intros q Q. rewrite fget_del, NP by auto. specialize (K2 q Q). destruct (fget fs q) as [[]|]; auto. unfold never_written in *. rewrite Wr, K2. auto.
    + intros q Q N. rewrite fget_del, NP by auto. apply K3; auto. unfold never_written in *. rewrite Wr in N. cbn in N. rewrite orb_false_r in N. auto.
  - destruct (fget fs s) eqn:G; [|discriminate]. cbn in H. apply (Put q Broken); cbn; auto; [congruence|apply String.eqb_refl].
  - destruct (fget fs s) as [f|] eqn:G; [|discriminate]. cbn in H. cbn in Sh. destruct Sh as [Sh1 Sh2].
    specialize (K2 s Sh1). rewrite G in K2. specialize (K1 s). rewrite G in K1.
    apply (Put q f); cbn; auto; [congruence|apply String.eqb_refl|].
    intros p. unfold upd. destruct (String.eqb q p); auto. destruct f; [apply K1; auto|tauto|].
    destruct (half log s); auto. destruct K1 as [_ K1]. specialize (K1 eq_refl). discriminate.
Qed.

Lemma known_exec os : forall fs log fs', known fs log -> Forall (shaped c dir) os -> exec fs os = Some fs' -> known fs' (log ++ os).
Proof.
  induction os as [|o os IH]; intros fs log fs' K F H; cbn in H.
  - rewrite app_nil_r. congruence.
  - inversion F as [|? ? F1 F2]; subst. destruct (op_do fs o) as [g|] eqn:E; [|discriminate]. cbn in H.
    replace (log ++ o :: os) with ((log ++ [o]) ++ os) by (rewrite <- app_assoc; auto).
    eapply IH; eauto. eapply known_step; eauto.
Qed.

Theorem lives_known (fs : fsys) log : lives restore c fs log -> known fs log.
Proof.
  induction 1 as [|fs log vs os n fs' L IH O V E].
  - split; [|split]; auto; [intros p; unfold half; cbn; split; discriminate|]. intros p _. reflexivity.
  - eapply known_exec; eauto. apply Forall_firstn. eapply ops_shaped; eauto.
Qed.

Lemma read_in o : In o (k_outs c) -> In (read_path o) (paths c).
Proof. intros H. unfold read_path. destruct (snd o) eqn:E; [eapply in_paths_copy; eauto|apply in_paths; auto]. Qed.

Hypothesis readable : forall m t, restore m t <> None.

Lemma load_none fs log t o : known fs log -> In o (k_outs c) ->
  (load_out restore fs t o = None <-> half log (read_path o) = true \/ never_written log (read_path o)).
Proof.
  intros (K1 & K2 & K3) Ho. unfold load_out. fold (read_path o). pose proof (read_in o Ho) as Hp.
  specialize (K1 (read_path o)). specialize (K2 _ Hp). specialize (K3 _ Hp).
  destruct (fget fs (read_path o)) as [[|t' d'|m]|]; cbn [bind].
  - split; auto. intros _. left. apply K1. auto.
  - tauto.
  - split.
    + intros H. destruct (readable m t H).
    + intros [H|H]; [apply K1 in H; discriminate|]. apply K3 in H. discriminate.
  - split; auto.
Qed.

Theorem refused (fs : fsys) log x : lives restore c fs log -> newest log = Some x ->
  (new_run restore c fs = None <->
     two_checkpoints dir log = true \/
     exists o, In o (k_outs c) /\ (half log (read_path o) = true \/ never_written log (read_path o))).
Proof.
  intros L N. pose proof (lives_folder _ _ L) as F. pose proof (lives_known _ _ L) as K.
  destruct (run_cases fs _ _ F) as (C1 & C2 & C3). destruct x as [[p t] d].
  destruct (two_checkpoints dir log) eqn:T; [split; auto|].
  destruct (C3 p t d N eq_refl) as (i & -> & E & Nr). rewrite Nr. 
  assert (Q : mapM (load_out restore fs t) (k_outs c) = None <-> exists o, In o (k_outs c) /\ (half log (read_path o) = true \/ never_written log (read_path o))).
  { rewrite mapM_none. split; intros (o & H1 & H2); exists o; split; auto; apply (load_none fs log t o K H1); auto. }
  destruct (mapM _ _) as [svs|]; cbn [bind].
  - split; [discriminate|]. intros [H|H]; [discriminate|]. apply Q in H. discriminate.
  - split; auto. intros _. right. apply Q. auto.
Qed.

Theorem kept (fs : fsys) log p t d : lives restore c fs log -> newest log = Some (p, t, d) ->
  exists i, p = (dir ++ ck_name i)%string /\ fget fs p = Some (Pkl t d) /\ In (ck_name i) (listdir fs dir) /\ (length (listdir fs dir) <= 2)%nat.
Proof.
  intros L N. pose proof (lives_folder _ _ L) as F. rewrite N in F. rewrite (listdir_inner dir (cko_slash _ _ _ ok) fs).
  assert (G : forall i, fget fs (pth i) = fget (inner fs) (pth i)) by (intros; symmetry; apply inner_get, within_pth).
  assert (A : as_dir dir = dir) by (apply as_dir_slash, (cko_slash _ _ _ ok)).
  inversion F as [E|E|i t2 d2 E|i t2 d2 E|i t2 d2 t' d' E]; subst;
    [exists i|exists i|exists (Datatypes.S i)]; fold (pth i) (pth (Datatypes.S i)); rewrite G, <- E; unfold listdir; rewrite A;
    cbn [flat_map fget fst]; rewrite ?pth_eqb, ?pth_neqb; cbn [flat_map fget fst]; rewrite ?pth_eqb, ?strip_pth, ?name_slash; cbn [app In length]; repeat split; auto.
Qed.
End Run.
