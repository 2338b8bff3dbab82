(** Lemmas about dictionaries and the functions that read input modules. *)
From Coq Require Import String Ascii Lia Bool.
From Verif Require Import Num NumFacts ConfigVal ConfigTable Ckpt CkptFacts Config SpecConfig.
Local Open Scope string_scope.
Local Open Scope list_scope.

(** * Dictionaries *)
Lemma dget_dset d k v q : dget (dset d k v) q = if String.eqb k q then Some v else dget d q.
Proof.
  induction d as [|[a w] d IH]; cbn; [reflexivity|]. destruct (String.eqb_spec a k) as [->|N]; cbn.
  - destruct (String.eqb k q); auto.
  - rewrite IH. destruct (String.eqb_spec a q) as [->|N']; auto. destruct (String.eqb_spec k q); congruence.
Qed.
Lemma dhas_dset d k v q : dhas (dset d k v) q = String.eqb k q || dhas d q.
Proof. unfold dhas. rewrite dget_dset. destruct (String.eqb k q); auto. Qed.
Lemma dget_in d k v : dget d k = Some v -> In (k, v) d.
Proof. induction d as [|[a w] d IH]; cbn; [discriminate|]. destruct (String.eqb_spec a k) as [->|]; [left; congruence|auto]. Qed.
Lemma dget_none d k : dget d k = None <-> ~ In k (map fst d).
Proof.
  induction d as [|[a w] d IH]; cbn; [intuition|]. destruct (String.eqb_spec a k) as [->|N]; [split; [discriminate|intuition]|].
  rewrite IH. intuition.
Qed.
Lemma in_dget d k v : NoDup (map fst d) -> In (k, v) d -> dget d k = Some v.
Proof.
  induction d as [|[a w] d IH]; cbn; [intros _ []|]. intros N [H|H].
  - injection H as -> ->. rewrite String.eqb_refl. auto.
  - inversion N as [|? ? N1 N2]; subst. destruct (String.eqb_spec a k) as [->|]; auto.
    destruct N1. apply in_map_iff. exists (k, v). auto.
Qed.
Lemma dhas_in d k : dhas d k = true <-> In k (map fst d).
Proof.
  unfold dhas. destruct (dget d k) eqn:E; split; auto; try discriminate.
  - intros _. apply dget_in in E. apply in_map_iff. exists (k, p). auto.
  - intros H. apply dget_none in E. contradiction.
Qed.
Lemma dset_keys d k v : (forall q, In q (map fst (dset d k v)) <-> q = k \/ In q (map fst d)).
Proof.
  intros q. induction d as [|[a w] d IH]; cbn; [intuition|]. destruct (String.eqb_spec a k) as [->|N]; cbn; [intuition|]. rewrite IH. intuition.
Qed.
Lemma dset_nodup d k v : NoDup (map fst d) -> NoDup (map fst (dset d k v)).
Proof.
  induction d as [|[a w] d IH]; cbn; intros N; [repeat constructor; auto|]. inversion N as [|? ? N1 N2]; subst.
  destruct (String.eqb_spec a k) as [->|E]; cbn; [auto|]. constructor; auto. rewrite dset_keys. intuition.
Qed.
Lemma dupdate_nodup e : forall d, NoDup (map fst d) -> NoDup (map fst (dupdate d e)).
Proof. induction e as [|q e IH]; intros d N; cbn; auto. apply IH, dset_nodup, N. Qed.
Lemma dget_dupdate e : forall d p, NoDup (map fst e) -> dget (dupdate d e) p = match dget e p with Some v => Some v | None => dget d p end.
Proof.
  induction e as [|[a v] e IH]; intros d p N; cbn; auto. inversion N as [|? ? N1 N2]; subst. cbn. unfold dupdate in *. rewrite IH by auto.
  rewrite dget_dset. destruct (dget e p) eqn:E.
  - destruct (String.eqb_spec a p) as [->|]; auto. destruct N1. apply dget_in in E. apply in_map_iff. exists (p, p0). auto.
  - destruct (String.eqb a p); auto.
Qed.
Lemma in_dget_iff d k v : NoDup (map fst d) -> (dget d k = Some v <-> In (k, v) d).
Proof. intros N. split; [apply dget_in|apply in_dget; auto]. Qed.

Lemma mem_in x l : mem x l = true <-> In x l.
Proof.
  unfold mem. rewrite existsb_exists. split.
  - intros (y & H & E). apply String.eqb_eq in E. congruence.
  - intros H. exists x. rewrite String.eqb_refl. auto.
Qed.

(** * Private names *)
Lemma hidden_spec p : hidden p = true <-> private p.
Proof.
  unfold hidden, private. destruct p as [|a s]; cbn [strip]; [split; [discriminate|intros (? & H); discriminate]|].
  destruct (Ascii.eqb "_" a) eqn:E.
  - apply Ascii.eqb_eq in E. subst a. split; eauto.
  - split; [discriminate|]. intros (s' & H). injection H as Ha _. rewrite Ha in E. discriminate E.
Qed.
Lemma shown p v : negb (hidden p) && negb (is_module v) = true <-> ~ private p /\ v <> PModule.
Proof.
  rewrite andb_true_iff, !negb_true_iff, <- hidden_spec.
  assert (M : is_module v = false <-> v <> PModule) by (destruct v; cbn; intuition congruence). rewrite M.
  destruct (hidden p); intuition discriminate.
Qed.
Lemma contents_in m p : In p (contents m) <-> exists v, given m p v.
Proof.
  unfold contents, given. rewrite in_map_iff. split.
  - intros ([q v] & <- & H). apply filter_In in H. cbn in *. destruct H as [H1 H2]. apply shown in H2. exists v. tauto.
  - intros (v & H1 & H2). exists (p, v). split; auto. apply filter_In. split; auto. apply shown. auto.
Qed.

Theorem assert_spec s m : assert_module_has_parameters s m = Some tt <->
  (forall p, In p (s_mand s) -> exists v, given m p v) /\
  (forall p v, given m p v -> In p (s_mand s) \/ In p (map fst (s_opt s)) \/ p = "pi").
Proof.
  unfold assert_module_has_parameters. cbv zeta.
  assert (B : forallb (fun x => mem x (s_mand s ++ map fst (s_opt s) ++ superparameters)) (contents m) &&
              forallb (fun x => mem x (contents m)) (s_mand s) = true <->
    (forall p, In p (s_mand s) -> exists v, given m p v) /\
    (forall p v, given m p v -> In p (s_mand s) \/ In p (map fst (s_opt s)) \/ p = "pi")).
  { rewrite andb_true_iff, !forallb_forall. split; intros [A B]; split.
    - intros p H. apply contents_in, mem_in, B, H.
    - intros p v H. assert (In p (contents m)) as I by (apply contents_in; eauto). apply A, mem_in in I. rewrite !in_app_iff in I. cbn in I. intuition.
    - intros p H. apply mem_in. apply contents_in in H. destruct H as [v H]. apply B in H. rewrite !in_app_iff. cbn. intuition.
    - intros p H. apply mem_in, contents_in, A, H. }
  destruct (_ && _); rewrite <- B; intuition discriminate.
Qed.
Lemma assert_tt s m u : assert_module_has_parameters s m = Some u -> assert_module_has_parameters s m = Some tt.
Proof. destruct u. auto. Qed.

(** * Configuration dictionaries *)
Lemma mandatory_spec m l : forall cfg, 
  match take_mandatory cfg m l with
  | Some cfg' => (forall p, In p l -> dhas m p = true) /\ (NoDup (map fst cfg) -> NoDup (map fst cfg')) /\
                 forall p, dget cfg' p = if mem p l then dget m p else dget cfg p
  | None => exists p, In p l /\ dget m p = None
  end.
Proof.
  induction l as [|a l IH]; intros cfg; cbn [take_mandatory].
  - split; [intros ? []|]. split; auto.
  - destruct (dget m a) as [v|] eqn:E; cbn [bind]; [|exists a; cbn; auto].
    specialize (IH (dset cfg a v)). destruct (take_mandatory _ _ _) as [cfg'|].
    + destruct IH as (I1 & I2 & I3). split; [|split].
      * intros p [<-|H]; auto. unfold dhas. rewrite E. auto.
      * intros N. apply I2, dset_nodup, N.
      * intros p. rewrite I3. cbn [mem existsb]. fold (mem p l). destruct (mem p l); [rewrite orb_true_r; auto|]. rewrite orb_false_r, dget_dset.
        rewrite String.eqb_sym. destruct (String.eqb_spec p a) as [->|]; auto.
    + destruct IH as (p & H1 & H2). exists p. cbn. auto.
Qed.
Lemma optional_spec m o l : forall cfg, NoDup (map fst l) ->
  match take_optional cfg m o l with
  | Some cfg' => (forall p, In p (map fst l) -> dhas cfg p = false) /\ (NoDup (map fst cfg) -> NoDup (map fst cfg')) /\
                 forall p, dget cfg' p = match dget l p with Some d => Some (choose m o p d) | None => dget cfg p end
  | None => exists p, In p (map fst l) /\ dhas cfg p = true
  end.
Proof.
  induction l as [|[a d] l IH]; intros cfg N; cbn [take_optional].
  - split; [intros ? []|]. split; auto.
  - cbn [map fst] in N. inversion N as [|? ? N1 N2]; subst. destruct (dhas cfg a) eqn:E; [exists a; cbn; auto|].
    specialize (IH (dset cfg a (choose m o a d)) N2). destruct (take_optional _ _ _ _) as [cfg'|].
    + destruct IH as (I1 & I2 & I3). split; [|split].
      * intros p [<-|H]; auto. specialize (I1 p H). rewrite dhas_dset in I1. apply orb_false_iff in I1. tauto.
      * intros Nc. apply I2, dset_nodup, Nc.
      * intros p. rewrite I3. cbn [dget]. destruct (dget l p) eqn:G.
        -- destruct (String.eqb_spec a p) as [->|]; auto. destruct N1. apply dget_in in G. apply in_map_iff. exists (p, p0). auto.
        -- rewrite dget_dset. destruct (String.eqb_spec a p) as [->|]; auto.
    + destruct IH as (p & H1 & H2). rewrite dhas_dset in H2. exists p. cbn. split; auto.
      apply orb_true_iff in H2. destruct H2 as [H2|H2]; auto. apply String.eqb_eq in H2. subst p. contradiction.
Qed.

(** A section of the table: no parameter twice. *)
Definition sec_ok (s : section) : Prop :=
  NoDup (map fst (s_opt s)) /\ (forall p, In p (s_mand s) -> ~ In p (map fst (s_opt s))).

Lemma config_spec m s o : sec_ok s -> 
  match update_config_dict [] m s o with
  | Some cfg => (forall p, In p (s_mand s) -> dhas m p = true) /\ NoDup (map fst cfg) /\
      forall p, dget cfg p = match dget (s_opt s) p with Some d => Some (choose m o p d) | None => if mem p (s_mand s) then dget m p else None end
  | None => exists p, In p (s_mand s) /\ dget m p = None
  end.
Proof.
  intros [N1 N2]. unfold update_config_dict. pose proof (mandatory_spec m (s_mand s) []) as M.
  destruct (take_mandatory _ _ _) as [cfg|]; cbn [bind]; auto. destruct M as (M1 & M2 & M3).
  pose proof (optional_spec m o (s_opt s) cfg N1) as Q. destruct (take_optional _ _ _ _) as [cfg'|].
  - destruct Q as (_ & Q2 & Q3). split; auto. split; [apply Q2, M2; constructor|]. intros p. rewrite Q3. destruct (dget (s_opt s) p); auto. apply M3.
  - destruct Q as (p & H1 & H2). exfalso. unfold dhas in H2. rewrite M3 in H2. cbn [dget] in H2. destruct (mem p (s_mand s)) eqn:E; [|discriminate].
    apply mem_in in E. apply (N2 p E H1).
Qed.

(** * Merging modules *)
Lemma merge_spec new : forall m, NoDup (map fst new) ->
  match update_module m new with
  | Some m' => (forall p v, given new p v -> p <> "pi" -> dget m p = None) /\
      (forall p, dget m' p = match dget m p with Some v => Some v
                             | None => match dget new p with
                                       | Some v => if String.eqb p "pi" || hidden p || is_module v then None else Some v
                                       | None => None end end) /\
      (NoDup (map fst m) -> NoDup (map fst m'))
  | None => exists p v, given new p v /\ p <> "pi" /\ dhas m p = true
  end.
Proof.
  induction new as [|[a v] new IH]; intros m N; cbn [update_module].
  - split; [intros p v [[] _]|]. split; [intros p; cbn; destruct (dget m p); auto|auto].
  - cbn [map fst] in N. inversion N as [|? ? N1 N2]; subst.
    assert (Nn : dget new a = None) by (apply dget_none; auto).
    assert (Skip : forall b, b = true -> (String.eqb a "pi" || hidden a || is_module v) = b ->
      match update_module m new with
      | Some m' => (forall p w, given ((a, v) :: new) p w -> p <> "pi" -> dget m p = None) /\
          (forall p, dget m' p = match dget m p with Some v => Some v
                             | None => match dget ((a, v) :: new) p with
                                       | Some v => if String.eqb p "pi" || hidden p || is_module v then None else Some v
                                       | None => None end end) /\
          (NoDup (map fst m) -> NoDup (map fst m'))
      | None => exists p w, given ((a, v) :: new) p w /\ p <> "pi" /\ dhas m p = true
      end).
    { intros b -> Hb. specialize (IH m N2). destruct (update_module m new) as [m'|].
      - destruct IH as (I1 & I2 & I3). split; [|split; auto].
        + intros p w [[H|H] G] Np; [|apply (I1 p w); [split; auto|auto]]. injection H as -> ->. exfalso.
          destruct G as [G1 G2]. destruct (String.eqb_spec p "pi"); [contradiction|]. cbn in Hb.
          assert (X : negb (hidden p) && negb (is_module w) = true) by (apply shown; auto).
          destruct (hidden p), (is_module w); discriminate.
        + intros p. rewrite I2. cbn [dget]. destruct (String.eqb_spec a p) as [->|]; auto. rewrite Nn, Hb. destruct (dget m p); auto.
      - destruct IH as (p & w & [H G] & R). exists p, w. split; auto. split; auto. right. auto. }
    destruct (String.eqb a "pi") eqn:Ep; [apply (Skip true); auto|].
    destruct (hidden a || is_module v) eqn:Eh; [apply (Skip true); auto|]. clear Skip.
    assert (Gv : given ((a, v) :: new) a v).
    { split; [left; auto|]. apply shown. apply orb_false_iff in Eh. destruct Eh as [-> ->]. auto. }
    apply String.eqb_neq in Ep.
    destruct (dhas m a) eqn:Ha; [exists a, v; auto|].
    assert (Ma : dget m a = None) by (unfold dhas in Ha; destruct (dget m a); [discriminate|auto]).
    specialize (IH (dset m a v) N2). destruct (update_module _ new) as [m'|].
    + destruct IH as (I1 & I2 & I3). split; [|split].
      * intros p w [[H|H] G] Np; [congruence|]. specialize (I1 p w (conj H G) Np). rewrite dget_dset in I1. destruct (String.eqb a p); [discriminate|auto].
      * intros p. rewrite I2, dget_dset. cbn [dget]. destruct (String.eqb_spec a p) as [->|]; auto. rewrite Ma.
        apply String.eqb_neq in Ep. rewrite Ep. apply orb_false_iff in Eh. destruct Eh as [-> ->]. auto.
      * intros Nm. apply I3, dset_nodup, Nm.
    + destruct IH as (p & w & [H G] & Np & R). rewrite dhas_dset in R. exists p, w. split; [split; [right; auto|auto]|]. split; auto.
      destruct (String.eqb_spec a p) as [->|]; auto. destruct N1. apply in_map_iff. exists (p, w). auto.
Qed.

(** * Keyword arguments *)
Lemma override_spec ig kw : forall cfg, NoDup (map fst kw) ->
  match override ig kw cfg with
  | Some cfg' => (forall a, In a (map fst kw) -> In a ig \/ dhas cfg a = true) /\
      forall p, dget cfg' p = match dget kw p with Some v => if mem p ig then dget cfg p else Some v | None => dget cfg p end
  | None => exists a, In a (map fst kw) /\ ~ In a ig /\ dget cfg a = None
  end.
Proof.
  induction kw as [|[a v] kw IH]; intros cfg N; cbn [override].
  - split; [intros ? []|auto].
  - cbn [map fst] in *. inversion N as [|? ? N1 N2]; subst. assert (Nn : dget kw a = None) by (apply dget_none; auto).
    destruct (mem a ig) eqn:E.
    + specialize (IH cfg N2). destruct (override _ _ _) as [cfg'|].
      * destruct IH as [I1 I2]. split.
        -- intros p [<-|H]; [left; apply mem_in; auto|auto].
        -- intros p. rewrite I2. cbn [dget]. destruct (String.eqb_spec a p) as [->|]; auto. rewrite Nn, E. auto.
      * destruct IH as (p & H & R). exists p. cbn. auto.
    + destruct (dhas cfg a) eqn:Ha.
      * specialize (IH (dset cfg a v) N2). destruct (override _ _ _) as [cfg'|].
        -- destruct IH as [I1 I2]. split.
           ++ intros p [<-|H]; auto. destruct (I1 p H) as [I|I]; auto. rewrite dhas_dset in I. apply orb_true_iff in I. destruct I as [I|I]; auto.
              apply String.eqb_eq in I. subst p. contradiction.
           ++ intros p. rewrite I2. rewrite !dget_dset. cbn [dget]. destruct (String.eqb_spec a p) as [->|]; auto. rewrite Nn, E. auto.
        -- destruct IH as (p & H & R1 & R2). exists p. cbn. split; auto. split; auto. rewrite dget_dset in R2. destruct (String.eqb a p); [discriminate|auto].
      * exists a. split; [left; auto|]. split; [intros H; apply mem_in in H; congruence|]. unfold dhas in Ha. destruct (dget cfg a); [discriminate|auto].
Qed.
