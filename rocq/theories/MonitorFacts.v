(** Proofs about the joining of monitor files. *)
From Coq Require Import String Bool Arith Reals List Lia.
From Verif Require Import Monitor SpecMonitor.
Import ListNotations.
Local Open Scope list_scope.

Lemma numbers_inl l : numbers (map inl l) = Some l.
Proof. induction l as [|x l IH]; [reflexivity|]. cbn [map numbers]. rewrite IH. reflexivity. Qed.
Lemma rows_inr n l : rect n l -> rows_of n (map inr l) = Some l.
Proof.
  intros H. induction H as [|r l Hr _ IH]; [reflexivity|].
  cbn [map rows_of]. rewrite Hr, Nat.eqb_refl, IH. reflexivity.
Qed.
Lemma np_vec l : np_array (map inl l) = Some (Vec l).
Proof.
  destruct l as [|x l]; [reflexivity|].
  unfold np_array. cbn [map]. change (inl x :: map inl l) with (map (@inl R (list R)) (x :: l)).
  rewrite numbers_inl. reflexivity.
Qed.
Lemma np_mat n r l : rect n (r :: l) -> np_array (map inr (r :: l)) = Some (Mat n (r :: l)).
Proof.
  intros H. assert (E : length r = n) by (inversion H; auto).
  unfold np_array. cbn [map]. change (inr r :: map inr l) with (map (@inr R (list R)) (r :: l)).
  rewrite E, rows_inr by auto. reflexivity.
Qed.

Lemma join_vec tr a b : join tr (Vec a) (Vec b) = Some (Vec (a ++ b)).
Proof. unfold join. destruct tr; cbn [transpose items]; rewrite <- map_app, np_vec; reflexivity. Qed.

Lemma join_mat n a b : a <> [] -> rect n a -> rect n b -> join false (Mat n a) (Mat n b) = Some (Mat n (a ++ b)).
Proof.
  intros N A B. unfold join. cbn [items]. rewrite <- map_app.
  destruct a as [|r a]; [congruence|]. cbn [app].
  rewrite (np_mat n); [reflexivity|]. change (r :: a ++ b) with ((r :: a) ++ b). apply Forall_app. auto.
Qed.

(** Two lists are equal if they have the same length and entries. *)
Lemma nth_map_seq (r : list R) : map (fun j => nth j r 0%R) (seq 0 (length r)) = r.
Proof.
  apply (nth_ext _ _ 0%R 0%R). { rewrite map_length, seq_length. reflexivity. }
  intros i Hi. rewrite map_length, seq_length in Hi.
  rewrite (nth_indep _ 0%R ((fun j => nth j r 0%R) 0)) by (rewrite map_length, seq_length; auto).
  rewrite (map_nth (fun j => nth j r 0%R)), seq_nth by auto. reflexivity.
Qed.

Definition cols (n : nat) (l : list (list R)) : list (list R) := map (fun j => map (fun r => nth j r 0%R) l) (seq 0 n).
Lemma cols_length n l : length (cols n l) = n.
Proof. unfold cols. rewrite map_length, seq_length. reflexivity. Qed.
Lemma cols_rect n l : rect (length l) (cols n l).
Proof. unfold cols, rect. apply Forall_map, Forall_forall. intros j _. apply map_length. Qed.
Lemma cols_nth n l i : (i < n)%nat -> nth i (cols n l) [] = map (fun r => nth i r 0%R) l.
Proof.
  intros H. unfold cols. rewrite (nth_indep _ [] ((fun j => map (fun r => nth j r 0%R) l) 0)) by (rewrite map_length, seq_length; auto).
  rewrite (map_nth (fun j => map (fun r => nth j r 0%R) l)), seq_nth by auto. reflexivity.
Qed.

(** Column [i] of the columns of [l] is row [i] of [l]. *)
Lemma cols_back n l i : rect n l -> (i < length l)%nat -> map (fun c => nth i c 0%R) (cols n l) = nth i l [].
Proof.
  intros H Hi. unfold cols. rewrite map_map.
  assert (L : length (nth i l []) = n) by (unfold rect in H; rewrite Forall_forall in H; apply H, nth_In; auto).
  rewrite <- (nth_map_seq (nth i l [])), L. apply map_ext. intros j.
  rewrite (nth_indep _ 0%R ((fun r : list R => nth j r 0%R) [])) by (rewrite map_length; auto).
  rewrite (map_nth (fun r : list R => nth j r 0%R)). reflexivity.
Qed.

Lemma join_cols m na nb a b : (0 < na)%nat -> rect na a -> rect nb b -> length a = m -> length b = m ->
  exists c, join true (Mat na a) (Mat nb b) = Some (Mat (na + nb) c) /\ rect (na + nb) c /\ length c = m /\
    forall i, (i < m)%nat -> nth i c [] = nth i a [] ++ nth i b [].
Proof.
  intros N A B LA LB. unfold join. cbn [transpose items]. fold (cols na a) (cols nb b).
  rewrite <- map_app.
  assert (Z : cols na a ++ cols nb b <> []).
  { intros E. apply (f_equal (@length _)) in E. rewrite app_length, !cols_length in E. cbn in E. lia. }
  assert (RR : rect m (cols na a ++ cols nb b)).
  { apply Forall_app. split; [rewrite <- LA|rewrite <- LB]; apply cols_rect. }
  destruct (cols na a ++ cols nb b) as [|r q] eqn:Q; [congruence|].
  rewrite (np_mat m) by auto. rewrite <- Q in *. cbn [transpose].
  fold (cols m (cols na a ++ cols nb b)). rewrite app_length, !cols_length.
  eexists. split; [reflexivity|]. split; [|split; [apply cols_length|]].
  - rewrite <- (cols_length na a) at 1. rewrite <- (cols_length nb b) at 1. rewrite <- app_length. apply cols_rect.
  - intros i Hi. rewrite cols_nth by auto. rewrite map_app, !cols_back by (auto; lia). reflexivity.
Qed.

(** Names. *)
Lemma join_all_names tr d cur r : join_all tr d cur = Some r -> map fst r = map fst d.
Proof.
  revert r. induction d as [|[n a] d IH]; intros r; cbn [join_all]. { intros [= <-]. reflexivity. }
  destruct (get n cur); [|discriminate]. destruct (join tr a _); [|discriminate].
  destruct (join_all tr d cur) eqn:E; [|discriminate]. intros [= <-]. cbn. rewrite (IH _ eq_refl). reflexivity.
Qed.
Lemma join_all_get tr d cur r n : join_all tr d cur = Some r -> forall a, get n d = Some a ->
  exists b c, get n cur = Some b /\ join tr a b = Some c /\ get n r = Some c.
Proof.
  revert r. induction d as [|[k x] d IH]; intros r; cbn [join_all get]; [discriminate|].
  destruct (get k cur) eqn:G; [|discriminate]. destruct (join tr x _) eqn:J; [|discriminate].
  destruct (join_all tr d cur) eqn:E; [|discriminate]. intros [= <-] a'. cbn [get].
  destruct (String.eqb n k) eqn:K.
  - apply String.eqb_eq in K. subst k. intros [= <-]. eauto.
  - intros H. destruct (IH _ eq_refl _ H) as (b & c & B1 & B2 & B3). eauto.
Qed.

Lemma more_names key tr pm fs : forall d r, more key tr pm d fs = Ok r -> map fst r = map fst d.
Proof.
  induction fs as [|f fs IH]; intros d r; cbn [more]. { intros [= <-]. reflexivity. }
  destruct (monitorh5_to_dict key f); [|destruct pm; [apply IH|discriminate]|discriminate].
  destruct (join_all tr d a) eqn:E; [|discriminate]. intros H. rewrite (IH _ _ H). apply (join_all_names _ _ _ _ E).
Qed.

Lemma mon_io key f : monitorh5_to_dict key f = IOErr <-> readable f = false.
Proof. destruct f as [g|]; cbn; [destruct (group key g)|]; split; congruence. Qed.
Lemma mon_ok key f d : monitorh5_to_dict key f = Ok d -> exists g, f = Some g /\ group key g = Some d.
Proof. destruct f as [g|]; cbn; [|discriminate]. destruct (group key g) eqn:G; [|discriminate]. intros [= <-]. eauto. Qed.

(** A file that cannot be read leaves no trace. *)
Lemma more_permissive key tr fs : forall d, more key tr true d fs = more key tr false d (filter readable fs).
Proof.
  induction fs as [|f fs IH]; intros d; [reflexivity|]. cbn [more filter].
  destruct (readable f) eqn:Rf.
  - cbn [more]. destruct (monitorh5_to_dict key f) eqn:M.
    + destruct (join_all tr d a); auto.
    + apply mon_io in M. congruence.
    + reflexivity.
  - apply (mon_io key) in Rf. rewrite Rf. apply IH.
Qed.
Lemma permissive_first key tr f fs : readable f = true ->
  monitorh5list_to_dict key tr true (f :: fs) = monitorh5list_to_dict key tr false (filter readable (f :: fs)).
Proof.
  intros H. cbn [filter]. rewrite H. cbn [monitorh5list_to_dict].
  destruct (monitorh5_to_dict key f); auto. apply more_permissive.
Qed.

Lemma more_strict key tr fs : forall d r, more key tr false d fs = Ok r -> Forall (fun f => readable f = true) fs.
Proof.
  induction fs as [|f fs IH]; intros d r; cbn [more]; [constructor|].
  destruct (monitorh5_to_dict key f) eqn:M; [|discriminate|discriminate].
  destruct (join_all tr d a); [|discriminate]. intros H. constructor; [|eauto].
  apply mon_ok in M. destruct M as (g & -> & _). reflexivity.
Qed.
Lemma strict_all key tr fs r : monitorh5list_to_dict key tr false fs = Ok r -> Forall (fun f => readable f = true) fs.
Proof.
  destruct fs as [|f fs]; cbn [monitorh5list_to_dict]; [discriminate|].
  destruct (monitorh5_to_dict key f) eqn:M; [|discriminate|discriminate]. intros H.
  constructor; [apply mon_ok in M; destruct M as (g & -> & _); reflexivity|eapply more_strict; eauto].
Qed.

Lemma list_names key tr pm f fs r : monitorh5list_to_dict key tr pm (f :: fs) = Ok r ->
  exists g d, f = Some g /\ group key g = Some d /\ map fst r = map fst d.
Proof.
  cbn [monitorh5list_to_dict]. destruct (monitorh5_to_dict key f) eqn:M; [|discriminate|discriminate].
  apply mon_ok in M. destruct M as (g & -> & G). intros H. exists g, a. split; [|split]; auto. apply (more_names _ _ _ _ _ _ H).
Qed.

(** Values along the list of files, for any rule that says how two are joined. *)
Lemma more_fold key tr n (P : arr -> list h5 -> arr -> Prop) :
  (forall a, P a [] a) ->
  (forall a b c f fs r, stores key n f b -> join tr a b = Some c -> P c fs r -> P a (f :: fs) r) ->
  forall fs d a r, get n d = Some a -> more key tr false d fs = Ok r -> exists v, get n r = Some v /\ P a fs v.
Proof.
  intros P0 P1. induction fs as [|f fs IH]; intros d a r G; cbn [more]. { intros [= <-]. eauto. }
  destruct (monitorh5_to_dict key f) eqn:M; [|discriminate|discriminate].
  destruct (join_all tr d a0) eqn:E; [|discriminate]. intros H.
  destruct (join_all_get _ _ _ _ _ E _ G) as (b & c & B1 & B2 & B3).
  destruct (IH _ _ _ B3 H) as (v & V1 & V2). exists v. split; auto.
  apply mon_ok in M. destruct M as (g & -> & Gg). apply (P1 a b c); auto. exists g, a0. auto.
Qed.

Lemma stores_fun key n f a b : stores key n f a -> stores key n f b -> a = b.
Proof. intros (g & d & -> & G & H) (g' & d' & [= <-] & G' & H'). rewrite G in G'. injection G' as <-. congruence. Qed.

Lemma first_get key tr pm f fs r n a : stores key n f a -> monitorh5list_to_dict key tr pm (f :: fs) = Ok r ->
  exists d, get n d = Some a /\ more key tr pm d fs = Ok r.
Proof. intros (g & d & -> & G & H). cbn [monitorh5list_to_dict monitorh5_to_dict]. rewrite G. eauto. Qed.

Lemma vec_joined key tr n : forall fs ls r, Forall2 (fun f l => stores key n f (Vec l)) fs ls ->
  monitorh5list_to_dict key tr false fs = Ok r -> get n r = Some (Vec (concat ls)).
Proof.
  intros fs ls r H. destruct H as [|f l fs ls Hf H]; [discriminate|]. intros M.
  destruct (first_get _ _ _ _ _ _ _ _ Hf M) as (d & D & MM). clear M Hf f.
  destruct (more_fold key tr n (fun a fs v => forall l ls, a = Vec l -> Forall2 (fun f l => stores key n f (Vec l)) fs ls -> v = Vec (l ++ concat ls))
    ) with (fs := fs) (d := d) (a := Vec l) (r := r) as (v & V & E); auto.
  - intros a l0 ls0 -> Q. inversion Q. cbn. rewrite app_nil_r. reflexivity.
  - intros a b c f gs w S J IH l0 ls0 -> Q. inversion Q as [|? l1 ? ls1 S1 Q1]; subst.
    assert (b = Vec l1) by (eapply stores_fun; eauto). subst b. rewrite join_vec in J. injection J as <-.
    rewrite (IH _ _ eq_refl Q1). cbn [concat]. rewrite app_assoc. reflexivity.
  - rewrite V. cbn [concat]. rewrite (E l ls eq_refl H). reflexivity.
Qed.

Lemma rows_joined key w n : forall f fs l ls r, l <> [] -> stores key n f (Mat w l) -> rect w l ->
  Forall2 (fun f l => stores key n f (Mat w l) /\ rect w l) fs ls ->
  monitorh5list_to_dict key false false (f :: fs) = Ok r -> get n r = Some (Mat w (concat (l :: ls))).
Proof.
  intros f fs l ls r N Hf RL H M.
  destruct (first_get _ _ _ _ _ _ _ _ Hf M) as (d & D & MM). clear M Hf f.
  destruct (more_fold key false n (fun a fs v => forall l ls, a = Mat w l -> l <> [] -> rect w l ->
      Forall2 (fun f l => stores key n f (Mat w l) /\ rect w l) fs ls -> v = Mat w (l ++ concat ls))
    ) with (fs := fs) (d := d) (a := Mat w l) (r := r) as (v & V & E); auto.
  - intros a l0 ls0 -> _ _ Q. inversion Q. cbn. rewrite app_nil_r. reflexivity.
  - intros a b c f gs u S J IH l0 ls0 -> N0 R0 Q. inversion Q as [|? l1 ? ls1 [S1 R1] Q1]; subst.
    assert (b = Mat w l1) by (eapply stores_fun; eauto). subst b. rewrite join_mat in J by auto. injection J as <-.
    rewrite (IH (l0 ++ l1) ls1 eq_refl); auto.
    + cbn [concat]. rewrite app_assoc. reflexivity.
    + destruct l0; [congruence|discriminate].
    + apply Forall_app; auto.
  - rewrite V. cbn [concat]. rewrite (E l ls eq_refl N RL H). reflexivity.
Qed.

Lemma columns_joined key m n : forall f fs w l ps r, (0 < w)%nat -> stores key n f (Mat w l) -> rect w l -> length l = m ->
  Forall2 (fun f p => stores key n f (Mat (fst p) (snd p)) /\ rect (fst p) (snd p) /\ length (snd p) = m) fs ps ->
  monitorh5list_to_dict key true false (f :: fs) = Ok r ->
  exists W c, get n r = Some (Mat W c) /\ length c = m /\
    forall i, (i < m)%nat -> nth i c [] = nth i l [] ++ concat (map (fun p => nth i (snd p) []) ps).
Proof.
  intros f fs w l ps r N Hf RL LL H M.
  destruct (first_get _ _ _ _ _ _ _ _ Hf M) as (d & D & MM). clear M Hf f.
  destruct (more_fold key true n (fun a fs v => forall w l ps, a = Mat w l -> (0 < w)%nat -> rect w l -> length l = m ->
      Forall2 (fun f p => stores key n f (Mat (fst p) (snd p)) /\ rect (fst p) (snd p) /\ length (snd p) = m) fs ps ->
      exists W c, v = Mat W c /\ length c = m /\ forall i, (i < m)%nat -> nth i c [] = nth i l [] ++ concat (map (fun p => nth i (snd p) []) ps))
    ) with (fs := fs) (d := d) (a := Mat w l) (r := r) as (v & V & E); auto.
  - intros a w0 l0 ps0 -> _ _ L0 Q. inversion Q. exists w0, l0. split; [reflexivity|]. split; auto.
    intros i _. cbn. rewrite app_nil_r. reflexivity.
  - intros a b c f gs u S J IH w0 l0 ps0 -> N0 R0 L0 Q. inversion Q as [|? [w1 l1] ? ps1 (S1 & R1 & L1) Q1]; subst.
    cbn [fst snd] in *. assert (b = Mat w1 l1) by (eapply stores_fun; eauto). subst b.
    destruct (join_cols (length l) w0 w1 l0 l1 N0 R0 R1 L0 L1) as (q & J' & RQ & LQ & NQ).
    rewrite J' in J. injection J as <-.
    destruct (IH (w0 + w1)%nat q ps1 eq_refl) as (W & z & Z1 & Z2 & Z3); auto; [lia|].
    exists W, z. split; [auto|]. split; [auto|]. intros i Hi. rewrite Z3, NQ by auto. cbn [map concat fst snd]. rewrite app_assoc. reflexivity.
  - destruct (E w l ps eq_refl N RL LL H) as (W & c & -> & C2 & C3). eauto.
Qed.

(** A name that a later file lacks. *)
Lemma missing_name key tr pm f1 f fs1 fs2 n a r : stores key n f1 a ->
  (exists g d, f = Some g /\ group key g = Some d /\ get n d = None) ->
  monitorh5list_to_dict key tr pm (f1 :: fs1 ++ f :: fs2) <> Ok r.
Proof.
  intros S (g & e & -> & G & Q) M. destruct (first_get _ _ _ _ _ _ _ _ S M) as (d & D & MM). clear M S f1.
  revert d a D MM. induction fs1 as [|f fs1 IH]; intros d a D; cbn [app more].
  - cbn [monitorh5_to_dict]. rewrite G. destruct (join_all tr d e) eqn:E; [|discriminate].
    destruct (join_all_get _ _ _ _ _ E _ D) as (b & c & B & _). congruence.
  - destruct (monitorh5_to_dict key f); [|destruct pm; [eapply IH; eauto|discriminate]|discriminate].
    destruct (join_all tr d a0) eqn:E; [|discriminate].
    destruct (join_all_get _ _ _ _ _ E _ D) as (b & c & _ & _ & B3). eapply IH; eauto.
Qed.

(** Files of vectors under the same names are always joined. *)
Lemma join_all_vec tr d cur : Forall (fun p => exists l, snd p = Vec l) d ->
  (forall n, In n (map fst d) -> exists l, get n cur = Some (Vec l)) ->
  exists r, join_all tr d cur = Some r /\ Forall (fun p => exists l, snd p = Vec l) r.
Proof.
  induction d as [|[n a] d IH]; intros F H; cbn [join_all]. { exists []. auto. }
  inversion F as [|? ? [l E] F']; subst. cbn [snd] in E. subst a.
  destruct (H n) as [l' E]; [left; reflexivity|]. rewrite E, join_vec.
  destruct (IH F') as (r & -> & Fr). { intros k K. apply H. right. exact K. }
  eexists. split; [reflexivity|]. constructor; [cbn; eauto|auto].
Qed.
Lemma more_vec key tr fs : forall d, Forall (fun p => exists l, snd p = Vec l) d ->
  Forall (vectors key (map fst d)) fs -> exists r, more key tr false d fs = Ok r.
Proof.
  induction fs as [|f fs IH]; intros d F H; cbn [more]; [eauto|].
  inversion H as [|? ? (g & e & -> & G & E) H']; subst. cbn [monitorh5_to_dict]. rewrite G.
  destruct (join_all_vec tr d e F E) as (r & J & Fr). rewrite J. apply IH; auto. rewrite (join_all_names _ _ _ _ J). auto.
Qed.
Lemma vec_succeeds key tr g d fs : group key g = Some d -> Forall (fun p => exists l, snd p = Vec l) d ->
  Forall (vectors key (map fst d)) fs -> exists r, monitorh5list_to_dict key tr false (Some g :: fs) = Ok r.
Proof. intros G F H. cbn [monitorh5list_to_dict monitorh5_to_dict]. rewrite G. apply more_vec; auto. Qed.
