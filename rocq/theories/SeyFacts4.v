(** Mean yields of the emission models, and where the energies of the
    secondaries come from. *)
From Coq Require Import Lra Lia Reals.
From Verif Require Import Num NumFacts Sey SpecSey SeyFacts SeyFacts2 SeyFacts3.
Local Open Scope R_scope.

Lemma tilted_code Emax dm s sc sh E ct : true_sec Emax dm s sc sh E ct = tilted Emax dm s sc sh E ct.
Proof.
  unfold true_sec, tilted, peaked, pw. set (x := E / _). destruct (Reqb x 0) eqn:Q; [|unfold Rdiv; ring].
  apply Reqb_true in Q. rewrite Q. unfold Rdiv. ring.
Qed.

Definition two_way (m : seymod) (p : imp) (t r : R) : Prop :=
  exists pr qe qt, 0 <= pr <= 1 /\ 0 <= qe /\ 0 <= qt /\
  (forall u, 0 <= u < 1 -> sey_one m u p = Some (if Rltb u pr then (qe, true) else (qt, false))) /\
  pr * qe = i_nel p * r /\ (1 - pr) * qt = i_nel p * t.

(** One charge for both outcomes. *)
Lemma two_way_same m p t r d (f : R) : 0 <= i_nel p -> 0 <= d -> 0 <= f <= 1 -> d = t + r -> f * d = r ->
  (forall u, 0 <= u < 1 -> sey_one m u p = Some (i_nel p * d, Rltb u f)) -> two_way m p t r.
Proof.
  intros Hn Hd Hf D F H. exists f, (i_nel p * d), (i_nel p * d).
  assert (0 <= i_nel p * d) by (apply Rmult_le_pos; auto).
  repeat split; auto; try lra.
  - intros u Hu. rewrite H by auto. destruct (Rltb u f); auto.
  - rewrite <- F. ring.
  - replace t with (d - f * d) by lra. ring.
Qed.

Lemma two_way_opt m p t r d (f : option R) : 0 <= i_nel p -> 0 <= d -> d = t + r -> 0 <= t -> 0 <= r ->
  match f with Some f => 0 <= f <= 1 /\ f * d = r | None => d = 0 end ->
  (forall u, 0 <= u < 1 -> sey_one m u p = Some (i_nel p * d, match f with Some f => Rltb u f | None => false end)) -> two_way m p t r.
Proof.
  intros Hn Hd D Ht Hr F H. destruct f as [f|].
  - destruct F as [F1 F2]. apply (two_way_same m p t r d f); auto.
  - apply (two_way_same m p t r d 0); auto; try lra. intros u Hu. rewrite H by auto. repeat f_equal. symmetry. apply Rltb_false. lra.
Qed.

Lemma mean_yield m p t r : sey_params_ok m -> fair p -> law m p = Some (t, r) -> two_way m p t r.
Proof.
  intros HM (Hn & HE & Hc) L. assert (s1 : 1 < s135) by (unfold s135; lra).
  destruct m as [Emax dm R0 E0 s sc sh|Emax dm R0 E0|Emax dm R0 E0|Emax dm R0|tb|segs E0];
    cbn [law sey_params_ok seg_params] in *; try discriminate; change (135/100) with s135 in L; rewrite <- ?tilted_code in L.
  - pose proof (yield_ECLOUD_ok Emax dm R0 E0 s sc sh (i_E p) (i_ct p)) as Y. 
    assert (S1 : forall u, sey_one (MEcloud Emax dm R0 E0 s sc sh) u p = let '(d, f) := yield_ECLOUD Emax dm R0 E0 s sc sh (i_E p) (i_ct p) in
      Some (i_nel p * d, Rltb u f)) by reflexivity.
    destruct (yield_ECLOUD _ _ _ _ _ _ _ _ _) as [d f]. injection L as <- <-.
    destruct Y as (Y1 & Y2 & Y3 & Y4); try tauto. apply (two_way_same _ p _ _ d f); auto; lra.
  - pose proof (yield_acc_ok Emax dm R0 E0 (i_E p) (i_ct p)) as Y.
    pose proof (true_sec_range Emax dm s135 true true (i_E p) (i_ct p)) as T.
    cbv [yield_acc] in Y. change (bounced R0 E0 (i_E p)) with (reflected R0 E0 (i_E p)) in L.
    injection L as <- <-. set (t := true_sec _ _ _ _ _ _ _) in *. set (r := reflected _ _ _) in *.
    destruct Y as (Y1 & Y2 & Y3); try tauto; try lra.
    exists r, (i_nel p), (i_nel p * (t / (1 - r))). split; [lra|]. split; auto. split; [apply Rmult_le_pos; auto|].
    split; [|split; [ring|field; lra]].
    intros u Hu. unfold sey_one, yield_acc. fold t r. destruct (Rltb u r); auto.
  - pose proof (yield_cos_ok Emax dm R0 E0 (i_E p) (i_ct p)) as Y.
    pose proof (true_sec_range Emax dm s135 true true (i_E p) (i_ct p)) as T.
    assert (D : fst (yield_cos Emax dm R0 E0 (i_E p) (i_ct p)) = t + r).
    { injection L as <- <-. unfold yield_cos. cbn [fst]. destruct (Rltb (i_E p) E0); auto.
      replace (PI / 2 * (i_E p / E0)) with (1 / 2 * PI * i_E p / E0) by (unfold Rdiv; ring). reflexivity. }
    assert (S1 : forall u, sey_one (MCos Emax dm R0 E0) u p = let '(d, f) := yield_cos Emax dm R0 E0 (i_E p) (i_ct p) in
      Some (i_nel p * d, match f with Some f => Rltb u f | None => false end)) by reflexivity.
    destruct (yield_cos _ _ _ _ _ _) as [d f]. cbn [fst] in D. 
    assert (Ht : t = true_sec Emax dm s135 true true (i_E p) (i_ct p)) by congruence.
    assert (Hr : 0 <= r).
    { injection L as _ <-. destruct (Rltb _ _); [|lra]. apply Rmult_le_pos; [tauto|]. apply pow2_ge_0. }
    destruct Y as (Y1 & Y2); try tauto.
    apply (two_way_opt _ p _ _ d f); auto.
    + rewrite Ht. apply T; tauto.
    + destruct f as [f|]; auto. split; [tauto|]. lra.
  - pose proof (yield_flat_code Emax dm R0 (i_E p) (i_ct p)) as [Y1 Y2].
    pose proof (true_sec_range Emax dm s135 true true (i_E p) (i_ct p)) as T.
    pose proof (yield_flat_ok Emax dm R0 (i_E p) (i_ct p)) as Y.
    assert (S1 : forall u, sey_one (MFlat Emax dm R0) u p = let '(d, f) := yield_flat Emax dm R0 (i_E p) (i_ct p) in
      Some (i_nel p * d, match f with Some f => Rltb u f | None => false end)) by reflexivity.
    destruct (yield_flat _ _ _ _ _) as [d f]. cbn [fst snd] in *.
    assert (D : d = t /\ r = 0).
    { injection L as <- <-. split; auto. rewrite Y1. set (a := true_sec _ _ _ _ _ _ _) in *. destruct (Rltb (i_E p) Emax).
      - destruct (Rltb a R0) eqn:Q; cbn [andb].
        + apply Rltb_true in Q. rewrite Rmax_left; lra.
        + apply Rltb_false in Q. rewrite Rmax_right; lra.
      - rewrite Bool.andb_false_r. auto. }
    destruct D as [D ->]. destruct Y as [Y3 Y4]; try tauto.
    apply (two_way_opt _ p _ _ d f); auto; try lra. destruct f as [f|]; auto.
    destruct Y2 as [E|E]; [|discriminate]. injection E as ->. lra.
  - destruct (nth_error segs (i_seg p)) as [[[Emax dm] R0]|] eqn:N; [|discriminate].
    destruct HM as [HM H0]. rewrite Forall_forall in HM. specialize (HM _ (nth_error_In _ _ N)). cbn in HM.
    rewrite <- ?tilted_code in L.
    pose proof (yield_ECLOUD_ok Emax dm R0 E0 s135 true true (i_E p) (i_ct p)) as Y. 
    assert (S1 : forall u, sey_one (MNonUnif segs E0) u p = let '(d, f) := yield_ECLOUD Emax dm R0 E0 s135 true true (i_E p) (i_ct p) in
      Some (i_nel p * d, Rltb u f)) by (intros u; cbn [sey_one]; rewrite N; reflexivity).
    destruct (yield_ECLOUD _ _ _ _ _ _ _ _ _) as [d f]. injection L as <- <-.
    destruct Y as (Y1 & Y2 & Y3 & Y4); try tauto. apply (two_way_same _ p _ _ d f); auto; lra.
Qed.

(** * Draws *)
Lemma mask_put_map {A B} (f : A -> B) m a v : mask_put m (map f a) (map f v) = map f (mask_put m a v).
Proof.
  revert a v. induction m as [|b m IH]; intros [|x a] v; cbn; auto. destruct b.
  - destruct v as [|y v]; cbn; f_equal; [apply (IH a [])|apply IH].
  - cbn. rewrite IH. reflexivity.
Qed.

Lemma mask_put_In {A} (x : A) m a v : In x (mask_put m a v) -> In x a \/ In x v.
Proof.
  revert a v. induction m as [|b m IH]; intros [|y a] v; cbn; auto. destruct b.
  - destruct v as [|z v]; cbn; intros [->|H]; auto; destruct (IH _ _ H); auto.
  - cbn. intros [->|H]; auto. destruct (IH _ _ H); auto.
Qed.

Lemma mask_put_NoDup {A} m (a v : list A) : NoDup a -> NoDup v -> (forall x, In x a -> In x v -> False) -> NoDup (mask_put m a v).
Proof.
  revert a v. induction m as [|b m IH]; intros [|y a] v Ha Hv D; cbn; auto.
  inversion Ha; subst. destruct b.
  - destruct v as [|z v].
    + constructor.
      * intros H. destruct (mask_put_In _ _ _ _ H) as [|[]]; auto.
      * apply IH; auto.
    + inversion Hv; subst. constructor.
      * intros H. destruct (mask_put_In _ _ _ _ H) as [G|G]; auto. apply (D z); cbn; auto.
      * apply IH; auto. intros x P Q. apply (D x); cbn; auto.
  - constructor.
    + intros H. destruct (mask_put_In _ _ _ _ H) as [G|G]; auto. apply (D y); cbn; auto.
    + apply IH; auto. intros x P Q. apply (D x); cbn; auto.
Qed.

Lemma redraw_fresh sr k0 lim fuel : forall k idx r k',
  NoDup idx -> Forall (fun i => (k0 <= i < k)%nat) idx -> (k0 <= k)%nat ->
  redraw fuel sr k lim (map (s_logn sr) idx) = Some (r, k') ->
  exists idx', r = map (s_logn sr) idx' /\ NoDup idx' /\ Forall (fun i => (k0 <= i < k')%nat) idx' /\ (k <= k')%nat.
Proof.
  induction fuel as [|fuel IH]; intros k idx r k' N F K H; cbn [redraw] in H; destruct (Nat.eqb _ 0).
  - injection H as <- <-. exists idx. auto.
  - discriminate.
  - injection H as <- <-. exists idx. auto.
  - unfold draw in H. rewrite mask_put_map in H. rewrite Forall_forall in F. apply IH in H.
    + destruct H as (idx' & A & B & C & D). exists idx'. repeat split; auto. lia.
    + apply mask_put_NoDup; auto; [apply seq_NoDup|]. intros x P Q. apply F in P. apply in_seq in Q. lia.
    + apply Forall_forall. intros x P. destruct (mask_put_In _ _ _ _ P) as [Q|Q]; [apply F in Q; lia|apply in_seq in Q; lia].
    + lia.
Qed.

Lemma fresh_energies sw fuel sr k Eth Es thl en k' :
  sec_energy_hilleret_model2 sw fuel sr k (length Es) Eth Es thl = Some (en, k') ->
  exists idx, length idx = length Es /\ NoDup idx /\ Forall (fun i => (k <= i < k')%nat) idx /\
  length en = length Es /\
  forall i, (i < length Es)%nat ->
    let j := nth i idx 0%nat in
    let E := nth i Es 0 in
    nth i en 0 = if andb (sw =? 2)%Z (Rltb E thl) then E * sqrt (s_uni sr j) else s_logn sr j.
Proof.
  unfold sec_energy_hilleret_model2. set (n := length Es). intros H.
  assert (F0 : Forall (fun i => (k <= i < k + n)%nat) (seq k n)) by (apply Forall_forall; intros x Q; apply in_seq in Q; lia).
  destruct (sw =? 0)%Z eqn:S0; [|destruct (sw =? 2)%Z eqn:S2; [|discriminate]].
  - pose proof (redraw_length _ _ _ _ _ _ _ H) as L. rewrite draw_length in L. 
    destruct (redraw_fresh sr k _ fuel (k + n)%nat (seq k n) _ _ (seq_NoDup _ _) F0 ltac:(lia) H) as (idx & -> & N & F & _).
    rewrite map_length in L. exists idx. rewrite map_length. repeat split; auto. intros i Hi.
    apply Z.eqb_eq in S0. subst sw. cbn [Z.eqb andb].
    rewrite (nth_indep _ 0 (s_logn sr 0)) by (rewrite map_length; lia). apply map_nth.
  - unfold bind in H. destruct (redraw _ _ _ _ _) as [[r k1]|] eqn:RD; [|discriminate]. injection H as <- <-.
    pose proof (redraw_length _ _ _ _ _ _ _ RD) as L. rewrite draw_length in L. 
    destruct (redraw_fresh sr k _ fuel (k + n)%nat (seq k n) _ _ (seq_NoDup _ _) F0 ltac:(lia) RD) as (idx & -> & N & F & K).
    rewrite map_length in L. set (low := fun E => Rltb E thl). set (c := count_true (map low Es)).
    exists (mask_put (map low Es) idx (seq k1 c)). rewrite !mask_put_length, map_length. rewrite Forall_forall in F. repeat split; auto.
    + apply mask_put_NoDup; auto; [apply seq_NoDup|]. intros x P Q. apply F in P. apply in_seq in Q. lia.
    + apply Forall_forall. intros x P. destruct (mask_put_In _ _ _ _ P) as [Q|Q]; [apply F in Q; lia|apply in_seq in Q; lia].
    + cbn [andb]. unfold draw. subst c n. clear - L. generalize k1. clear k1. revert idx L.
      induction Es as [|E Es IH]; intros [|j idx] L k1 i Hi; cbn in L; try discriminate; cbn [length] in Hi; [lia|].
      cbn [map mask_put mask_get]. unfold count_true. cbn [fold_right]. fold (count_true (map low Es)).
      destruct (low E) eqn:Q.
      * cbn [seq map map2]. destruct i as [|i]; cbn [nth]; [unfold low in Q; rewrite Q; auto|]. apply IH; lia.
      * destruct i as [|i]; cbn [nth]; [unfold low in Q; rewrite Q; auto|]. apply IH; lia.
Qed.
