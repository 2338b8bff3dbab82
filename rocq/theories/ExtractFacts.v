(** Lemmas about the extracted yields and spectra. *)
From Coq Require Import Lra Lia Reals Psatz String.
From Verif Require Import Num NumFacts MP SpecMP MPFacts Fort SpecFort FortFacts CrossIon Sey SpecSey SeyFacts SeyFacts2 SeyFacts3 SeyFacts4 Impact SpecImpact Extract SpecExtract.
Local Open Scope list_scope.
Local Open Scope R_scope.

Lemma mapO_nth {A B} (f : A -> option B) l r : mapO f l = Some r -> length r = length l /\
  forall i a, nth_error l i = Some a -> exists b, f a = Some b /\ nth_error r i = Some b.
Proof.
  revert r. induction l as [|a l IH]; cbn; intros r H.
  - injection H as <-. split; [reflexivity|]. intros [|i] a Q; discriminate.
  - destruct (f a) as [b|] eqn:F; [|discriminate]. cbn [bind] in H. destruct (mapO f l) as [bs|]; [|discriminate]. injection H as <-.
    destruct (IH bs eq_refl) as [L I]. split; [cbn; lia|]. intros [|i] a' Q; cbn in *; [injection Q as <-; eauto|eauto].
Qed.

Lemma loopO_spec {A B T} (f : A -> T -> option (B * T)) l : forall st bs st', loopO f l st = Some (bs, st') ->
  length bs = length l /\ exists sts : nat -> T, sts 0%nat = st /\ sts (length l) = st' /\
  forall i a, nth_error l i = Some a -> exists b, f a (sts i) = Some (b, sts (S i)) /\ nth_error bs i = Some b.
Proof.
  induction l as [|a l IH]; cbn; intros st bs st' H.
  - injection H as <- <-. split; [reflexivity|]. exists (fun _ => st). repeat split. intros [|i] a Q; discriminate.
  - destruct (f a st) as [[b s1]|] eqn:F; [|discriminate]. cbn [bind] in H. destruct (loopO f l s1) as [[bs' s2]|] eqn:Q; [|discriminate]. injection H as <- <-.
    destruct (IH _ _ _ Q) as (L & sts & S0 & S1 & SI). split; [cbn; lia|]. exists (fun i => match i with 0%nat => st | S i => sts i end).
    split; [reflexivity|]. split; [exact S1|]. intros [|i] a' Qa; cbn in *; [injection Qa as <-; exists b; rewrite S0; auto|exact (SI i a' Qa)].
Qed.

Lemma chain_mono (pos : nat -> nat) N d : (forall i, (i < N)%nat -> (pos i + d <= pos (S i))%nat) -> forall i j, (i < j <= N)%nat -> (pos i + d <= pos j)%nat.
Proof.
  intros H i j. induction j as [|j IH]; intros Q; [lia|]. destruct (Nat.eq_dec i j) as [->|]; [apply H; lia|]. pose proof (IH ltac:(lia)). pose proof (H j ltac:(lia)). lia.
Qed.

(** A table filled node by node, where each node moves on in the stream. *)
Lemma table_spec {B} (f : R -> R -> nat -> option (B * nat)) n Es cts k D k' :
  (forall ct E k b k', In ct cts -> In E Es -> f ct E k = Some (b, k') -> (k + n <= k')%nat) ->
  loopO (fun ct => loopO (f ct) Es) cts k = Some (D, k') ->
  exists pos, own_numbers n (length Es) pos (length cts) k k' /\
  forall i j ct E, nth_error cts i = Some ct -> nth_error Es j = Some E -> exists b k2, f ct E (pos i j) = Some (b, k2) /\ at2 D i j b.
Proof.
  intros Hn. revert k D k'. induction cts as [|ct cts IH]; intros k D k' H; cbn in H.
  - injection H as <- <-. exists (fun _ _ => 0%nat). split; [split; intros; cbn in *; lia|]. intros [|i] j ct E Q; discriminate.
  - destruct (loopO (f ct) Es k) as [[row k1]|] eqn:F; [|discriminate]. cbn [bind] in H.
    destruct (loopO (fun ct => loopO (f ct) Es) cts k1) as [[D1 k2]|] eqn:Q; [|discriminate]. injection H as <- <-.
    destruct (IH (fun ct E k b k' Hc => Hn ct E k b k' (or_intror Hc)) _ _ _ Q) as (pos & [O1 O2] & P). apply loopO_spec in F. destruct F as (RL & q & Q0 & Q1 & QI).
    assert (M : forall j, (j < length Es)%nat -> (q j + n <= q (S j))%nat).
    { intros j Hj. destruct (nth_error Es j) as [E|] eqn:QE; [|apply nth_error_None in QE; lia]. destruct (QI j E QE) as (b & Fb & _). apply (Hn ct E _ b _) in Fb; auto; [left; reflexivity|eapply nth_error_In; eauto]. }
    pose proof (chain_mono q (length Es) n M) as CM.
    assert (K1 : forall i j, (i < length cts)%nat -> (j < length Es)%nat -> (k1 <= pos i j)%nat) by (intros i j Hi Hj; apply (O2 i j Hi Hj)).
    assert (K2 : (k1 <= k2)%nat).
    { destruct cts as [|c0 cts']; [cbn in Q; injection Q; lia|]. destruct (length Es) as [|m] eqn:Le.
      - destruct Es; [|discriminate]. clear - Q. revert k1 D1 Q. generalize (c0 :: cts') as l. induction l as [|a l IHl]; cbn; intros k1 D1 Q; [injection Q; lia|].
        destruct (loopO _ l k1) as [[? k3]|] eqn:Z; [|discriminate]. injection Q as _ <-. exact (IHl _ _ Z).
      - destruct (O2 0%nat 0%nat ltac:(cbn; lia) ltac:(lia)). lia. }
    exists (fun i j => match i with 0%nat => q j | S i => pos i j end). split; [split|].
    + intros i j i' j' Hi Hj Hi' Hj' LT. cbn in Hi, Hi'. destruct i as [|i], i' as [|i']; try lia.
      * apply CM. lia.
      * pose proof (CM j (length Es) ltac:(lia)). pose proof (K1 i' j' ltac:(lia) ltac:(lia)). lia.
      * apply O1; lia.
    + intros i j Hi Hj. cbn in Hi. destruct i as [|i].
      * pose proof (CM j (length Es) ltac:(lia)). destruct j as [|j]; [lia|]. pose proof (CM 0%nat (S j) ltac:(lia)). lia.
      * destruct (O2 i j ltac:(lia) Hj). split; [|lia]. destruct Es as [|e0 Es']; [cbn in Hj; lia|]. pose proof (CM 0%nat (length (e0 :: Es')) ltac:(cbn; lia)). lia.
    + intros [|i] j c E Qc QE; cbn in Qc.
      * injection Qc as <-. destruct (QI j E QE) as (b & Fb & G). exists b, (q (S j)). split; [exact Fb|]. exists row. auto.
      * destruct (P i j c E Qc QE) as (b & k3 & Fb & (row' & G1 & G2)). exists b, k3. split; [exact Fb|]. exists row'. auto.
Qed.

(** * Sums by event type *)
Lemma mask_sum (ty : list nat) (q : list R) n t : length ty = n -> length q = n ->
  rsum (mask_get (map (fun x => Nat.eqb x t) ty) q) = total_over n (fun i => if Nat.eqb (nth i ty 9%nat) t then nth i q 0 else 0).
Proof.
  intros <- . revert q. induction ty as [|a ty IH]; intros [|b q] L; try discriminate; [reflexivity|].
  unfold total_over in *. injection L as L. specialize (IH q L). cbn [map mask_get length seq]. rewrite <- seq_shift, map_map, rsum_cons.
  change (map (fun x => if Nat.eqb (nth (S x) (a :: ty) 9%nat) t then nth (S x) (b :: q) 0 else 0) (seq 0 (length ty))) with (map (fun i => if Nat.eqb (nth i ty 9%nat) t then nth i q 0 else 0) (seq 0 (length ty))).
  rewrite <- IH. cbn [nth]. destruct (Nat.eqb a t); [rewrite rsum_cons; reflexivity|ring].
Qed.

Lemma total_ext n f g : (forall i, (i < n)%nat -> f i = g i) -> total_over n f = total_over n g.
Proof. intros H. unfold total_over. f_equal. apply map_ext_in. intros i Hi. apply in_seq in Hi. apply H. lia. Qed.

Lemma total_filter n (b : nat -> bool) c : total_over n (fun i => if b i then c else 0) = INR (length (filter b (seq 0 n))) * c.
Proof.
  unfold total_over. induction (seq 0 n) as [|i l IH]; cbn [map filter length]; [unfold rsum; cbn; ring|]. rewrite rsum_cons, IH. destruct (b i); [|ring]. cbn [length]. rewrite S_INR. ring.
Qed.

Lemma total_filter_neg n (b : nat -> bool) c : total_over n (fun i => if b i then 0 else c) = (INR n - INR (length (filter b (seq 0 n)))) * c.
Proof.
  unfold total_over. rewrite <- (seq_length n 0) at 2. induction (seq 0 n) as [|i l IH]; cbn [map filter length]; [unfold rsum; cbn; ring|]. rewrite rsum_cons, IH, S_INR. destruct (b i); [cbn [length]; rewrite S_INR|]; ring.
Qed.

(** * Test impacts *)
Lemma test_unit qe mass E ct : unit_n (test_imp qe mass E ct).
Proof. unfold unit_n, test_imp. cbn. ring. Qed.
Lemma test_lands qe mass E ct : lands (test_imp qe mass E ct) E ct.
Proof. repeat split. Qed.
Lemma test_all (P : imp -> Prop) p n : P p -> Forall P (repeat p n).
Proof. intros H. apply Forall_forall. intros x Hx. apply repeat_spec in Hx. subst. exact H. Qed.
Lemma test_nth p n i : (i < n)%nat -> impat (repeat p n) i = p.
Proof. intros H. unfold impat. apply nth_repeat_lt. exact H. Qed.

Lemma redraw_k fuel sr lim : forall k en en' k', redraw fuel sr k lim en = Some (en', k') -> (k <= k')%nat.
Proof.
  induction fuel as [|f IH]; cbn; intros k en en' k' H; destruct (Nat.eqb _ 0); try (injection H; lia); try discriminate. apply IH in H. lia.
Qed.
Lemma gen_vel_k c sr k n E nx ny v k' : gen_vel c sr k n E nx ny = Some (v, k') -> (k <= k')%nat.
Proof.
  unfold gen_vel, sec_energy_hilleret_model2. intros H.
  assert (Q : forall en k1, (if (c_switch c =? 0)%Z then redraw (c_fuel c) sr (k + n) (repeat (Some (c_Eth c)) n) (draw (s_logn sr) k n)
     else if (c_switch c =? 2)%Z then
       do (en, k) <- redraw (c_fuel c) sr (k + n) (map2 (fun (b : bool) m => if b then None else Some m) (map (fun E => Rltb E (c_thlow c)) E) (map (fun E => if Rgtb E (c_Eth c) then c_Eth c else E) E)) (draw (s_logn sr) k n) ;
       Some (mask_put (map (fun E => Rltb E (c_thlow c)) E) en (map2 (fun E u => E * sqrt u) (mask_get (map (fun E => Rltb E (c_thlow c)) E) E) (draw (s_uni sr) k (count_true (map (fun E => Rltb E (c_thlow c)) E)))), (k + count_true (map (fun E => Rltb E (c_thlow c)) E))%nat)
     else None) = Some (en, k1) -> (k <= k1)%nat).
  { intros en k1 Q. destruct (c_switch c =? 0)%Z; [apply redraw_k in Q; lia|]. destruct (c_switch c =? 2)%Z; [|discriminate]. destruct (redraw _ _ _ _ _) as [[e1 k2]|] eqn:R1; [|discriminate]. cbn [bind] in Q. injection Q as _ <-. apply redraw_k in R1. lia. }
  cbv zeta in H. destruct (if (c_switch c =? 0)%Z then _ else _) as [[en k1]|]; [|discriminate]. specialize (Q en k1 eq_refl). cbn [bind] in H. destruct (c_angle c) as [d|]; [|discriminate]. cbn [bind] in H.
  unfold angle_dist_func in H. destruct d; injection H as _ <-; lia.
Qed.
Lemma emit_k c th fs sr k ps pr e k' : emit_surface c th fs sr k ps pr = Some (e, k') -> (k <= k')%nat.
Proof.
  unfold emit_surface. cbv zeta. intros H.
  destruct (mask_set _ _ _) as [vxr|]; [|discriminate]. cbn [bind] in H. destruct (mask_set _ _ _) as [vyr|]; [|discriminate]. cbn [bind] in H.
  destruct (Nat.eqb _ 0); [injection H; lia|].
  destruct (mask_set _ _ _) as [nelr|]; [|discriminate]. cbn [bind] in H. destruct (gen_vel _ _ _ _ _ _ _) as [[v k1]|] eqn:G; [|discriminate]. cbn [bind] in H. apply gen_vel_k in G.
  do 3 (destruct (mask_set _ _ _) as [?|]; [|discriminate]; cbn [bind] in H).
  destruct (Nat.eqb _ 0); [injection H; lia|]. destruct (gen_vel _ _ _ _ _ _ _) as [[v2 k2]|] eqn:G2; [|discriminate]. cbn [bind] in H. apply gen_vel_k in G2. injection H as _ <-. lia.
Qed.
Lemma impacts_k m c th fs sr k ps e k' : impacts_on_surface m c th fs sr k ps = Some (e, k') -> (k + length ps <= k')%nat.
Proof.
  unfold impacts_on_surface. intros H. destruct (SEY_process m sr k ps) as [[pr k1]|] eqn:SP; [|discriminate]. cbn [bind] in H. apply SEY_process_ok in SP. destruct SP as (_ & -> & _). apply emit_k in H. exact H.
Qed.

(** * Nodes of the models of the ECLOUD family *)
Section Std.
Variables (m : seymod) (c : ecfg) (sr : src).
Hypotheses (Hs : src_ok sr) (Hq : 0 < c_qe c) (Hm : 0 < c_mass c).

Lemma std_node_k n ct E k ys k' : yield_node (std_emitter m c sr) types_ecloud (c_qe c) (c_mass c) n ct E k = Some (ys, k') -> (k + n <= k')%nat.
Proof.
  unfold yield_node, std_emitter. intros H. destruct (impacts_on_surface _ _ _ _ _ _ _) as [[e k1]|] eqn:I; [|discriminate]. cbn [bind] in H. destruct (mapO _ _); [|discriminate]. injection H as _ <-.
  apply impacts_k in I. rewrite repeat_length in I. exact I.
Qed.

Lemma std_node n ct E k ys k' : 0 <= E -> yield_node (std_emitter m c sr) types_ecloud (c_qe c) (c_mass c) n ct E k = Some (ys, k') ->
  n <> 0%nat /\ exists (tot : nat -> R) (el : nat -> bool), (forall i, (i < n)%nat -> sey_one m (s_uni sr (k + i)) (test_imp (c_qe c) (c_mass c) E ct) = Some (tot i, el i)) /\
  ys = [total_over n (fun i => if el i then tot i else 0) / INR n; total_over n (fun i => if el i then 0 else tot i) / INR n].
Proof.
  unfold yield_node, std_emitter. intros HE H. set (p := test_imp _ _ _ _) in *. destruct (impacts_on_surface _ _ _ _ _ _ _) as [[e k1]|] eqn:I; [|discriminate]. cbn [bind] in H.
  apply impacts_spec in I; auto; [|lra|apply test_all; apply test_unit|apply test_all; exact HE]. rewrite repeat_length in I. destruct I as (_ & Z & O).
  unfold types_ecloud, mapO, type_yield in H. destruct (Nat.eqb n 0) eqn:N; [discriminate|]. apply Nat.eqb_neq in N. split; [exact N|]. cbn [bind] in H. injection H as <- _.
  exists (fun i => nth i (o_tot e) 0), (fun i => Nat.eqb (nth i (o_type e) 9%nat) 0). split.
  - intros i Hi. destruct (O i Hi) as (el & Q & T). rewrite (test_nth p n i Hi) in Q. rewrite Q, T. destruct el; reflexivity.
  - destruct Z as (Z1 & Z2 & _). rewrite !(mask_sum _ _ n) by assumption. rewrite rsum_repeat, Rmult_1_r.
    f_equal. f_equal. f_equal. apply total_ext. intros i Hi. destruct (O i Hi) as (el & _ & T). rewrite T. destruct el; reflexivity.
Qed.

Lemma two_way_node n ct E k ys k' t r p : 0 <= E -> 0 <= ct <= 1 -> sey_params_ok m -> lands p E ct -> law m p = Some (t, r) ->
  yield_node (std_emitter m c sr) types_ecloud (c_qe c) (c_mass c) n ct E k = Some (ys, k') ->
  exists pr q_refl q_true, 0 <= pr <= 1 /\ pr * q_refl = r /\ (1 - pr) * q_true = t /\
    let a := share_below (s_uni sr) k n pr in ys = [a * q_refl; (1 - a) * q_true] /\ (same_charge m -> a * q_refl + (1 - a) * q_true = t + r).
Proof.
  intros HE Hc HP (L1 & L2 & L3 & L4) L H. apply std_node in H; [|exact HE]. destruct H as (N & tot & el & T & ->). set (p0 := test_imp _ _ _ _) in *.
  assert (NP : INR n <> 0) by (apply not_0_INR; exact N).
  assert (L' : law m p0 = Some (t, r)) by (rewrite <- L; unfold law; rewrite L1, L2, L3; reflexivity).
  assert (F : fair p0) by (unfold fair; cbn; lra).
  destruct (mean_yield m p0 t r HP F L') as (pr & qr & qt & Hpr & _ & _ & S1 & E1 & E2). change (i_nel p0) with 1 in E1, E2. rewrite Rmult_1_l in E1, E2.
  exists pr, qr, qt. split; [exact Hpr|]. split; [exact E1|]. split; [exact E2|]. cbv zeta.
  assert (TT : forall i, (i < n)%nat -> el i = Rltb (s_uni sr (k + i)) pr /\ tot i = if Rltb (s_uni sr (k + i)) pr then qr else qt).
  { intros i Hi. pose proof (T i Hi) as Q. rewrite S1 in Q by apply Hs. destruct (Rltb (s_uni sr (k + i)) pr); injection Q as <- <-; auto. }
  split.
  - unfold share_below. set (b := fun i => Rltb (s_uni sr (k + i)%nat) pr).
    rewrite (total_ext n _ (fun i => if b i then qr else 0)) by (intros i Hi; destruct (TT i Hi) as [-> ->]; unfold b; destruct (Rltb _ _); reflexivity).
    rewrite (total_ext n (fun i => if el i then 0 else tot i) (fun i => if b i then 0 else qt)) by (intros i Hi; destruct (TT i Hi) as [-> ->]; unfold b; destruct (Rltb _ _); reflexivity).
    rewrite total_filter, total_filter_neg. f_equal; [field; exact NP|]. f_equal. field. exact NP.
  - intros SC.
    assert (SD : exists d, forall u, 0 <= u < 1 -> exists f, sey_one m u p0 = Some (d, f)).
    { assert (S0 := S1 0 ltac:(lra)). unfold sey_one in S0. unfold sey_one. destruct m; cbn in SC; try contradiction.
      - destruct (yield_ECLOUD _ _ _ _ _ _ _ _ _) as [d f]. exists (i_nel p0 * d). eauto.
      - destruct (yield_cos _ _ _ _ _ _) as [d f]. exists (i_nel p0 * d). eauto.
      - destruct (yield_flat _ _ _ _ _) as [d f]. exists (i_nel p0 * d). eauto.
      - destruct (tab_values _ _ _) as [[d f]|]; [|discriminate]. exists (i_nel p0 * d). cbn [bind]. eauto.
      - destruct (nth_error _ _) as [[[? ?] ?]|]; [|discriminate]. cbn [bind]. destruct (yield_ECLOUD _ _ _ _ _ _ _ _ _) as [d f]. exists (i_nel p0 * d). eauto. }
    destruct SD as (d & SD). set (a := share_below (s_uni sr) k n pr).
    assert (A : (0 < pr -> qr = d) /\ (pr < 1 -> qt = d)).
    { split; intros B.
      - destruct (SD 0 ltac:(lra)) as (f & Q). rewrite S1 in Q by lra. rewrite (proj2 (Rltb_true 0 pr)) in Q by lra. congruence.
      - destruct (SD pr ltac:(lra)) as (f & Q). rewrite S1 in Q by lra. rewrite (proj2 (Rltb_false pr pr)) in Q by lra. congruence. }
    destruct A as [A1 A2]. destruct (Req_dec pr 0) as [P0|P0].
    + assert (a = 0). { unfold a, share_below. assert (Z : filter (fun i => Rltb (s_uni sr (k + i)%nat) pr) (seq 0 n) = []). { induction (seq 0 n) as [|i l IH]; [reflexivity|]. cbn. rewrite (proj2 (Rltb_false _ _)); [exact IH|]. destruct Hs as [U _]. pose proof (U (k + i)%nat). lra. } rewrite Z. cbn. field. exact NP. }
      rewrite P0 in *. rewrite H in *. lra.
    + destruct (Req_dec pr 1) as [P1|P1].
      * assert (a = 1). { unfold a, share_below. assert (Z : filter (fun i => Rltb (s_uni sr (k + i)%nat) pr) (seq 0 n) = seq 0 n). { induction (seq 0 n) as [|i l IH]; [reflexivity|]. cbn. rewrite (proj2 (Rltb_true _ _)); [f_equal; exact IH|]. destruct Hs as [U _]. pose proof (U (k + i)%nat). lra. } rewrite Z, seq_length. field. exact NP. }
        rewrite P1 in *. rewrite H in *. lra.
      * rewrite <- E1, <- E2, A1, A2 by lra. ring.
Qed.

Lemma yields_table n Es cts k D k' : sey_params_ok m -> (forall E, In E Es -> 0 <= E) -> (forall ct, In ct cts -> 0 <= ct <= 1) ->
  extract_sey_curves (std_emitter m c sr) types_ecloud (c_qe c) (c_mass c) n Es cts k = Some (D, k') ->
  exists pos, own_numbers n (length Es) pos (length cts) k k' /\
  forall i j ct E p t r, nth_error cts i = Some ct -> nth_error Es j = Some E -> lands p E ct -> law m p = Some (t, r) ->
  exists refl true_, at2 D i j [refl; true_] /\
  exists pr q_refl q_true, 0 <= pr <= 1 /\ pr * q_refl = r /\ (1 - pr) * q_true = t /\
    let a := share_below (s_uni sr) (pos i j) n pr in refl = a * q_refl /\ true_ = (1 - a) * q_true /\ (same_charge m -> refl + true_ = t + r).
Proof.
  intros HP HE Hc H. unfold extract_sey_curves in H. apply table_spec with (n := n) in H; [|intros ct E k0 b k1 _ _; apply std_node_k].
  destruct H as (pos & O & P). exists pos. split; [exact O|]. intros i j ct E p t r Qc QE Lp L. destruct (P i j ct E Qc QE) as (b & k2 & F & G).
  apply (two_way_node n ct E (pos i j) b k2 t r p) in F; auto; [|apply HE; eapply nth_error_In; eauto|apply Hc; eapply nth_error_In; eauto].
  destruct F as (pr & qr & qt & A & B & C & F1 & F2). cbv zeta in F1, F2. rewrite F1 in G. eexists _, _. split; [exact G|]. exists pr, qr, qt. cbv zeta. auto 10.
Qed.

(** Yields from a table. *)
Lemma yields_file tb n Es cts k D k' : m = MFile tb -> (forall E, In E Es -> 0 <= E) ->
  extract_sey_curves (std_emitter m c sr) types_ecloud (c_qe c) (c_mass c) n Es cts k = Some (D, k') ->
  exists pos, own_numbers n (length Es) pos (length cts) k k' /\
  forall i j ct E, nth_error cts i = Some ct -> nth_error Es j = Some E ->
  exists d f, tab_values tb E ct = Some (d, f) /\ let a := share_below (s_uni sr) (pos i j) n f in at2 D i j [a * d; (1 - a) * d].
Proof.
  intros HM HE H. unfold extract_sey_curves in H. apply table_spec with (n := n) in H; [|intros ct E k0 b k1 _ _; apply std_node_k].
  destruct H as (pos & O & P). exists pos. split; [exact O|]. intros i j ct E Qc QE. destruct (P i j ct E Qc QE) as (b & k2 & F & G).
  apply std_node in F; [|apply HE; eapply nth_error_In; eauto]. destruct F as (N & tot & el & T & ->). assert (NP : INR n <> 0) by (apply not_0_INR; exact N).
  assert (T0 := T 0%nat ltac:(lia)). rewrite HM in T, T0. unfold sey_one in T, T0. change (i_E (test_imp (c_qe c) (c_mass c) E ct)) with E in T, T0. change (i_ct (test_imp (c_qe c) (c_mass c) E ct)) with ct in T, T0. change (i_nel (test_imp (c_qe c) (c_mass c) E ct)) with 1 in T, T0.
  destruct (tab_values tb E ct) as [[d f]|]; [|discriminate]. exists d, f. split; [reflexivity|]. cbv zeta. cbn [bind] in T.
  unfold share_below. set (B := fun i0 => Rltb (s_uni sr (pos i j + i0)%nat) f).
  rewrite (total_ext n _ (fun i => if B i then d else 0)) in G by (intros i0 Hi; pose proof (T i0 Hi) as Q; injection Q as <- <-; unfold B; destruct (Rltb _ _); [ring|reflexivity]).
  rewrite (total_ext n (fun i => if el i then 0 else tot i) (fun i => if B i then 0 else d)) in G by (intros i0 Hi; pose proof (T i0 Hi) as Q; injection Q as <- <-; unfold B; destruct (Rltb _ _); [reflexivity|ring]).
  rewrite total_filter, total_filter_neg in G. set (x := INR (length (filter B (seq 0 n)))) in *.
  replace (x / INR n * d) with (x * d / INR n) by (field; exact NP). replace ((1 - x / INR n) * d) with ((INR n - x) * d / INR n) by (field; exact NP). exact G.
Qed.
End Std.
