(** Sub-steps of the motion. *)
From Coq Require Import String Lra Lia.
From Verif Require Import Num NumFacts MP SpecMP MPFacts RegenFacts Push SpecPush PushFacts Geom Poly Sey Impact SpecImpact Beam SpecBeam BeamFacts
  Source SpecSource CrossIon SpecCrossIon Sim SpecSim SimFacts.
Local Open Scope list_scope.
Local Open Scope R_scope.

Lemma sub_steps_cover e a main d sub : s_Nsub a = None -> sub_steps e a main d = Some sub ->
  (ti_unif main = true -> ti_Dt main = d_Dt d) ->
  (ti_unif main = false -> forall n, d_Nsub d = Some n -> 0 < d_Dt d /\ d_Dt d / INR n < 2 * ti_Dt main) ->
  match sub with
  | Some (h, n) => (1 <= n)%nat /\ INR n * h = ti_Dt main
  | None => d_Dt d = ti_Dt main
  end.
Proof.
  intros HA H HU HN. unfold sub_steps in H. rewrite HA in H. destruct (ti_unif main); cbn [negb] in H.
  - destruct (d_Nsub d) as [n|].
    + destruct (Nat.eqb_spec n 0) as [|Hn]; [discriminate|]. injection H as <-. split; [lia|]. rewrite HU by auto.
      field. apply not_0_INR. auto.
    + injection H as <-. symmetry. auto.
  - destruct (e_boris e); [|discriminate]. destruct (d_Nsub d) as [ns|]; [|discriminate]. cbn [bind] in H.
    destruct (Nat.eqb_spec ns 0) as [|Hn]; [discriminate|]. destruct (Reqb (d_Dt d) 0) eqn:Q; [discriminate|]. cbn [orb] in H.
    injection H as <-. destruct (HN eq_refl ns eq_refl) as [P1 P2].
    assert (PN : 0 < INR ns) by (apply lt_0_INR; lia).
    assert (PT : 0 < d_Dt d / INR ns) by (unfold Rdiv; apply Rmult_lt_0_compat; auto; apply Rinv_0_lt_compat; auto).
    set (q := ti_Dt main / (d_Dt d / INR ns)).
    assert (Hq : 1 - 1/2 < q).
    { unfold q. set (t := d_Dt d / INR ns) in *. apply (Rmult_lt_reg_r t); auto. replace (ti_Dt main / t * t) with (ti_Dt main) by (field; lra). lra. }
    pose proof (raround_lt_half q 1 Hq) as G.
    assert (HZ : (1 <= Z.to_nat (raround q))%nat) by lia. split; [exact HZ|]. field. apply not_0_INR. lia.
Qed.

Lemma F2_impl {A B} (P Q : A -> B -> Prop) l l' : (forall a b, P a b -> Q a b) -> Forall2 P l l' -> Forall2 Q l l'.
Proof. intros H. induction 1; constructor; auto. Qed.

(** The fields vanish. *)
Lemma repeat0_map2 n : map2 Rplus (repeat 0 n) (repeat 0 n) = repeat 0 n.
Proof. induction n; cbn; auto. rewrite IHn. f_equal. lra. Qed.
Lemma repeat0_map f n : f 0 = 0 -> map f (repeat 0 n) = repeat 0 n.
Proof. intros H. induction n; cbn; auto. rewrite IHn, H. auto. Qed.
Lemma fadd_zero n f g : zero_fld n f -> zero_fld n g -> exists h, fadd f g = Some h /\ zero_fld n h.
Proof.
  destruct f as [x|l], g as [y|l']; cbn [zero_fld fadd]; intros -> ->.
  - eexists. split; [reflexivity|]. cbn. lra.
  - eexists. split; [reflexivity|]. cbn. apply (repeat0_map (fun y => 0 + y)). lra.
  - eexists. split; [reflexivity|]. cbn. apply (repeat0_map (fun y => y + 0)). lra.
  - rewrite Nat.eqb_refl. eexists. split; [reflexivity|]. cbn. apply repeat0_map2.
Qed.
Definition no_beam (pos : list (R * R)) (m : bmeth) : Prop := zero_fld (length pos) (fst (m pos)) /\ zero_fld (length pos) (snd (m pos)).
(** A beam below its threshold. *)
Lemma below_none f pos : f_lam f <= f_th f -> no_beam pos (get_beam_eletric_field f).
Proof. intros H. unfold no_beam, get_beam_eletric_field. rewrite (proj2 (Rgtb_false _ _)) by lra. cbn. auto. Qed.
Lemma beams_none secs pos : Forall (no_beam pos) secs -> forall ex ey, zero_fld (length pos) ex -> zero_fld (length pos) ey ->
  exists rx ry, add_sec_beams secs pos ex ey = Some (rx, ry) /\ zero_fld (length pos) rx /\ zero_fld (length pos) ry.
Proof.
  induction 1 as [|f secs Hf F IH]; intros ex ey Zx Zy; cbn [add_sec_beams]; [eauto|]. destruct Hf as [F1 F2]. destruct (f pos) as [sx sy].
  destruct (fadd_zero _ _ _ Zx F1) as (hx & Ex & Hx). destruct (fadd_zero _ _ _ Zy F2) as (hy & Ey & Hy). cbn [fst snd] in *. rewrite Ex. cbn [bind]. rewrite Ey. cbn [bind]. auto.
Qed.

Lemma gather_none sc kick main secs s : no_field sc main secs -> exists E, gather_field sc kick main secs s = Some E /\ forall i, E i = (0, 0).
Proof.
  intros [F0 FB]. inversion FB as [|x l FM FS]; subst. unfold gather_field.
  assert (Z : forall i, nth i (map (fun p => sc_fld sc (fst p) (snd p)) (mp_pos s)) (0, 0) = (0, 0)).
  { intros i. generalize (mp_pos s). intros l. revert i. induction l as [|p l IH]; intros [|i]; cbn [map nth]; auto. }
  destruct kick.
  - eexists. split; [reflexivity|]. exact Z.
  - unfold total_field, field_from_beams. destruct (FM (mp_pos s)) as [M1 M2]. destruct (ti_f main (mp_pos s)) as [ex ey]. cbn [fst snd] in M1, M2.
    assert (FS' : Forall (no_beam (mp_pos s)) (map ti_f secs)).
    { apply Forall_map. revert FS. apply Forall_impl. intros b Hb. apply Hb. }
    destruct (beams_none _ _ FS' ex ey M1 M2) as (rx & ry & -> & R1 & R2). cbn [bind].
    assert (V : forall (g : R * R -> R), g (0, 0) = 0 -> zero_fld (length (mp_pos s)) (Vec (map g (map (fun p => sc_fld sc (fst p) (snd p)) (mp_pos s))))).
    { intros g G0. cbn. generalize (mp_pos s). intros l. induction l as [|p l IH]; cbn; auto. rewrite IH, F0, G0. auto. }
    destruct (fadd_zero _ _ _ (V fst eq_refl) R1) as (hx & -> & Hx). cbn [bind]. destruct (fadd_zero _ _ _ (V snd eq_refl) R2) as (hy & -> & Hy). cbn [bind].
    eexists. split; [reflexivity|]. intros i. assert (Z0 : forall n f, zero_fld n f -> fld_at f i = 0).
    { intros n [r|l] Hl; cbn in *; [auto|subst l]. apply nth_repeat. }
    cbv beta; rewrite (Z0 _ _ Hx), (Z0 _ _ Hy). reflexivity.
Qed.

(** * Drift *)
Lemma drifted_refl p : drifted 0 p p.
Proof. unfold drifted. repeat split; try lra. Qed.
Lemma drifted_trans A B p q r : drifted A p q -> drifted B q r -> drifted (A + B) p r.
Proof.
  intros (A1 & A2 & A3 & A4 & A5 & A6 & A7) (B1 & B2 & B3 & B4 & B5 & B6 & B7). unfold drifted.
  rewrite B1, B2, B3, A1, A2, A3, B4, B5, B6, B7, A4, A5, A6, A7. repeat split; ring.
Qed.
Lemma drifted_same A B p q : drifted A p q -> A = B -> drifted B p q.
Proof. intros H <-. exact H. Qed.
Lemma Forall2_refl {A} (P : A -> A -> Prop) l : (forall a, P a a) -> Forall2 P l l.
Proof. intros H. induction l; constructor; auto. Qed.
Lemma Forall2_trans {A} (P Q T : A -> A -> Prop) (H : forall a b c, P a b -> Q b c -> T a c) :
  forall l m n, Forall2 P l m -> Forall2 Q m n -> Forall2 T l n.
Proof.
  intros l m n F. revert n. induction F as [|a b l m Hab F IH]; intros n G; inversion G; subst; constructor; eauto.
Qed.

Definition drift6 (T : R) (p : p6) : p6 := mkP6 (px p + pvx p * T) (py p + pvy p * T) (pz p + pvz p * T) (pvx p) (pvy p) (pvz p).

Lemma seq_Forall2 {A} (P : A -> A -> Prop) (f g : nat -> A) n : forall k, (forall i, (k <= i < k + n)%nat -> P (f i) (g i)) ->
  Forall2 P (map f (seq k n)) (map g (seq k n)).
Proof. induction n as [|n IH]; intros k H; cbn [seq map]; constructor; [apply H; lia|apply IH; intros; apply H; lia]. Qed.

Lemma moves_drift T g s s' : wf s -> moves_each g s s' -> (forall i, (i < N_mp s)%nat -> g i (get6 s i) = drift6 T (get6 s i)) ->
  wf s' /\ Forall2 (drifted T) (live s) (live s').
Proof.
  intros W (N & NE & TL & WF & _ & _ & _ & G & _) H. destruct (WF W) as [W' C]. split; auto.
  unfold live. rewrite N. apply seq_Forall2. intros i Hi. specialize (G i ltac:(lia)). rewrite (H i) in G by lia.
  unfold get6, drift6 in G. cbn [px py pz pvx pvy pvz] in G. injection G. intros. unfold drifted, mp_at. cbn. rewrite NE. auto 10.
Qed.

Lemma boris_one_free qm h p : boris_one qm h (0, 0, 0) (0, 0, 0) p = drift6 h p.
Proof.
  destruct p as [x y z vx vy vz]. unfold boris_one, drift6. cbn [px py pz pvx pvy pvz].
  replace (1/2 * qm * h * 0) with 0 by ring. replace (1/2 * qm * 0 * h) with 0 by ring.
  replace (2 * 0 / (1 + (0 * 0 + 0 * 0 + 0 * 0))) with 0 by field.
  replace (vx + 0) with vx by ring. replace (vy + 0) with vy by ring. replace (vz + 0) with vz by ring.
  f_equal; ring.
Qed.
Lemma boris_free n : forall qm h p, boris_substeps n qm h (B_none 0 0 0) (0, 0, 0) p = drift6 (INR n * h) p.
Proof.
  induction n as [|n IH]; intros qm h p; cbn [boris_substeps].
  - destruct p as [x y z vx vy vz]; unfold drift6. cbn. f_equal; ring.
  - unfold B_none at 2. rewrite boris_one_free, IH. destruct p as [x y z vx vy vz]; unfold drift6; cbn [px py pz pvx pvy pvz]. rewrite S_INR. f_equal; ring.
Qed.

Lemma boris_drifts q m Dt N : (N <> 0)%nat -> drifts (boris_dyn q m (B_none 0 0 0) Dt N).
Proof.
  intros HN. assert (C : forall E h n s, (forall i, E i = (0, 0)) -> wf s ->
    wf (boris_stepcustomDt q m (B_none 0 0 0) E h n s) /\ Forall2 (drifted (INR n * h)) (live s) (live (boris_stepcustomDt q m (B_none 0 0 0) E h n s))).
  { intros E h n s HE W. eapply moves_drift; [exact W|apply push_moves|]. intros i Hi. cbv beta. rewrite HE. cbn [fst snd]. apply boris_free. }
  split; cbn [d_step d_custom d_Dt boris_dyn]; [|intros _; exact C]. intros E s HE W. destruct (C E (Dt / INR N) N s HE W) as [A B]. split; [exact A|].
  revert B. unfold boris_step. apply F2_impl. intros a b D. eapply drifted_same; [exact D|].
  field. apply not_0_INR. auto.
Qed.

Lemma sincc0 : sincc 0 = 1.
Proof. unfold sincc. rewrite (proj2 (Rltb_true _ _)); auto. rewrite Rabs_R0. lra. Qed.

Lemma dipole_free Dt p : dipole_one Dt 0 (0, 0) p = drift6 Dt p.
Proof.
  destruct p as [x y z vx vy vz]. unfold dipole_one, drift6. cbn [px py pz pvx pvy pvz].
  replace (0 * qm_e) with 0 by ring. replace (0 * Dt) with 0 by ring. rewrite sincc0, cos_0, sin_0. f_equal; ring.
Qed.

Lemma strongB_free Dt thr p : 0 < thr -> strongB_one Dt 0 0 SrcNone thr (0, 0) p = drift6 Dt p.
Proof.
  intros HT. destruct p as [x y z vx vy vz]. unfold strongB_one, drift6, src_field. cbn [px py pz pvx pvy pvz fst snd].
  replace (0 + 0) with 0 by ring. replace (0 * 0 + 0 * 0) with 0 by ring. rewrite sqrt_0, (proj2 (Rltb_true _ _)) by lra. f_equal; ring.
Qed.

(** Loop of sub-steps without field. *)
Lemma loop_drift (st : (nat -> R * R) -> mpsys -> mpsys) T sc kick main secs :
  no_field sc main secs ->
  (forall E s, (forall i, E i = (0, 0)) -> wf s -> wf (st E s) /\ Forall2 (drifted T) (live s) (live (st E s))) ->
  forall n s, wf s -> exists s', motion_loop n st sc kick main secs s = Some s' /\ wf s' /\ Forall2 (drifted (INR n * T)) (live s) (live s').
Proof.
  intros NF HS. induction n as [|n IH]; intros s W; cbn [motion_loop].
  - exists s. split; auto. split; auto. apply Forall2_refl. intros p. eapply drifted_same; [apply drifted_refl|]. cbn. ring.
  - destruct (gather_none sc kick main secs s NF) as (E & HE & Z). rewrite HE. cbn [bind].
    destruct (HS E s Z W) as [W1 F1]. destruct (IH _ W1) as (s' & H & W' & F'). exists s'. split; auto. split; auto.
    eapply Forall2_trans; [|exact F1|exact F']. intros a b c D1 D2. eapply drifted_same; [eapply drifted_trans; eauto|]. rewrite S_INR. ring.
Qed.

Lemma motion_drift e a main secs sc c s : s_Nsub a = None -> s_kick a = false -> drifts (a_dyn c) -> no_field sc main secs -> wf s ->
  (ti_unif main = true -> ti_Dt main = d_Dt (a_dyn c)) ->
  (ti_unif main = false -> forall n, d_Nsub (a_dyn c) = Some n -> 0 < d_Dt (a_dyn c) /\ d_Dt (a_dyn c) / INR n < 2 * ti_Dt main) ->
  forall s', cloud_motion e a main secs sc c s = Some s' -> Forall2 (drifted (ti_Dt main)) (live s) (live s').
Proof.
  intros HA HK [D1 D2] NF W HU HN s' H. unfold cloud_motion in H.
  destruct (sub_steps e a main (a_dyn c)) as [sub|] eqn:ES; [|discriminate]. cbn [bind] in H. rewrite HK in H. cbn [bind] in H.
  pose proof (sub_steps_cover _ _ _ _ _ HA ES HU HN) as C.
  assert (D2' : forall h n, sub = Some (h, n) -> d_Nsub (a_dyn c) <> None).
  { intros h n ->. unfold sub_steps in ES. rewrite HA in ES. destruct (d_Nsub (a_dyn c)); [congruence|]. destruct (negb _); [|discriminate].
    destruct (e_boris e); discriminate. }
  destruct (e_reinterp e || s_force_re a).
  - destruct sub as [[h n]|]; [|discriminate]. destruct C as [_ C].
    destruct (loop_drift (fun E s => d_custom (a_dyn c) E h 1 s) (INR 1 * h) sc false main secs NF (fun E s Z W => D2 (D2' h n eq_refl) E h 1%nat s Z W) n s W) as (s2 & E2 & _ & F).
    assert (X : s2 = s') by congruence. subst s2. revert F. apply F2_impl. intros p q D. eapply drifted_same; [exact D|]. rewrite <- C. cbn. ring.
  - destruct sub as [[h n]|].
    + destruct C as [_ C].
      destruct (loop_drift (fun E s => d_custom (a_dyn c) E h n s) (INR n * h) sc false main secs NF (fun E s Z W => D2 (D2' h n eq_refl) E h n s Z W) 1 s W) as (s2 & E2 & _ & F).
      assert (X : s2 = s') by congruence. subst s2. revert F. apply F2_impl. intros p q D. eapply drifted_same; [exact D|]. rewrite <- C. cbn. ring.
    + destruct (loop_drift (d_step (a_dyn c)) (d_Dt (a_dyn c)) sc false main secs NF D1 1 s W) as (s2 & E2 & _ & F).
      assert (X : s2 = s') by congruence. subst s2. revert F. apply F2_impl. intros p q D. eapply drifted_same; [exact D|]. rewrite C. cbn. ring.
Qed.

(** Custom sub-steps. *)
Lemma motion_drift_custom e a main secs sc c s n h : s_Nsub a = Some n -> s_Dtsub a = Some h -> s_kick a = false -> drifts (a_dyn c) -> d_Nsub (a_dyn c) <> None ->
  no_field sc main secs -> wf s ->
  forall s', cloud_motion e a main secs sc c s = Some s' -> Forall2 (drifted (INR n * h)) (live s) (live s').
Proof.
  intros HA HD HK [D1 D2'] HS NF W s' H. assert (D2 := D2' HS). unfold cloud_motion, sub_steps in H. rewrite HA, HD in H. destruct (e_boris e); [|discriminate].
  cbn [bind] in H. rewrite HK in H. cbn [bind] in H. destruct (e_reinterp e || s_force_re a).
  - destruct (loop_drift (fun E s => d_custom (a_dyn c) E h 1 s) (INR 1 * h) sc false main secs NF (fun E s Z W => D2 E h 1%nat s Z W) n s W) as (s2 & E2 & _ & F).
    assert (X : s2 = s') by congruence. subst s2. revert F. apply F2_impl. intros p q D. eapply drifted_same; [exact D|]. cbn. ring.
  - destruct (loop_drift (fun E s => d_custom (a_dyn c) E h n s) (INR n * h) sc false main secs NF (fun E s Z W => D2 E h n s Z W) 1 s W) as (s2 & E2 & _ & F).
    assert (X : s2 = s') by congruence. subst s2. revert F. apply F2_impl. intros p q D. eapply drifted_same; [exact D|]. cbn. ring.
Qed.

Lemma dipole_drifts Dt : drifts (dipole_dyn Dt 0).
Proof.
  split; cbn [d_step d_Dt d_Nsub dipole_dyn]; [|congruence]. intros E s HE W.
  eapply moves_drift; [exact W|apply push_moves|]. intros i Hi. cbv beta. rewrite HE. apply dipole_free.
Qed.
Lemma strongB_drifts Dt thr : 0 < thr -> drifts (strongB_dyn Dt 0 0 SrcNone thr).
Proof.
  intros HT. split; cbn [d_step d_Dt d_Nsub strongB_dyn]; [|congruence]. intros E s HE W.
  eapply moves_drift; [exact W|apply push_moves|]. intros i Hi. cbv beta. rewrite HE. apply strongB_free. exact HT.
Qed.
