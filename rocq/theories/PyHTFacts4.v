(** Passages after two histories. *)
From Coq Require Import String Lia.
From Verif Require Import Num NumFacts Fort MP SpecMP MPFacts Push Geom Poly Sey Impact Beam Source CrossIon Sim SimFacts PyHT SpecPyHT PyHTFacts PyHTFacts2 PyHTFacts3.
Local Open Scope list_scope.
Local Open Scope R_scope.

(** * The reset *)
Lemma la_zero (a b : list R) : List.length a = List.length b -> la 0 a b.
Proof. intros L. split; auto. Qed.

Definition pre (c c' : cloud) : Prop := cloud_aside c c' /\ consts_of (o_mp c) = consts_of (o_mp c').

Lemma cag_pre c c' : cag c c' -> pre c c'.
Proof.
  intros (C1 & C2 & C3 & C4 & C5). destruct C2 as [[? _] [? _] [? _] [? _] [? _] [? _] [? _] ? _ P]. injection P as P1 P2 P3 P4 P5 P6 P7 P8.
  split; [|unfold consts_of; congruence]. unfold cloud_aside, same_sizes. auto 20.
Qed.

Lemma cag_reset d c c' : pre c c' -> orel cag (reset_cloud d c) (reset_cloud d c').
Proof.
  intros [(C1 & C2 & C3 & C4 & S1 & S2 & S3 & S4 & S5 & S6 & S7 & S8) P]. injection P as P1 P2 P3 P4.
  unfold reset_cloud, init_from_dict, add_from_file.
  cbn [x_mp y_mp z_mp vx_mp vy_mp vz_mp nel_mp t_last_impact N_mp flag_lifetime_hist nel_mp_ref nel_mp_split nel_mp_cl_th nel_mp_ref_0 fact_split fact_clean].
  eapply (orel_bind (fun a b => ag (set_nel_mp_ref a (nel_mp_ref_0 a)) (set_nel_mp_ref b (nel_mp_ref_0 b)))).
  - repeat (eapply orel_bind; [eapply la_set; apply la_zero; eauto|]; intros ? ? ?). rewrite <- P1.
    eapply (orel_bind (fun t t' => List.length t = List.length t' /\ (flag_lifetime_hist (o_mp c) = true -> la (0 + d_N d) t t'))).
    { destruct (flag_lifetime_hist (o_mp c)); [|cbn; split; [auto|discriminate]]. destruct (d_t d).
      - eapply orel_imp; [|apply la_set; apply la_zero; auto]. intros t t' K. split; [apply K|auto].
      - cbn [orel]. split; [rewrite !slice_fill_len; auto|]. intros _. apply la_fill. apply la_zero; auto. }
    intros t t' [T1 T2]. rewrite Nat.add_0_l in *. cbn. constructor; cbn; auto. unfold pars. cbn. congruence.
  - intros u v K. cbn. unfold cag. cbn. auto.
Qed.

Lemma cag_resets : forall ds cl cl', (List.length cl <= List.length ds)%nat -> Forall2 pre cl cl' -> orel (Forall2 cag) (reset_clouds ds cl) (reset_clouds ds cl').
Proof.
  induction ds as [|d ds IH]; intros cl cl' L F; inversion F as [|c c' l l' P F1]; subst; cbn [reset_clouds]; cbn in L; try lia; auto; try (cbn; constructor; fail).
  eapply orel_bind; [apply cag_reset; eauto|]. intros u v K. eapply orel_bind; [apply IH; eauto; lia|]. intros r r' KR. cbn. auto.
Qed.

(** * Records *)
Definition rrel {A} (P : A -> A -> Prop) (a b : recl A) : Prop :=
  match a, b with Missing, Missing => True | Lst l, Lst l' => Forall2 P l l' | Arr l, Arr l' => Forall2 P l l' | _, _ => False end.
Definition rif {A} (w : bool) (P : A -> A -> Prop) (a b : recl A) : Prop := w = true -> rrel P a b.

Lemma rif_empty {A} w (P : A -> A -> Prop) a b : rif w P (empty_if w a) (empty_if w b).
Proof. unfold rif, empty_if. destruct w; [|discriminate]. cbn. auto. Qed.
Lemma rif_rev {A} w (P : A -> A -> Prop) a b : rif w P a b -> orel (rif w P) (reversed w a) (reversed w b).
Proof.
  unfold rif, reversed. destruct w; [|cbn; intros _ H; discriminate H]. intros H. specialize (H eq_refl). destruct a, b; cbn in *; try contradiction; auto; intros _; apply F2_rev; auto.
Qed.
Lemma rif_push {A} w (P : A -> A -> Prop) a b u v : rif w P a b -> P u v -> orel (rif w P) (push_rec w u a) (push_rec w v b).
Proof.
  unfold rif, push_rec. destruct w; [|cbn; intros _ _ H; discriminate H]. intros H Q. specialize (H eq_refl). destruct a, b; cbn in *; try contradiction; auto. intros _. apply Forall2_app; auto.
Qed.
Lemma F2_eq {A} (l l' : list A) : Forall2 eq l l' -> l = l'.
Proof. induction 1; congruence. Qed.
Lemma rrel_eq {A} (a b : recl A) : rrel eq a b -> a = b.
Proof. destruct a, b; cbn; intros H; try contradiction; auto; apply F2_eq in H; congruence. Qed.
Lemma rrel_live (a b : recl mpsys) : rrel ag a b -> recl_map live a = recl_map live b.
Proof.
  assert (K : forall l l', Forall2 ag l l' -> map live l = map live l') by (induction 1 as [|x y l l' A F IH]; cbn; auto; rewrite IH, (ag_live _ _ A); auto).
  destruct a, b; cbn; intros H; try contradiction; auto; rewrite (K _ _ H); auto.
Qed.

(** * The objects *)
Record hag (h h' : pyht) : Prop := mkHag {
  hg_sim : sag (h_sim h) (h_sim h'); hg_t : h_t h = h_t h'; hg_bunch : h_bunch h = h_bunch h'; hg_tracks : h_tracks h = h_tracks h'; hg_once : h_once h = h_once h';
  hg_flags : h_flags h = h_flags h'; hg_b : h_b h = h_b h'; hg_rho : rif (w_rho (h_flags h)) eq (h_rho h) (h_rho h'); hg_fld : rif (w_fld (h_flags h)) eq (h_fld h) (h_fld h');
  hg_bfld : rif (w_bfld (h_flags h)) eq (h_bfld h) (h_bfld h'); hg_mp : rif (w_mp (h_flags h)) ag (h_mp h) (h_mp h'); hg_probe : rif (w_probe (h_flags h)) eq (h_probe h) (h_probe h') }.

Lemma hag_aside h h' : hag h h' -> aside h h'.
Proof.
  intros [(S1 & S2 & S3 & S4)]. unfold aside. split; [|auto 20]. clear -S1. induction S1 as [|c c' l l' C F IH]; constructor; auto. apply (cag_pre c c'); auto.
Qed.

Lemma hag_same h h' : hag h h' -> same_passage h h'.
Proof.
  intros A. split; [|split; [|apply hag_aside; auto]].
  - destruct A as [(S1 & _)]. unfold same_clouds. clear -S1. induction S1 as [|c c' l l' (C1 & C2 & _) F IH]; constructor; auto.
    split; [apply ag_live; auto|]. apply ag_p in C2. injection C2. auto.
  - destruct A. unfold rif in *. repeat split; auto using rrel_eq, rrel_live.
Qed.

Definition hpre (h h' : pyht) : Prop := aside h h' /\ Forall2 pre (m_clouds (h_sim h)) (m_clouds (h_sim h')).
Lemma hag_pre h h' : hag h h' -> hpre h h'.
Proof.
  intros A. split; [apply hag_aside; auto|]. destruct A as [(S1 & _)]. clear -S1. induction S1; constructor; auto. apply cag_pre; auto.
Qed.

Section Passage.
Variables (p : pset).

Definition inits (h : pyht) : Prop := (List.length (m_clouds (h_sim h)) <= List.length (z_init p))%nat.
Definition ok (h : pyht) : Prop := Forall fine (m_clouds (h_sim h)) /\ inits h.
Lemma F2_length {A B} (P : A -> B -> Prop) l l' : Forall2 P l l' -> List.length l = List.length l'.
Proof. induction 1; cbn; auto. Qed.
Lemma ok_kept h h' : kept_h h h' -> ok h -> ok h'.
Proof.
  intros K [O1 O2]. split; [eapply fine_kept_all; eauto|]. unfold inits in *. rewrite <- (F2_length _ _ _ K). auto.
Qed.
Lemma ok_tr h : ok h -> tr_h h.
Proof. intros [O _]. apply fine_trackers; auto. Qed.

Lemma hag_reinit h h' : ok h -> hpre h h' -> orel hag (reinitialize p h) (reinitialize p h').
Proof.
  intros [O1 O2] [(A1 & A2 & A3 & A4 & A5 & A6 & A7 & A8 & A9) B]. unfold reinitialize. eapply orel_bind; [apply cag_resets; [exact O2|exact B]|].
  intros cl cl' F. cbn. rewrite <- A7. constructor; cbn; auto using rif_empty. unfold sag. cbn. auto.
Qed.

Lemma hag_finalize h h' : hag h h' -> orel hag (finalize h) (finalize h').
Proof.
  intros []. unfold finalize. rewrite <- hg_flags0.
  eapply orel_bind; [apply rif_rev; eauto|]. intros ? ? ?. eapply orel_bind; [apply rif_rev; eauto|]. intros ? ? ?.
  eapply orel_bind; [apply rif_rev; eauto|]. intros ? ? ?. eapply orel_bind; [apply rif_rev; eauto|]. intros ? ? ?.
  eapply orel_bind; [apply rif_rev; eauto|]. intros ? ? ?. cbn. constructor; cbn; auto.
Qed.

Lemma hag_far h h' : ok h -> hag h h' -> orel hag (finalize_and_reinitialize p h) (finalize_and_reinitialize p h').
Proof.
  intros O A. unfold finalize_and_reinitialize. destruct (z_slicemode p); [|exact I].
  pose proof (hag_finalize _ _ A) as F. destruct (finalize h) as [u|] eqn:E, (finalize h') as [v|]; cbn in F; try contradiction; cbn [bind]; [|exact I].
  apply hag_reinit; [|apply hag_pre; auto]. eapply ok_kept; [eapply kept_finalize; eauto|exact O].
Qed.

Lemma hag_cloud_step first new ix dz dt b h h' : ok h -> hag h h' ->
  orel (fun x y => fst x = fst y /\ hag (snd x) (snd y)) (cloud_step p first new true ix dz dt b h) (cloud_step p first new true ix dz dt b h').
Proof.
  intros [O _] A. pose proof A as []. unfold cloud_step. apply orel_eq. intros [hs n]. apply orel_eq. intros ps. rewrite <- hg_t0, <- hg_b0, <- hg_flags0.
  destruct (dummy_beam _ _ _ _ _ _ _ _ _) as [tm hb]. cbn [orb andb].
  eapply orel_bind; [apply sag_step; [reflexivity|reflexivity|exact O|eauto]|]. intros m m' (S1 & S2 & S3 & S4). rewrite <- S2.
  eapply (orel_bind cag). { inversion S1; cbn; auto. }
  intros c c' (C1 & C2 & _).
  eapply orel_bind; [apply rif_push; eauto|]. intros ? ? ?. eapply orel_bind; [apply rif_push; eauto|]. intros ? ? ?.
  eapply orel_bind; [apply rif_push; eauto|]. intros ? ? ?. eapply orel_bind; [apply rif_push; [exact hg_mp0|exact C2]|]. intros ? ? ?.
  eapply orel_bind; [apply rif_push; eauto|]. intros ? ? ?. cbn. split; [auto|]. constructor; cbn; auto. unfold sag. auto.
Qed.

Lemma hag_cloud_steps ix dz : forall dts first new b h h', ok h -> hag h h' ->
  orel (fun x y => fst x = fst y /\ hag (snd x) (snd y)) (cloud_steps p first new true ix dz dts b h) (cloud_steps p first new true ix dz dts b h').
Proof.
  induction dts as [|dt dts IH]; intros first new b h h' O A; cbn [cloud_steps]; [cbn; auto|].
  pose proof (hag_cloud_step first new ix dz dt b _ _ O A) as K.
  destruct (cloud_step p first new true ix dz dt b h) as [[b1 h1]|] eqn:E, (cloud_step p first new true ix dz dt b h') as [[b2 h2]|]; cbn in K; try contradiction; cbn [bind]; [|exact I].
  destruct K as [-> K]. apply IH; auto. eapply ok_kept; [eapply kept_cloud_step; [apply ok_tr; eauto|eauto]|auto].
Qed.

Lemma hag_passage i force h h' : ok h -> hag h h' ->
  orel (fun x y => fst x = fst y /\ hag (snd x) (snd y)) (passage p i force h) (passage p i force h').
Proof.
  assert (AT : forall z h h', hag h h' -> hag (mkPyht (h_sim h) (h_t h) z (h_reinit h) (h_tracks h) (h_once h) (h_flags h) (h_b h) (h_rho h) (h_fld h) (h_bfld h) (h_mp h) (h_probe h) (h_map h))
    (mkPyht (h_sim h') (h_t h') z (h_reinit h') (h_tracks h') (h_once h') (h_flags h') (h_b h') (h_rho h') (h_fld h') (h_bfld h') (h_mp h') (h_probe h') (h_map h'))).
  { intros z u v []. constructor; cbn; auto. }
  intros O A. unfold passage. cbv zeta. destruct i as [| |io [ib|] is zl zr]; try (cbn; split; [auto|apply AT; auto]; fail).
  eapply (orel_bind hag). { destruct (_ && _); [apply hag_far; auto|exact A]. }
  intros u v K. rewrite <- (hg_bunch _ _ K). cbn. destruct (h_bunch u <? ib)%Z; cbn; split; auto.
Qed.

Lemma hag_single b ix dz force h h' : interacts (q_info b) = Some true -> ok h -> hag h h' ->
  orel (fun x y => fst x = fst y /\ hag (snd x) (snd y)) (track_single_slice p b ix dz force h) (track_single_slice p b ix dz force h').
Proof.
  intros HI O A. unfold track_single_slice. destruct (_ || _); [exact I|]. rewrite HI. cbn [bind]. apply orel_eq. intros dts.
  pose proof (hag_passage (q_info b) force _ _ O A) as K.
  destruct (passage p (q_info b) force h) as [[n1 h1]|] eqn:E, (passage p (q_info b) force h') as [[n2 h2]|]; cbn in K; try contradiction; cbn [bind]; [|exact I].
  destruct K as [-> K]. apply hag_cloud_steps; auto. eapply ok_kept; [eapply kept_passage; eauto|auto].
Qed.

Lemma steps_info inter ix dz : forall dts first new b h b' h', cloud_steps p first new inter ix dz dts b h = Some (b', h') -> q_info b' = q_info b.
Proof.
  induction dts as [|dt dts IH]; intros first new b h b' h' H; cbn [cloud_steps] in H; [injection H as <- <-; auto|].
  bd H. destruct p0 as [b1 h1]. apply IH in H. rewrite H. unfold cloud_step in E. bd E. destruct p0. bd E. destruct (dummy_beam _ _ _ _ _ _ _ _ _). bds E. injection E as <- _. destruct inter; auto.
Qed.
Lemma single_info b ix dz force h b' h' : track_single_slice p b ix dz force h = Some (b', h') -> q_info b' = q_info b.
Proof. unfold track_single_slice. destruct (_ || _); [discriminate|]. intros H. bds H. destruct p0. eapply steps_info; eauto. Qed.

Lemma hag_slices sl : forall n b h h', interacts (q_info b) = Some true -> ok h -> hag h h' ->
  orel (fun x y => fst x = fst y /\ hag (snd x) (snd y)) (track_slices p sl n b h) (track_slices p sl n b h').
Proof.
  induction n as [|n IH]; intros b h h' HI O A; cbn [track_slices]; [cbn; auto|]. apply orel_eq. intros zr. apply orel_eq. intros zl.
  pose proof (hag_single b (sl_idx sl (Z.of_nat n)) (zr - zl) (Nat.eqb n 0) _ _ HI O A) as K.
  destruct (track_single_slice p b _ _ _ h) as [[b1 h1]|] eqn:E, (track_single_slice p b _ _ _ h') as [[b2 h2]|]; cbn in K; try contradiction; cbn [bind]; [|exact I].
  destruct K as [<- K]. apply IH; auto; [rewrite (single_info _ _ _ _ _ _ _ E); auto|]. eapply ok_kept; [eapply kept_slice; [apply ok_tr; eauto|eauto]|auto].
Qed.

Lemma hag_bunch sl b h h' : interacts (q_info b) = Some true -> ok h -> hpre h h' -> h_once h && Nat.ltb 0 (h_tracks h) = false ->
  orel (fun x y => fst x = fst y /\ hag (snd x) (snd y)) (track_bunch p sl b h) (track_bunch p sl b h').
Proof.
  intros HI O A OT. unfold track_bunch. destruct A as [A B]. pose proof A as (_ & _ & _ & _ & _ & _ & _ & A8 & A9). rewrite <- A8, <- A9, OT.
  pose proof (hag_reinit _ _ O (conj A B)) as K.
  destruct (reinitialize p h) as [h1|] eqn:E1, (reinitialize p h') as [h1'|]; cbn in K; try contradiction; cbn [bind]; [|exact I].
  assert (O1 : ok h1) by (eapply ok_kept; [eapply kept_reinit; eauto|auto]).
  eapply orel_bind; [apply hag_slices; eauto|]. intros [b2 h2] [b2' h2'] [K1 K2]. cbn in K1, K2. subst b2'.
  eapply orel_bind; [apply hag_finalize; eauto|]. intros h3 h3' K3. cbn. split; [auto|]. destruct K3. constructor; cbn; auto.
Qed.

Lemma hag_list : forall bs h h', Forall (fun b => interacts (q_info b) = Some true) bs -> ok h -> hag h h' ->
  orel (fun x y => fst x = fst y /\ hag (snd x) (snd y)) (track_list p bs h) (track_list p bs h').
Proof.
  induction bs as [|b bs IH]; intros h h' HI O A; cbn [track_list]; [cbn; auto|]. inversion HI as [|? ? I1 I2]; subst.
  assert (K : orel (fun x y => fst x = fst y /\ hag (snd x) (snd y)) (track_slice p false b h) (track_slice p false b h')).
  { unfold track_slice. destruct (q_info b) eqn:Q; [exact I|cbn; auto|]. apply hag_single; auto. rewrite Q. exact I1. }
  destruct (track_slice p false b h) as [[b1 h1]|] eqn:E, (track_slice p false b h') as [[b2 h2]|]; cbn in K; try contradiction; cbn [bind]; [|exact I].
  destruct K as [<- K]. eapply orel_bind; [apply IH; [auto| |exact K]|].
  - eapply ok_kept; [eapply kept_track_slice; [apply ok_tr; eauto|eauto]|auto].
  - intros [r1 h3] [r2 h4] [K1 K2]. cbn in *. subst. auto.
Qed.
End Passage.

(** * After two histories *)
Lemma F2_kept_pre cl0 : forall cl cl', Forall2 kept cl0 cl -> Forall2 kept cl0 cl' -> Forall2 cloud_aside cl cl' -> Forall2 pre cl cl'.
Proof.
  induction cl0 as [|c0 cl0 IH]; intros cl cl' K1 K2 A; inversion K1 as [|? c ? l [_ [_ K3]] K4]; subst; inversion K2 as [|? c' ? l' [_ [_ K5]] K6]; subst; inversion A; subst; constructor; auto.
  split; auto. congruence.
Qed.

Section After.
Variables (p0 p : pset) (m : sim) (fl : flags) (b0 : R -> R -> R * R) (h0 : pyht).
Hypothesis T : trackers (m_clouds m).
Hypothesis LF : Forall life_agrees (m_clouds m).
Hypothesis C : ecloud_ctor p0 m fl b0 = Some (p, h0).

Lemma ctor_ok : ok p h0 /\ h_sim h0 = m.
Proof.
  unfold ecloud_ctor in C. destruct (_ || _); [discriminate|]. injection C as <- <-. split; [|reflexivity]. split; [|unfold inits; cbn; rewrite map_length; auto].
  cbn. apply Forall_forall. intros c Hc. split; [eapply (proj1 (Forall_forall _ _) T); eauto|eapply (proj1 (Forall_forall _ _) LF); eauto].
Qed.

Lemma after_two l1 l2 h1 h2 : acts_run p l1 h0 = Some h1 -> acts_run p l2 h0 = Some h2 -> aside h1 h2 -> ok p h1 /\ hpre h1 h2.
Proof.
  intros R1 R2 A. destruct ctor_ok as [O _]. apply kept_acts in R1; [|eapply ok_tr; eauto]. apply kept_acts in R2; [|eapply ok_tr; eauto].
  split; [eapply ok_kept; eauto|]. split; auto. eapply F2_kept_pre; eauto. apply A.
Qed.

Lemma passage_bunch l1 l2 h1 h2 sl b b' h1' : acts_run p l1 h0 = Some h1 -> acts_run p l2 h0 = Some h2 -> aside h1 h2 ->
  interacts (q_info b) = Some true -> h_once h1 = false -> track_bunch p sl b h1 = Some (b', h1') ->
  exists h2', track_bunch p sl b h2 = Some (b', h2') /\ same_passage h1' h2'.
Proof.
  intros R1 R2 A HI ON H. destruct (after_two _ _ _ _ R1 R2 A) as [O P]. pose proof (hag_bunch p sl b h1 h2 HI O P) as K. rewrite ON in K. specialize (K eq_refl). rewrite H in K.
  destruct (track_bunch p sl b h2) as [[b2 h2']|]; cbn in K; [|contradiction]. destruct K as [-> K]. eexists. split; [reflexivity|]. apply hag_same; auto.
Qed.

Lemma passage_slices l1 l2 h1 h2 bs bs' g1 g2 h1' : acts_run p l1 h0 = Some h1 -> acts_run p l2 h0 = Some h2 -> aside h1 h2 ->
  finalize_and_reinitialize p h1 = Some g1 -> finalize_and_reinitialize p h2 = Some g2 ->
  Forall (fun b => interacts (q_info b) = Some true) bs -> track_list p bs g1 = Some (bs', h1') ->
  exists h2', track_list p bs g2 = Some (bs', h2') /\ same_passage h1' h2'.
Proof.
  intros R1 R2 A F1 F2 HI H. destruct (after_two _ _ _ _ R1 R2 A) as [O [_ P]].
  assert (K1 : ok p g1) by (eapply ok_kept; [eapply kept_far; eauto|auto]).
  assert (G : hag g1 g2).
  { unfold finalize_and_reinitialize in F1, F2. destruct (z_slicemode p); [|discriminate]. bd F1. bd F2.
    assert (Q : hpre p1 p2).
    { unfold finalize in E, E0. bds E. bds E0. injection E as <-. injection E0 as <-. split; [exact A|exact P]. }
    assert (O1 : ok p p1) by (eapply ok_kept; [eapply kept_finalize; eauto|auto]).
    pose proof (hag_reinit p _ _ O1 Q) as K. rewrite F1, F2 in K. exact K. }
  pose proof (hag_list p bs g1 g2 HI K1 G) as K. rewrite H in K. destruct (track_list p bs g2) as [[r h2']|]; cbn in K; [|contradiction].
  destruct K as [<- K]. eexists. split; [reflexivity|]. apply hag_same; auto.
Qed.
End After.
