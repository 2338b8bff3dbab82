(** The emission models, trackers and chambers of the code keep the contracts
    used in the soundness of the step; soundness of the whole time loop. *)
From Coq Require Import String Lra Lia.
From Verif Require Import Num NumFacts MP SpecMP MPFacts MPFacts2 SpecRegen RegenFacts Push SpecPush PushFacts Geom SpecGeom GeomFacts Poly
  Sey SpecSey SeyFacts SeyFacts2 SeyFacts3 Impact SpecImpact ImpactFacts ImpactFacts2 ImpactFacts3 ImpactFacts5 Beam SpecBeam BeamFacts
  Source SpecSource CrossIon SpecCrossIon Sim SpecSim SimFacts SimFacts3 SimFacts4 SimFacts5.
Local Open Scope list_scope.
Local Open Scope R_scope.

(** * Emission *)
Lemma sey_one_pos m u p q el : sey_params_ok m -> fair p -> sey_one m u p = Some (q, el) -> 0 <= q.
Proof.
  intros HM (Hn & HE & Hc) H. assert (s135_1 : 1 < s135) by (unfold s135; lra).
  destruct m as [Emax dm R0 E0 s sc sh|Emax dm R0 E0|Emax dm R0 E0|Emax dm R0|t|segs E0]; cbn [sey_one sey_params_ok seg_params] in *.
  - pose proof (yield_ECLOUD_ok Emax dm R0 E0 s sc sh (i_E p) (i_ct p)) as Y. destruct (yield_ECLOUD _ _ _ _ _ _ _ _ _) as [d f].
    assert (q = i_nel p * d) by congruence. subst q. apply Rmult_le_pos; auto. apply Y; tauto.
  - pose proof (yield_acc_ok Emax dm R0 E0 (i_E p) (i_ct p)) as Y. destruct (yield_acc _ _ _ _ _ _) as [t r].
    destruct Y as (Y1 & Y2 & _); try tauto; try lra.
    destruct (Rltb u r); [assert (q = i_nel p) by congruence|assert (q = i_nel p * (t / (1 - r))) by congruence]; subst q; auto.
    apply Rmult_le_pos; auto.
  - pose proof (yield_cos_ok Emax dm R0 E0 (i_E p) (i_ct p)) as Y. destruct (yield_cos _ _ _ _ _ _) as [d f].
    assert (q = i_nel p * d) by congruence. subst q. apply Rmult_le_pos; auto. apply Y; tauto.
  - pose proof (yield_flat_ok Emax dm R0 (i_E p) (i_ct p)) as Y. destruct (yield_flat _ _ _ _ _) as [d f].
    assert (q = i_nel p * d) by congruence. subst q. apply Rmult_le_pos; auto. apply Y; tauto.
  - destruct (tab_values t (i_E p) (i_ct p)) as [[d f]|] eqn:T; [|discriminate]. cbn [bind] in H.
    assert (q = i_nel p * d) by congruence. subst q. apply Rmult_le_pos; auto. apply (tab_values_range _ _ _ _ _ T).
  - destruct (nth_error segs (i_seg p)) as [[[Emax dm] R0]|] eqn:N; [|discriminate]. cbn [bind] in H.
    destruct HM as [HM H0]. rewrite Forall_forall in HM. specialize (HM _ (nth_error_In _ _ N)). cbn in HM.
    pose proof (yield_ECLOUD_ok Emax dm R0 E0 s135 true true (i_E p) (i_ct p)) as Y. destruct (yield_ECLOUD _ _ _ _ _ _ _ _ _) as [d f].
    assert (q = i_nel p * d) by congruence. subst q. apply Rmult_le_pos; auto. apply Y; tauto.
Qed.

Lemma charging_one_pos segs E0 gs Qs u p q el : charging_params_ok segs E0 gs -> fair p ->
  charging_one segs E0 gs Qs u p = Some (q, el) -> 0 <= q.
Proof.
  intros (HS & H0 & HG) (Hn & HE & Hc) H. assert (s135_1 : 1 < s135) by (unfold s135; lra). unfold charging_one in H.
  destruct (nth_error segs (i_seg p)) as [[[Emax dm] R0]|] eqn:N; [|discriminate]. cbn [bind] in H.
  destruct (nth_error gs (i_seg p)) as [g|] eqn:NG; [|discriminate]. cbn [bind] in H.
  destruct (nth_error Qs (i_seg p)) as [Q|]; [|discriminate]. cbn [bind] in H.
  rewrite Forall_forall in HS, HG. specialize (HS _ (nth_error_In _ _ N)). specialize (HG _ (nth_error_In _ _ NG)). cbn in HS.
  pose proof (yield_ECLOUD_ok Emax dm R0 E0 s135 true true (i_E p) (i_ct p)) as Y. destruct (yield_ECLOUD _ _ _ _ _ _ _ _ _) as [d f].
  assert (D : 0 <= d) by (apply Y; tauto).
  match type of H with Some (?a, _) = _ => assert (q = a) by congruence end. subst q. apply Rmult_le_pos; auto.
  destruct (g_flag g); auto. apply charged_yield_ok; tauto.
Qed.

Lemma mask_set_Forall {A} (P : A -> Prop) m a v r : Forall P a -> Forall P v -> mask_set m a v = Some r -> Forall P r.
Proof.
  unfold mask_set. destruct (Nat.eqb _ _).
  - intros Ha Hv H. injection H as <-. apply put_Forall_any; auto.
  - destruct v as [|b [|]]; intros Ha Hv H; try discriminate. injection H as <-.
    inversion Hv; subst. clear Hv. revert a Ha. induction m as [|c m IH]; intros [|x a] Ha; cbn; auto. inversion Ha; subst.
    destruct c; constructor; auto.
Qed.

Lemma mask_get_Forall {A} (P : A -> Prop) : forall m (l : list A), Forall P l -> Forall P (mask_get m l).
Proof. induction m as [|b m IH]; intros [|a l] H; cbn; auto. inversion H; subst. destruct b; auto. Qed.

Lemma repeat_each_Forall {A} (P : A -> Prop) (l : list A) c : Forall P l -> Forall P (repeat_each l c).
Proof. rewrite !Forall_forall. intros H x Hx. apply H. eapply repeat_each_In; eauto. Qed.

Lemma emit_surface_pos c th fs sr k ps pr e k' : Forall (fun x : R * bool => 0 <= fst x) pr ->
  emit_surface c th fs sr k ps pr = Some (e, k') -> Forall (fun q => 0 <= q) (o_nel e) /\ Forall (fun q => 0 <= q) (Sey.n_nel e).
Proof.
  intros HP H. unfold emit_surface in H. cbv zeta in H.
  assert (T : Forall (fun q => 0 <= q) (map fst pr)) by (apply Forall_map; auto).
  destruct (mask_set _ _ _) as [vxr|]; [|discriminate]. cbn [bind] in H.
  destruct (mask_set _ _ _) as [vyr|]; [|discriminate]. cbn [bind] in H.
  destruct (Nat.eqb _ 0).
  { match type of H with Some (?x, _) = _ => assert (e = x) by congruence end. subst e. cbn [o_nel Sey.n_nel]. auto. }
  destruct (mask_set _ (map fst pr) _) as [nelr|] eqn:EN; [|discriminate]. cbn [bind] in H.
  assert (NR : Forall (fun q => 0 <= q) nelr).
  { eapply mask_set_Forall; [exact T| |exact EN]. generalize (mask_get_Forall _ (map negb (map snd pr)) _ T).
    match goal with |- _ -> Forall _ (map2 _ _ ?b) => generalize b end.
    generalize (mask_get (map negb (map snd pr)) (map fst pr)). clear. intros l.
    induction l as [|a l IH]; intros [|n b] F; cbn; auto. inversion F; subst. constructor; auto.
    unfold Rdiv. apply Rmult_le_pos; auto. left. apply Rinv_0_lt_compat. pose proof (pos_INR n). lra. }
  destruct (gen_vel _ _ _ _ _ _ _) as [[vel k1]|]; [|discriminate]. cbn [bind] in H.
  do 3 match type of H with bind ?x _ = _ => destruct x as [?|]; [cbn [bind] in H|discriminate H] end.
  destruct (Nat.eqb _ 0).
  { match type of H with Some (?x, _) = _ => assert (e = x) by congruence end. subst e. cbn [o_nel Sey.n_nel]. auto. }
  destruct (gen_vel _ _ _ _ _ _ _) as [[vel2 k2]|]; [|discriminate]. cbn [bind] in H.
  match type of H with Some (?x, _) = _ => assert (e = x) by congruence end. subst e. cbn [o_nel Sey.n_nel]. split; auto.
  apply repeat_each_Forall. auto.
Qed.

Lemma mapM2_pos (f : R -> imp -> option (R * bool)) : (forall u p q el, fair p -> f u p = Some (q, el) -> 0 <= q) ->
  forall us ps l, Forall fair ps -> mapM2 f us ps = Some l -> Forall (fun x : R * bool => 0 <= fst x) l.
Proof.
  intros HF. induction us as [|u us IH]; intros [|p ps] l F H; cbn in H; try (injection H as <-; auto).
  destruct (f u p) as [[q el]|] eqn:E; [|discriminate]. cbn [bind] in H.
  destruct (mapM2 f us ps) as [r|] eqn:M; [|discriminate]. cbn [bind] in H. inversion F; subst. injection H as <-.
  constructor; eauto.
Qed.

Lemma plain_em_ok w m c sr : emitter_ok w (plain_em m c sr).
Proof.
  intros th seg ps [k Q] e st' Hth H. unfold plain_em in H. cbn [fst snd] in H.
  destruct (std_emitter m c sr th seg ps k) as [[o k1]|] eqn:E; [|discriminate]. cbn [bind] in H. assert (e = o) by congruence. subst.
  eapply std_emitter_ok; eauto.
Qed.

Lemma plain_em_pos m c sr : sey_params_ok m -> emitter_pos (plain_em m c sr).
Proof.
  intros HM th seg ps [k Q] e st' Hth F H. unfold plain_em, std_emitter, impacts_on_surface, SEY_process in H. cbn [fst snd] in H.
  destruct (mapM2 _ _ _) as [l|] eqn:M; [|discriminate]. cbn [bind] in H.
  destruct (emit_surface _ _ _ _ _ _ _) as [[o k1]|] eqn:E; [|discriminate]. cbn [bind] in H. assert (e = o) by congruence. subst.
  eapply emit_surface_pos; [|exact E]. eapply mapM2_pos; [|exact F|exact M]. intros. eapply sey_one_pos; eauto.
Qed.

Lemma charging_em_pos segs E0 gs c sr : charging_params_ok segs E0 gs -> emitter_pos (charging_emitter segs E0 gs c sr).
Proof.
  intros HM th seg ps [k Q] e st' Hth F H. unfold charging_emitter, impacts_on_surface_charging, charging_process in H. cbn [fst snd] in H.
  destruct (mapM2 _ _ _) as [l|] eqn:M; [|discriminate]. cbn [bind] in H.
  destruct (emit_surface _ _ _ _ _ _ _) as [[o k1]|] eqn:E; [|discriminate]. cbn [bind] in H. assert (e = o) by congruence. subst.
  eapply emit_surface_pos; [|exact E]. eapply mapM2_pos; [|exact F|exact M]. intros. eapply charging_one_pos; eauto.
Qed.

Lemma absorb_em_ok w : emitter_ok w absorb_em.
Proof. intros th seg ps st e st' Hth H. apply (absorber_ok w th seg ps tt e tt Hth). unfold absorb_em, absorber in *. congruence. Qed.

Lemma absorb_em_pos : emitter_pos absorb_em.
Proof.
  intros th seg ps st e st' Hth F H. unfold absorb_em in H. assert (e = absorb_surface ps) by congruence. subst.
  cbn [o_nel Sey.n_nel absorb_surface]. split; auto. apply Forall_map, Forall_forall. intros. lra.
Qed.

(** * Motion *)
Lemma push_motion f : motion (fun s => push_live f s).
Proof. intros s. exists f. apply push_moves. Qed.
Lemma id_motion : motion (fun s => s).
Proof. intros s. destruct (moved_refl s) as [g H]. exists g. exact H. Qed.

Lemma boris_motion q m gB Dt N : (forall E, motion (d_step (boris_dyn q m gB Dt N) E)) /\
  (forall E h n, motion (d_custom (boris_dyn q m gB Dt N) E h n)).
Proof. split; intros; apply push_motion. Qed.
Lemma multipole_motion q m bf bs b0 Dt N : (forall E, motion (d_step (multipole_dyn q m bf bs b0 Dt N) E)) /\
  (forall E h n, motion (d_custom (multipole_dyn q m bf bs b0 Dt N) E h n)).
Proof. split; intros; apply push_motion. Qed.
Lemma dipole_motion Dt B : (forall E, motion (d_step (dipole_dyn Dt B) E)) /\ (forall E h n, motion (d_custom (dipole_dyn Dt B) E h n)).
Proof. split; intros; [apply push_motion|apply id_motion]. Qed.
Lemma strongB_motion Dt Bx By sr thr : (forall E, motion (d_step (strongB_dyn Dt Bx By sr thr) E)) /\
  (forall E h n, motion (d_custom (strongB_dyn Dt Bx By sr thr) E h n)).
Proof. split; intros; [apply push_motion|apply id_motion]. Qed.

(** * Normals *)
Lemma ell_normals e resc : ellip_ok e -> forall ks hs, w_hit (ell_wall e resc) ks = Some hs ->
  Forall (fun hi => h_nx (fst hi) * h_nx (fst hi) + h_ny (fst hi) * h_ny (fst hi) <= 1) hs.
Proof.
  intros He ks hs H. cbn [ell_wall w_hit] in H. destruct (ell_impact_inside e resc ks He) as (h & E & F). rewrite E in H. cbn [bind] in H.
  injection H as <-. apply Forall_map. cbn [fst]. clear E. induction F as [|k q ks h (_ & U & _) F IH]; constructor; auto.
  unfold unit_normal in U. lra.
Qed.

Lemma edge_normal_unit dx dy nx ny : edge_normal dx dy = Some (nx, ny) -> nx * nx + ny * ny <= 1.
Proof.
  unfold edge_normal. cbv zeta. set (q := - dy * - dy + dx * dx). destruct (Reqb (sqrt q) 0) eqn:Z; [discriminate|]. apply Reqb_false in Z.
  intros H. assert (nx = - dy / sqrt q) by congruence. assert (ny = dx / sqrt q) by congruence. subst.
  assert (Q : 0 <= q) by (unfold q; nra).
  replace (- dy / sqrt q * (- dy / sqrt q) + dx / sqrt q * (dx / sqrt q)) with (q / (sqrt q * sqrt q)) by (unfold q; field; auto).
  rewrite sqrt_sqrt by auto. right. field. intros K. rewrite K, sqrt_0 in Z. auto.
Qed.

Lemma edge_normals_short : forall dx dy i nx ny, nth i (map2 edge_normal dx dy) None = Some (nx, ny) -> nx * nx + ny * ny <= 1.
Proof.
  induction dx as [|a dx IH]; intros [|b dy] [|i] nx ny H; cbn in H; try discriminate.
  - eapply edge_normal_unit; eauto.
  - eapply IH; eauto.
Qed.

Lemma poly_normals_short vxs vys cx cy cv p resc : poly_ctor vxs vys cx cy cv = Some p -> forall ks hs, w_hit (poly_wall p resc) ks = Some hs ->
  Forall (fun hi => h_nx (fst hi) * h_nx (fst hi) + h_ny (fst hi) * h_ny (fst hi) <= 1) hs.
Proof.
  intros HC ks hs H. cbn [poly_wall w_hit] in H. unfold poly_impact in H. cbv zeta in H. destruct (existsb _ _); [discriminate|]. injection H as <-.
  assert (N : forall i nx ny, nth i (Nrm p) None = Some (nx, ny) -> nx * nx + ny * ny <= 1).
  { unfold poly_ctor in HC. destruct (existsb _ _); [discriminate|]. destruct vxs as [|x0 vxs]; [discriminate|]. destruct vys as [|y0 vys]; [discriminate|].
    cbv zeta in HC. destruct (Rltb _ 0); [discriminate|]. destruct (cv && _)%bool; [discriminate|].
    match type of HC with Some ?x = _ => assert (K : p = x) by congruence end. subst p. cbn [Nrm]. apply edge_normals_short. }
  apply Forall_map, Forall_forall. intros k _.
  assert (K : forall h i, hit_cython p resc k = (h, i) -> h_nx h * h_nx h + h_ny h * h_ny h <= 1).
  { intros h i. unfold hit_cython. destruct (hit_search p k) as [t [ii|]].
    - destruct (nth ii (Nrm p) None) as [[nx ny]|] eqn:E; intros Q; injection Q as <- <-; cbn [h_nx h_ny]; [eapply N; eauto|lra].
    - intros Q; injection Q as <- <-; cbn [h_nx h_ny]; lra. }
  destruct (hit_cython p resc k) as [h i] eqn:E. specialize (K h i eq_refl). destruct (p_outside _ _ _); cbn [fst h_nx h_ny]; auto.
Qed.

(** * The whole time loop *)
Lemma step_main_xion e a main secs m mid : m_xion m = None -> step_main e a main secs m = Some mid -> m_xion mid = None.
Proof.
  intros HX H. unfold step_main in H. destruct (check_for_recomputation _ _) as [flag sc].
  destruct (clouds_loop _ _ _ _ _ _ _ _) as [[[cl k] full]|]; [|discriminate]. cbn [bind] in H. rewrite HX in H. cbn [cross_step bind] in H.
  destruct (recompute_cloud_spacecharge _ _ _ _ _ _) as [cl3 sc3]. injection H as <-. auto.
Qed.

Lemma step_xion e a main secs m m' : m_xion m = None -> sim_time_step e a main secs m = Some m' -> m_xion m' = None.
Proof.
  intros HX H. unfold sim_time_step in H. destruct (step_main e a main secs m) as [mid|] eqn:EM; [|discriminate]. cbn [bind] in H.
  destruct (clean_loop _ _ _ _ _) as [[cl k]|]; [|discriminate]. cbn [bind] in H. injection H as <-. cbn. eapply step_main_xion; eauto.
Qed.

Lemma no_xion_ok m : m_xion m = None -> xion_ok m.
Proof. intros H x Hx. congruence. Qed.

(** The mark of a full array is never taken back. *)
Lemma gas_loop_full e g mass : forall bs k full s s' k' full', gas_loop e g mass bs k full s = Some (s', k', full') -> full' = false -> full = false.
Proof.
  induction bs as [|b bs IH]; intros k full s s' k' full' H HF; cbn [gas_loop] in H; [congruence|].
  destruct (gas_generate _ _ _ _ _ _ _ _ _ _ _ _ _ _) as [[s1 k1]|]; [|discriminate]. cbn [bind] in H.
  apply IH in H; auto. apply Bool.orb_false_iff in H. tauto.
Qed.

Lemma step_cloud_full e a main secs sc k full c c' k' full' : step_cloud e a main secs sc k full c = Some (c', k', full') -> full' = false -> full = false.
Proof.
  intros H HF. unfold step_cloud in H. destruct (cloud_motion _ _ _ _ _ _ _) as [s1|]; [|discriminate]. cbn [bind] in H.
  destruct (backtrack_and_second_emiss _ _ _ _ _ _ _ _) as [[[g s2] kq]|]; [|discriminate]. cbn [bind] in H.
  destruct (primary_generation _ _ _ _ _ _ _) as [[[s3 k3] f3]|] eqn:EP; [|discriminate]. cbn [bind] in H.
  assert (f3 = false) by congruence. subst f3. unfold primary_generation in EP.
  match type of EP with bind ?x _ = _ => destruct x as [[[s4 k4] f4]|] eqn:EG; [|discriminate] end. cbn [bind] in EP.
  destruct (photo_step _ _ _ _ _ _ _) as [[s5 k5]|]; [|discriminate]. cbn [bind] in EP.
  match type of EP with Some (_, _, ?x) = _ => assert (K : x = false) by congruence end. apply Bool.orb_false_iff in K. destruct K as [K _]. subst f4.
  assert (G : (full || is_full s2)%bool = false).
  { destruct (a_gas (o_set c)) as [gs|]; [|congruence]. destruct (Rltb _ _); [|congruence]. eapply gas_loop_full; eauto. }
  apply Bool.orb_false_iff in G. tauto.
Qed.

Lemma clouds_loop_full e a main secs sc : forall cl k full cl' k' full', clouds_loop e a main secs sc k full cl = Some (cl', k', full') -> full' = false -> full = false.
Proof.
  induction cl as [|c cl IH]; intros k full cl' k' full' H HF; cbn [clouds_loop] in H; [congruence|].
  destruct (step_cloud _ _ _ _ _ _ _ _) as [[[c1 k1] f1]|] eqn:E; [|discriminate]. cbn [bind] in H.
  destruct (clouds_loop e a main secs sc k1 f1 cl) as [[[r k2] f2]|] eqn:ER; [|discriminate]. cbn [bind] in H.
  eapply step_cloud_full; [exact E|]. eapply IH; [exact ER|]. congruence.
Qed.

Lemma step_main_full e a main secs m mid : step_main e a main secs m = Some mid -> m_full mid = false -> m_full m = false.
Proof.
  intros H HF. unfold step_main in H. destruct (check_for_recomputation _ _) as [flag sc].
  destruct (clouds_loop _ _ _ _ _ _ _ _) as [[[cl k] full]|] eqn:EL; [|discriminate]. cbn [bind] in H.
  destruct (cross_step _ _ _ _ _) as [[[x cl2] k2]|]; [|discriminate]. cbn [bind] in H.
  destruct (recompute_cloud_spacecharge _ _ _ _ _ _) as [cl3 sc3]. injection H as <-. cbn [m_full] in HF.
  apply Bool.orb_false_iff in HF. destruct HF as [HF _]. eapply clouds_loop_full; eauto.
Qed.

Lemma step_full e a main secs m m' : sim_time_step e a main secs m = Some m' -> m_full m' = false -> m_full m = false.
Proof.
  intros H HF. unfold sim_time_step in H. destruct (step_main e a main secs m) as [mid|] eqn:EM; [|discriminate]. cbn [bind] in H.
  destruct (clean_loop _ _ _ _ _) as [[cl k]|]; [|discriminate]. cbn [bind] in H. injection H as <-. cbn [m_full] in HF. eapply step_main_full; eauto.
Qed.

Lemma through_full e g gs : forall vis m m', through (run_step e g gs) vis m = Some m' -> m_full m' = false -> m_full m = false.
Proof.
  induction vis as [|[b ss] vis IH]; intros m m' H HF; cbn [through] in H; [congruence|].
  destruct (run_step e g gs b ss m) as [m1|] eqn:E1; [|discriminate]. cbn [bind] in H. unfold run_step in E1.
  destruct (tim_of g b) as [t|]; [|discriminate]. cbn [bind] in E1. destruct (tims_of gs ss) as [l|]; [|discriminate]. cbn [bind] in E1.
  eapply step_full; [exact E1|]. eapply IH; eauto.
Qed.

(** The beams as seen in one step. *)
Lemma tim_of_ok b0 i g b t : ascending (b_t b0) -> no_negative b0 -> (S i < length (b_t b0))%nat -> at_step b0 i b -> tim_of g b = Some t -> beam_ok t.
Proof.
  intros HA HN HI A H. destruct A as [_ _ _ _ _ _ _ _ (new & AN & _)]. unfold tim_of in H. rewrite AN in H. cbn [bind] in H.
  injection H as <-. unfold beam_ok. cbn [ti_lam ti_Dt w_lam w_Dt]. split.
  - unfold no_negative in HN. rewrite Forall_forall in HN. destruct (Nat.lt_ge_cases i (length (b_lam b0))) as [L|L].
    + apply HN, nth_In. auto.
    + rewrite nth_overflow; auto. lra.
  - assert (nth i (b_t b0) 0 <= nth (S i) (b_t b0) 0) by (apply HA; lia). lra.
Qed.

Lemma tims_of_ok i : forall gs ss0 ss l, Forall (fun x => ascending (b_t x) /\ no_negative x /\ (S i < length (b_t x))%nat) ss0 ->
  Forall2 (fun s0 s => at_step s0 i s) ss0 ss -> tims_of gs ss = Some l -> Forall beam_ok l.
Proof.
  induction gs as [|g gs IH]; intros ss0 ss l F A H; cbn in H; [injection H as <-; auto|].
  destruct A as [|s0 s ss0 ss A0 A]; [injection H as <-; auto|]. inversion F as [|? ? (F1 & F2 & F3) F4]; subst.
  destruct (tim_of g s) as [t|] eqn:ET; [|discriminate]. cbn [bind] in H. destruct (tims_of gs ss) as [r|] eqn:ER; [|discriminate]. cbn [bind] in H.
  injection H as <-. constructor; [eapply tim_of_ok; eauto|eapply IH; eauto].
Qed.

Lemma through_sound e g gs : chamber_ok e -> forall vis m m',
  (forall b ss, In (b, ss) vis -> (forall t, tim_of g b = Some t -> beam_ok t) /\ (forall l, tims_of gs ss = Some l -> Forall beam_ok l)) ->
  m_xion m = None -> sound_sim e m -> through (run_step e g gs) vis m = Some m' -> m_full m' = false ->
  m_full m = false /\ sound_sim e m'.
Proof.
  intros CO. induction vis as [|[b ss] vis IH]; intros m m' HB HX SS H HF; cbn [through] in H; [injection H as <-; auto|].
  destruct (run_step e g gs b ss m) as [m1|] eqn:E1; [|discriminate]. cbn [bind] in H. unfold run_step in E1.
  destruct (tim_of g b) as [t|] eqn:ET; [|discriminate]. cbn [bind] in E1.
  destruct (tims_of gs ss) as [l|] eqn:EL; [|discriminate]. cbn [bind] in E1.
  destruct (HB b ss (or_introl eq_refl)) as [B1 B2]. assert (BO : Forall beam_ok (t :: l)) by (constructor; auto).
  assert (AO : args_ok no_args) by (intros K; discriminate).
  assert (X1 := step_xion _ _ _ _ _ _ HX E1). assert (M1 := through_full _ _ _ _ _ _ H HF).
  destruct (step_sound _ _ _ _ _ _ CO AO BO (no_xion_ok _ HX) SS E1 M1) as [M0 S1]. split; auto.
  apply (IH m1 m'); auto. intros b' ss' K. apply HB. right. auto.
Qed.

Lemma run_all_sound e g gs te fuel b ss m b' ss' m' : chamber_ok e ->
  fresh b -> Forall (fun x => fresh x /\ b_t x = b_t b) ss -> (length (b_t b) <= fuel)%nat ->
  ascending (b_t b) -> Forall no_negative (b :: ss) -> m_xion m = None -> sound_sim e m ->
  run (run_step e g gs) te fuel b ss m = Some (b', ss', m') -> m_full m' = false -> sound_sim e m'.
Proof.
  intros CO FB FS HF HA NN HX SS H MF.
  assert (FS' : Forall (fun x => fresh x /\ length (b_t x) = length (b_t b)) ss).
  { eapply Forall_impl; [|exact FS]. intros x [A B]. rewrite B. auto. }
  destruct (run_fresh (run_step e g gs) te fuel b ss m FB FS' HF) as (vis & V1 & (V2 & _) & V3). rewrite H in V1.
  destruct (through (run_step e g gs) vis m) as [m1|] eqn:ET; [|discriminate]. cbn [bind] in V1. assert (m1 = m') by congruence. subst m1.
  refine (proj2 (through_sound e g gs CO vis m m' _ HX SS ET MF)). intros x xs K.
  destruct (In_nth _ _ (b, ss) K) as (i & Hi & E). destruct (V3 i (b, ss) Hi) as [A1 A2]. rewrite E in A1, A2. cbn [fst snd] in *.
  inversion NN as [|? ? N1 N2]; subst. split.
  - intros t. eapply tim_of_ok; eauto. lia.
  - intros l. apply (tims_of_ok i gs ss xs l); auto. apply Forall_forall. intros y Hy. rewrite Forall_forall in FS, N2. destruct (FS y Hy) as [_ Y]. rewrite Y.
    split; auto. split; [auto|lia].
Qed.
