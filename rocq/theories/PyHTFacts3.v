(** Whole time steps and passages of two simulations that differ only in the
    unused slots of the arrays. *)
From Coq Require Import String Lia.
From Verif Require Import Num NumFacts Fort MP SpecMP MPFacts Push Geom Poly Sey Impact Beam Source CrossIon Sim SimFacts PyHT SpecPyHT PyHTFacts PyHTFacts2.
Local Open Scope list_scope.
Local Open Scope R_scope.

Lemma ag_mp_pos s s' : ag s s' -> mp_pos s = mp_pos s'.
Proof. intros A. rewrite !mp_pos_live, (ag_live _ _ A). reflexivity. Qed.
Lemma ag_mp_points s s' : ag s s' -> mp_points s = mp_points s'.
Proof. intros A. rewrite !mp_points_live, (ag_live _ _ A). reflexivity. Qed.

Lemma ag_gather sc kick main secs s s' : ag s s' -> gather_field sc kick main secs s = gather_field sc kick main secs s'.
Proof. intros A. unfold gather_field. rewrite (ag_mp_pos _ _ A). reflexivity. Qed.

Lemma ag_apply_kick q m main secs D s s' : ag s s' -> orel ag (apply_kick q m main secs D s) (apply_kick q m main secs D s').
Proof. intros A. unfold apply_kick. rewrite (ag_mp_pos _ _ A). apply orel_eq. intros [ex ey]. cbn. apply ag_push; auto. Qed.

Lemma ag_motion_loop st sc kick main secs : (forall E s s', ag s s' -> ag (st E s) (st E s')) ->
  forall n s s', ag s s' -> orel ag (motion_loop n st sc kick main secs s) (motion_loop n st sc kick main secs s').
Proof.
  intros K. induction n as [|n IH]; intros s s' A; cbn [motion_loop]; [exact A|].
  rewrite (ag_gather _ _ _ _ _ _ A). apply orel_eq. intros E. apply IH. apply K; auto.
Qed.

Lemma ag_motion e a main secs sc c s s' : per_particle (a_dyn c) -> ag s s' -> orel ag (cloud_motion e a main secs sc c s) (cloud_motion e a main secs sc c s').
Proof.
  intros [[g G] [g' G']] A. unfold cloud_motion. apply orel_eq. intros o. eapply (orel_bind ag).
  { destruct (s_kick a); [|exact A]. destruct (s_Nsub a); [|exact I]. destruct (s_Dtsub a); [|exact I]. apply ag_apply_kick; auto. }
  intros u v K. destruct (e_reinterp e || s_force_re a); destruct o as [[h n]|]; try exact I;
    apply ag_motion_loop; auto; intros E x y X; cbv beta; rewrite ?G, ?G'; apply ag_push; auto.
Qed.

(** * Clouds *)
Definition cag (c c' : cloud) : Prop :=
  o_set c = o_set c' /\ ag (o_mp c) (o_mp c') /\ o_rho c = o_rho c' /\ o_iman c = o_iman c' /\ o_Q c = o_Q c'.

Definition fine (c : cloud) : Prop := per_particle (a_dyn (o_set c)) /\ life_agrees c.
Lemma fine_kept c c' : kept c c' -> fine c -> fine c'.
Proof.
  intros [K1 [_ K2]] [F1 [F2 F3]]. injection K2 as K2 _ _ _. unfold fine, life_agrees. rewrite K1, K2. auto.
Qed.
Lemma fine_kept_all cl cl' : Forall2 kept cl cl' -> Forall fine cl -> Forall fine cl'.
Proof. intros F. induction F; intros G; constructor; inversion G; subst; eauto using fine_kept. Qed.
Lemma fine_trackers cl : Forall fine cl -> trackers cl.
Proof. intros H. eapply Forall_impl; [|exact H]. intros c [F _]. exact F. Qed.

Definition agc {X Y} (P : X -> Y -> Prop) (a : X * nat * bool) (b : Y * nat * bool) : Prop := P (fst (fst a)) (fst (fst b)) /\ snd (fst a) = snd (fst b).

Lemma cag_step e a main secs sc k f f' c c' : fine c -> cag c c' -> orel (agc cag) (step_cloud e a main secs sc k f c) (step_cloud e a main secs sc k f' c').
Proof.
  intros [F1 [F2 F3]] (C1 & C2 & C3 & C4 & C5). unfold step_cloud. rewrite <- C1, <- C3, <- C4, <- C5, <- (ag_positions _ _ C2). 
  pose proof (ag_motion e a main secs sc (o_set c) _ _ F1 C2) as M.
  destruct (cloud_motion e a main secs sc (o_set c) (o_mp c)) as [s|] eqn:E1, (cloud_motion e a main secs sc (o_set c) (o_mp c')) as [s'|]; cbn in M; try contradiction; cbn [bind]; [|exact I].
  apply keeps_motion in E1; auto. destruct E1 as [_ E1]. injection E1 as E1 _ _ _.
  match goal with |- orel _ (bind ?x _) (bind ?y _) => assert (W : orel agw x y) by (apply ag_walls; congruence);
    assert (KX : forall r, x = Some r -> keeps s (snd (fst r))) by (intros [[r1 r2] r3] Hr; apply keeps_walls in Hr; exact Hr);
    destruct x as [[[g1 s1] q1]|], y as [[[g2 s2] q2]|] end; cbn in W; try contradiction; cbn [bind]; [|exact I].
  destruct W as (W1 & W2 & W3). cbn in W1, W2, W3. subst g2 q2. specialize (KX _ eq_refl). cbn in KX. destruct KX as [_ KX]. injection KX as KX _ _ _.
  eapply orel_bind; [apply ag_primary; [|exact W2]; intros g Hg; rewrite KX, E1, <- (F3 g Hg); auto|].
  intros [[s3 k3] f3] [[s4 k4] f4] [O1 O2]. cbn in *. split; [|exact O2]. unfold cag. cbn. auto.
Qed.

Lemma cag_loop e a main secs sc : forall cl cl' k f f', Forall fine cl -> Forall2 cag cl cl' ->
  orel (agc (Forall2 cag)) (clouds_loop e a main secs sc k f cl) (clouds_loop e a main secs sc k f' cl').
Proof.
  induction cl as [|c cl IH]; intros cl' k f f' FI FA; inversion FA; subst; cbn [clouds_loop]; [split; cbn; auto|].
  inversion FI; subst. eapply orel_bind; [apply cag_step; eauto|]. intros [[c1 k1] f1] [[c2 k2] f2] [O1 O2]. cbn in O1, O2. subst k2.
  eapply orel_bind; [apply IH; eauto|]. intros [[r1 k3] f3] [[r2 k4] f4] [O3 O4]. cbn in *. split; cbn; auto.
Qed.

(** * Cross ionisation *)
Definition xag (c c' : xcloud) : Prop := xc_name c = xc_name c' /\ xc_mass c = xc_mass c' /\ ag (xc_mp c) (xc_mp c').
Lemma xag_ref c c' : xag c c' -> nel_mp_ref (xc_mp c) = nel_mp_ref (xc_mp c').
Proof. intros (_ & _ & A). apply ag_p in A. injection A. auto. Qed.

Lemma F2_rev {A B} (P : A -> B -> Prop) l l' : Forall2 P l l' -> Forall2 P (rev l) (rev l').
Proof. induction 1; cbn; auto. apply Forall2_app; auto. Qed.

Lemma xag_find n cl cl' : Forall2 xag cl cl' -> orel xag (find_cloud n cl) (find_cloud n cl').
Proof.
  intros F. apply F2_rev in F. unfold find_cloud. induction F as [|c c' l l' X F IH]; cbn; auto.
  destruct X as (X1 & X2 & X3). rewrite <- X1. destruct (String.eqb _ _); [cbn; unfold xag; auto|auto].
Qed.

Lemma orel_same {A} (x y : option A) : orel eq x y -> x = y.
Proof. destruct x, y; cbn; intros; try contradiction; subst; auto. Qed.

Lemma xag_mean n cl cl' : Forall2 xag cl cl' -> forall prods acc, mean_ref cl n prods acc = mean_ref cl' n prods acc.
Proof.
  intros F. induction prods as [|p prods IH]; intros acc; cbn [mean_ref]; auto. apply orel_same.
  eapply orel_bind; [apply xag_find; eauto|]. intros c c' X. rewrite (xag_ref _ _ X), IH. apply orel_refl.
Qed.

Lemma xag_products qe p cl cl' DN sh pr rng : Forall2 xag cl cl' -> forall prods k,
  products_loop qe p cl DN sh pr prods rng k = products_loop qe p cl' DN sh pr prods rng k.
Proof.
  intros F. induction prods as [|n prods IH]; intros k; cbn [products_loop]; auto. apply orel_same.
  eapply orel_bind; [apply xag_find; eauto|]. intros c c' X. rewrite (xag_ref _ _ X). destruct X as (_ & X2 & _). rewrite X2.
  destruct sh as [[r cs]|]; destruct (product_info _ _ _ _ _ _ _ _) as [info k1]; rewrite IH; apply orel_refl.
Qed.

Lemma xag_process qe p D cl cl' m pr rng k : Forall2 xag cl cl' -> process_generate qe p D cl m pr rng k = process_generate qe p D cl' m pr rng k.
Proof.
  intros F. unfold process_generate. destruct (xmapM _ pr); cbn [bind]; auto. rewrite (xag_mean _ _ _ F).
  destruct (if x_equal p then _ else _) as [[sh k1]|]; cbn [bind]; auto. rewrite (xag_products _ _ _ _ _ _ _ _ F). reflexivity.
Qed.

Lemma xag_procs qe D cl cl' m pr rng : Forall2 xag cl cl' -> forall ps d cnt k, procs_loop qe D cl m pr ps d cnt rng k = procs_loop qe D cl' m pr ps d cnt rng k.
Proof.
  intros F. induction ps as [|p ps IH]; intros d cnt k; cbn [procs_loop]; auto. rewrite (xag_process _ _ _ _ _ _ _ _ _ F).
  destruct (process_generate _ _ _ _ _ _ _ _) as [[[[p' i] DN] k1]|]; cbn [bind]; auto. destruct (collect _ _ _ _ _) as [[d1 c1]|]; cbn [bind]; auto. rewrite IH. reflexivity.
Qed.

Lemma ag_proj s s' : ag s s' -> projectiles s = projectiles s'.
Proof.
  intros [ag_x0 ag_y0 ag_z0 ag_vx0 ag_vy0 ag_vz0 ag_q0 ag_tl0 ag_t0 ag_p0]. injection ag_p0 as P1 P2 P3 P4 P5 P6 P7 P8. unfold projectiles. rewrite <- P1. apply map_ext_in. intros i Hi. apply in_seq in Hi. unfold proj_at.
  rewrite (la_nth _ _ _ i ag_x0), (la_nth _ _ _ i ag_y0), (la_nth _ _ _ i ag_z0), (la_nth _ _ _ i ag_vx0), (la_nth _ _ _ i ag_vy0), (la_nth _ _ _ i ag_vz0), (la_nth _ _ _ i ag_q0) by lia. reflexivity.
Qed.

Lemma xag_projs qe D cl cl' rng : Forall2 xag cl cl' -> forall pd d cnt k, proj_loop qe D cl pd d cnt rng k = proj_loop qe D cl' pd d cnt rng k.
Proof.
  intros F. induction pd as [|[n ps] pd IH]; intros d cnt k; cbn [proj_loop]; auto. apply orel_same.
  eapply orel_bind; [apply xag_find; eauto|]. intros c c' (X1 & X2 & X3). rewrite (ag_proj _ _ X3), X2. pose proof (ag_p _ _ X3) as P. injection P as P1 _ _ _ _ _ _ _. rewrite P1.
  rewrite (xag_procs _ _ _ _ _ _ _ F). apply orel_eq. intros [[[ps1 d1] c1] k1]. rewrite IH. apply orel_refl.
Qed.

Lemma xag_add prods d : forall cl cl' cnt, Forall2 xag cl cl' -> orel (fun a b => Forall2 xag (fst a) (fst b) /\ snd a = snd b) (add_loop prods d cnt cl) (add_loop prods d cnt cl').
Proof.
  induction cl as [|c cl IH]; intros cl' cnt F; inversion F as [|? c' ? cl1 X F1]; subst; cbn [add_loop]; [cbn; auto|].
  destruct X as (X1 & X2 & X3). rewrite <- X1.
  eapply (orel_bind (fun a b => xag (fst a) (fst b) /\ snd a = snd b)).
  { destruct (existsb _ _); [|cbn; split; [unfold xag; auto|auto]]. apply orel_eq. intros i. eapply (orel_bind ag).
    - destruct (0 <? _)%Z; [apply ag_add; auto|exact X3].
    - intros u v K. cbn. split; [unfold xag; auto|auto]. }
  intros [c1 n1] [c2 n2] [O1 O2]. cbn in O1, O2. subst n2. eapply orel_bind; [apply IH; eauto|]. intros [r1 n3] [r2 n4] [O3 O4]. cbn in *. auto.
Qed.

Lemma to_x_ag cl cl' : Forall2 cag cl cl' -> Forall2 xag (map to_x cl) (map to_x cl').
Proof. induction 1 as [|c c' l l' (C1 & C2 & C3 & C4 & C5) F IH]; cbn; constructor; auto. unfold xag, to_x. cbn. rewrite C1. auto. Qed.

Lemma put_ag : forall cl cl' xs xs', Forall2 cag cl cl' -> Forall2 xag xs xs' -> Forall2 cag (map2 put_mp cl xs) (map2 put_mp cl' xs').
Proof.
  induction cl as [|c cl IH]; intros cl' xs xs' F G; inversion F as [|? c' ? cl1 (C1 & C2 & C3 & C4 & C5) F1]; subst; cbn; auto.
  inversion G as [|x x' xs1 xs2 (X1 & X2 & X3) G1]; subst; constructor; auto. unfold cag, put_mp. cbn. auto.
Qed.

Lemma cag_cross e D x k cl cl' : Forall2 cag cl cl' ->
  orel (fun a b => fst (fst a) = fst (fst b) /\ Forall2 cag (snd (fst a)) (snd (fst b)) /\ snd a = snd b) (cross_step e D x k cl) (cross_step e D x k cl').
Proof.
  intros F. unfold cross_step. destruct x as [x|]; [|cbn; auto]. unfold cross_generate.
  rewrite (xag_projs _ _ _ _ _ (to_x_ag _ _ F)). destruct (proj_loop _ _ _ _ _ _ _ _) as [[[[ps d] cnt] k1]|]; cbn [bind]; [|exact I].
  pose proof (xag_add (xi_prods x) d _ _ cnt (to_x_ag _ _ F)) as A.
  destruct (add_loop _ _ _ (map to_x cl)) as [[c1 n1]|], (add_loop _ _ _ (map to_x cl')) as [[c2 n2]|]; cbn in A; try contradiction; cbn [bind]; [|exact I].
  destruct A as [A1 A2]. subst n2. cbn. split; [auto|]. split; [|auto]. apply put_ag; auto.
Qed.

(** * Space charge *)
Lemma cag_recompute_loop p : forall cl cl' before sc, Forall2 cag cl cl' ->
  Forall2 cag (fst (recompute_loop p before cl sc)) (fst (recompute_loop p before cl' sc)) /\ snd (recompute_loop p before cl sc) = snd (recompute_loop p before cl' sc).
Proof.
  induction cl as [|c cl IH]; intros cl' before sc F; inversion F as [|? c' ? cl1 (C1 & C2 & C3 & C4 & C5) F1]; subst; cbn [recompute_loop]; [cbn; auto|].
  assert (E : forall b sc, recompute_spchg_efield p (a_charge (o_set c)) (o_mp c) b (match before with [] => true | _ => false end) sc =
              recompute_spchg_efield p (a_charge (o_set c')) (o_mp c') b (match before with [] => true | _ => false end) sc).
  { intros b sc0. unfold recompute_spchg_efield. rewrite (ag_mp_points _ _ C2), C1. reflexivity. }
  assert (EB : match cl1 with [] => true | _ => false end = match cl with [] => true | _ => false end) by (inversion F1; reflexivity).
  rewrite EB, <- E.
  set (sc1 := recompute_spchg_efield p (a_charge (o_set c)) (o_mp c) (match cl with [] => true | _ => false end) _ sc).
  specialize (IH cl1 (before ++ [sub_earlier (sc_rho sc1) before]) sc1 F1).
  destruct (recompute_loop p _ cl sc1) as [r1 z1], (recompute_loop p _ cl1 sc1) as [r2 z2]. cbn in *. destruct IH as [I1 I2]. split; [|exact I2]. constructor; auto. unfold cag. cbn. auto.
Qed.

Lemma cag_recompute e t f g cl cl' sc : Forall2 cag cl cl' ->
  Forall2 cag (fst (recompute_cloud_spacecharge e t f g cl sc)) (fst (recompute_cloud_spacecharge e t f g cl' sc)) /\
  snd (recompute_cloud_spacecharge e t f g cl sc) = snd (recompute_cloud_spacecharge e t f g cl' sc).
Proof. intros F. unfold recompute_cloud_spacecharge. destruct (_ || _); [apply cag_recompute_loop; auto|cbn; auto]. Qed.

(** * Time steps in which cleaning and regeneration at a new passage are off *)
Definition sag (m m' : sim) : Prop := Forall2 cag (m_clouds m) (m_clouds m') /\ m_sc m = m_sc m' /\ m_xion m = m_xion m' /\ m_k m = m_k m'.

Lemma ag_clean_one e a new c k s s' : s_noclean a = true -> s_noregen a = true -> ag s s' -> orel agk (clean_one e a new c k s) (clean_one e a new c k s').
Proof.
  intros N1 N2 A. unfold clean_one. rewrite N1, N2. destruct new; cbn [bind]; apply ag_async; auto.
Qed.

Lemma cag_clean e a new : s_noclean a = true -> s_noregen a = true -> forall cl cl' k, Forall2 cag cl cl' ->
  orel (fun x y => Forall2 cag (fst x) (fst y) /\ snd x = snd y) (clean_loop e a new k cl) (clean_loop e a new k cl').
Proof.
  intros N1 N2. induction cl as [|c cl IH]; intros cl' k F; inversion F as [|? c' ? cl1 (C1 & C2 & C3 & C4 & C5) F1]; subst; cbn [clean_loop]; [cbn; auto|].
  rewrite <- C1. eapply orel_bind; [apply ag_clean_one; eauto|]. intros [s1 k1] [s2 k2] [O1 O2]. cbn in O1, O2. subst k2.
  eapply orel_bind; [apply IH; eauto|]. intros [r1 k3] [r2 k4] [O3 O4]. cbn in *. split; auto. constructor; auto. unfold cag. cbn. auto.
Qed.

Lemma sag_step e a main secs m m' : s_noclean a = true -> s_noregen a = true -> Forall fine (m_clouds m) -> sag m m' ->
  orel sag (sim_time_step e a main secs m) (sim_time_step e a main secs m').
Proof.
  intros N1 N2 FI (S1 & S2 & S3 & S4). unfold sim_time_step. eapply (orel_bind sag).
  - unfold step_main. rewrite <- S2, <- S3, <- S4. destruct (check_for_recomputation _ _) as [flag sc].
    eapply orel_bind; [apply cag_loop; eauto|]. intros [[c1 k1] f1] [[c2 k2] f2] [O1 O2]. cbn in O1, O2. subst k2.
    eapply orel_bind; [apply cag_cross; eauto|]. intros [[x1 c3] k3] [[x2 c4] k4] (O3 & O4 & O5). cbn in O3, O4, O5. subst x2 k4.
    destruct (cag_recompute e (ti_t main) flag (s_force_sc a) c3 c4 sc O4) as [O6 O7].
    destruct (recompute_cloud_spacecharge _ _ _ _ c3 _) as [c5 z5], (recompute_cloud_spacecharge _ _ _ _ c4 _) as [c6 z6]. cbn in *. subst z6. unfold sag. cbn. auto.
  - intros u v (U1 & U2 & U3 & U4). rewrite <- U4. eapply orel_bind; [apply cag_clean; eauto|]. intros [c1 k1] [c2 k2] [O1 O2]. cbn in *. unfold sag. cbn. auto.
Qed.
