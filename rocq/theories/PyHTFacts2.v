(** Steps of two simulations that differ only in the unused slots of the arrays
    run in the same way. *)
From Coq Require Import String Lia.
From Verif Require Import Num NumFacts Fort MP SpecMP MPFacts Push Geom Poly Sey Impact Beam Source CrossIon Sim PyHT SpecPyHT PyHTFacts.
Local Open Scope list_scope.
Local Open Scope R_scope.

(** * Results of computations that may raise *)
Definition orel {A B} (P : A -> B -> Prop) (x : option A) (y : option B) : Prop :=
  match x, y with Some a, Some b => P a b | None, None => True | _, _ => False end.
Lemma orel_bind {A B C D} (P : A -> B -> Prop) (Q : C -> D -> Prop) x y f g :
  orel P x y -> (forall a b, P a b -> orel Q (f a) (g b)) -> orel Q (bind x f) (bind y g).
Proof. destruct x, y; cbn; intros H K; try contradiction; auto. Qed.
Lemma orel_eq {A C D} (Q : C -> D -> Prop) (x : option A) f g :
  (forall a, orel Q (f a) (g a)) -> orel Q (bind x f) (bind x g).
Proof. destruct x; cbn; auto. Qed.
Lemma orel_refl {A} (x : option A) : orel eq x x.
Proof. destruct x; cbn; auto. Qed.
Lemma orel_imp {A B} (P Q : A -> B -> Prop) x y : (forall a b, P a b -> Q a b) -> orel P x y -> orel Q x y.
Proof. destruct x, y; cbn; auto. Qed.

(** * Arrays *)
Definition la (n : nat) (a b : list R) : Prop := List.length a = List.length b /\ firstn n a = firstn n b.

Lemma la_mono n m a b : (m <= n)%nat -> la n a b -> la m a b.
Proof.
  intros H [L F]. split; auto. rewrite <- (Nat.min_l m n) by lia. rewrite <- !firstn_firstn. congruence.
Qed.

Lemma la_nth n a b i : la n a b -> (i < n)%nat -> nth i a 0 = nth i b 0.
Proof.
  intros [L F] H. rewrite <- (firstn_skipn n a), <- (firstn_skipn n b), F.
  destruct (Nat.lt_ge_cases i (List.length (firstn n b))) as [K|K]; [rewrite !app_nth1; auto|].
  rewrite !app_nth2 by auto. rewrite firstn_length in K. rewrite !nth_overflow; auto; rewrite skipn_length; rewrite firstn_length; lia.
Qed.

Lemma la_splice n hi a b v : la n a b -> List.length v = List.length (slice_get a n hi) ->
  la hi (firstn n a ++ v ++ skipn (max n hi) a) (firstn n b ++ v ++ skipn (max n hi) b).
Proof.
  intros [L F] V. rewrite slice_get_length in V. split; [rewrite !app_length, !firstn_length, !skipn_length; lia|].
  rewrite F, !app_assoc. set (p := firstn n b ++ v).
  assert (LP : List.length p = (min n (List.length b) + List.length v)%nat) by (unfold p; rewrite app_length, firstn_length; auto).
  destruct (Nat.le_gt_cases hi (List.length p)) as [K|K].
  - rewrite !firstn_app. replace (hi - List.length p)%nat with 0%nat by lia. reflexivity.
  - rewrite !(skipn_all2 (n := max n hi)) by lia. reflexivity.
Qed.

Lemma la_fill n hi a b c : la n a b -> la hi (slice_fill a n hi c) (slice_fill b n hi c).
Proof.
  intros H. unfold slice_fill. assert (E : List.length (slice_get b n hi) = List.length (slice_get a n hi)).
  { rewrite !slice_get_length. destruct H as [L _]. rewrite L. reflexivity. }
  rewrite E. apply la_splice; auto. apply repeat_length.
Qed.

Lemma la_set n hi a b v : la n a b -> orel (la hi) (slice_set a n hi v) (slice_set b n hi v).
Proof.
  intros H. unfold slice_set. assert (E : List.length (slice_get b n hi) = List.length (slice_get a n hi)).
  { rewrite !slice_get_length. destruct H as [L _]. rewrite L. reflexivity. }
  rewrite E. destruct (Nat.eqb_spec (List.length v) (List.length (slice_get a n hi))) as [V|V].
  - cbn. apply la_splice; auto.
  - destruct v as [|c [|]]; cbn; auto. apply la_fill; auto.
Qed.

Lemma mask_get_tail {A} m k (a : list A) : mask_get (m ++ repeat false k) a = mask_get m (firstn (List.length m) a).
Proof.
  revert a; induction m as [|b m IH]; intros a; [cbn; apply mask_get_false|]. destruct a; cbn; auto. destruct b; rewrite IH; auto.
Qed.

Lemma firstn_put {A} n : forall m (a v : list A), firstn n (mask_put m a v) = mask_put m (firstn n a) v.
Proof.
  induction n as [|n IH]; intros m a v; [cbn; destruct m as [|[]]; reflexivity|].
  destruct m as [|b m]; [reflexivity|]. destruct a as [|x a]; [reflexivity|]. cbn. destruct b; [destruct v|]; cbn; rewrite IH; reflexivity.
Qed.
Lemma firstn_mfill {A} n : forall m (a : list A) c, firstn n (mask_fill m a c) = mask_fill m (firstn n a) c.
Proof.
  induction n as [|n IH]; intros m a c; [cbn; destruct m as [|[]]; reflexivity|].
  destruct m as [|b m]; [reflexivity|]. destruct a as [|x a]; [reflexivity|]. cbn. rewrite IH; reflexivity.
Qed.
Lemma la_mfill n m a b c : la n a b -> la n (mask_fill m a c) (mask_fill m b c).
Proof. intros [L F]. split; [rewrite !mask_fill_length; auto|]. rewrite !firstn_mfill. congruence. Qed.
Lemma la_mset n m a b v : la n a b -> orel (la n) (mask_set m a v) (mask_set m b v).
Proof.
  intros [L F]. unfold mask_set. destruct (Nat.eqb _ _).
  - cbn. split; [rewrite !mask_put_length; auto|]. rewrite !firstn_put. congruence.
  - destruct v as [|c [|]]; cbn; auto. apply la_mfill. split; auto.
Qed.

(** A mask that is false from [n] on. *)
Definition low (n : nat) (m : list bool) : Prop := exists m1 k, m = m1 ++ repeat false k /\ (List.length m1 <= n)%nat.
Lemma low_get n m a b : low n m -> la n a b -> mask_get m a = mask_get m b.
Proof.
  intros (m1 & k & -> & L) H. rewrite !mask_get_tail. apply (la_mono n (List.length m1)) in H; auto. destruct H as [_ F]. congruence.
Qed.
Lemma la_compact n m c a b : low n m -> la n a b -> orel (la c) (compact m c a) (compact m c b).
Proof.
  intros H K. unfold compact. rewrite (low_get n m a b H K). apply la_set. apply (la_mono n); auto. lia.
Qed.
Lemma low_count n m : low n m -> (count_true m <= n)%nat.
Proof.
  intros (m1 & k & -> & L). transitivity (List.length m1); auto. rewrite count_true_app.
  assert (E : count_true (repeat false k) = 0%nat) by (induction k; auto). rewrite E. pose proof (count_true_le m1). lia.
Qed.

(** * Macroparticle systems *)
Definition pars (s : mpsys) := (N_mp s, flag_lifetime_hist s, nel_mp_ref s, nel_mp_split s, nel_mp_cl_th s, nel_mp_ref_0 s, fact_split s, fact_clean s).
Record ag (s s' : mpsys) : Prop := mkAg {
  ag_x : la (N_mp s) (x_mp s) (x_mp s'); ag_y : la (N_mp s) (y_mp s) (y_mp s'); ag_z : la (N_mp s) (z_mp s) (z_mp s');
  ag_vx : la (N_mp s) (vx_mp s) (vx_mp s'); ag_vy : la (N_mp s) (vy_mp s) (vy_mp s'); ag_vz : la (N_mp s) (vz_mp s) (vz_mp s');
  ag_q : la (N_mp s) (nel_mp s) (nel_mp s'); ag_tl : List.length (t_last_impact s) = List.length (t_last_impact s');
  ag_t : flag_lifetime_hist s = true -> la (N_mp s) (t_last_impact s) (t_last_impact s'); ag_p : pars s = pars s' }.

Lemma ag_refl s : ag s s.
Proof. constructor; auto; try split; auto. Qed.

Lemma ag_live s s' : ag s s' -> live s = live s'.
Proof.
  intros []. injection ag_p0 as P1 P2 P3 P4 P5 P6 P7 P8. unfold live. rewrite <- P1. apply map_ext_in. intros i Hi. apply in_seq in Hi.
  unfold mp_at. rewrite <- P2. f_equal; try (eapply la_nth; eauto; lia). destruct (flag_lifetime_hist s); auto. eapply la_nth; [apply ag_t0; auto|lia].
Qed.

Lemma ag_set_ref s s' v : ag s s' -> ag (set_nel_mp_ref s v) (set_nel_mp_ref s' v).
Proof.
  intros []. injection ag_p0 as P1 P2 P3 P4 P5 P6 P7 P8. constructor; cbn; auto. unfold pars. cbn. congruence.
Qed.

Lemma ag_push f s s' : ag s s' -> ag (push_live f s) (push_live f s').
Proof.
  intros A. pose proof A as []. injection ag_p0 as P1 P2 P3 P4 P5 P6 P7 P8.
  assert (G : forall i, (i < N_mp s)%nat -> get6 s' i = get6 s i).
  { intros i Hi. unfold get6. f_equal; symmetry; eapply la_nth; eauto. }
  assert (W : forall (g : p6 -> R) a b, la (N_mp s) a b ->
    la (N_mp s) (map (fun i => g (f i (get6 s i))) (seq 0 (N_mp s)) ++ skipn (N_mp s) a) (map (fun i => g (f i (get6 s' i))) (seq 0 (N_mp s)) ++ skipn (N_mp s) b)).
  { intros g a b [L F]. assert (E : map (fun i => g (f i (get6 s' i))) (seq 0 (N_mp s)) = map (fun i => g (f i (get6 s i))) (seq 0 (N_mp s))).
    { apply map_ext_in. intros i Hi. apply in_seq in Hi. rewrite G by lia. reflexivity. }
    rewrite E. split; [rewrite !app_length, !skipn_length; lia|]. rewrite !firstn_app_exact by (rewrite map_length, seq_length; auto). reflexivity. }
  unfold push_live. rewrite <- P1. constructor; cbn; auto. unfold pars. cbn. congruence.
Qed.

(** Both, and the charges agree in all slots. *)
Definition ag0 (s s' : mpsys) : Prop := ag s s' /\ nel_mp s = nel_mp s'.

Lemma la_full c (a b : list R) v : la c a b -> slice_fill a c (List.length a) v = slice_fill b c (List.length b) v.
Proof.
  intros [L F]. unfold slice_fill. rewrite F, !slice_get_length, L, !skipn_all2 by lia. reflexivity.
Qed.

Lemma ag_keep s s' m : ag s s' -> low (N_mp s) m -> orel ag0 (keep_masked s m true) (keep_masked s' m true).
Proof.
  intros [] LW. injection ag_p0 as P1 P2 P3 P4 P5 P6 P7 P8. unfold keep_masked.
  repeat (eapply orel_bind; [eapply la_compact; eauto|]; intros ? ? ?).
  rewrite <- P2. cbn [andb].
  eapply (orel_bind (fun t t' => List.length t = List.length t' /\ (flag_lifetime_hist s = true -> la (count_true m) t t'))).
  { destruct (flag_lifetime_hist s).
    - eapply orel_imp; [|eapply la_compact; eauto]. intros t t' K. split; [apply K|auto].
    - cbn. split; [auto|discriminate]. }
  intros t t' [T1 T2]. cbn. split; [|apply la_full; auto].
  constructor; cbn [x_mp y_mp z_mp vx_mp vy_mp vz_mp nel_mp t_last_impact N_mp flag_lifetime_hist]; auto.
  - rewrite (la_full (count_true m) a5 b5) by auto. split; reflexivity.
  - unfold pars. cbn. congruence.
Qed.

Lemma fill_low n (l : list bool) : low n (slice_fill l n (List.length l) false).
Proof.
  unfold slice_fill. rewrite (skipn_all2 (n := max n (List.length l))) by lia. rewrite app_nil_r. eexists _, _. split; [reflexivity|]. rewrite firstn_length. lia.
Qed.

Lemma firstn_map_la (f : R -> bool) n a b : la n a b -> firstn n (map f a) = firstn n (map f b).
Proof. intros [_ F]. rewrite !firstn_map. congruence. Qed.

Lemma ag_clean s s' : ag s s' -> orel ag0 (clean_small_MPs s) (clean_small_MPs s').
Proof.
  intros A. unfold clean_small_MPs.
  assert (E : slice_fill (map negb (map (fun q => Rltb q (nel_mp_cl_th s')) (nel_mp s'))) (N_mp s') (List.length (map negb (map (fun q => Rltb q (nel_mp_cl_th s')) (nel_mp s')))) false =
              slice_fill (map negb (map (fun q => Rltb q (nel_mp_cl_th s)) (nel_mp s))) (N_mp s) (List.length (map negb (map (fun q => Rltb q (nel_mp_cl_th s)) (nel_mp s)))) false).
  { pose proof A as []. injection ag_p0 as P1 P2 P3 P4 P5 P6 P7 P8. rewrite <- P1, <- P5, !map_length. destruct ag_q0 as [L F].
    unfold slice_fill. rewrite !slice_get_length, !map_length, L, !map_map, !firstn_map, F. rewrite !skipn_all2 by (rewrite map_length; lia). reflexivity. }
  rewrite E. eapply orel_bind; [apply ag_keep; auto; apply fill_low|]. intros a b [K1 K2]. pose proof (ag_p _ _ K1) as P. injection P as P1 P2 P3 P4 P5 P6 P7 P8.
  rewrite <- P1, <- P6. destruct (Nat.eqb (N_mp a) 0); cbn; [split; [apply ag_set_ref; auto|exact K2]|split; auto].
Qed.

Lemma skipn_false n L : skipn n (repeat false L) = repeat false (L - n).
Proof. revert n; induction L as [|L IH]; intros [|n]; cbn; auto. Qed.
Lemma low_set L n v m : slice_set (repeat false L) 0 n v = Some m -> (List.length v <= n)%nat -> low n m.
Proof.
  unfold slice_set. destruct (Nat.eqb _ _); intros H HV.
  - injection H as <-. cbn [firstn app max]. rewrite skipn_false. eexists _, _. split; [reflexivity|auto].
  - destruct v as [|c [|]]; try discriminate. injection H as <-. unfold slice_fill. cbn [firstn app max]. rewrite skipn_false. eexists _, _. split; [reflexivity|].
    rewrite repeat_length, slice_get_length. lia.
Qed.

Lemma ag_soft t rng k s s' : ag0 s s' -> orel (fun a b => ag0 (fst a) (fst b) /\ snd a = snd b) (perform_soft_regeneration t rng k s) (perform_soft_regeneration t rng k s').
Proof.
  intros [A Q]. pose proof (ag_p _ _ A) as P. injection P as P1 P2 P3 P4 P5 P6 P7 P8. unfold perform_soft_regeneration. rewrite <- P1.
  destruct (Nat.ltb t (N_mp s)); [|cbn; split; [split; auto|auto]].
  assert (NR : new_ref s' t = new_ref s t) by (unfold new_ref; rewrite <- Q, <- P6; reflexivity). rewrite NR, <- Q. rewrite <- (proj1 (ag_x _ _ A)).
  destruct (slice_set (repeat false (List.length (x_mp s))) 0 (N_mp s) _) as [m|] eqn:EM; cbn [bind]; [|exact I].
  assert (LW : low (N_mp s) m).
  { eapply low_set; [exact EM|]. rewrite map_length. unfold draw. rewrite map_length, seq_length. lia. }
  eapply orel_bind; [apply ag_keep; [apply ag_set_ref; exact A|exact LW]|]. intros a b [K1 K2]. pose proof (ag_p _ _ K1) as PK. injection PK as R1 R2 R3 R4 R5 R6 R7 R8.
  rewrite <- R1, <- K2. eapply orel_eq. intros q. cbn. split; [split; [|reflexivity]|reflexivity].
  destruct K1. constructor; cbn; auto; try (split; auto; fail); unfold pars; cbn; congruence.
Qed.

Lemma ag_async o rng k s s' : ag s s' -> orel (fun a b => ag (fst a) (fst b) /\ snd a = snd b) (check_for_async_regeneration o rng k s) (check_for_async_regeneration o rng k s').
Proof.
  intros A. pose proof (ag_p _ _ A) as P. injection P as P1 P2 P3 P4 P5 P6 P7 P8. unfold check_for_async_regeneration. destruct o as [[n1 n2]|]; [|cbn; auto].
  rewrite <- P1. destruct (Nat.ltb n1 (N_mp s)); [|cbn; auto]. eapply orel_bind; [apply ag_clean; auto|]. intros a b [K1 K2].
  pose proof (ag_p _ _ K1) as PK. injection PK as R1 R2 R3 R4 R5 R6 R7 R8. rewrite <- R1. destruct (Nat.ltb n1 (N_mp a)); [|cbn; auto].
  eapply orel_imp; [|apply ag_soft; split; eauto]. intros x y [[X1 X2] X3]. auto.
Qed.

Lemma ag_add n b s s' : ag s s' -> orel ag (add_new_MPs n b s) (add_new_MPs n b s').
Proof.
  intros []. injection ag_p0 as P1 P2 P3 P4 P5 P6 P7 P8. unfold add_new_MPs. rewrite <- P1.
  repeat (eapply orel_bind; [eapply la_set; eauto|]; intros ? ? ?). rewrite <- P2.
  eapply (orel_bind (fun t t' => List.length t = List.length t' /\ (flag_lifetime_hist s = true -> la (N_mp s + n) t t'))).
  { destruct (flag_lifetime_hist s); [|cbn; split; [auto|discriminate]]. eapply orel_imp; [|apply la_set; auto]. intros t t' K. split; [apply K|auto]. }
  intros t t' [T1 T2]. cbn. constructor; cbn; auto. unfold pars. cbn. congruence.
Qed.

Lemma ag_write n xt yt vx vy vz t t' s s' : ag s s' -> List.length t = List.length t' -> (flag_lifetime_hist s = true -> la (N_mp s + n) t t') ->
  orel ag (write_uniform s n xt yt vx vy vz t) (write_uniform s' n xt yt vx vy vz t').
Proof.
  intros [] T1 T2. injection ag_p0 as P1 P2 P3 P4 P5 P6 P7 P8. unfold write_uniform. rewrite <- P1, <- P3.
  repeat (eapply orel_bind; [eapply la_set; eauto|]; intros ? ? ?). cbn. constructor; cbn [x_mp y_mp z_mp vx_mp vy_mp vz_mp nel_mp t_last_impact N_mp flag_lifetime_hist]; auto using la_fill.
  unfold pars. cbn. congruence.
Qed.

(** The results of a source: macroparticles and position in the random stream. *)
Definition agk (a b : mpsys * nat) : Prop := ag (fst a) (fst b) /\ snd a = snd b.

Lemma ag_gas fu kc g c m l D a b x y sr k s s' : (gs_life g = false -> flag_lifetime_hist s = false) -> ag s s' ->
  orel agk (gas_generate fu kc g c m l D a b x y sr k s) (gas_generate fu kc g c m l D a b x y sr k s').
Proof.
  intros GL A. pose proof A as []. injection ag_p0 as P1 P2 P3 P4 P5 P6 P7 P8. unfold gas_generate. rewrite <- P3. destruct (0 <? _)%Z; [|cbn; split; auto].
  destruct (gas_coord a x _ _ _ _) as [xt k1]. destruct (gas_coord b y _ _ _ _) as [yt k2]. apply orel_eq. intros [[xt' yt'] k3].
  set (n := Z.to_nat _). rewrite <- P1, <- P2.
  eapply (orel_bind (fun t t' => List.length t = List.length t' /\ (flag_lifetime_hist s = true -> la (N_mp s + n) t t'))).
  { destruct (gs_life g); [destruct (flag_lifetime_hist s); cbn; auto|cbn].
    - split; [rewrite !slice_fill_len; auto|]. intros _. apply la_fill; auto.
    - split; auto. rewrite GL by auto. discriminate. }
  intros t t' [T1 T2]. eapply orel_bind; [apply ag_write; eauto|]. intros u v K. cbn. split; auto.
Qed.

Lemma ag_photo_set fu kc ph m sr k n a b c d s s' : ag s s' -> orel agk (photo_set fu kc ph m sr k n a b c d s) (photo_set fu kc ph m sr k n a b c d s').
Proof.
  intros A. pose proof (ag_p _ _ A) as P. injection P as P1 P2 P3 P4 P5 P6 P7 P8. unfold photo_set. apply orel_eq. intros [en k1]. destruct (angle_dist_func _ _ _ _ _ _ _ _ _) as [v k2].
  rewrite <- P3. eapply orel_bind; [apply ag_add; auto|]. intros u w K. cbn. split; auto.
Qed.

Lemma ag_photo e p m l D k s s' : ag s s' -> orel agk (photo_step e p m l D k s) (photo_step e p m l D k s').
Proof.
  intros A. pose proof (ag_p _ _ A) as P. injection P as P1 P2 P3 P4 P5 P6 P7 P8. destruct p as [|p|ph cdf|ph pc]; cbn [photo_step].
  - cbn. split; auto.
  - unfold photo1_generate. rewrite <- P3. destruct (0 <? _)%Z; [|cbn; split; auto]. apply orel_eq. intros rt. unfold gen_energy_and_set_MPs. apply orel_eq. intros hs. apply ag_photo_set; auto.
  - unfold photo2_generate. rewrite <- P3. destruct (0 <? _)%Z; [|cbn; split; auto].
    apply orel_eq. intros th. unfold gen_energy_and_set_MPs. apply orel_eq. intros hs. apply ag_photo_set; auto.
  - unfold photo3_generate. rewrite <- P3. destruct (0 <? _)%Z; [|cbn; split; auto]. apply orel_eq. intros [pts k1]. apply ag_photo_set; auto.
Qed.

(** Results that also carry the flag for full arrays (not in the code). *)
Definition agkf (a b : mpsys * nat * bool) : Prop := ag (fst (fst a)) (fst (fst b)) /\ snd (fst a) = snd (fst b).

Lemma ag_gas_loop e g m : forall bs k f f' s s', (gs_life g = false -> flag_lifetime_hist s = false) -> ag s s' -> orel agkf (gas_loop e g m bs k f s) (gas_loop e g m bs k f' s').
Proof.
  induction bs as [|b bs IH]; intros k f f' s s' GL A; cbn [gas_loop]; [cbn; split; auto|].
  match goal with |- orel _ (bind ?x ?f1) (bind ?y ?g1) => assert (O : orel agk x y) by (apply ag_gas; auto);
    assert (KX : forall r, x = Some r -> keeps s (fst r)) by (intros [r1 r2] Hr; apply keeps_gas in Hr; exact Hr); destruct x as [[s1 k1]|], y as [[s2 k2]|] end; cbn in O; try contradiction; cbn [bind]; [|exact I].
  destruct O as [O1 O2]. cbn in O1, O2. subst k2. apply IH; auto. intros H. specialize (KX _ eq_refl). destruct KX as [_ KX]. injection KX as KX _ _ _. cbn in KX. rewrite KX. auto.
Qed.

Lemma ag_primary e main secs c k f f' s s' : (forall g, a_gas c = Some g -> gs_life g = false -> flag_lifetime_hist s = false) -> ag s s' ->
  orel agkf (primary_generation e main secs c k f s) (primary_generation e main secs c k f' s').
Proof.
  intros GL A. unfold primary_generation. eapply (orel_bind agkf).
  { destruct (a_gas c) as [g|] eqn:EG; [|cbn; split; auto]. destruct (Rltb _ _); [apply ag_gas_loop; auto; apply (GL g); auto|cbn; split; auto]. }
  intros [[s1 k1] f1] [[s2 k2] f2] [O1 O2]. cbn in O1, O2. subst k2. eapply orel_bind; [apply ag_photo; exact O1|]. intros [s3 k3] [s4 k4] [O3 O4]. cbn in *. split; auto.
Qed.

Lemma ag_positions s s' : ag s s' -> get_positions s = get_positions s'.
Proof. intros []. injection ag_p0 as P1 P2 P3 P4 P5 P6 P7 P8. unfold get_positions. rewrite <- P1. destruct ag_x0, ag_y0, ag_z0. congruence. Qed.

Lemma ag_mask w s s' : ag s s' -> impact_mask w s = impact_mask w s' /\ low (N_mp s) (impact_mask w s).
Proof.
  intros []. injection ag_p0 as P1 P2 P3 P4 P5 P6 P7 P8. split.
  - unfold impact_mask. rewrite <- P1. destruct ag_x0, ag_y0. congruence.
  - unfold impact_mask. eexists _, _. split; [reflexivity|]. rewrite map2_length, !firstn_length. lia.
Qed.

Definition agw {S} (a b : iman * mpsys * S) : Prop := fst (fst a) = fst (fst b) /\ ag (snd (fst a)) (snd (fst b)) /\ snd a = snd b.

Lemma ag_replace m e t t' s s' : ag s s' -> List.length t = List.length t' -> (flag_lifetime_hist s = true -> la (N_mp s) t t') ->
  orel ag (replace_MPs s m e t) (replace_MPs s' m e t').
Proof.
  intros [] T1 T2. injection ag_p0 as P1 P2 P3 P4 P5 P6 P7 P8. unfold replace_MPs.
  repeat (eapply orel_bind; [eapply la_mset; eauto|]; intros ? ? ?). cbn. constructor; cbn; auto. unfold pars. cbn. congruence.
Qed.

Lemma ag_walls {S} w c (em : _ -> _ -> _ -> S -> _) tt old g s s' st : k_life c = flag_lifetime_hist s -> ag s s' ->
  orel agw (backtrack_and_second_emiss w c em tt old g s st) (backtrack_and_second_emiss w c em tt old g s' st).
Proof.
  intros KL A. destruct (ag_mask w _ _ A) as [M LW]. pose proof A as []. injection ag_p0 as P1 P2 P3 P4 P5 P6 P7 P8.
  unfold backtrack_and_second_emiss. destruct old as [[xo yo] zo]. rewrite <- P1. destruct (Nat.eqb (N_mp s) 0); [unfold agw; cbn; auto|].
  rewrite <- M. destruct (Nat.eqb (count_true _) 0); [unfold agw; cbn; auto|].
  rewrite <- (low_get _ _ _ _ LW ag_x0), <- (low_get _ _ _ _ LW ag_y0), <- (low_get _ _ _ _ LW ag_z0), <- (low_get _ _ _ _ LW ag_q0), <- (low_get _ _ _ _ LW ag_vx0), <- (low_get _ _ _ _ LW ag_vy0), <- (low_get _ _ _ _ LW ag_vz0).
  rewrite <- P4. apply orel_eq. intros hs.
  eapply (orel_bind (fun a b => fst a = fst b /\ List.length (snd a) = List.length (snd b) /\ (flag_lifetime_hist s = true -> la (N_mp s) (snd a) (snd b)))).
  { unfold life_part. destruct (k_life c).
    - rewrite <- (low_get _ _ _ _ LW (ag_t0 (eq_sym KL))). apply orel_eq. intros h. cbn. split; auto. split; [rewrite !mask_fill_length; auto|]. intros _. apply la_mfill. auto.
    - cbn. split; auto. }
  intros [lh tl] [lh' tl'] (H1 & H2 & H3). cbn in H1, H2, H3. subst lh'. apply orel_eq. intros ps. apply orel_eq. intros g1. apply orel_eq. intros [e st1].
  eapply orel_bind; [apply ag_replace; eauto|]. intros u v K. apply orel_eq. intros g2. destruct (Nat.eqb _ 0); [unfold agw; cbn; auto|].
  eapply orel_bind; [apply ag_add; exact K|]. intros u' v' K'. apply orel_eq. intros g3. unfold agw; cbn; auto.
Qed.
