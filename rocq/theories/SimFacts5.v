(** Soundness and charge balance of the whole step and of runs. *)
From Coq Require Import String Lra Lia.
From Verif Require Import Num NumFacts MP SpecMP MPFacts MPFacts2 SpecRegen RegenFacts RegenFacts2 SpecTrig TrigFacts Push SpecPush PushFacts Geom Poly
  Sey SpecSey Impact SpecImpact ImpactFacts ImpactFacts2 ImpactFacts3 ImpactFacts5 Beam SpecBeam BeamFacts
  Source SpecSource SourceFacts2 SourceFacts3 SourceFacts4 CrossIon SpecCrossIon CrossIonFacts2 CrossIonFacts3 Sim SpecSim SimFacts SimFacts3 SimFacts4.
Local Open Scope list_scope.
Local Open Scope R_scope.

(** * Cleaning and regenerations *)
Definition strict (s : mpsys) : Prop := Forall (fun p => 0 < m_nel p) (live s).

Lemma clean_sound e c s s' : sound e c s -> clean_small_MPs s = Some s' -> sound e c s' /\ strict s'.
Proof.
  intros [W TZ KL [SZ1 SZ2] FS FC R0 IN PO] CL.
  destruct (clean_spec s W) as (s2 & E & L & W2 & T2 & (D1 & D2 & D3 & D4 & D5) & A & B). rewrite CL in E. injection E as <-.
  assert (TH : 0 < nel_mp_cl_th s) by (rewrite SZ2; apply Rmult_lt_0_compat; lra).
  assert (SI : sizes_ok s' /\ nel_mp_ref_0 s <= nel_mp_ref s').
  { unfold sizes_ok. destruct (Nat.eq_dec (N_mp s') 0) as [Z|Z].
    - destruct (B Z) as (B1 & B2 & B3). rewrite B1, B2, B3, D4, D5. split; auto; lra.
    - destruct (A Z) as (B1 & B2 & B3). rewrite B1, B2, B3, D4, D5. split; auto; lra. }
  assert (SUB : forall p, In p (live s') -> In p (live s) /\ nel_mp_cl_th s <= m_nel p).
  { intros p. rewrite L. rewrite filter_In. intros [H1 H2]. split; auto. unfold keep_mp in H2. apply Rleb_true in H2. auto. }
  rewrite Forall_forall in IN, PO. split.
  - destruct SI. constructor; auto; try congruence.
    + rewrite D3. lra.
    + apply Forall_forall. intros p Hp. apply IN, SUB, Hp.
    + apply Forall_forall. intros p Hp. apply PO, SUB, Hp.
  - apply Forall_forall. intros p Hp. destruct (SUB p Hp). lra.
Qed.

Lemma Forall2_right {A B} (P : A -> B -> Prop) l m y : Forall2 P l m -> In y m -> exists x, P x y.
Proof. induction 1 as [|a b l m P1 F IH]; intros H; [destruct H|]. destruct H as [<-|H]; eauto. Qed.

Lemma regen_sound e c fuel k s s' k' : chamber_ok e -> set_ok e c -> sound e c s ->
  check_for_regeneration fuel fuel (a_regen c) (e_cham e) (s_uni (e_sr e)) k s = Some (s', k') -> sound e c s' /\ (strict s -> strict s').
Proof.
  intros [HW HS HA HR] [_ _ _ _ _ _ SH SC SA _] SO H. destruct (regen_needed (a_regen c) s) eqn:RN.
  - destruct SO as [W TZ KL [SZ1 SZ2] FS FC R0 IN PO].
    destruct (regen_main fuel fuel (a_regen c) (e_cham e) (s_uni (e_sr e)) k s s' k' W TZ) as (x_max & d & owners & M); auto.
    { intros i. apply HR. }
    { lra. }
    { rewrite Forall_forall in *. intros p Hp. split; auto. apply (HA (m_x p) (m_y p)). apply IN, Hp. }
    cbv zeta in M. destruct M as (_ & M1 & M2 & (D1 & D2 & D3 & D4 & D5) & M4 & M5 & M6 & _).
    set (ref := Rmax (nel_mp_ref_0 s) (charge s / INR (N_mp_after_regen (a_regen c)))) in *.
    assert (RF : nel_mp_ref_0 s <= ref) by apply Rmax_l.
    assert (ALL : forall p, In p (live s') -> w_out (e_wall e) (m_x p) (m_y p) = false /\ 0 < m_nel p).
    { intros p Hp. destruct (Forall2_right _ _ _ (if flag_lifetime_hist s then p else forget_t p) M6) as (o & RG).
      { apply in_map_iff. exists p. auto. }
      destruct RG as (_ & RI & RN' & _). unfold inside in RI. rewrite HS in RI. destruct (flag_lifetime_hist s); cbn in *; split; auto; lra. }
    split.
    + constructor; auto; try congruence.
      * rewrite D3, M1. lra.
      * apply Forall_forall. intros p Hp. apply ALL, Hp.
      * apply Forall_forall. intros p Hp. apply Rlt_le, ALL, Hp.
    + intros _. apply Forall_forall. intros p Hp. apply ALL, Hp.
  - unfold check_for_regeneration in H. rewrite RN in H. injection H as <- _. auto.
Qed.

Lemma soft_sound e c target rng k s s' k' : (0 < target)%nat -> sound e c s -> strict s ->
  perform_soft_regeneration target rng k s = Some (s', k') -> sound e c s' /\ strict s'.
Proof.
  intros TP SO ST H. destruct (Nat.lt_ge_cases target (N_mp s)) as [Lt|Ge]; [|rewrite soft_noop in H by auto; injection H as <- _; auto].
  destruct SO as [W TZ KL SZ FS FC R0 IN PO].
  destruct (soft_spec target rng k s W Lt) as (s2 & E & L & W2 & T2 & (D1 & D2 & D3 & D4 & D5) & RF & SZ2).
  rewrite H in E. injection E as <- _. set (m := soft_mask rng k target s) in *.
  set (f := rsum (nel_mp s) / rsum (map m_nel (mask_get m (live s)))) in *.
  assert (ALL : forall p, In p (live s') -> w_out (e_wall e) (m_x p) (m_y p) = false /\ 0 < m_nel p).
  { intros p Hp. rewrite L in Hp. apply in_map_iff in Hp. destruct Hp as (q & <- & Hq).
    assert (Hl := mask_get_In _ _ _ Hq). unfold strict in ST. rewrite Forall_forall in IN, ST. cbn [scale_nel m_x m_y m_nel]. split; [auto|].
    assert (F : 0 < f).
    { unfold f. rewrite rsum_all_tail_zero by auto. unfold Rdiv. apply Rmult_lt_0_compat.
      - unfold charge. apply rsum_pos; [|apply Forall_map, Forall_forall; auto].
        intros Z. apply map_eq_nil in Z. rewrite Z in Hl. destruct Hl.
      - apply Rinv_0_lt_compat, rsum_pos; [|apply Forall_map, Forall_forall; intros r Hr; apply ST; eapply mask_get_In; eauto].
        intros Z. apply map_eq_nil in Z. rewrite Z in Hq. destruct Hq. }
    apply Rmult_lt_0_compat; auto. }
  split.
  - constructor; auto; try congruence.
    + rewrite D3, RF. split; [lra|]. unfold new_ref. destruct (Rltb _ _) eqn:Q; [lra|]. apply Rltb_false in Q. lra.
    + apply Forall_forall. intros p Hp. apply ALL, Hp.
    + apply Forall_forall. intros p Hp. apply Rlt_le, ALL, Hp.
  - apply Forall_forall. intros p Hp. apply ALL, Hp.
Qed.

Lemma clean_one_sound e a new c k s s' k' : chamber_ok e -> set_ok e c -> args_ok a -> sound e c s ->
  clean_one e a new c k s = Some (s', k') -> sound e c s'.
Proof.
  intros CO SE AO SO H. unfold clean_one in H.
  match type of H with bind ?x _ = _ => destruct x as [[s1 k1]|] eqn:E1 end; [|discriminate]. cbn [bind] in H.
  assert (S1 : sound e c s1).
  { destruct new; [|injection E1 as <- _; auto]. unfold args_ok in AO. destruct (s_noclean a).
    - rewrite AO in E1 by auto. cbn [bind] in E1. injection E1 as <- _. auto.
    - destruct (clean_small_MPs s) as [s2|] eqn:EC; [|discriminate]. cbn [bind] in E1. apply (clean_sound e c) in EC; auto. destruct EC as [C1 C2].
      destruct (s_noregen a); [injection E1 as <- _; auto|].
      destruct (check_for_regeneration _ _ _ _ _ _ _) as [[s3 k3]|] eqn:ER; [|discriminate]. cbn [bind] in E1.
      destruct (regen_sound _ _ _ _ _ _ _ CO SE C1 ER) as [R1 R2]. specialize (R2 C2).
      unfold check_for_soft_regeneration in E1. destruct (a_soft c) as [[n target]|] eqn:ES; [|injection E1 as <- _; auto].
      destruct (Nat.ltb n (N_mp s3)); [|injection E1 as <- _; auto].
      eapply soft_sound in E1; [apply E1| |exact R1|exact R2]. eapply (so_soft e c SE). left. exact ES. }
  unfold check_for_async_regeneration in H. destruct (a_async c) as [[n target]|] eqn:EA; [|injection H as <- _; auto].
  destruct (Nat.ltb n (N_mp s1)); [|injection H as <- _; auto].
  destruct (clean_small_MPs s1) as [s2|] eqn:EC; [|discriminate]. cbn [bind] in H. apply (clean_sound e c) in EC; auto. destruct EC as [C1 C2].
  destruct (Nat.ltb n (N_mp s2)); [|injection H as <- _; auto].
  eapply soft_sound in H; [apply H| |exact C1|exact C2]. eapply (so_soft e c SE). right. exact EA.
Qed.

Lemma clean_loop_sound e a new cl : chamber_ok e -> args_ok a -> forall k cl' k', Forall (sound_cloud e) cl ->
  clean_loop e a new k cl = Some (cl', k') -> Forall (sound_cloud e) cl'.
Proof.
  intros CO AO. induction cl as [|c cl IH]; intros k cl' k' F H; cbn [clean_loop] in H; [injection H as <- _; auto|].
  destruct (clean_one _ _ _ _ _ _) as [[s k1]|] eqn:E; [|discriminate]. cbn [bind] in H.
  destruct (clean_loop e a new k1 cl) as [[r k2]|] eqn:ER; [|discriminate]. cbn [bind] in H. injection H as <- _.
  inversion F as [|? ? [SE SO] F']; subst. constructor; [|eapply IH; eauto]. split; cbn [o_set o_mp]; auto.
  eapply clean_one_sound; eauto.
Qed.

(** * The clouds *)
Definition stepped (e : env) (main : tim) (secs : list tim) (c c' : cloud) : Prop :=
  o_set c' = o_set c /\ nel_mp_ref (o_mp c') = nel_mp_ref (o_mp c) /\
  exists prim mid, live (o_mp c') = mid ++ prim /\
    charge (o_mp c') = charge (o_mp c) - l_nimp (o_iman c') + l_nemit (o_iman c') + rsum (map m_nel prim) /\
    Forall (fun p => m_nel p = nel_mp_ref (o_mp c)) prim /\
    Rabs (rsum (map m_nel prim) - expected e main secs (o_set c)) <= INR (n_sources main secs (o_set c)) * nel_mp_ref (o_mp c).

Lemma clouds_full e a main secs sc cl : chamber_ok e -> Forall beam_ok (main :: secs) -> forall k full cl' k' full', Forall (sound_cloud e) cl ->
  clouds_loop e a main secs sc k full cl = Some (cl', k', full') -> full' = false ->
  full = false /\ Forall (sound_cloud e) cl' /\ Forall (fun c => is_full (o_mp c) = false) cl' /\ Forall2 (stepped e main secs) cl cl'.
Proof.
  intros CO BO. induction cl as [|c cl IH]; intros k full cl' k' full' F H HF; cbn [clouds_loop] in H; [injection H as <- _ <-; auto|].
  destruct (step_cloud _ _ _ _ _ _ _ _) as [[[c1 k1] f1]|] eqn:E; [|discriminate]. cbn [bind] in H.
  destruct (clouds_loop e a main secs sc k1 f1 cl) as [[[r k2] f2]|] eqn:ER; [|discriminate]. cbn [bind] in H. injection H as <- _ <-.
  inversion F as [|? ? SC F']; subst. destruct (IH _ _ _ _ _ F' ER eq_refl) as (I1 & I2 & I3 & I4). subst f1.
  destruct (step_cloud_sound _ _ _ _ _ _ _ _ _ _ _ CO BO SC E eq_refl) as (A1 & A2 & A3 & A4 & A5 & A6).
  split; auto. split; auto. split; auto. constructor; auto. unfold stepped. auto.
Qed.

Lemma names_x cl : map xc_name (map to_x cl) = map (fun c => a_name (o_set c)) cl.
Proof. rewrite map_map. reflexivity. Qed.

Definition crossed (c c' : cloud) : Prop :=
  o_set c' = o_set c /\ o_iman c' = o_iman c /\ exists cross, live (o_mp c') = live (o_mp c) ++ cross.

Lemma cross_sound e Dt x k cl x' cl' k' : 0 <= Dt -> (forall y, x = Some y -> targets_ok y /\ tables_ok y /\ prods_ok y) ->
  Forall (sound_cloud e) cl -> NoDup (map (fun c => a_name (o_set c)) cl) -> Forall (fun c => is_full (o_mp c) = false) cl ->
  cross_step e Dt x k cl = Some (x', cl', k') -> Forall (sound_cloud e) cl' /\ Forall2 crossed cl cl'.
Proof.
  intros D0 XO F ND NF H. unfold cross_step in H. destruct x as [x|].
  - destruct (cross_generate _ _ _ _ _ _) as [[[x1 xs] k1]|] eqn:E; [|discriminate]. cbn [bind] in H. injection H as _ <- _.
    destruct (XO x eq_refl) as (T1 & T2 & T3). apply generate_main in E; auto.
    + destruct E as (G & _).
      assert (PI : forall p, is_projectile x (map to_x cl) p -> w_out (e_wall e) (m_x p) (m_y p) = false).
      { intros p (n & c & _ & Hc & _ & q & Hq & Q1 & Q2 & _). apply in_map_iff in Hc. destruct Hc as (c0 & <- & Hc). rewrite Q1, Q2.
        rewrite Forall_forall in F. destruct (F _ Hc) as [_ S]. assert (SI := sd_in _ _ _ S). rewrite Forall_forall in SI. apply SI. exact Hq. }
      clear - PI G F. revert G. generalize (is_projectile x (map to_x cl)) PI. intros P HP. clear PI. revert xs.
      induction F as [|c cl [SE SO] F IH]; intros xs G; cbn [map] in G; inversion G as [|? y ? ys G1 G2]; subst; cbn [map2]; [auto|].
      destruct (IH _ G2) as [I1 I2]. destruct G1 as (_ & _ & W' & (D1 & D2 & D3 & D4 & D5) & (P1 & P2 & P3 & P4) & new & L & N & _).
      cbn [to_x xc_mp] in *. split; constructor; auto.
      * split; cbn [put_mp o_set o_mp]; auto. destruct SO as [W TZ KL [SZ1 SZ2] FS FC R0 IN PO]. constructor; auto; try congruence.
        -- unfold sizes_ok. rewrite P1, P2, P3, D4, D5. auto.
        -- rewrite L. apply Forall_app. split; auto. revert N. apply Forall_impl. intros p (Np & _). auto.
        -- rewrite L. apply Forall_app. split; auto. revert N. apply Forall_impl. intros p (_ & Np & _). lra.
      * unfold crossed. cbn [put_mp o_set o_mp o_iman]. eauto.
    + split; [rewrite names_x; auto|]. apply Forall_map. rewrite Forall_forall in *. intros c Hc. cbn [to_x xc_mp].
      destruct (F c Hc) as [_ [W TZ KL SZ FS FC R0 IN PO]]. split; auto. split; [apply not_full; auto|]. split; auto. lra.
  - injection H as _ <- _. split; auto. clear. induction cl as [|c cl IH]; constructor; auto. unfold crossed. split; auto. split; auto.
    exists []. rewrite app_nil_r. auto.
Qed.

Lemma recompute_frame p : forall cl before sc cl' sc', recompute_loop p before cl sc = (cl', sc') ->
  Forall2 (fun c c' => o_set c' = o_set c /\ o_mp c' = o_mp c /\ o_iman c' = o_iman c) cl cl'.
Proof.
  induction cl as [|c cl IH]; intros before sc cl' sc' H; cbn [recompute_loop] in H; [injection H as <- _; auto|].
  destruct (recompute_loop p _ cl _) as [r sc2] eqn:E. injection H as <- _. constructor; [cbn; auto|]. eapply IH; eauto.
Qed.

Lemma recompute_all_frame e t flag force cl sc cl' sc' : recompute_cloud_spacecharge e t flag force cl sc = (cl', sc') ->
  Forall2 (fun c c' => o_set c' = o_set c /\ o_mp c' = o_mp c /\ o_iman c' = o_iman c) cl cl'.
Proof.
  unfold recompute_cloud_spacecharge. destruct (_ || force); [apply recompute_frame|]. intros H. injection H as <- _.
  induction cl; constructor; auto.
Qed.

Lemma Forall2_sound e cl cl' : Forall2 (fun c c' => o_set c' = o_set c /\ o_mp c' = o_mp c /\ o_iman c' = o_iman c) cl cl' ->
  Forall (sound_cloud e) cl -> Forall (sound_cloud e) cl'.
Proof.
  induction 1 as [|c c' cl cl' (A & B & _) F IH]; intros G; auto. inversion G as [|? ? [SE SO] G']; subst. constructor; auto.
  unfold sound_cloud. rewrite A, B. auto.
Qed.

Lemma names_same cl cl' : map o_set cl' = map o_set cl -> map (fun c => a_name (o_set c)) cl' = map (fun c => a_name (o_set c)) cl.
Proof. intros H. rewrite <- (map_map o_set a_name), <- (map_map o_set a_name). congruence. Qed.

(** The step up to the saving of the output. *)
Lemma step_main_sound e a main secs m mid : chamber_ok e -> Forall beam_ok (main :: secs) -> xion_ok m -> sound_sim e m ->
  step_main e a main secs m = Some mid -> m_full mid = false ->
  m_full m = false /\ sound_sim e mid /\ Forall2 (balance e main secs) (m_clouds m) (m_clouds mid).
Proof.
  intros CO BO XO [F ND] H HF. unfold step_main in H. destruct (check_for_recomputation _ _) as [flag sc].
  destruct (clouds_loop _ _ _ _ _ _ _ _) as [[[cl k] full]|] eqn:EL; [|discriminate]. cbn [bind] in H.
  destruct (cross_step _ _ _ _ _) as [[[x cl2] k2]|] eqn:EX; [|discriminate]. cbn [bind] in H.
  destruct (recompute_cloud_spacecharge _ _ _ _ _ _) as [cl3 sc3] eqn:ER. injection H as <-. cbn [m_clouds m_full] in *.
  apply Bool.orb_false_iff in HF. destruct HF as [HF _].
  assert (FR := clouds_loop_frame _ _ _ _ _ _ _ _ _ _ _ EL). assert (FX := cross_step_frame _ _ _ _ _ _ _ _ EX).
  destruct (clouds_full _ _ _ _ _ _ CO BO _ _ _ _ _ F EL HF) as (A1 & A2 & A3 & A4).
  assert (N1 := names_same _ _ (proj1 FR)). assert (N2 := names_same _ _ (proj1 FX)).
  destruct (cross_sound e (ti_Dt main) (m_xion m) k cl x cl2 k2) as [B1 B2]; auto.
  { inversion BO as [|? ? [? ?] ?]; subst; auto. }
  { rewrite N1. auto. }
  assert (RF := recompute_all_frame _ _ _ _ _ _ _ _ ER). split; auto. split.
  - split; cbn [m_clouds]; [eapply Forall2_sound; eauto|].
    assert (S3 : map o_set cl3 = map o_set cl2).
    { clear - RF. induction RF as [|c c' l l' (A & _) F IH]; cbn; auto. congruence. }
    rewrite (names_same _ _ S3), N2, N1. auto.
  - clear - A4 B2 RF. revert cl2 B2 cl3 RF. induction A4 as [|c c1 l l1 ST F IH]; intros cl2 B2 cl3 RF; inversion B2 as [|? c2 ? l2 CR F2]; subst;
      inversion RF as [|? c3 ? l3 (R1 & R2 & R3) F3]; subst; constructor; [|eapply IH; eauto].
    destruct ST as (S1 & S2 & prim & mid & S3 & S4 & S5 & S6). destruct CR as (C1 & C2 & cross & C3).
    exists prim, cross. split.
    + rewrite R2, R3, C2. unfold charge in *. rewrite C3, map_app, rsum_app, S4. auto.
    + split; auto. split; auto. exists mid. rewrite R2, C3, S3, app_assoc. auto.
Qed.

Lemma step_sound e a main secs m m' : chamber_ok e -> args_ok a -> Forall beam_ok (main :: secs) -> xion_ok m -> sound_sim e m ->
  sim_time_step e a main secs m = Some m' -> m_full m' = false -> m_full m = false /\ sound_sim e m'.
Proof.
  intros CO AO BO XO SS H HF. unfold sim_time_step in H. destruct (step_main e a main secs m) as [mid|] eqn:EM; [|discriminate]. cbn [bind] in H.
  destruct (clean_loop _ _ _ _ _) as [[cl k]|] eqn:EC; [|discriminate]. cbn [bind] in H. injection H as <-. cbn [m_full] in HF.
  destruct (step_main_sound _ _ _ _ _ _ CO BO XO SS EM HF) as (A1 & [A2 A3] & _). split; auto. split; cbn [m_clouds].
  - eapply clean_loop_sound; eauto.
  - destruct (clean_loop_frame _ _ _ _ _ _ _ EC) as (S & _). rewrite (names_same _ _ S). auto.
Qed.

Lemma run_sound e l : chamber_ok e -> Forall (fun q => args_ok (fst (fst q)) /\ Forall beam_ok (snd (fst q) :: snd q)) l ->
  forall m ms, sound_sim e m -> sim_run e l m = Some ms ->
  Forall xion_ok (m :: ms) -> Forall (fun m => m_full m = false) ms -> Forall (sound_sim e) ms.
Proof.
  intros CO. induction 1 as [|[[a main] secs] l [AO BO] F IH]; intros m ms SS H XO NF; cbn [sim_run] in H; [injection H as <-; auto|].
  destruct (sim_time_step e a main secs m) as [m1|] eqn:E1; [|discriminate]. cbn [bind] in H.
  destruct (sim_run e l m1) as [r|] eqn:ER; [|discriminate]. cbn [bind] in H. injection H as <-.
  inversion XO as [|? ? X1 X2]; inversion NF; subst. cbn [fst snd] in *.
  destruct (step_sound _ _ _ _ _ _ CO AO BO X1 SS E1) as [_ S1]; auto. constructor; auto. apply (IH m1); auto.
Qed.
