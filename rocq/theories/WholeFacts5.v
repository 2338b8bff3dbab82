(** Continued runs, and the output of a whole run. *)
From Coq Require Import String Lra Lia.
From Verif Require Import Num NumFacts MP SpecMP MPFacts TrigFacts Impact SpecImpact CrossIon SpecCrossIon Sim SpecSim SimFacts3 SimFacts5
  Saver SpecSaver SaverFacts6 SaverFacts8 SaverFacts9 Whole SpecWhole WholeFacts WholeFacts2 WholeFacts3 WholeFacts4.
Local Open Scope list_scope.
Local Open Scope R_scope.

(** * Cleaning a settled cloud *)
Lemma mask_first {A} n (l : list A) m : (n <= List.length l)%nat -> mask_get (repeat true n ++ repeat false m) l = firstn n l.
Proof.
  revert l. induction n as [|n IH]; intros l L; cbn [repeat app firstn]; [apply mask_get_false|].
  destruct l as [|a l]; cbn in L; [lia|]. cbn [mask_get firstn]. f_equal. apply IH. lia.
Qed.
Lemma compact_first n (l : list R) m : (n <= List.length l)%nat -> compact (repeat true n ++ repeat false m) n l = Some l.
Proof.
  intros L. unfold compact. rewrite mask_first by exact L. rewrite slice_set_exact by (rewrite ?firstn_length; lia).
  cbn [firstn app]. rewrite firstn_skipn. reflexivity.
Qed.
Lemma count_first n m : count_true (repeat true n ++ repeat false m) = n.
Proof. rewrite count_true_app, count_true_repeat_false. assert (E : count_true (repeat true n) = n) by (unfold count_true; induction n; cbn; auto). lia. Qed.

Lemma settled_clean s : wf s -> tail_zero s -> sizes_ok s -> Forall (fun p => nel_mp_cl_th s <= m_nel p) (live s) ->
  (N_mp s = 0%nat -> nel_mp_ref s = nel_mp_ref_0 s) -> clean_small_MPs s = Some s.
Proof.
  intros W T Z B R0. unfold clean_small_MPs. pose proof W as [W1 W2 W3 W4 W5 W6 W7 W8].
  assert (FL : slice_fill (map negb (map (fun q => Rltb q (nel_mp_cl_th s)) (nel_mp s))) (N_mp s)
      (Datatypes.length (map negb (map (fun q => Rltb q (nel_mp_cl_th s)) (nel_mp s)))) false = repeat true (N_mp s) ++ repeat false (capacity s - N_mp s)).
  { rewrite slice_fill_exact by (rewrite ?map_length; lia). rewrite !map_length, skipn_all2 by (rewrite !map_length; lia). rewrite app_nil_r, W6. f_equal.
    rewrite firstn_map, firstn_map. assert (LV : Forall (fun q => nel_mp_cl_th s <= q) (firstn (N_mp s) (nel_mp s))).
    { rewrite <- (map_nel_live s W). apply Forall_map. exact B. }
    assert (LL : Datatypes.length (firstn (N_mp s) (nel_mp s)) = N_mp s) by (rewrite firstn_length; lia).
    rewrite <- LL at 2. clear - LV. induction LV as [|q l H F IH]; cbn; [reflexivity|]. rewrite (proj2 (Rltb_false _ _) H). cbn. f_equal. exact IH. }
  cbv zeta. rewrite FL. unfold keep_masked. cbv zeta. rewrite count_first.
  rewrite !compact_first by (try rewrite W1; try rewrite W2; try rewrite W3; try rewrite W4; try rewrite W5; try rewrite W6; exact W8). cbn [bind].
  assert (NZ : slice_fill (nel_mp s) (N_mp s) (Datatypes.length (nel_mp s)) 0 = nel_mp s).
  { rewrite slice_fill_exact by lia. rewrite skipn_all. rewrite app_nil_r. apply eq_trans with (firstn (N_mp s) (nel_mp s) ++ skipn (N_mp s) (nel_mp s)); [|apply firstn_skipn]. f_equal.
    assert (LL : Datatypes.length (skipn (N_mp s) (nel_mp s)) = (Datatypes.length (nel_mp s) - N_mp s)%nat) by apply skipn_length.
    rewrite <- LL. assert (AZ : Forall (fun q => q = 0) (skipn (N_mp s) (nel_mp s))).
    { apply tail_zero_skipn; assumption. }
    clear - AZ. induction AZ as [|q l -> F IH]; cbn; [reflexivity|]. f_equal. exact IH. }
  rewrite NZ. assert (TT : (if true && flag_lifetime_hist s then Some (t_last_impact s) else Some (t_last_impact s)) = Some (t_last_impact s)) by (destruct (true && _); reflexivity).
  assert (LT : (N_mp s <= Datatypes.length (t_last_impact s))%nat) by (rewrite W7; exact W8).
  rewrite (compact_first (N_mp s) (t_last_impact s)) by exact LT. rewrite TT. cbn [bind N_mp nel_mp_ref_0].
  destruct (Nat.eqb_spec (N_mp s) 0) as [N0|N0]; [|destruct s; reflexivity]. specialize (R0 N0). destruct Z as [Z1 Z2].
  destruct s. unfold set_nel_mp_ref. cbn in *. subst. reflexivity.
Qed.

Lemma settled_one e a new c k s : settled c s -> clean_one e a new c k s = Some (s, k).
Proof.
  intros [W T Z B R0 MX MN SO AS]. unfold clean_one. cbv zeta.
  assert (X : (if new then do s0 <- (if s_noclean a then Some s else clean_small_MPs s) ;
      if s_noregen a then Some (s0, k) else do (s1, k0) <- check_for_regeneration (e_fuel e) (e_fuel e) (a_regen c) (e_cham e) (Sey.s_uni (e_sr e)) k s0 ;
      check_for_soft_regeneration (a_soft c) (Sey.s_uni (e_sr e)) k0 s1 else Some (s, k)) = Some (s, k)).
  { destruct new; [|reflexivity]. rewrite (settled_clean s W T Z B R0).
    replace (if s_noclean a then Some s else Some s) with (Some s) by (destruct (s_noclean a); reflexivity). cbn [bind].
    destruct (s_noregen a); [reflexivity|]. unfold check_for_regeneration, regen_needed.
    rewrite (proj2 (Nat.ltb_ge _ _) MX). cbn [orb].
    assert (Y : Nat.ltb (N_mp s) (N_mp_regen_low (a_regen c)) && Rgtb (nel_mp_ref s) (nel_mp_ref_0 s) = false).
    { destruct MN as [L|L]; [rewrite (proj2 (Nat.ltb_ge _ _) L); reflexivity|]. rewrite (proj2 (Rgtb_false _ _) L). apply Bool.andb_false_r. }
    rewrite Y. cbn [bind]. apply soft_below. destruct (a_soft c) as [[n t]|] eqn:E; [|exact I]. exact (SO n t eq_refl). }
  rewrite X. cbn [bind]. apply async_below. destruct (a_async c) as [[n t]|] eqn:E; [|exact I]. exact (AS n t eq_refl).
Qed.

Lemma settled_loop e a new : forall cl k, Forall (fun c => settled (o_set c) (o_mp c)) cl -> clean_loop e a new k cl = Some (cl, k).
Proof.
  induction cl as [|c cl IH]; intros k F; cbn [clean_loop]; [reflexivity|]. inversion F as [|? ? A B]; subst.
  rewrite (settled_one _ _ _ _ _ _ A). cbn [bind]. rewrite (IH k B). cbn [bind]. destruct c; reflexivity.
Qed.

(** * Loading *)
Lemma replace_same : forall cl sv, List.length cl = List.length sv -> replace_clouds cl sv = Some sv.
Proof. induction cl as [|c cl IH]; intros [|d sv] L; cbn in L; try discriminate; [reflexivity|]. cbn [replace_clouds]. rewrite IH by lia. reflexivity. Qed.
Lemma replace_more : forall cl sv, (List.length sv < List.length cl)%nat -> replace_clouds cl sv = None.
Proof. induction cl as [|c cl IH]; intros [|d sv] L; cbn in L; try lia; [reflexivity|]. cbn [replace_clouds]. rewrite IH by lia. reflexivity. Qed.

Lemma load_is mid tEn m0 : List.length (m_clouds m0) = List.length (m_clouds mid) ->
  load_state (checkpoint_of mid tEn) m0 = Some (mkSim (m_clouds mid) (m_sc mid) (m_xion m0) (m_k m0) (m_full m0)).
Proof. intros L. unfold load_state, checkpoint_of. cbn [sv_clouds sv_sc]. rewrite (replace_same _ _ L). reflexivity. Qed.

Lemma load_continues e y a main secs pass m rs mid m1 rs1 m0 tEn :
  whole_step e y a main secs pass m rs = Some (mid, m1, rs1) -> Forall (fun c => settled (o_set c) (o_mp c)) (m_clouds mid) ->
  List.length (m_clouds m0) = List.length (m_clouds mid) -> m_xion m0 = m_xion mid -> m_k m0 = m_k m1 -> m_full m0 = m_full m1 ->
  load_state (checkpoint_of mid tEn) m0 = Some m1.
Proof.
  intros H SE L X K FU. rewrite (load_is _ _ _ L). destruct (whole_step_mid _ _ _ _ _ _ _ _ _ _ _ H) as (m2 & _ & _ & _ & FM & cl & k & C & ->).
  rewrite (settled_loop _ _ _ _ _ SE) in C. injection C as <- <-. cbn [m_k m_full] in *. rewrite X, K, FU. reflexivity.
Qed.

(** * Output *)
Lemma whole_sound e y : chamber_ok e -> forall l m rs tr rs1, Forall (fun q => args_ok (q_args q) /\ Forall beam_ok (q_main q :: q_secs q)) l ->
  sound_sim e m -> whole_run e y l m rs = Some (tr, rs1) -> Forall xion_ok (m :: map snd tr) -> Forall (fun p => m_full (snd p) = false) tr ->
  Forall (fun p => sound_sim e (fst p) /\ sound_sim e (snd p)) tr.
Proof.
  intros CO. induction l as [|q l IH]; intros m rs tr rs1 OK SS H XO NF; cbn [whole_run] in H; [injection H as <- <-; constructor|].
  destruct (whole_step e y (q_args q) (q_main q) (q_secs q) (q_pass q) m rs) as [[[mid m1] ra]|] eqn:E1; cbn [bind] in H; [|discriminate].
  destruct (whole_run e y l m1 ra) as [[t1 r1]|] eqn:E3; cbn [bind] in H; [|discriminate]. injection H as <- <-.
  inversion OK as [|? ? [AO BO] OK']; subst. cbn [map snd] in XO, NF. inversion XO as [|? ? X1 X2]; subst. inversion NF as [|? ? N1 N2]; subst. cbn [snd] in N1.
  destruct (whole_step_mid _ _ _ _ _ _ _ _ _ _ _ E1) as (m0 & A & B & F1 & F2 & cl & k & C & EQ).
  assert (M0 : m_full m0 = false) by congruence.
  destruct (step_main_sound _ _ _ _ _ _ CO BO X1 SS A M0) as (_ & [S1 S2] & _).
  unfold whole_step in E1. rewrite A in E1. cbn [bind] in E1.
  destruct (save_output y (q_main q) (q_pass q) m0 rs (m_clouds m0)) as [[rb ca]|] eqn:E; cbn [bind] in E1; [|discriminate].
  destruct (clean_loop e (q_args q) (ti_new (q_main q)) (m_k m0) ca) as [[cb k2]|] eqn:C2; cbn [bind] in E1; [|discriminate]. injection E1 as <- <- <-.
  assert (KP := save_kept _ _ _ _ _ _ _ _ E). assert (SM := save_output_same _ _ _ _ _ _ _ _ E).
  assert (SA : Forall (sound_cloud e) ca).
  { clear - KP SM S1. revert KP SM. induction S1 as [|c cl SC F IH] in ca |- *; intros KP SM; inversion KP as [|? d ? ? [P1 P2] P3]; subst; [constructor|].
    inversion SM as [|? ? ? ? (_ & Q1 & _) Q2]; subst. constructor; [|apply IH; auto]. destruct SC as [Y1 Y2]. split; [rewrite P1; exact Y1|rewrite P1, <- Q1; exact Y2]. }
  assert (NA : map (fun c => a_name (o_set c)) ca = map (fun c => a_name (o_set c)) (m_clouds m0)).
  { clear - KP. induction KP as [|c d l l' [P1 P2] F IH]; cbn; [reflexivity|]. rewrite P1, IH. reflexivity. }
  assert (SB : sound_sim e (mkSim cb (m_sc m0) (m_xion m0) k2 (m_full m0))).
  { split; cbn [m_clouds].
    - eapply clean_loop_sound; eauto.
    - destruct (clean_loop_frame _ _ _ _ _ _ _ C2) as (S & _). rewrite (names_same _ _ S), NA. exact S2. }
  constructor; [cbn [fst snd]; split; [split; cbn [m_clouds]; [exact SA|rewrite NA; exact S2]|exact SB]|]. eapply IH; eauto.
Qed.

Lemma shown_shape e y j : forall l m rs tr rs1 c steps r, whole_run e y l m rs = Some (tr, rs1) -> nth_error rs j = Some (Some r) -> nth_error (m_clouds m) j = Some c ->
  shown_run e y j l (m :: map snd tr) = Some steps -> Forall (fun st : step => same_shape (o_iman c) (snd st)) steps.
Proof.
  induction l as [|q l IH]; intros m rs tr rs1 c steps r H R C SR; cbn [whole_run] in H; [injection H as <- <-; cbn in SR; injection SR as <-; constructor|].
  destruct (whole_step e y (q_args q) (q_main q) (q_secs q) (q_pass q) m rs) as [[[mid m1] ra]|] eqn:E1; cbn [bind] in H; [|discriminate].
  destruct (whole_run e y l m1 ra) as [[t1 r1]|] eqn:E3; cbn [bind] in H; [|discriminate]. injection H as <- <-.
  destruct (whole_step_nth _ _ _ _ _ _ _ _ _ _ _ _ _ _ E1 R C) as (st & s & g & f & c1 & cm & A & W & RA & CA & I & CM & OM & OS).
  cbn [map snd shown_run] in SR. replace (shown e y j q m) with (Some st) in SR by (destruct q; symmetry; exact A). cbn [bind] in SR.
  destruct (shown_run e y j l (m1 :: map snd t1)) as [ss|] eqn:E4; cbn [bind] in SR; [|discriminate]. injection SR as <-.
  assert (SH : same_shape (o_iman c) (snd st)).
  { unfold shown in A. cbn [q_args q_main q_secs q_pass] in A. destruct (step_main e (q_args q) (q_main q) (q_secs q) m); cbn [bind] in A; [|discriminate].
    destruct (nth_error (m_clouds s0) j); cbn [bind] in A; [|discriminate].
    destruct (step_main e (q_args q) (q_main q) (q_secs q) (emptied m)) as [m2|] eqn:E5; cbn [bind] in A; [|discriminate].
    destruct (nth_error (m_clouds m2) j) as [d|] eqn:E6; cbn [bind] in A; [|discriminate]. injection A as <-. cbn [snd].
    apply step_main_kept in E5. cbn [emptied m_clouds] in E5. eapply shape_trans; [apply blank_shape|].
    clear - E5 E6 C. revert E5 E6 C. generalize (m_clouds m2). generalize (m_clouds m). intros cl dl F. revert j.
    remember (map (fun c => with_iman c (blank (o_iman c))) cl) as el. revert cl Heqel. induction F as [|u v el dl [_ P] F IH]; intros [|x cl] EQ [|j] D C; cbn in *; try discriminate.
    - injection EQ as -> EQ. injection D as ->. injection C as ->. exact P.
    - injection EQ as _ EQ. eapply IH; eauto. }
  constructor; [exact SH|]. specialize (IH _ _ _ _ _ _ _ E3 RA CA E4). eapply Forall_impl; [|exact IH]. intros x X. eapply shape_trans; [|exact X].
  rewrite I. apply witness_shape in W. eapply shape_trans; [|exact W]. shape SH. unfold same_shape, feed. cbn. rewrite !ladd_len by auto.
  repeat (split; [auto|]). rewrite <- S10. clear - S10. revert S10. generalize (g_seglines (snd st)). generalize (g_seglines (o_iman c)). intros a. induction a as [|u a IH]; intros [|v b] L; cbn [map map2] in *; try discriminate; [reflexivity|].
  injection L as L0 L. rewrite ladd_len by auto. f_equal. apply IH; exact L.
Qed.

Lemma output_main e y l m rs tr rs1 j k c w n : chamber_ok e -> Forall (fun q => args_ok (q_args q) /\ Forall beam_ok (q_main q :: q_secs q)) l ->
  sound_sim e m -> whole_run e y l m rs = Some (tr, rs1) -> Forall xion_ok (m :: map snd tr) -> Forall (fun p => m_full (snd p) = false) tr ->
  nth_error (m_clouds m) j = Some k -> o_iman k = blank w -> nth_error rs j = Some (Some (mkRecorder c (start_observing c n) None)) ->
  cfg_ok c -> widths_ok c w -> (0 < n)%nat -> (forall x y, w_out (e_wall e) x y = false -> k_bias (c_ic c) <= x) ->
  exists steps r1 g, shown_run e y j l (m :: map snd tr) = Some steps /\ nth_error rs1 j = Some (Some r1) /\
    started c w n steps = Some (r_st r1, g, r_file r1) /\ Forall (step_ok c w) steps /\
    Forall2 (fun p (st : step) => exists cm, nth_error (m_clouds (fst p)) j = Some cm /\ o_mp cm = ob_mp (fst st) /\ o_set cm = o_set k) tr steps.
Proof.
  intros CO OK SS H XO NF C IM R CF WI N0 BI.
  destruct (whole_run_nth _ _ _ _ _ _ _ _ _ _ H R C) as (steps & r1 & c1 & A & B & D & E & F & G). cbn [r_cfg r_st r_file] in *.
  exists steps, r1, (o_iman c1). split; [exact A|]. split; [exact B|]. split; [unfold started; rewrite IM in F; exact F|]. split; [|exact G].
  assert (SH := shown_shape _ _ _ _ _ _ _ _ _ _ _ H R C A).
  assert (SO := whole_sound _ _ CO _ _ _ _ _ OK SS H XO NF).
  assert (Q : Forall (fun st : step => wf (ob_mp (fst st)) /\ Forall (fun p => k_bias (c_ic c) <= m_x p) (live (ob_mp (fst st)))) steps).
  { clear - G SO BI. induction G as [|p st tr steps (cm & X1 & X2 & X3) G IH]; [constructor|]. inversion SO as [|? ? [Y1 _] Y2]; subst. constructor; [|auto].
    destruct Y1 as [Y1 _]. rewrite Forall_forall in Y1. destruct (Y1 cm (nth_error_In _ _ X1)) as [_ SD]. rewrite <- X2.
    split; [exact (sd_wf _ _ _ SD)|]. eapply Forall_impl; [|exact (sd_in _ _ _ SD)]. intros p0 P. eapply BI; exact P. }
  rewrite Forall_forall in SH, Q |- *. intros st Hs. destruct (Q st Hs) as [Q1 Q2]. split; [exact Q1|]. split; [exact Q2|].
  eapply shape_trans; [|exact (SH st Hs)]. rewrite IM. apply blank_shape.
Qed.

Lemma output_samples e y l m rs tr rs1 j k c w n : chamber_ok e -> Forall (fun q => args_ok (q_args q) /\ Forall beam_ok (q_main q :: q_secs q)) l ->
  sound_sim e m -> whole_run e y l m rs = Some (tr, rs1) -> Forall xion_ok (m :: map snd tr) -> Forall (fun p => m_full (snd p) = false) tr ->
  nth_error (m_clouds m) j = Some k -> o_iman k = blank w -> nth_error rs j = Some (Some (mkRecorder c (start_observing c n) None)) ->
  cfg_ok c -> widths_ok c w -> (0 < n)%nat -> (forall x y, w_out (e_wall e) x y = false -> k_bias (c_ic c) <= x) ->
  exists steps r1 d gs rest, shown_run e y j l (m :: map snd tr) = Some steps /\ nth_error rs1 j = Some (Some r1) /\
    Forall2 (fun p (st : step) => exists cm, nth_error (m_clouds (fst p)) j = Some cm /\ o_mp cm = ob_mp (fst st) /\ o_set cm = o_set k) tr steps /\
    build_outp_dict c (r_st r1) = Some d /\ steps = concat gs ++ rest /\ groups (sample_due c) (-1) gs rest /\
    (forall nm f, In (nm, f) (columns c ++ custom_columns c) -> get d nm = Some (VArr (map f gs))).
Proof.
  intros CO OK SS H XO NF C IM R CF WI N0 BI.
  destruct (output_main _ _ _ _ _ _ _ _ _ _ _ _ CO OK SS H XO NF C IM R CF WI N0 BI) as (steps & r1 & g & A & B & ST & SO & F).
  destruct (run_samples c w n steps CF WI N0 SO) as (s & g' & file & d & gs & rest & S1 & S2 & S3 & S4 & S5 & _).
  rewrite ST in S1. injection S1 as <- _ _. exists steps, r1, d, gs, rest. auto 10.
Qed.

(** The charge book of a step as it is recorded. *)
Lemma shown_balance e y j q m st c : chamber_ok e -> Forall beam_ok (q_main q :: q_secs q) -> xion_ok m -> sound_sim e m -> shown e y j q m = Some st ->
  nth_error (m_clouds m) j = Some c -> (forall m1, step_main e (q_args q) (q_main q) (q_secs q) m = Some m1 -> m_full m1 = false) ->
  exists prim cross,
    charge (ob_mp (fst st)) = charge (o_mp c) - l_nimp (snd st) + l_nemit (snd st) + rsum (map m_nel prim) + rsum (map m_nel cross) /\
    Rabs (rsum (map m_nel prim) - expected e (q_main q) (q_secs q) (o_set c)) <= INR (n_sources (q_main q) (q_secs q) (o_set c)) * nel_mp_ref (o_mp c) /\
    exists mid, live (ob_mp (fst st)) = mid ++ prim ++ cross.
Proof.
  intros CO BO XO SS H C NF. unfold shown in H. destruct (step_main e (q_args q) (q_main q) (q_secs q) m) as [m1|] eqn:E1; cbn [bind] in H; [|discriminate].
  destruct (nth_error (m_clouds m1) j) as [c1|] eqn:E2; cbn [bind] in H; [|discriminate].
  destruct (step_main e (q_args q) (q_main q) (q_secs q) (emptied m)) as [m2|] eqn:E3; cbn [bind] in H; [|discriminate].
  destruct (nth_error (m_clouds m2) j) as [d|] eqn:E4; cbn [bind] in H; [|discriminate]. injection H as <-. cbn [fst snd observe ob_mp].
  destruct (step_main_sound _ _ _ _ _ _ CO BO XO SS E1 (NF _ eq_refl)) as (_ & _ & BA).
  assert (L : o_iman c1 = feed (o_iman c) (o_iman d)).
  { rewrite step_main_lin, E3 in E1. cbn [option_map] in E1. injection E1 as <-. cbn [fed_sim m_clouds] in E2. apply nth_map2 in E2.
    destruct E2 as (g & d' & A1 & A2 & ->). rewrite E4 in A2. injection A2 as <-. rewrite nth_error_map, C in A1. injection A1 as <-. reflexivity. }
  assert (B : balance e (q_main q) (q_secs q) c c1).
  { clear - BA C E2. revert j C E2. induction BA as [|u v l l' P F IH]; intros [|j] C E2; cbn in *; try discriminate; [congruence|eauto]. }
  destruct B as (prim & cross & B1 & _ & B2 & B3). rewrite L in B1. cbn [feed l_nimp l_nemit] in B1. exists prim, cross. auto.
Qed.
