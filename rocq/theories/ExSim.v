(** Concrete cases for the time step. *)
From Coq Require Import String Lra Lia.
From Verif Require Import Num NumFacts MP SpecMP MPFacts MPFacts2 SpecRegen RegenFacts Push SpecPush PushFacts Geom SpecGeom GeomFacts Poly
  Sey SpecSey SeyFacts SeyFacts2 SeyFacts3 ExSey Impact SpecImpact ImpactFacts ImpactFacts2 ImpactFacts3 ImpactFacts5 ExImpact Beam SpecBeam BeamFacts ExBeam
  Source SpecSource ExSource CrossIon SpecCrossIon Sim SpecSim SimFacts SimFacts2 SimFacts3 SimFacts4 SimFacts5 SimFacts6.
Local Open Scope list_scope.
Local Open Scope R_scope.

(** * A cloud in free flight in front of an absorbing wall always makes its step *)
Section Quiet.
Context (e : env) (main : tim) (secs : list tim) (sc : spch).
Hypothesis CO : chamber_ok e.
Hypothesis NF : no_field sc main secs.
Hypothesis UN : ti_unif main = true.
Hypothesis RI : e_reinterp e = false.

(** Emission that always answers and adds no macroparticles (for impacts on
    the only segment of the wall). *)
Hypothesis SG : forall ks hs, w_hit (e_wall e) ks = Some hs -> Forall (fun h => snd h = 0%nat) hs.
Definition tame (c : cloud) : Prop := forall th fs ps k, Forall (fun p => i_seg p = 0%nat) ps ->
  exists em st, a_em (o_set c) th fs ps (k, o_Q c) = Some (em, st) /\ Sey.n_nel em = [].
Lemma no_news em t : Sey.n_nel em = [] -> news em t = [].
Proof.
  intros E. unfold news. rewrite E. cbn [List.length repeat]. destruct (Sey.n_x em), (Sey.n_y em), (Sey.n_z em), (Sey.n_vx em), (Sey.n_vy em), (Sey.n_vz em); reflexivity.
Qed.
Lemma only_seg ks hs c l ps : w_hit (e_wall e) ks = Some hs ->
  Forall2 (fun hm q => impact_of c (fst hm) (snd hm) q) (combine hs l) ps -> Forall (fun p => i_seg p = 0%nat) ps.
Proof.
  intros H F. apply SG in H. assert (G : Forall (fun h : hit * nat => snd h = 0%nat) (map fst (combine hs l))).
  { clear F. revert l. induction H as [|h0 hs0 H0 H1 IH0]; intros [|m l]; cbn; constructor; auto. }
  clear H. induction F as [|u p a b I F IH]; constructor; cbn [map] in G; inversion G; subst; auto.
  destruct I as (_ & _ & _ & _ & _ & _ & _ & _ & _ & -> & _). auto.
Qed.

Definition quiet (c : cloud) : Prop :=
  sound_cloud e c /\ tame c /\ a_gas (o_set c) = None /\ a_photo (o_set c) = NoPhoto /\
  drifts (a_dyn (o_set c)) /\ ti_Dt main = d_Dt (a_dyn (o_set c)) /\ d_Nsub (a_dyn (o_set c)) <> Some 0%nat /\
  hist_ok (e_wall e) (a_icfg (o_set c)) (o_iman c) /\ k_life (a_icfg (o_set c)) = false /\ k_seg (a_icfg (o_set c)) = false /\
  (N_mp (o_mp c) < capacity (o_mp c))%nat.

Lemma quiet_motion c : quiet c -> exists s1, cloud_motion e no_args main secs sc (o_set c) (o_mp c) = Some s1 /\
  Forall2 (drifted (ti_Dt main)) (live (o_mp c)) (live s1).
Proof.
  intros ((SO & SD) & _ & _ & _ & D & EQ & N0 & _). assert (W := sd_wf _ _ _ SD).
  assert (X : exists s1, cloud_motion e no_args main secs sc (o_set c) (o_mp c) = Some s1).
  { unfold cloud_motion, sub_steps. cbn [s_Nsub no_args s_kick s_force_re]. rewrite UN, RI. cbn [negb orb]. destruct D as [D1 D2].
    destruct (d_Nsub (a_dyn (o_set c))) as [n|] eqn:EN.
    - destruct (Nat.eqb_spec n 0); [subst; congruence|]. cbn [bind].
      edestruct (loop_drift (fun E s => d_custom (a_dyn (o_set c)) E (d_Dt (a_dyn (o_set c)) / INR n) n s)) as (s1 & E1 & _);
        [exact NF|intros E s Z W'; apply D2; auto; discriminate|exact W|exists s1; exact E1].
    - cbn [bind]. edestruct (loop_drift (d_step (a_dyn (o_set c)))) as (s1 & E1 & _); [exact NF|exact D1|exact W|exists s1; exact E1]. }
  destruct X as (s1 & E1). exists s1. split; auto.
  eapply motion_drift; try exact E1; auto. rewrite UN. discriminate.
Qed.

Lemma quiet_step k full c : quiet c -> exists c' k', step_cloud e no_args main secs sc k full c = Some (c', k', full) /\
  (N_mp (o_mp c') < capacity (o_mp c'))%nat /\ N_mp (o_mp c') = N_mp (o_mp c).
Proof.
  intros Q. destruct (quiet_motion c Q) as (s1 & E1 & DR). destruct Q as ((SO & SD) & EM & EG & EP & D & EQ & N0 & HO & KL & KS & NC).
  unfold step_cloud. rewrite E1. cbn [bind].
  destruct (motion_moved _ _ _ _ _ _ _ _ (so_step _ _ SO) (so_cust _ _ SO) E1) as [gm MV].
  destruct SD as [W TZ LI [SZ1 SZ2] FS FC R0 IN PO].
  destruct (moves_facts gm _ s1 W MV) as (W1 & (C1 & C2 & C3 & C4 & C5) & N1 & NL & Q1 & Q2 & Q3).
  rewrite get_positions_live by auto.
  assert (OS := positions_sized (o_mp c) s1 N1). assert (OI := positions_inside (e_wall e) (o_mp c) IN).
  assert (SP : 0 < nel_mp_split s1) by (rewrite Q2, SZ1; apply Rmult_lt_0_compat; lra).
  assert (KL1 : k_life (a_icfg (o_set c)) = flag_lifetime_hist s1) by congruence.
  assert (HE := so_em _ _ SO).
  assert (HV : Forall (fun p => m_vx p * m_vx p + m_vy p * m_vy p + m_vz p * m_vz p <> 0) (hitters (e_wall e) s1)).
  { unfold hitters. apply Forall_forall. intros p Hp. apply filter_In in Hp. destruct Hp as [H1 H2]. intros Z.
    assert (V0 : m_vx p = 0 /\ m_vy p = 0 /\ m_vz p = 0).
    { assert (0 <= m_vx p * m_vx p) by apply Rle_0_sqr. assert (0 <= m_vy p * m_vy p) by apply Rle_0_sqr. assert (0 <= m_vz p * m_vz p) by apply Rle_0_sqr.
      assert (m_vx p * m_vx p = 0) by lra. assert (m_vy p * m_vy p = 0) by lra. assert (m_vz p * m_vz p = 0) by lra.
      repeat split; apply Rsqr_0_uniq; unfold Rsqr; auto. }
    clear - DR IN H1 H2 V0. induction DR as [|a b l l' Dab DR IH]; [destruct H1|]. inversion IN; subst. destruct H1 as [->|H1]; [|auto].
    destruct Dab as (A1 & A2 & A3 & A4 & A5 & A6 & A7). destruct V0 as (V1 & V2 & V3). unfold beyond_wall in H2.
    rewrite A1, A2, <- A4, <- A5, V1, V2, !Rmult_0_l, !Rplus_0_r in H2. congruence. }
  destruct (call_returns (e_wall e) (a_icfg (o_set c)) (a_em (o_set c)) (ti_t main) (positions (o_mp c)) (o_iman c) s1 (k, o_Q c)) as (g' & s' & [k' Qs] & BT & HN);
    auto; try congruence; try apply CO.
  { intros hs ps [ks HK] _ F. destruct (EM (nel_mp_split s1) (k_seg (a_icfg (o_set c))) ps k (only_seg _ _ _ _ _ HK F)) as (em & st & E2 & E3).
    exists em, st. split; [exact E2|]. rewrite E3. cbn. rewrite N1, C1. lia. }
  rewrite BT. cbn [bind fst snd]. unfold primary_generation. rewrite EG, EP. cbn [bind photo_step].
  assert (NN : N_mp s' = N_mp s1).
  { destruct (call_pieces _ _ _ _ _ _ _ _ _ _ _ (co_wall _ CO) HE W1 KL1 OS SP BT HN) as [(_ & _ & -> & _)|(_ & hs & ps & em & lh & g1 & g2 & WS & LH & LP & F & EO & L & _)]; auto.
    destruct WS as [B1 B2 B3 B4 B5 B6 B7 B8].
    destruct (EM (nel_mp_split s1) (k_seg (a_icfg (o_set c))) ps k (only_seg _ _ _ _ _ B1 F)) as (em1 & st1 & E2 & E3).
    assert (em1 = em) by congruence. subst em1.
    rewrite <- (live_length s'), L, app_length, mask_put_length, live_length. rewrite (no_news em _ E3). cbn. lia. }
  assert (CP := call_capacity _ _ _ _ _ _ _ _ _ _ _ W1 BT).
  assert (IF : is_full s' = false).
  { unfold is_full. apply Nat.leb_gt. rewrite CP, NN, N1. unfold capacity in C1, NC. lia. }
  rewrite IF, !Bool.orb_false_r. eexists _, _. split; [reflexivity|]. cbn [o_mp]. split; [|lia].
  unfold is_full in IF. apply Nat.leb_gt in IF. exact IF.
Qed.

Lemma quiet_loop : forall cl k full, Forall quiet cl -> exists cl' k', clouds_loop e no_args main secs sc k full cl = Some (cl', k', full) /\
  Forall (fun c => (N_mp (o_mp c) < capacity (o_mp c))%nat) cl' /\ map (fun c => N_mp (o_mp c)) cl' = map (fun c => N_mp (o_mp c)) cl /\ map o_set cl' = map o_set cl.
Proof.
  induction cl as [|c cl IH]; intros k full F; cbn [clouds_loop]; [exists [], k; auto|]. inversion F as [|? ? Q F']; subst.
  destruct (quiet_step k full c Q) as (c' & k' & E1 & N1 & N2). rewrite E1. cbn [bind].
  destruct (IH k' full F') as (cl' & k2 & E2 & F2 & M2 & M3). rewrite E2. cbn [bind]. exists (c' :: cl'), k2. split; auto. split; auto. cbn.
  destruct (step_cloud_frame _ _ _ _ _ _ _ _ _ _ _ E1) as (S & _). split; congruence.
Qed.
End Quiet.

(** * Two clouds in a round chamber *)
(** The solver of the example: one grid cell, no field. *)
Definition sPic : pic := mkPic (fun q l => [q * rsum (map snd l)]) (fun _ _ _ => (0, 0)).
Definition sRegen : regen_cfg := mkRegen 0 9 5 3 3 5 5 5 (hist_grid_len 1 1) (hist_grid_bias 1 1) 1 (1/10).
Definition sSet (name : string) (mass q : R) : cset :=
  mkCset name mass q (boris_dyn q mass (B_none 0 0 0) (3/2) 2) exC absorb_em (fun _ l => l) None 0 NoPhoto sRegen None None.
(** Electrons (one of them about to hit the wall) and an ion at rest. *)
Definition sIon : mpsys :=
  mkSys [1/4; 0] [0; 0] [0; 0] [0; 0] [0; 0] [0; 0] [2; 0] [0; 0] 1 false 1 (3/2) (1/10) 1 (3/2) (1/10).
Definition sE : cloud := mkCloud (sSet "electron" 1 (-1)) exS0 [0] exG [].
Definition sI : cloud := mkCloud (sSet "ion" 2000 1) sIon [0] exG [].
Definition sEnv : env := mkEnv exW exChamb true false 0 sPic exK ex_sr 0.
Definition sSc : spch := mkSpch (Some 1) (-10) false [0] (fun _ _ => (0, 0)).
Definition sM : sim := mkSim [sE; sI] sSc None 0 false.
Definition sBeam (t : R) : tim := mkTim t (3/2) (1/2) true true (get_beam_eletric_field (map34 (1/2))) 1 1 0 0.

Lemma sGrid : grid_size sPic 1.
Proof. intros q l. reflexivity. Qed.

Lemma sChamber : chamber_ok sEnv.
Proof.
  constructor; cbn [sEnv e_wall e_cham e_sr].
  - apply ell_wall_ok, exE_ok.
  - reflexivity.
  - intros x y H. apply exW_in in H. cbn. assert (0 <= y * y) by apply Rle_0_sqr. apply Rabs_le. nra.
  - exact ex_src_ok.
  - intros ks hs. apply (ell_normals exE (99/100) exE_ok).
Qed.

Lemma sSet_ok name mass q : 0 < mass -> set_ok sEnv (sSet name mass q).
Proof.
  intros HM. constructor; cbn [sSet a_em a_dyn a_gas a_photo a_icfg a_mass a_regen a_soft a_async].
  - apply absorb_em_ok.
  - apply absorb_em_pos.
  - apply (boris_motion q mass).
  - apply (boris_motion q mass).
  - discriminate.
  - exact I.
  - unfold hist_cfg_ok. cbn. repeat split; lra.
  - cbn. lra.
  - cbn. lia.
  - intros n t [K|K]; discriminate.
  - cbn. lra.
Qed.

Lemma sE_sound : sound_cloud sEnv sE.
Proof.
  split; [apply sSet_ok; lra|]. constructor; cbn [sE o_mp o_set sSet a_icfg sEnv e_wall].
  - constructor; cbn; auto.
  - intros i Hi. unfold capacity in Hi. cbn in Hi. assert (i = 2%nat) by lia. subst. reflexivity.
  - reflexivity.
  - split; cbn; lra.
  - cbn; lra.
  - cbn; lra.
  - cbn; lra.
  - repeat constructor; apply exW_in; cbn; lra.
  - repeat constructor; cbn; lra.
Qed.

Lemma sI_sound : sound_cloud sEnv sI.
Proof.
  split; [apply sSet_ok; lra|]. constructor; cbn [sI o_mp o_set sSet a_icfg sEnv e_wall].
  - constructor; cbn; auto.
  - intros i Hi. unfold capacity in Hi. cbn in Hi. assert (i = 1%nat) by lia. subst. reflexivity.
  - reflexivity.
  - split; cbn; lra.
  - cbn; lra.
  - cbn; lra.
  - cbn; lra.
  - repeat constructor; apply exW_in; cbn; lra.
  - repeat constructor; cbn; lra.
Qed.

Lemma sM_sound : sound_sim sEnv sM.
Proof.
  split; cbn [sM m_clouds]; [constructor; [exact sE_sound|constructor; [exact sI_sound|constructor]]|].
  cbn. constructor; [|constructor; [intros []|constructor]]. intros [K|[]]. discriminate.
Qed.

Lemma sBeam_ok t : Forall beam_ok [sBeam t].
Proof. constructor; [|constructor]. split; cbn; lra. Qed.

Lemma sNo t sc : (forall x y, sc_fld sc x y = (0, 0)) -> no_field sc (sBeam t) [].
Proof. intros H. split; auto. constructor; [|constructor]. intros pos. apply (below_none (map34 (1/2)) pos). cbn. lra. Qed.

Lemma sSeg ks hs : w_hit (e_wall sEnv) ks = Some hs -> Forall (fun h => snd h = 0%nat) hs.
Proof.
  cbn [sEnv e_wall exW ell_wall w_hit]. destruct (ell_impact exE (99/100) ks); [|discriminate]. cbn [bind]. intros H. injection H as <-.
  apply Forall_forall. intros h Hh. apply in_map_iff in Hh. destruct Hh as (? & <- & _). reflexivity.
Qed.
Lemma tame_absorb c : a_em (o_set c) = absorb_em -> tame c.
Proof. intros E th fs ps k _. rewrite E. exists (absorb_surface ps), (k, o_Q c). split; reflexivity. Qed.

Lemma sQuiet t c : c = sE \/ c = sI -> quiet sEnv (sBeam t) c.
Proof.
  intros [->| ->].
  - split; [exact sE_sound|]. split; [apply tame_absorb; reflexivity|]. split; [reflexivity|]. split; [reflexivity|].
    split; [apply boris_drifts; lia|]. split; [reflexivity|]. split; [discriminate|]. split; [exact exHist|]. split; [reflexivity|]. split; [reflexivity|].
    unfold capacity. cbn. lia.
  - split; [exact sI_sound|]. split; [apply tame_absorb; reflexivity|]. split; [reflexivity|]. split; [reflexivity|].
    split; [apply boris_drifts; lia|]. split; [reflexivity|]. split; [discriminate|]. split; [exact exHist|]. split; [reflexivity|]. split; [reflexivity|].
    unfold capacity. cbn. lia.
Qed.

Lemma sStep_main t : 0 <= t -> exists mid, step_main sEnv no_args (sBeam t) [] sM = Some mid /\ m_full mid = false /\
  map (fun c => N_mp (o_mp c)) (m_clouds mid) = [2%nat; 1%nat] /\ map o_set (m_clouds mid) = map o_set (m_clouds sM) /\
  Forall (fun c => wf (o_mp c)) (m_clouds mid).
Proof.
  intros T0. unfold step_main. cbn [ti_t sBeam m_sc sM]. unfold check_for_recomputation. cbn [sSc sc_Dt sc_last sc_rho sc_fld].
  assert (FL : Rgeb (t - -10) 1 = true) by (apply Rgeb_true; lra).
  rewrite FL. cbn [ti_t].
  set (sc := mkSpch (Some 1) t true [0] (fun _ _ => (0, 0))).
  destruct (quiet_loop sEnv (sBeam t) [] sc sChamber (sNo t sc (fun _ _ => eq_refl)) eq_refl eq_refl sSeg [sE; sI] 0%nat false) as (cl & k & E & F & MN & MS).
  { constructor; [apply sQuiet; auto|]. constructor; [apply sQuiet; auto|constructor]. }
  destruct (clouds_full _ _ _ _ _ _ sChamber (sBeam_ok t) _ _ _ _ _ (proj1 sM_sound) E eq_refl) as (_ & SD & _ & _).
  change (m_clouds sM) with [sE; sI]. change (m_k sM) with 0%nat. change (m_full sM) with false. rewrite E. cbn [bind].
  change (m_xion sM) with (@None xion). cbn [cross_step bind].
  destruct (recompute_cloud_spacecharge sEnv t true (s_force_sc no_args) cl sc) as [cl3 sc3] eqn:ER.
  assert (FR : map o_mp cl3 = map o_mp cl /\ map o_set cl3 = map o_set cl).
  { unfold recompute_cloud_spacecharge in ER. destruct (_ || _)%bool; [|injection ER as <- <-; auto].
    apply (recompute_ok 1 sPic sGrid) in ER; auto; [tauto|congruence]. }
  destruct FR as [FM FS]. eexists. split; [reflexivity|]. cbn [m_full m_clouds]. split; [|split; [|split]].
  - cbn [orb]. apply Bool.not_true_is_false. intros K. apply existsb_exists in K. destruct K as (c & K1 & K2). rewrite Forall_forall in F.
    specialize (F c K1). unfold is_full in K2. apply Nat.leb_le in K2. unfold capacity in F. lia.
  - rewrite <- (map_map o_mp N_mp), FM, map_map, MN. reflexivity.
  - rewrite FS, MS. reflexivity.
  - apply (Forall_map o_mp wf). rewrite FM. apply Forall_map. eapply Forall_impl; [|exact SD]. intros c [_ Hs]. apply Hs.
Qed.

Lemma filter_shorter {A} (f : A -> bool) l : (List.length (filter f l) <= List.length l)%nat.
Proof. induction l; cbn; auto. destruct (f a); cbn; lia. Qed.

Lemma sClean : forall cl k, Forall (fun c => wf (o_mp c)) cl -> Forall (fun c => (N_mp (o_mp c) <= 9)%nat) cl ->
    Forall (fun c => a_regen (o_set c) = sRegen /\ a_soft (o_set c) = None /\ a_async (o_set c) = None) cl ->
    exists cl' k', clean_loop sEnv no_args true k cl = Some (cl', k') /\ List.length cl' = List.length cl.
Proof.
  induction cl as [|c cl IH]; intros k F1 F2 F3; cbn [clean_loop]; [exists [], k; auto|]. inversion F1; inversion F2; inversion F3; subst.
    match goal with H : a_regen _ = _ /\ _ |- _ => destruct H as (R1 & R2 & R3) end.
    destruct (clean_spec (o_mp c)) as (s' & C1 & C2 & C3 & _); auto.
    assert (N9 : (N_mp s' <= 9)%nat).
    { rewrite <- live_length, C2. pose proof (filter_shorter (keep_mp (nel_mp_cl_th (o_mp c))) (live (o_mp c))) as L. rewrite live_length in L. lia. }
    unfold clean_one. cbn [s_noclean s_noregen no_args]. rewrite C1. cbn [bind]. rewrite R1. unfold check_for_regeneration.
    assert (RN : regen_needed sRegen s' = false).
    { unfold regen_needed. cbn [sRegen N_mp_regen N_mp_regen_low]. rewrite (proj2 (Nat.ltb_ge 9 (N_mp s'))) by auto. reflexivity. }
    rewrite RN. cbn [bind]. rewrite R2, R3. cbn [check_for_soft_regeneration check_for_async_regeneration bind].
    destruct (IH k) as (cl' & k' & E2 & L2); auto. rewrite E2. cbn [bind]. eexists _, _. split; [reflexivity|]. cbn. auto.
Qed.

Lemma sStep t : 0 <= t -> exists m', sim_time_step sEnv no_args (sBeam t) [] sM = Some m' /\ m_full m' = false /\ List.length (m_clouds m') = 2%nat.
Proof.
  intros T0. destruct (sStep_main t T0) as (mid & E & MF & MN & MS & MW). unfold sim_time_step. rewrite E. cbn [bind].
  destruct (sClean (m_clouds mid) (m_k mid)) as (cl' & k' & E2 & L2); auto.
  - apply (Forall_map (fun c => N_mp (o_mp c)) (fun n => (n <= 9)%nat)). rewrite MN. repeat constructor; lia.
  - apply (Forall_map o_set (fun c => a_regen c = sRegen /\ a_soft c = None /\ a_async c = None)). rewrite MS. cbn. repeat constructor.
  - change (ti_new (sBeam t)) with true. rewrite E2. cbn [bind]. eexists. split; [reflexivity|]. cbn [m_full m_clouds]. split; auto.
    rewrite L2. apply (f_equal (@List.length nat)) in MN. rewrite map_length in MN. exact MN.
Qed.

Lemma sRecomputes : recomputes sEnv no_args 1 sM /\ m_clouds sM <> [].
Proof. split; [|discriminate]. left. cbn. split; lra. Qed.

Lemma sAdds : adds_up (m_clouds sM) (m_sc sM).
Proof. intros j. destruct j as [|[|j]]; cbn; unfold rsum; cbn; lra. Qed.

(** * No sub-step at all *)
(** Non-uniform time steps, target sub-step 1, current step 1/4: the number of
    sub-steps is rounded to 0. *)
Definition zBeam : tim := mkTim 0 (1/4) 1 false false (get_beam_eletric_field (map34 (1/2))) 1 1 0 0.
Definition zSet : cset := mkCset "electron" 1 (-1) (boris_dyn (-1) 1 (B_none 0 0 0) 2 2) exC absorb_em (fun _ l => l) None 0 NoPhoto sRegen None None.

Lemma zero_sub_steps : cloud_motion sEnv no_args zBeam [] sSc zSet exS0 = Some exS0 /\ 0 < ti_Dt zBeam /\
  sub_steps sEnv no_args zBeam (a_dyn zSet) = Some (Some ((1/4) / INR 0, 0%nat)) /\
  drifts (a_dyn zSet) /\ no_field sSc zBeam [] /\ wf exS0 /\ ~ Forall2 (drifted (ti_Dt zBeam)) (live exS0) (live exS0).
Proof.
  assert (Z : Z.to_nat (raround (1 / 4 / (2 / INR 2))) = 0%nat).
  { replace (1 / 4 / (2 / INR 2)) with (1/4) by (cbn; field).
    assert (E := raround_err (1/4)). assert (K : raround (1/4) = 0%Z).
    { assert (-1 < IZR (raround (1/4)) < 1) by (revert E; unfold Rabs; destruct (Rcase_abs _); intros; split; lra).
      assert ((-1 < raround (1/4) < 1)%Z) by (split; apply lt_IZR; lra). lia. }
    rewrite K. reflexivity. }
  assert (S : sub_steps sEnv no_args zBeam (a_dyn zSet) = Some (Some ((1/4) / INR 0, 0%nat))).
  { unfold sub_steps. cbn [s_Nsub no_args zBeam ti_unif negb e_boris sEnv zSet a_dyn boris_dyn d_Nsub bind d_Dt ti_Dt Nat.eqb orb].
    rewrite (proj2 (Reqb_false 2 0)) by lra. rewrite Z. reflexivity. }
  split; [|split; [|split; [|split; [|split; [|split]]]]].
  - unfold cloud_motion. rewrite S. cbn [bind s_kick no_args s_force_re e_reinterp sEnv orb].
    cbn [motion_loop]. destruct (gather_none sSc false zBeam [] exS0) as (E & -> & EZ); [split; [reflexivity|constructor; [intros pos; apply (below_none (map34 (1/2)) pos); cbn; lra|constructor]]|].
    cbn [bind zSet a_dyn boris_dyn d_custom]. unfold boris_stepcustomDt. reflexivity.
  - cbn. lra.
  - exact S.
  - apply boris_drifts. lia.
  - split; [reflexivity|constructor; [intros pos; apply (below_none (map34 (1/2)) pos); cbn; lra|constructor]].
  - constructor; cbn; auto.
  - intros F. unfold live in F. cbn in F. inversion F as [|? ? ? ? _ F']; subst. inversion F' as [|? ? ? ? D _]; subst. destruct D as (A & _). cbn in A. lra.
Qed.

(** * A run of one step *)
Definition rBeam : beam := mkBeam [0; 3/2] [1/2; 0] 1 2 (3/2) true 2 (-1) (-1) None.
Definition rGeo : bgeo := mkBgeo (map34 0) 1 1 0 0.

Lemma rBeam_fresh : fresh rBeam /\ ascending (b_t rBeam) /\ Forall no_negative [rBeam].
Proof.
  split; [repeat split|]. split.
  - intros i j [H1 H2]. cbn in H2. destruct i as [|[|i]], j as [|[|j]]; cbn; try lra; lia.
  - constructor; [|constructor]. unfold no_negative. cbn. repeat constructor; lra.
Qed.

Lemma rRun : exists b' m', run (run_step sEnv rGeo []) None 2 rBeam [] sM = Some (b', [], m') /\ m_full m' = false /\ List.length (m_clouds m') = 2%nat.
Proof.
  destruct (sStep 0 ltac:(lra)) as (m' & E & MF & ML). cbn [run].
  assert (N : next_time_step rBeam = Some (mkBeam [0; 3/2] [1/2; 0] 1 2 (3/2) true 2 0 0 (Some (mkNow 0 (3/2 - 0) (1/2) 0 true)))).
  { unfold next_time_step. cbn [rBeam b_ii b_t b_lam b_spac b_old b_Nt b_Dt b_unif b_Npass py_nth].
    change (-1 + 1)%Z with 0%Z. change (0 + 1)%Z with 1%Z. cbn. rewrite (rfloor_unique (0 / 1) 0) by (unfold Rdiv; lra). reflexivity. }
  change (end_simulation rBeam) with false. change (reached None rBeam) with false. cbn iota. rewrite N. cbn [bind next_all].
  unfold run_step, tim_of. cbn [bind b_now tims_of w_t w_Dt w_lam w_new b_unif bg_f bg_sx bg_sy bg_x bg_y rGeo].
  replace (3 / 2 - 0) with (3/2) by lra. change (with_lam (map34 0) (1 / 2)) with (map34 (1/2)).
  change (mkTim 0 (3/2) (1/2) true true (get_beam_eletric_field (map34 (1/2))) 1 1 0 0) with (sBeam 0). rewrite E. cbn [bind].
  eexists _, m'. split; [reflexivity|auto].
Qed.

(** Kick mode: a beam with a constant horizontal field and one custom sub-step
    of a tenth. *)
Definition kArgs : sargs := mkSargs (Some (1/10)) (Some 1%nat) true false false false false.
Definition kBeam : tim := mkTim 1 (3/2) (1/2) false true (fun _ => (Scal 2, Scal 0)) 1 1 0 0.
Lemma kActs : acts kBeam (fun _ => (2, 0)).
Proof. intros pos. cbn. split; apply Forall_forall; auto. Qed.
Lemma kRun : exists s', cloud_motion sEnv kArgs kBeam [] sSc (o_set sE) exS0 = Some s'.
Proof.
  unfold cloud_motion, sub_steps. cbn [kArgs s_Nsub s_Dtsub s_kick s_force_re sEnv e_boris e_reinterp bind orb]. unfold apply_kick, field_from_beams.
  cbn [kBeam ti_f map add_sec_beams bind]. cbn [motion_loop]. unfold gather_field. cbn [bind]. eexists. reflexivity.
Qed.

(** * A cloud in front of an insulating wall *)
Definition qSeg : chseg := mkChseg true 10 1 1 1.
Definition qEm := charging_emitter [(300, 0, 0)] 150 [qSeg] ex_cfg ex_sr.

Lemma draws_five k n : Forall (fun x => x = 5) (draw (s_logn ex_sr) k n).
Proof. apply draw_Forall. reflexivity. Qed.
Lemma qGen k n E nx ny : List.length nx = n -> List.length ny = n -> exists v k', gen_vel ex_cfg ex_sr k n E nx ny = Some (v, k') /\ List.length v = n.
Proof.
  intros L1 L2. unfold gen_vel, sec_energy_hilleret_model2. change (c_switch ex_cfg =? 0)%Z with true. cbv iota.
  rewrite redraw_done; [cbn [bind]; change (c_angle ex_cfg) with (Some NormalEmission); cbn [bind angle_dist_func]; eexists _, _; split; [reflexivity|]|].
  - rewrite map_length, !combine_length, draw_length. lia.
  - change (c_Eth ex_cfg) with 35. assert (F := draws_five k n). assert (L := draw_length (s_logn ex_sr) k n).
    revert F L. generalize (draw (s_logn ex_sr) k n). clear. intros l F. revert n. induction F as [|a l A F IH]; intros [|n] L; try discriminate; [reflexivity|].
    cbn. rewrite A. cbn. rewrite (proj2 (Rgtb_false 5 35)) by lra. apply IH. cbn in L. lia.
Qed.

Lemma qOne p Q u : i_seg p = 0%nat -> Q <= 0 -> 0 <= u -> charging_one [(300, 0, 0)] 150 [qSeg] [Q] u p = Some (0, false).
Proof.
  intros S HQ HU. unfold charging_one. rewrite S. cbn [nth_error bind]. unfold yield_ECLOUD, true_sec, reflected, dm_tilde.
  unfold charged_yield, total_frac. cbn [qSeg g_flag g_Qmax g_EQ].
  replace (if Rltb Q 0 then 0 else Q) with 0 by (destruct (Rltb Q 0) eqn:E; auto; apply Rltb_false in E; lra).
  rewrite (proj2 (Rgtb_false 0 10)) by lra.
  rewrite !Rmult_0_l. unfold Rdiv. rewrite ?Rmult_0_l, ?Rplus_0_l, ?Rmult_0_r, ?Rplus_0_r. rewrite ?(proj2 (Rgtb_false 0 0)) by lra.
  rewrite ?(proj2 (Rltb_false u 0)) by lra. f_equal. f_equal. ring.
Qed.

Lemma mget_all {A} : forall (l : list A) n, List.length l = n -> mask_get (repeat true n) l = l.
Proof. induction l; intros [|n] L; cbn in *; try discriminate; auto. f_equal. apply IHl. lia. Qed.
Lemma mput_all {A} : forall (l v : list A) n, List.length l = n -> List.length v = n -> mask_put (repeat true n) l v = v.
Proof. induction l; intros [|b v] [|n] L K; cbn in *; try discriminate; auto. f_equal. apply IHl; lia. Qed.
Lemma count_all n : count_true (repeat true n) = n.
Proof. unfold count_true. induction n; cbn; auto. Qed.
Lemma map_rep {A B} (f : A -> B) x n : map f (repeat x n) = repeat (f x) n.
Proof. induction n; cbn; congruence. Qed.
Lemma mset_all {A} (l v : list A) n : List.length l = n -> List.length v = n -> mask_set (repeat true n) l v = Some v.
Proof. intros L K. unfold mask_set. rewrite count_all, K, Nat.eqb_refl, mput_all; auto. Qed.


Lemma qTame ps k th fs Q : Q <= 0 -> Forall (fun p => i_seg p = 0%nat) ps -> exists em st, qEm th fs ps (k, [Q]) = Some (em, st) /\ Sey.n_nel em = [].
Proof.
  intros HQ F. unfold qEm, charging_emitter, impacts_on_surface_charging, charging_process. cbn [fst snd].
  assert (M : mapM2 (charging_one [(300, 0, 0)] 150 [qSeg] [Q]) (draw (s_uni ex_sr) k (List.length ps)) ps = Some (repeat (0, false) (List.length ps))).
  { assert (U : Forall (fun u => 0 <= u) (draw (s_uni ex_sr) k (List.length ps))) by (apply draw_Forall; intros; cbn; lra).
    assert (L := draw_length (s_uni ex_sr) k (List.length ps)). revert U L. generalize (draw (s_uni ex_sr) k (List.length ps)). clear k.
    induction F as [|p ps P F IH]; intros [|u us] U L; try discriminate; [reflexivity|]. inversion U; subst. cbn [mapM2]. rewrite qOne by auto.
    cbn [bind]. rewrite IH by (cbn in L; auto; lia). reflexivity. }
  rewrite M. cbn [bind]. unfold emit_surface. cbv zeta. set (n := List.length ps).
  rewrite !map_rep. cbn [fst snd negb].
  assert (S0 : forall l : list R, mask_set (repeat false n) l [] = Some l) by (intros l; unfold mask_set; rewrite count_true_repeat_false, mask_put_false; reflexivity).
  rewrite mask_get_false. cbn [map]. rewrite !S0. cbn [bind]. rewrite count_all.
  assert (LI : forall f : imp -> R, List.length (map f ps) = n) by (intros; apply map_length).
  rewrite !mget_all by (rewrite ?repeat_length; auto; rewrite map_length; reflexivity).
  destruct (Nat.eqb_spec n 0) as [Z|Z]; [eexists _, _; split; reflexivity|].
  assert (NC : map (fun q => n_clones q th) (repeat 0 n) = repeat 0%nat n).
  { rewrite map_rep. f_equal. unfold n_clones, Rdiv. rewrite Rmult_0_l, (rceil_unique 0 0); [reflexivity|]. lra. }
  rewrite NC, (mput_all _ (repeat 0%nat n)) by (rewrite ?map_length, ?repeat_length; reflexivity).
  assert (NS : nsum (repeat 0%nat n) = 0%nat) by (clear; induction n; cbn; auto). rewrite NS. cbn [Nat.eqb].
  rewrite mset_all; [|rewrite repeat_length; reflexivity|rewrite map2_length, ?mget_all, !repeat_length by apply repeat_length; apply Nat.min_id].
  cbn [bind]. rewrite ?(mget_all (map i_E ps) n (LI _)), ?(mget_all (map i_nx ps) n (LI _)), ?(mget_all (map i_ny ps) n (LI _)).
  destruct (qGen (k + n) n (map i_E ps) (map i_nx ps) (map i_ny ps) (LI _) (LI _)) as (v & k2 & G & GL). rewrite G. cbn [bind].
  rewrite !mset_all by (rewrite ?map_length; auto). cbn [bind]. eexists _, _. split; reflexivity.
Qed.

Definition qSet : cset := mkCset "electron" 1 (-1) (boris_dyn (-1) 1 (B_none 0 0 0) (3/2) 2) exC qEm (charging_evol [qSeg]) None 0 NoPhoto sRegen None None.
Definition qE : cloud := mkCloud qSet exS0 [0] exG [-1].
Definition qM : sim := mkSim [qE] sSc None 0 false.

Lemma qE_sound : sound_cloud sEnv qE.
Proof.
  destruct sE_sound as [[S1 S2 S3 S4 S5 S6 S7 S8 S9 S10 S11] [D1 D2 D3 D4 D5 D6 D7 D8 D9]]. split; [|constructor; assumption].
  constructor; try assumption; cbn [qE o_set qSet a_em].
  - apply charging_emitter_ok.
  - apply charging_em_pos. split; [constructor; [cbn; lra|constructor]|]. split; [lra|]. constructor; [cbn; lra|constructor].
Qed.

Lemma qQuiet t : quiet sEnv (sBeam t) qE.
Proof.
  destruct (sQuiet t sE (or_introl eq_refl)) as (_ & _ & Q). split; [exact qE_sound|]. split; [|exact Q].
  intros th fs ps k F. apply qTame; [lra|exact F].
Qed.

(** One step: the electron that reaches the wall stays there. *)
Lemma qRun : exists m1, sim_run sEnv [(no_args, sBeam 1, [])] qM = Some [m1] /\ List.length (m_clouds m1) = 1%nat.
Proof.
  cbn [sim_run]. unfold sim_time_step, step_main. cbn [ti_t sBeam m_sc qM]. unfold check_for_recomputation. cbn [sSc sc_Dt sc_last sc_rho sc_fld].
  rewrite (proj2 (Rgeb_true (1 - -10) 1)) by lra. cbn [ti_t].
  set (sc := mkSpch (Some 1) 1 true [0] (fun _ _ => (0, 0))).
  destruct (quiet_loop sEnv (sBeam 1) [] sc sChamber (sNo 1 sc (fun _ _ => eq_refl)) eq_refl eq_refl sSeg [qE] 0%nat false) as (cl & k & E & F & MN & MS).
  { constructor; [apply qQuiet|constructor]. }
  assert (SQ : Forall (sound_cloud sEnv) [qE]) by (constructor; [exact qE_sound|constructor]).
  destruct (clouds_full _ _ _ _ _ _ sChamber (sBeam_ok 1) _ _ _ _ _ SQ E eq_refl) as (_ & SD & _ & _).
  change (m_clouds qM) with [qE]. change (m_k qM) with 0%nat. change (m_full qM) with false. rewrite E. cbn [bind].
  change (m_xion qM) with (@None xion). cbn [cross_step bind].
  destruct (recompute_cloud_spacecharge sEnv 1 true (s_force_sc no_args) cl sc) as [cl3 sc3] eqn:ER.
  assert (FR : map o_mp cl3 = map o_mp cl /\ map o_set cl3 = map o_set cl).
  { unfold recompute_cloud_spacecharge in ER. destruct (_ || _)%bool; [|injection ER as <- <-; auto].
    apply (recompute_ok 1 sPic sGrid) in ER; auto; [tauto|congruence]. }
  destruct FR as [FM FS]. cbn [m_clouds m_k m_sc m_xion m_full bind].
  assert (MN3 : map (fun c => N_mp (o_mp c)) cl3 = [2%nat]) by (rewrite <- (map_map o_mp N_mp), FM, map_map, MN; reflexivity).
  destruct (sClean cl3 k) as (cl' & k' & E2 & L2).
  - apply (Forall_map o_mp wf). rewrite FM. apply Forall_map. eapply Forall_impl; [|exact SD]. intros c [_ Hs]. apply Hs.
  - apply (Forall_map (fun c => N_mp (o_mp c)) (fun n => (n <= 9)%nat)). rewrite MN3. repeat constructor.
  - apply (Forall_map o_set (fun c => a_regen c = sRegen /\ a_soft c = None /\ a_async c = None)). rewrite FS, MS. cbn. repeat constructor.
  - change (ti_new _) with true. rewrite E2. cbn [bind]. eexists. split; [reflexivity|]. cbn [m_clouds].
    rewrite L2. apply (f_equal (@List.length nat)) in MN3. rewrite map_length in MN3. exact MN3.
Qed.
Lemma qCharging : charging_cloud [(300, 0, 0)] 150 [qSeg] ex_cfg ex_sr (o_set qE) /\ List.length (o_Q qE) = 1%nat.
Proof. split; [split; reflexivity|reflexivity]. Qed.

(** * Electrons freed from the gas in a step *)
Definition iSet : cset := mkCset "electron" 1 (-1) (boris_dyn (-1) 1 (B_none 0 0 0) (3/2) 2) exC absorb_em (fun _ l => l) (Some exGas) 5 NoPhoto sRegen None None.
Definition iS : mpsys := mkSys [0; 0] [0; 0] [0; 0] [0; 0] [0; 0] [0; 0] [0; 0] [0; 0] 0 false 1 (3/2) (1/10) 1 (3/2) (1/10).
Definition iE : cloud := mkCloud iSet iS [0] exG [].

Lemma iSound : sound_cloud sEnv iE.
Proof.
  destruct sE_sound as [[S1 S2 S3 S4 S5 S6 S7 S8 S9 S10 S11] _]. split.
  - constructor; try assumption. cbn [iE o_set iSet a_gas]. intros g H. injection H as <-. split; [|reflexivity]. unfold gas_ok. cbn.
    assert (0 < 10 ^ 11) by (apply pow_lt; lra). assert (0 < 10 ^ 22) by (apply pow_lt; lra). repeat split; try lra.
  - constructor; cbn [iE o_mp o_set iSet a_icfg sEnv e_wall].
    + constructor; cbn; auto.
    + intros i Hi. unfold capacity in Hi. cbn in Hi. assert (i = 0%nat \/ i = 1%nat) as [->| ->] by lia; reflexivity.
    + reflexivity.
    + split; cbn; lra.
    + cbn; lra.
    + cbn; lra.
    + cbn; lra.
    + constructor.
    + constructor.
Qed.
Lemma iRound : stoch_round (3/4) (1/2) = 1%Z.
Proof. unfold stoch_round. rewrite (rfloor_unique (3/4) 0) by lra. rewrite (proj2 (Rltb_true _ _)) by lra. auto. Qed.
Lemma iGas : exists s' k', gas_generate 0 exK exGas exChamb 1 (1/2) (3/2) 1 1 0 0 ex_sr 0 iS = Some (s', k') /\ N_mp s' = 1%nat /\ is_full s' = false.
Proof.
  unfold gas_generate. assert (C : gas_DNel exK exGas (1/2) (3/2) = 3/4).
  { unfold gas_DNel. cbn [exGas exK gs_P gs_sigma gs_T kB c_light].
    assert (10 ^ 11 <> 0) by (apply pow_nonzero; lra). assert (10 ^ 22 <> 0) by (apply pow_nonzero; lra). field; repeat split; auto; lra. }
  rewrite C. cbn [nel_mp_ref iS s_uni ex_sr].
  replace (3 / 4 / 1) with (3/4) by field. rewrite iRound. cbn [Z.ltb Z.compare]. change (Z.to_nat 1) with 1%nat.
  change (draw (fun _ : nat => 1/2) 1 1) with [1/2]. cbn [map gs_unif exGas]. rewrite (proj2 (Rltb_false _ _)) by lra.
  unfold gas_coord. cbn [List.length draw map seq s_norm s_uni ex_sr map3].
  cbn [redraw_gas map2 exChamb outside].
  rewrite (proj2 (exW_in _ _)) by lra. cbn [count_true Nat.eqb bind gs_life exGas].
  eexists _, _. split; [reflexivity|]. split; reflexivity.
Qed.
Lemma iMotion : cloud_motion sEnv no_args (sBeam 1) [] sSc iSet iS = Some iS.
Proof.
  unfold cloud_motion, sub_steps. cbn [s_Nsub no_args s_kick s_force_re sBeam ti_unif negb].
  cbn [iSet a_dyn boris_dyn d_Nsub d_Dt Nat.eqb bind sEnv e_reinterp orb motion_loop].
  destruct (gather_none sSc false (sBeam 1) [] iS) as (E & -> & EZ); [apply (sNo 1 sSc); reflexivity|]. cbn [bind d_custom boris_dyn].
  reflexivity.
Qed.
Lemma iStep : exists c' k', step_cloud sEnv no_args (sBeam 1) [] sSc 0 false iE = Some (c', k', false) /\ N_mp (o_mp c') = 1%nat.
Proof.
  unfold step_cloud. cbn [iE o_set o_mp o_iman o_Q]. rewrite iMotion. cbn [bind].
  change (backtrack_and_second_emiss (e_wall sEnv) (a_icfg iSet) (a_em iSet) (ti_t (sBeam 1)) (get_positions iS) exG iS (0%nat, []))
    with (Some (zero_last exG, iS, (0%nat, @nil R))). cbn [bind fst snd].
  unfold primary_generation. cbn [iSet a_gas a_tion ti_t sBeam a_mass a_photo]. rewrite (proj2 (Rltb_true 1 5)) by lra. cbn [gas_loop].
  destruct iGas as (s' & k' & E & N & F). 
  match goal with |- context [gas_generate ?a ?b ?d ?f ?g ?h ?i ?j ?l ?m ?n ?o ?p ?q] =>
    change (gas_generate a b d f g h i j l m n o p q) with (gas_generate 0 exK exGas exChamb 1 (1/2) (3/2) 1 1 0 0 ex_sr 0 iS) end.
  rewrite E. cbn [bind photo_step fold_left].
  rewrite F. change (is_full iS) with false. cbn [orb]. eexists _, _. split; [reflexivity|]. exact N.
Qed.
