(** Concrete cases for recorded and continued runs. *)
From Coq Require Import String Lra Lia.
From Verif Require Import Num NumFacts MP SpecMP MPFacts Push SpecPush PushFacts Impact SpecImpact ImpactFacts ImpactFacts5 ExImpact Beam SpecBeam ExBeam Source CrossIon SpecCrossIon
  Sim SpecSim SimFacts SimFacts2 SimFacts3 SimFacts4 SimFacts5 SimFacts6 ExSim
  Saver SpecSaver ExSaver Whole SpecWhole WholeFacts4 WholeFacts5 WholeFacts6.
Local Open Scope list_scope.
Local Open Scope R_scope.

(** * A step with one cloud that does not touch the wall *)
Lemma one_step t s s1 name mass q : 0 <= t -> N_mp s1 = N_mp s -> wf s1 -> hitters exW s1 = [] -> is_full s1 = false ->
  cloud_motion sEnv no_args (sBeam t) [] (mkSpch (Some 1) t true [0] (fun _ _ => (0, 0))) (sSet name mass q) s = Some s1 ->
  exists m, step_main sEnv no_args (sBeam t) [] (mkSim [mkCloud (sSet name mass q) s [0] exG []] sSc None 0 false) = Some m /\
    map o_mp (m_clouds m) = [s1] /\ map o_set (m_clouds m) = [sSet name mass q] /\ m_k m = 0%nat /\ m_full m = false /\ m_xion m = None.
Proof.
  intros T0 N W HI NF M. unfold step_main. cbn [ti_t sBeam m_sc]. unfold check_for_recomputation. cbn [sSc sc_Dt sc_last sc_rho sc_fld].
  rewrite (proj2 (Rgeb_true (t - -10) 1)) by lra. cbn [ti_t m_clouds m_k m_full m_xion clouds_loop].
  set (sc := mkSpch (Some 1) t true [0] (fun _ _ => (0, 0))) in *.
  assert (E : step_cloud sEnv no_args (sBeam t) [] sc 0 false (mkCloud (sSet name mass q) s [0] exG []) = Some (mkCloud (sSet name mass q) s1 [0] (zero_last exG) [], 0%nat, false)).
  { unfold step_cloud. cbn [o_mp o_set]. rewrite M. cbn [bind]. unfold backtrack_and_second_emiss. destruct (get_positions s) as [[xo yo] zo].
    rewrite (count_impact (e_wall sEnv) s1 W). change (e_wall sEnv) with exW. rewrite HI. cbn [List.length Nat.eqb].
    replace (if N_mp s1 =? 0 then Some (zero_last (o_iman (mkCloud (sSet name mass q) s [0] exG [])), s1, (0%nat, o_Q (mkCloud (sSet name mass q) s [0] exG [])))
      else Some (zero_last (o_iman (mkCloud (sSet name mass q) s [0] exG [])), s1, (0%nat, o_Q (mkCloud (sSet name mass q) s [0] exG []))))
      with (Some (zero_last exG, s1, (0%nat, @nil R))) by (destruct (N_mp s1 =? 0); reflexivity).
    cbn [bind fst snd o_Q]. unfold primary_generation. cbn [sSet a_gas a_photo bind photo_step]. rewrite NF. reflexivity. }
  rewrite E. cbn [bind cross_step]. destruct (recompute_cloud_spacecharge sEnv t true (s_force_sc no_args) _ sc) as [cl3 sc3] eqn:ER.
  unfold recompute_cloud_spacecharge in ER. destruct (_ || _)%bool.
  - apply (recompute_ok 1 sPic sGrid) in ER; [|constructor|congruence]. destruct ER as (_ & A1 & A2 & _). eexists. split; [reflexivity|]. cbn [m_clouds m_k m_full m_xion map o_mp o_set existsb orb] in *.
    rewrite NF. repeat (split; [assumption || reflexivity|]). reflexivity.
  - injection ER as <- <-. eexists. split; [reflexivity|]. cbn [m_clouds m_k m_full m_xion map o_mp o_set existsb orb] in *. rewrite NF. repeat split.
Qed.

(** * An empty cloud whose reference size has grown *)
Definition wS : mpsys := mkSys [0; 0] [0; 0] [0; 0] [0; 0] [0; 0] [0; 0] [0; 0] [0; 0] 0 false 2 3 (2/10) 1 (3/2) (1/10).
Definition wM : sim := mkSim [mkCloud (sSet "electron" 1 (-1)) wS [0] exG []] sSc None 0 false.

Lemma wStep t : 0 <= t -> exists m, step_main sEnv no_args (sBeam t) [] wM = Some m /\ map o_mp (m_clouds m) = [wS] /\
  map o_set (m_clouds m) = [sSet "electron" 1 (-1)] /\ m_k m = 0%nat /\ m_full m = false /\ m_xion m = None.
Proof.
  intros T0. apply one_step; try reflexivity; [exact T0|constructor; cbn; lia|].
  unfold cloud_motion, sub_steps. cbn [s_Nsub no_args sBeam ti_unif negb sSet a_dyn boris_dyn d_Nsub d_Dt bind s_kick s_force_re e_reinterp sEnv orb Nat.eqb].
  cbn [motion_loop]. destruct (gather_none (mkSpch (Some 1) t true [0] (fun _ _ => (0, 0))) false (sBeam t) [] wS (sNo t (mkSpch (Some 1) t true [0] (fun _ _ => (0, 0))) (fun _ _ => eq_refl))) as (E & G & _).
  rewrite G. reflexivity.
Qed.

Lemma wM_sound : sound_sim sEnv wM.
Proof.
  split; cbn [wM m_clouds map o_set sSet a_name]; [|constructor; [intros []|constructor]]. constructor; [|constructor]. split; [apply sSet_ok; lra|]. constructor; cbn [o_mp o_set sSet a_icfg sEnv e_wall].
  - constructor; cbn; lia.
  - intros i Hi. unfold capacity in Hi. cbn in Hi. destruct i as [|[|i]]; [reflexivity|reflexivity|lia].
  - reflexivity.
  - split; cbn; lra.
  - cbn; lra.
  - cbn; lra.
  - cbn; lra.
  - constructor.
  - constructor.
Qed.

(** The uninterrupted run forgets the grown size, the reloaded one keeps it. *)
Lemma wRefuted : exists e y a main secs pass m rs mid m1 rs1 m0 tEn m', chamber_ok e /\ sound_sim e m /\ ti_new main = true /\
  whole_step e y a main secs pass m rs = Some (mid, m1, rs1) /\
  List.length (m_clouds m0) = List.length (m_clouds mid) /\ m_xion m0 = m_xion mid /\ m_k m0 = m_k m1 /\ m_full m0 = m_full m1 /\
  load_state (checkpoint_of mid tEn) m0 = Some m' /\
  map (fun c => nel_mp_ref (o_mp c)) (m_clouds m1) = [1] /\ map (fun c => nel_mp_ref (o_mp c)) (m_clouds m') = [2].
Proof.
  destruct (wStep 1 ltac:(lra)) as (mid & E & A1 & A2 & A3 & A4 & A5). destruct (m_clouds mid) as [|c [|d cl]] eqn:EC; cbn [map] in A1, A2; try discriminate.
  injection A1 as A1. injection A2 as A2.
  set (s1 := mkSys [0; 0] [0; 0] [0; 0] [0; 0] [0; 0] [0; 0] [0; 0] [0; 0] 0 false 1 (3/2 * 1) (1/10 * 1) 1 (3/2) (1/10)).
  assert (CL : clean_one sEnv no_args true (sSet "electron" 1 (-1)) 0 wS = Some (s1, 0%nat)).
  { unfold clean_one. cbn [s_noclean s_noregen no_args]. assert (C : clean_small_MPs wS = Some s1) by reflexivity. rewrite C. cbn [bind].
    unfold check_for_regeneration, regen_needed. cbn [sSet a_regen sRegen N_mp_regen N_mp_regen_low s1 N_mp nel_mp_ref nel_mp_ref_0 Nat.ltb Nat.leb orb andb].
    reflexivity. }
  set (rs := [@None recorder]).
  assert (SV : forall y, save_output y (sBeam 1) 0 mid rs (m_clouds mid) = Some (rs, m_clouds mid)) by (intros y; apply save_none; repeat constructor).
  set (y := mkEyes (fun _ => 0) (fun _ => 0) (fun _ _ => (0, 0, 0)) (fun _ _ _ => 0) (fun _ => (0, 0))).
  exists sEnv, y, no_args, (sBeam 1), [], 0%Z, wM, rs, (mkSim (m_clouds mid) (m_sc mid) (m_xion mid) (m_k mid) (m_full mid)). eexists _, _, wM, 0. eexists.
  split; [exact sChamber|]. split; [exact wM_sound|]. split; [reflexivity|]. split; [|split; [|split; [|split; [|split; [|split]]]]].
  - unfold whole_step. rewrite E. cbn [bind]. rewrite SV. cbn [bind]. change (ti_new (sBeam 1)) with true. rewrite EC, A3. cbn [clean_loop]. rewrite A1, A2. rewrite CL. reflexivity.
  - cbn [m_clouds]. rewrite EC. reflexivity.
  - symmetry. exact A5.
  - reflexivity.
  - cbn [m_full wM]. auto.
  - rewrite load_is; [reflexivity|]. cbn [m_clouds]. rewrite EC. reflexivity.
  - cbn [m_clouds map o_mp]. split; [reflexivity|]. rewrite EC. cbn [map]. rewrite A1. reflexivity.
Qed.

(** * An ion at rest *)
Definition iM : sim := mkSim [mkCloud (sSet "ion" 2000 1) sIon [0] exG []] sSc None 0 false.
Lemma iM_sound : sound_sim sEnv iM.
Proof. split; cbn [iM m_clouds map o_set sSet a_name]; [|constructor; [intros []|constructor]]. constructor; [exact sI_sound|constructor]. Qed.

Lemma iSettled y : exists mid m1, whole_step sEnv y no_args (sBeam 1) [] 0 iM [None] = Some (mid, m1, [None]) /\
  Forall (fun c => settled (o_set c) (o_mp c)) (m_clouds mid) /\ map (fun c => N_mp (o_mp c)) (m_clouds mid) = [1%nat] /\
  List.length (m_clouds iM) = List.length (m_clouds mid) /\ m_xion iM = m_xion mid /\ m_k iM = m_k m1 /\ m_full iM = m_full m1.
Proof.
  set (sc := mkSpch (Some 1) 1 true [0] (fun _ _ => (0, 0))).
  destruct (quiet_motion sEnv (sBeam 1) [] sc (sNo 1 sc (fun _ _ => eq_refl)) eq_refl eq_refl sI (sQuiet 1 sI (or_intror eq_refl))) as (s1 & M & DR).
  assert (SO := sSet_ok "ion" 2000 1 ltac:(lra)).
  destruct (motion_moved _ _ _ _ _ _ _ _ (so_step _ _ SO) (so_cust _ _ SO) M) as [gm MV]. assert (W : wf sIon) by (constructor; cbn; lia).
  destruct (moves_facts gm _ s1 W MV) as (W1 & (C1 & C2 & C3 & C4 & C5) & N1 & NL & Q1 & Q2 & Q3).
  assert (LV : exists p, live s1 = [p] /\ m_x p = 1/4 + 0 * (3/2) /\ m_y p = 0 + 0 * (3/2) /\ m_nel p = 2).
  { change (o_mp sI) with sIon in *. unfold live at 1 in DR. cbn in DR. remember (live s1) as lv eqn:EL. inversion DR as [|a b l l' D DN]; subst. inversion DN; subst. exists b. split; [reflexivity|].
    destruct D as (D1 & D2 & _). cbn in D1, D2. split; [exact D1|]. split; [exact D2|]. change (map m_nel (live sIon)) with [2] in NL. match goal with K : [b] = live s1 |- _ => rewrite <- K in NL end. injection NL as NL. exact NL. }
  destruct LV as (p & LV & PX & PY & PN).
  assert (HI : hitters exW s1 = []).
  { unfold hitters. rewrite LV. cbn [filter]. assert (B : beyond_wall exW p = false) by (unfold beyond_wall; apply exW_in; rewrite PX, PY; lra). rewrite B. reflexivity. }
  assert (NF : is_full s1 = false). { unfold is_full. apply Nat.leb_gt. change (capacity s1 = capacity sIon) in C1. unfold capacity in C1. rewrite C1, N1. cbn. lia. }
  destruct (one_step 1 sIon s1 "ion" 2000 1 ltac:(lra) N1 W1 HI NF M) as (mid & E & A1 & A2 & A3 & A4 & A5). fold iM in E.
  assert (XO : xion_ok iM) by (intros x Hx; discriminate).
  destruct (step_main_sound _ _ _ _ _ _ sChamber (sBeam_ok 1) XO iM_sound E A4) as (_ & [S1 _] & _).
  destruct (m_clouds mid) as [|c [|d cl]] eqn:EC; cbn [map] in A1, A2; try discriminate. injection A1 as A1. injection A2 as A2.
  assert (ST : settled (o_set c) (o_mp c)).
  { rewrite Forall_forall in S1. destruct (S1 c (or_introl eq_refl)) as [_ SD]. rewrite A1, A2 in *. constructor.
    - exact W1.
    - exact (sd_tail _ _ _ SD).
    - exact (sd_sizes _ _ _ SD).
    - rewrite LV. constructor; [|constructor]. rewrite PN. change (nel_mp_cl_th s1 = 1/10) in Q3. rewrite Q3. lra.
    - rewrite N1. discriminate.
    - rewrite N1. cbn. lia.
    - right. rewrite C3, Q1. cbn. lra.
    - discriminate.
    - discriminate. }
  exists (mkSim (m_clouds mid) (m_sc mid) (m_xion mid) (m_k mid) (m_full mid)). eexists. split; [|split; [|split; [|split; [|split; [|split]]]]].
  - unfold whole_step. rewrite E. cbn [bind]. rewrite save_none by repeat constructor. cbn [bind]. rewrite EC. rewrite settled_loop by (constructor; [exact ST|constructor]). reflexivity.
  - cbn [m_clouds]. rewrite EC. constructor; [exact ST|constructor].
  - cbn [m_clouds]. rewrite EC. cbn [map]. rewrite A1, N1. reflexivity.
  - cbn [m_clouds]. rewrite EC. reflexivity.
  - symmetry. exact A5.
  - symmetry. exact A3.
  - symmetry. exact A4.
Qed.

(** * Two clouds, one of them recorded *)
Definition wRec : recorder := mkRecorder (vC 1 [] None) (start_observing (vC 1 [] None) 8) None.
Definition wCall (t : R) : call := mkCall no_args (sBeam t) [] 0.

Lemma no_xion e a main secs m m' : m_xion m = None -> sim_time_step e a main secs m = Some m' -> m_xion m' = None.
Proof.
  intros X H. unfold sim_time_step in H. destruct (step_main e a main secs m) as [m0|] eqn:E; cbn [bind] in H; [|discriminate].
  destruct (clean_loop _ _ _ _ _) as [[cl k]|]; cbn [bind] in H; [|discriminate]. injection H as <-. cbn [m_xion].
  unfold step_main in E. destruct (check_for_recomputation _ _). destruct (clouds_loop _ _ _ _ _ _ _ _) as [[[? ?] ?]|]; cbn [bind] in E; [|discriminate]. rewrite X in E. cbn [cross_step bind] in E.
  destruct (recompute_cloud_spacecharge _ _ _ _ _ _). injection E as <-. reflexivity.
Qed.

Lemma wReady : Forall2 (ready sEnv) (m_clouds sM) [Some wRec; None].
Proof.
  constructor; [|constructor; [exact I|constructor]]. exists 8%nat, exG. split; [reflexivity|]. split; [lia|]. split; [unfold blank; cbn; unfold zeros; cbn; rewrite ?Rmult_0_l; reflexivity|].
  split; [apply vC_ok; [constructor|left; reflexivity]|]. split; [apply vW|]. intros x y H. apply exW_in in H. cbn. nra.
Qed.

Lemma wRun : exists ms, sim_run sEnv (map tuple [wCall 1]) sM = Some ms /\ Forall xion_ok (sM :: ms) /\ Forall (fun m' => m_full m' = false) ms /\ List.length ms = 1%nat.
Proof.
  destruct (sStep 1 ltac:(lra)) as (m' & E & MF & _). exists [m']. cbn [map tuple sim_run wCall q_args q_main q_secs]. rewrite E. split; [reflexivity|].
  split; [|split; [|reflexivity]]; [|constructor; [exact MF|constructor]]. apply no_xion in E; [|reflexivity]. constructor; [|constructor; [|constructor]]; intros x Hx; [discriminate|congruence].
Qed.
Lemma wCalls : Forall (fun q => args_ok (q_args q) /\ Forall beam_ok (q_main q :: q_secs q)) [wCall 1].
Proof. constructor; [|constructor]. split; [|apply sBeam_ok]. cbn. try (unfold args_ok; cbn). auto. Qed.

Lemma wWhole y : exists tr rs1, whole_run sEnv y [wCall 1] sM [Some wRec; None] = Some (tr, rs1) /\ Forall xion_ok (sM :: map snd tr) /\ Forall (fun p => m_full (snd p) = false) tr /\ List.length tr = 1%nat.
Proof.
  destruct wRun as (ms & E & XO & NF & L). destruct (whole_run_succeeds sEnv y [wCall 1] sM _ ms sChamber wCalls sM_sound wReady E XO NF) as (tr & rs1 & W & F).
  exists tr, rs1. split; [exact W|]. destruct ms as [|m' [|]]; cbn in L; try discriminate. inversion F as [|p ? ? ? P F']; subst. inversion F'; subst.
  inversion XO as [|? ? X1 X2]; subst. inversion X2 as [|? ? X3 _]; subst. inversion NF as [|? ? N1 _]; subst. apply emptied_split in P. destruct P as (_ & _ & P1 & _ & P2). cbn [map].
  split; [constructor; [exact X1|constructor; [|constructor]]; intros x Hx; apply X3; congruence|]. split; [constructor; [congruence|constructor]|reflexivity].
Qed.
