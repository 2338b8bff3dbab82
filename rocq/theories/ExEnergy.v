(** Concrete cases for the electric energy. *)
From Coq Require Import String Lra Lia.
From Verif Require Import Num NumFacts MP SpecMP MPFacts Push SpecPush Geom Impact SpecImpact ExImpact Beam SpecBeam ExBeam Source ExSource CrossIon SpecCrossIon
  Sim SpecSim SimFacts SimFacts2 SimFacts3 ExSim Saver SpecSaver SaverFacts6 ExSaver Whole SpecWhole WholeFacts4 WholeFacts5 WholeFacts6 ExWhole Energy SpecEnergy EnergyFacts.
Local Open Scope list_scope.
Local Open Scope R_scope.

(** * The same simulation with another solver *)
Definition with_pic (e : env) (p : pic) : env :=
  mkEnv (e_wall e) (e_cham e) (e_boris e) (e_reinterp e) (e_tsc e) p (e_kc e) (e_sr e) (e_fuel e).

Lemma gas_loop_pic e p g mass : forall bs k full s, gas_loop (with_pic e p) g mass bs k full s = gas_loop e g mass bs k full s.
Proof.
  induction bs as [|b bs IH]; intros k full s; [reflexivity|]. cbn [gas_loop]. cbn [with_pic e_fuel e_kc e_cham e_sr].
  destruct (gas_generate _ _ _ _ _ _ _ _ _ _ _ _ _ _) as [[s1 k1]|]; cbn [bind]; [apply IH|reflexivity].
Qed.
Lemma step_cloud_pic e p a main secs sc k full c : step_cloud (with_pic e p) a main secs sc k full c = step_cloud e a main secs sc k full c.
Proof.
  unfold step_cloud. change (cloud_motion (with_pic e p)) with (cloud_motion e). cbn [with_pic e_wall].
  destruct (cloud_motion e a main secs sc (o_set c) (o_mp c)) as [s|]; cbn [bind]; [|reflexivity].
  destruct (backtrack_and_second_emiss _ _ _ _ _ _ _ _) as [[[g s1] kq]|]; cbn [bind]; [|reflexivity].
  unfold primary_generation. destruct (a_gas (o_set c)) as [ga|]; [rewrite gas_loop_pic|]; reflexivity.
Qed.
Lemma clouds_loop_pic e p a main secs sc : forall cl k full, clouds_loop (with_pic e p) a main secs sc k full cl = clouds_loop e a main secs sc k full cl.
Proof.
  induction cl as [|c cl IH]; intros k full; [reflexivity|]. cbn [clouds_loop].
  rewrite step_cloud_pic.
  destruct (step_cloud e a main secs sc k full c) as [[[c1 k1] f1]|]; cbn [bind]; [rewrite IH; reflexivity|reflexivity].
Qed.
Lemma clean_loop_pic e p a new : forall cl k, clean_loop (with_pic e p) a new k cl = clean_loop e a new k cl.
Proof.
  induction cl as [|c cl IH]; intros k; [reflexivity|]. cbn [clean_loop].
  change (clean_one (with_pic e p) a new (o_set c) k (o_mp c)) with (clean_one e a new (o_set c) k (o_mp c)).
  destruct (clean_one e a new (o_set c) k (o_mp c)) as [[c1 k1]|]; cbn [bind]; [rewrite IH; reflexivity|reflexivity].
Qed.
Lemma chamber_pic e p : chamber_ok e -> chamber_ok (with_pic e p).
Proof. intros [A B C D E]. constructor; assumption. Qed.
Lemma sound_pic e p m : sound_sim e m -> sound_sim (with_pic e p) m.
Proof.
  intros [A B]. split; [|exact B]. eapply Forall_impl; [|exact A]. intros c [S1 S2]. split.
  - destruct S1. constructor; assumption.
  - destruct S2. constructor; assumption.
Qed.

Lemma loop_solve p p' : pi_dep p' = pi_dep p -> forall cl before sc sc', sc_rho sc' = sc_rho sc -> sc_Dt sc' = sc_Dt sc -> sc_last sc' = sc_last sc -> sc_check sc' = sc_check sc ->
  fst (recompute_loop p' before cl sc') = fst (recompute_loop p before cl sc) /\
  (cl <> [] -> sc_fld (snd (recompute_loop p' before cl sc')) = pi_solve p' (sc_rho (snd (recompute_loop p' before cl sc')))) /\
  sc_check (snd (recompute_loop p' before cl sc')) = sc_check sc.
Proof.
  intros D. induction cl as [|c cl IH]; intros before sc sc' R1 R2 R3 R4; cbn [recompute_loop]; [split; [reflexivity|split; [congruence|exact R4]]|].
  set (rs := match before with [] => true | _ => false end). set (sv := match cl with [] => true | _ => false end).
  assert (E : sc_rho (recompute_spchg_efield p' (a_charge (o_set c)) (o_mp c) sv rs sc') = sc_rho (recompute_spchg_efield p (a_charge (o_set c)) (o_mp c) sv rs sc)).
  { unfold recompute_spchg_efield. cbn [sc_rho]. rewrite D, R1. reflexivity. }
  rewrite E. set (rho := sub_earlier _ before).
  destruct (IH (before ++ [rho]) (recompute_spchg_efield p (a_charge (o_set c)) (o_mp c) sv rs sc) (recompute_spchg_efield p' (a_charge (o_set c)) (o_mp c) sv rs sc')) as (I1 & I2 & I3); auto.
  destruct (recompute_loop p' (before ++ [rho]) cl _) as [r1 s1] eqn:E1. destruct (recompute_loop p (before ++ [rho]) cl _) as [r2 s2] eqn:E2. cbn [fst snd] in *.
  split; [congruence|]. split; [|exact I3]. intros _. destruct cl as [|d cl]; [|apply I2; discriminate].
  cbn in E1. injection E1 as <- <-. reflexivity.
Qed.

Lemma step_main_solve e p' a main secs m m1 : pi_dep p' = pi_dep (e_pic e) -> step_main e a main secs m = Some m1 -> m_clouds m <> [] ->
  exists m2, step_main (with_pic e p') a main secs m = Some m2 /\ m_clouds m2 = m_clouds m1 /\ m_k m2 = m_k m1 /\ m_xion m2 = m_xion m1 /\ m_full m2 = m_full m1 /\
    ((ti_t main > e_tsc e /\ fst (check_for_recomputation (ti_t main) (m_sc m)) = true) -> m_clouds m1 <> [] ->
      sc_fld (m_sc m2) = pi_solve p' (sc_rho (m_sc m2)) /\ sc_check (m_sc m2) = true).
Proof.
  intros D H NE. unfold step_main in *. destruct (check_for_recomputation (ti_t main) (m_sc m)) as [flag sc] eqn:EC. rewrite clouds_loop_pic.
  destruct (clouds_loop e a main secs sc (m_k m) (m_full m) (m_clouds m)) as [[[cl k] full]|]; cbn [bind] in *; [|discriminate].
  change (cross_step (with_pic e p') (ti_Dt main) (m_xion m) k cl) with (cross_step e (ti_Dt main) (m_xion m) k cl).
  destruct (cross_step e (ti_Dt main) (m_xion m) k cl) as [[[x cl1] k1]|]; cbn [bind] in *; [|discriminate].
  unfold recompute_cloud_spacecharge in *. cbn [with_pic e_tsc e_pic].
  destruct ((Rgtb (ti_t main) (e_tsc e) && flag) || s_force_sc a)%bool eqn:EB.
  - destruct (loop_solve (e_pic e) p' D cl1 [] sc sc eq_refl eq_refl eq_refl eq_refl) as (L1 & L2 & L3).
    destruct (recompute_loop (e_pic e) [] cl1 sc) as [r1 s1] eqn:E1. destruct (recompute_loop p' [] cl1 sc) as [r2 s2] eqn:E2. cbn [fst snd] in *. subst r2. injection H as <-.
    eexists. split; [reflexivity|]. cbn [m_clouds m_k m_xion m_full m_sc]. do 4 (split; [reflexivity|]). intros [T F] N. split; [|unfold check_for_recomputation in EC; injection EC as E3 E4; rewrite L3, <- E4; cbn [sc_check fst] in *; congruence].
    apply L2. intros ->. cbn in E1. injection E1 as <- <-. apply N. reflexivity.
  - injection H as <-. eexists. split; [reflexivity|]. cbn [m_clouds m_k m_xion m_full m_sc]. do 4 (split; [reflexivity|]). intros [T F] N. cbn [fst] in F. subst flag.
    rewrite (proj2 (Rgtb_true _ _)) in EB by lra. discriminate.
Qed.

(** * A uniform field *)
Definition nPic : pic := mkPic (pi_dep sPic) (fun _ _ _ => (1, 0)).
Definition nEnv : env := with_pic sEnv nPic.
Definition nU : option (option sampling) := sampling_ctor exChamb (Some (1/2)).

Lemma nSampling : exists u nx ny, nU = Some (Some u) /\ cells 1 (1/2) nx /\ cells 1 (1/2) ny /\ (0 < nx)%nat /\ (0 < ny)%nat /\
  forall sc, get_potential_electric_energy 1 1 (Some u) sc = Some (field_energy 1 1 (sc_fld sc) 1 1 (1/2) nx ny).
Proof.
  assert (A : 0 < x_aper exChamb) by (cbn; lra). assert (B : 0 < y_aper exChamb) by (cbn; lra).
  destruct (ctor_energy 1 1 exChamb (1/2) ltac:(lra) A B ltac:(lra)) as (u & nx & ny & E1 & E2 & E3 & E4 & E5 & _ & _ & E6).
  exists u, nx, ny. repeat (split; [assumption|]). exact E6.
Qed.

Lemma nRun y : exists tr rs1, whole_run nEnv y [wCall 1] sM [Some wRec; None] = Some (tr, rs1) /\ Forall xion_ok (sM :: map snd tr) /\ Forall (fun p => m_full (snd p) = false) tr /\
  exists p, tr = [p] /\ sc_fld (m_sc (fst p)) = (fun _ _ => (1, 0)) /\ sc_check (m_sc (fst p)) = true.
Proof.
  assert (T1 : 0 <= 1) by lra. destruct (sStep_main 1 T1) as (mid & E & MF & MN & MS & MW).
  destruct (step_main_solve sEnv nPic no_args (sBeam 1) [] sM mid eq_refl E ltac:(discriminate)) as (m2 & F1 & F2 & F3 & F4 & F5 & F6).
  assert (CL : exists cl' k', clean_loop nEnv no_args true (m_k m2) (m_clouds m2) = Some (cl', k')).
  { unfold nEnv. rewrite clean_loop_pic, F2. destruct (sClean (m_clouds mid) (m_k m2)) as (cl' & k' & C & _); eauto.
    - apply (Forall_map (fun c => N_mp (o_mp c)) (fun n => (n <= 9)%nat)). rewrite MN. repeat constructor; lia.
    - apply (Forall_map o_set (fun c => a_regen c = sRegen /\ a_soft c = None /\ a_async c = None)). rewrite MS. cbn. repeat constructor. }
  destruct CL as (cl' & k' & CL).
  assert (R : sim_run nEnv (map tuple [wCall 1]) sM = Some [mkSim cl' (m_sc m2) (m_xion m2) k' (m_full m2)]).
  { cbn [map tuple sim_run wCall q_args q_main q_secs]. unfold sim_time_step. unfold nEnv at 1. rewrite F1. cbn [bind]. change (ti_new (sBeam 1)) with true. rewrite CL. reflexivity. }
  assert (X : m_xion m2 = None).
  { assert (Y : sim_time_step nEnv no_args (sBeam 1) [] sM = Some (mkSim cl' (m_sc m2) (m_xion m2) k' (m_full m2))).
    { unfold sim_time_step. unfold nEnv at 1. rewrite F1. cbn [bind]. change (ti_new (sBeam 1)) with true. rewrite CL. reflexivity. }
    apply no_xion in Y; [exact Y|reflexivity]. }
  assert (XO : Forall xion_ok [sM; mkSim cl' (m_sc m2) (m_xion m2) k' (m_full m2)]).
  { constructor; [intros x Hx; discriminate|]. constructor; [|constructor]. intros x Hx. cbn in Hx. congruence. }
  assert (NF : Forall (fun m' => m_full m' = false) [mkSim cl' (m_sc m2) (m_xion m2) k' (m_full m2)]) by (constructor; [cbn; congruence|constructor]).
  assert (RD : Forall2 (ready nEnv) (m_clouds sM) [Some wRec; None]).
  { pose proof wReady as W. inversion W as [|? ? ? ? W1 W2]; subst. constructor; [exact W1|]. constructor; [exact I|constructor]. }
  destruct (whole_run_succeeds nEnv y [wCall 1] sM _ _ (chamber_pic _ nPic sChamber) wCalls (sound_pic _ nPic _ sM_sound) RD R XO NF) as (tr & rs1 & W & F).
  exists tr, rs1. split; [exact W|]. inversion F as [|p ? ? ? P F']; subst. inversion F'; subst.
  apply emptied_split in P. destruct P as (_ & _ & P1 & _ & P2). cbn [map].
  split; [constructor; [intros x Hx; discriminate|constructor; [|constructor]]; intros x Hx; cbn [m_xion m_full] in *; congruence|]. split; [constructor; [cbn [m_full] in *; congruence|constructor]|].
  exists p. split; [reflexivity|].
  cbn [whole_run wCall q_args q_main q_secs q_pass] in W. unfold whole_step in W. unfold nEnv at 1 in W. rewrite F1 in W. cbn [bind] in W.
  destruct (save_output y (sBeam 1) 0 m2 [Some wRec; None] (m_clouds m2)) as [[rs2 cl2]|]; cbn [bind] in W; [|discriminate].
  destruct (clean_loop nEnv no_args (ti_new (sBeam 1)) (m_k m2) cl2) as [[cl3 k3]|]; cbn [bind] in W; [|discriminate]. injection W as <- _. cbn [fst m_sc].
  destruct F6 as [G1 G2].
  - split; [cbn; lra|]. unfold check_for_recomputation. cbn [fst sM m_sc sSc sc_Dt sc_last sBeam ti_t]. apply Rgeb_true. lra.
  - intros Z. rewrite Z in MN. discriminate.
  - split; [rewrite G1; reflexivity|exact G2].
Qed.

(** The energy of a uniform field is not 0, the stored number is. *)
Lemma nRefuted : exists e y l m rs tr rs1 j k c w n eps0 qe u,
  chamber_ok e /\ Forall (fun q => args_ok (q_args q) /\ Forall beam_ok (q_main q :: q_secs q)) l /\ sound_sim e m /\ whole_run e y l m rs = Some (tr, rs1) /\
  Forall xion_ok (m :: map snd tr) /\ Forall (fun p => m_full (snd p) = false) tr /\ nth_error (m_clouds m) j = Some k /\ o_iman k = blank w /\
  nth_error rs j = Some (Some (mkRecorder c (start_observing c n) None)) /\ cfg_ok c /\ widths_ok c w /\ (0 < n)%nat /\ c_elec c = true /\
  (forall x y, w_out (e_wall e) x y = false -> k_bias (c_ic c) <= x) /\
  (forall sc, get_potential_electric_energy eps0 qe u sc = Some (y_elec y sc)) /\ (forall sc, y_U y sc = U_sc_eV_stp sc) /\
  exists r1 d p v, nth_error rs1 j = Some (Some r1) /\ build_outp_dict c (r_st r1) = Some d /\ tr = [p] /\ sc_check (m_sc (fst p)) = true /\
    get_potential_electric_energy eps0 qe u (m_sc (fst p)) = Some v /\ 0 < v /\ get d "U_sc_eV" = Some (VArr [0]).
Proof.
  destruct nSampling as (u & nx & ny & U1 & U2 & U3 & U4 & U5 & U6).
  set (y := mkEyes (fun sc => field_energy 1 1 (sc_fld sc) 1 1 (1/2) nx ny) U_sc_eV_stp (fun _ _ => (0, 0, 0)) (fun _ _ _ => 0) (fun _ => (0, 0))).
  destruct (nRun y) as (tr & rs1 & W & XO & NF & p & TR & FL & CK).
  pose proof wReady as RD. inversion RD as [|? ? ? ? R1 _]; subst. destruct R1 as (n & w & Q0 & Q1 & Q2 & Q3 & Q4 & Q5).
  exists nEnv, y, [wCall 1], sM, [Some wRec; None], [p], rs1, 0%nat, sE, (vC 1 [] None), w, n, 1, 1, (Some u).
  assert (CO := chamber_pic _ nPic sChamber). assert (SS := sound_pic _ nPic _ sM_sound).
  split; [exact CO|]. split; [exact wCalls|]. split; [exact SS|]. split; [exact W|]. split; [exact XO|]. split; [exact NF|]. split; [reflexivity|]. split; [exact Q2|].
  split; [cbn [nth_error]; rewrite Q0; reflexivity|]. split; [exact Q3|]. split; [exact Q4|]. split; [exact Q1|]. split; [reflexivity|]. split; [exact Q5|]. split; [exact U6|]. split; [reflexivity|].
  destruct (output_U nEnv y [wCall 1] sM [Some wRec; None] [p] rs1 0 sE (vC 1 [] None) w n CO wCalls SS W XO NF eq_refl Q2 ltac:(cbn [nth_error]; rewrite Q0; reflexivity) Q3 Q4 Q1 Q5 (fun _ => eq_refl))
    as (r1 & d & us & O1 & O2 & O3 & O4 & O5).
  exists r1, d, p, (field_energy 1 1 (fun _ _ => (1, 0)) 1 1 (1/2) nx ny). split; [exact O1|]. split; [exact O2|]. split; [reflexivity|]. split; [exact CK|].
  split; [rewrite U6, FL; reflexivity|]. split.
  - destruct (Rle_lt_or_eq_dec _ _ (energy_nonneg 1 1 (fun _ _ => (1, 0)) 1 1 (1/2) nx ny ltac:(lra) ltac:(lra))) as [G|G]; [exact G|]. symmetry in G.
    exfalso. pose proof (proj1 (energy_zero 1 1 (fun _ _ => (1, 0)) 1 1 (1/2) nx ny ltac:(lra) ltac:(lra) ltac:(lra)) G 0%nat 0%nat U4 U5) as Z. cbv beta in Z. injection Z. lra.
  - rewrite O3. cbn [filter] in O4. rewrite CK in O4. destruct us as [|v [|]]; try discriminate. inversion O5; subst. reflexivity.
Qed.
