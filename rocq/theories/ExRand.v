(** Concrete cases for the use of random numbers. *)
From Coq Require Import String Lra Lia.
From Verif Require Import Num NumFacts MP Sey ExSey Furman Impact SpecImpact ExImpact Beam ExBeam Source ExSource CrossIon Sim SpecSim SimFacts ExSim ExRegen SpecRand RandFacts RandFacts2.
Local Open Scope list_scope.
Local Open Scope R_scope.

(** A source that gives the numbers of the examples up to position [n] and
    other ones afterwards. *)
Definition rSrc (n : nat) : fsrc :=
  mkFsrc (mkSrc (fun i => if Nat.ltb i n then 1/2 else 1/4) (fun i => if Nat.ltb i n then 5 else 6) (fun i => if Nat.ltb i n then 0 else 1)) (fun i _ => if Nat.ltb i n then 0%nat else 1%nat).
Definition rOwn : fsrc := mkFsrc ex_sr (fun _ _ => 0%nat).
Lemma rAgree n : agreeF 0 n rOwn (rSrc n).
Proof. split; [intros i Hi|intros i lam Hi]; cbn [rSrc rOwn f_src s_uni s_logn s_norm f_poi ex_sr]; rewrite (proj2 (Nat.ltb_lt i n)) by lia; auto. Qed.
Lemma rDiffer n : s_uni (f_src (rSrc n)) n <> s_uni (f_src rOwn) n.
Proof. cbn [rSrc rOwn f_src s_uni ex_sr]. rewrite Nat.ltb_irrefl. lra. Qed.

(** Electrons freed from the gas in an empty chamber. *)
Definition rSc : spch := mkSpch (Some 1) 1 false [0] (fun _ _ => (0, 0)).
Definition rM : sim := mkSim [iE] rSc None 0 false.
Definition rBeam : tim := mkTim 1 (3/2) (1/2) false true (get_beam_eletric_field (map34 (1/2))) 1 1 0 0.
Lemma rStep : exists m1, sim_time_step sEnv no_args rBeam [] rM = Some m1 /\ map (fun c => N_mp (o_mp c)) (m_clouds rM) = [0%nat] /\ map (fun c => N_mp (o_mp c)) (m_clouds m1) = [1%nat].
Proof.
  destruct iStep as (c' & k' & E & N).
  assert (R2 : a_async (o_set c') = None).
  { pose proof E as E2. unfold step_cloud in E2. op E2. op E2. destruct p as [[g s2] kq]. op E2. destruct p as [[s3 k3] f3]. injection E2 as <- _ _. reflexivity. }
  unfold sim_time_step, step_main. unfold check_for_recomputation. cbn [rM m_sc rSc sc_Dt sc_last sc_rho sc_fld]. change (ti_t rBeam) with 1.
  rewrite (proj2 (Rgeb_false (1 - 1) 1)) by lra. cbv iota beta. cbn [rM m_clouds m_k m_full m_xion clouds_loop].
  change (step_cloud sEnv no_args rBeam [] (mkSpch (Some 1) 1 false [0] (fun _ _ => (0, 0))) 0 false iE) with (step_cloud sEnv no_args (sBeam 1) [] sSc 0 false iE).
  rewrite E. cbn [bind cross_step]. unfold recompute_cloud_spacecharge. rewrite Bool.andb_false_r. cbn [s_force_sc no_args orb bind m_k m_clouds clean_loop]. change (ti_new rBeam) with false.
  unfold clean_one. cbn [bind]. rewrite R2. cbn [check_for_async_regeneration bind]. eexists. split; [reflexivity|]. split; [reflexivity|]. cbn. rewrite N. reflexivity.
Qed.
Lemma rAlike fs fs' : sim_alike fs fs' rM rM.
Proof.
  split; [|auto]. constructor; [|constructor]. split; [|auto]. split; [|reflexivity]. apply absorb_alike.
Qed.
Lemma rCase : exists m1 fs', e_sr sEnv = f_src rOwn /\ sim_alike rOwn fs' rM rM /\ sim_time_step sEnv no_args rBeam [] rM = Some m1 /\ agreeF (m_k rM) (m_k m1) rOwn fs' /\
  (exists i, s_uni (f_src fs') i <> s_uni (f_src rOwn) i) /\ map (fun c => N_mp (o_mp c)) (m_clouds rM) = [0%nat] /\ map (fun c => N_mp (o_mp c)) (m_clouds m1) = [1%nat].
Proof.
  destruct rStep as (m1 & E & N). exists m1, (rSrc (m_k m1)). split; [reflexivity|]. split; [apply rAlike|]. split; [exact E|]. split; [apply rAgree|]. split; [|exact N]. exists (m_k m1). apply rDiffer.
Qed.
Lemma rRun : exists ms fs', e_sr sEnv = f_src rOwn /\ sim_alike rOwn fs' rM rM /\ sim_run sEnv [(no_args, rBeam, [])] rM = Some ms /\ agreeF (m_k rM) (m_k (last ms rM)) rOwn fs' /\
  (exists i, s_uni (f_src fs') i <> s_uni (f_src rOwn) i) /\ ms <> [].
Proof.
  destruct rCase as (m1 & fs' & H1 & H2 & H3 & H4 & H5 & _). exists [m1], fs'. split; [exact H1|]. split; [exact H2|]. split; [cbn [sim_run]; rewrite H3; reflexivity|]. split; [exact H4|]. split; [exact H5|discriminate].
Qed.
Lemma rEmit : exists o k', std_emitter ex_mod ex_cfg ex_sr (3/2) false [ex_imp] 0 = Some (o, k') /\ agree 0 k' ex_sr (f_src (rSrc k')) /\ Sey.n_x o = [1/10].
Proof.
  destruct ex_run as (o & k & E & _ & _ & N). exists o, k. split; [exact E|]. split; [|exact N]. apply (proj1 (rAgree k)).
Qed.
Lemma rGas : exists s' k', gas_generate 0 exK exGas exChamb 1 (3/2) 1 (1/10) (1/10) (1/2) 0 ex_sr 0 exS = Some (s', k') /\ agree 0 k' ex_sr (f_src (rSrc k')) /\ N_mp s' = 3%nat.
Proof. destruct exGas_run as (s' & k' & E & N). exists s', k'. split; [exact E|]. split; [|exact N]. apply (proj1 (rAgree k')). Qed.
Lemma rEvents : exists pr k', SEY_process ex_mod ex_sr 0 [ex_imp] = Some (pr, k') /\ agree 0 k' ex_sr (f_src (rSrc k')) /\ k' = 1%nat.
Proof.
  unfold SEY_process. change (draw (s_uni ex_sr) 0 (List.length [ex_imp])) with [1/2]. cbn [mapM2]. rewrite ex_yield. cbn [bind]. eexists _, _. split; [reflexivity|]. split; [apply (proj1 (rAgree _))|reflexivity].
Qed.
Lemma rRegen : exists s' k', check_for_regeneration 100 0 exCfg exCh exRng 0 exR = Some (s', k') /\ regen_needed exCfg exR = true /\
  agreeR 0 k' exRng (fun i => if Nat.ltb i k' then exRng i else exRng i + 1).
Proof.
  destruct exR_case as (_ & _ & _ & _ & _ & _ & _ & _ & NE & s' & k' & E). exists s', k'. split; [exact E|]. split; [exact NE|]. intros i Hi. rewrite (proj2 (Nat.ltb_lt i k')) by lia. reflexivity.
Qed.
