(** Concrete cases for the averages (C101). *)
From Coquelicot Require Import Coquelicot.
From Coq Require Import Reals List Lra Lia Bool ZArith Psatz.
From Verif Require Import Num NumFacts MP SpecMP MPFacts Geom SpecGeom GeomFacts Poly SpecPoly PolyGeo PolyFacts ExGeom
  Sey SpecSey SeyFacts SeyFacts2 SeyFacts3 ExSey Impact SpecImpact ImpactFacts ExImpact
  Source SpecSource SourceFacts SourceFacts2 SourceFacts3 SourceFacts4 ExSource SpecMean MeanFacts.
From Verif Require Furman SpecFurman FurmanFacts5 ExFurman MeanFurman SpecRegen RegenFacts2 ExRegen MeanRegen.
Import ListNotations.
Local Open Scope R_scope.

Lemma half_round u : 0 <= u < 1 -> stoch_round (1/2) u = 1%Z \/ stoch_round (1/2) u = 0%Z.
Proof. intros U. unfold stoch_round. rewrite (rfloor_unique (1/2) 0) by lra. destruct (Rltb _ _); auto. Qed.
Lemma half_photo u : 0 <= u < 1 -> photo_number (1/2) u = 1%Z \/ photo_number (1/2) u = 0%Z.
Proof. intros U. rewrite photo_number_stoch by lra. apply half_round, U. Qed.
Lemma half_gas : gas_DNel exK exGas (1/2) 1 = 1/2.
Proof.
  unfold gas_DNel. cbn [exGas exK gs_P gs_sigma gs_T kB c_light].
  assert (10 ^ 11 <> 0) by (apply pow_nonzero; lra). assert (10 ^ 22 <> 0) by (apply pow_nonzero; lra).
  field; repeat split; auto; lra.
Qed.
(** Half a reference charge: one macroparticle or none. *)
Lemma gas_ret u : 0 <= u < 1 -> gas_generate 0 exK exGas exChamb 1 (1/2) 1 (1/10) (1/10) (1/2) 0 (with_uni ex_sr 0 u) 0 exS <> None.
Proof.
  intros U. unfold gas_generate. rewrite half_gas. cbn [nel_mp_ref exS]. change (s_uni (with_uni ex_sr 0 u) 0) with u.
  replace (1 / 2 / 1) with (1/2) by field. destruct (half_round u U) as [-> | ->]; cbn [Z.ltb Z.compare]; [|discriminate]. change (Z.to_nat 1) with 1%nat.
  change (draw (s_uni (with_uni ex_sr 0 u)) 1 1) with [1/2]. cbn [map gs_unif exGas]. rewrite (proj2 (Rltb_false _ _)) by lra.
  unfold gas_coord. cbn [length draw map seq s_norm s_uni ex_sr map3 with_uni with_at Nat.eqb Nat.add].
  cbn [redraw_gas map2 exChamb outside].
  rewrite (proj2 (exW_in _ _)) by lra. cbn [count_true Nat.eqb bind gs_life exGas]. discriminate.
Qed.
Lemma unif_ret u : 0 <= u < 1 -> add_uniform_MP_distrib 0 exChamb (1/2) 1 None None None None (with_at (fun _ => 1/2) 0 u) 0 exS <> None.
Proof.
  intros U. unfold add_uniform_MP_distrib. cbn [nel_mp_ref exS odef exChamb x_aper y_aper]. change (with_at (fun _ => 1/2) 0 u 0%nat) with u.
  replace (1 / 2 / 1) with (1/2) by field. destruct (half_round u U) as [-> | ->]; cbn [Z.ltb Z.compare]; [|discriminate]. change (Z.to_nat 1) with 1%nat.
  cbn [redraw_uniform draw seq map map2 outside exChamb with_at Nat.eqb Nat.add].
  rewrite (proj2 (exW_in _ _)) by lra. cbn [count_true Nat.eqb bind flag_lifetime_hist exS]. discriminate.
Qed.
Lemma photo1_ret u : 0 <= u < 1 -> photo1_generate 0 exK (mkPhoto1 exPh (1/4) 1 (1/2) None) exW 1 (1/2) 1 (with_uni ex_sr 0 u) 0 exS <> None.
Proof.
  intros U. unfold photo1_generate. cbn [p1_ph]. rewrite exPh_charge. cbn [nel_mp_ref exS]. change (s_uni (with_uni ex_sr 0 u) 0) with u.
  replace (1 / 2 / 1) with (1/2) by field. destruct (half_photo u U) as [-> | ->]; cbn [Z.ltb Z.compare]; [|discriminate]. change (Z.to_nat 1) with 1%nat.
  change (draw (s_uni (with_uni ex_sr 0 u)) 1 1) with [1/2]. cbn [map p1_refl]. rewrite (proj2 (Rltb_false _ _)) by lra.
  cbn [count_true negb map draw seq mapM bind repeat mask_put].
  match goal with |- ?t <> None => assert (E : exists s' k', t = Some (s', k')) end;
    [apply mono_hits; [exact exS_wf|cbn; lia|cbn; exact exW_origin]|destruct E as (s' & k' & ->); discriminate].
Qed.
Lemma photo2_ret u : 0 <= u < 1 -> photo2_generate 0 exK exPh None exW 1 (1/2) 1 (with_uni ex_sr 0 u) 0 exS <> None.
Proof.
  intros U. unfold photo2_generate. rewrite exPh_charge. cbn [nel_mp_ref exS]. change (s_uni (with_uni ex_sr 0 u) 0) with u.
  replace (1 / 2 / 1) with (1/2) by field. destruct (half_photo u U) as [-> | ->]; cbn [Z.ltb Z.compare]; [|discriminate]. change (Z.to_nat 1) with 1%nat.
  cbn [bind draw seq map].
  match goal with |- ?t <> None => assert (E : exists s' k', t = Some (s', k')) end;
    [apply mono_hits; [exact exS_wf|cbn; lia|cbn; exact exW_origin]|destruct E as (s' & k' & ->); discriminate].
Qed.
Lemma photo3_ret : exists pc, phcham_ctor sqx sqy (99/100) (99/100) sqcdf = Some pc /\
  forall u, 0 <= u < 1 -> photo3_generate 1 exK exPh pc 1 (1/2) 1 (with_uni ex_sr 0 u) 0 exS <> None.
Proof.
  destruct sq_ctor as (pc & p & CT & HP & PP & BB & LN & X0 & Y0 & NN). exists pc. split; [exact CT|]. intros u U.
  unfold photo3_generate. rewrite exPh_charge. cbn [nel_mp_ref exS]. change (s_uni (with_uni ex_sr 0 u) 0) with u.
  replace (1 / 2 / 1) with (1/2) by field. destruct (half_photo u U) as [-> | ->]; cbn [Z.ltb Z.compare]; [|discriminate]. change (Z.to_nat 1) with 1%nat.
  assert (VX : Vx p = sqx ++ [1] /\ Vy p = sqy ++ [1]).
  { pose proof (phcham_fields _ _ _ _ _ _ CT) as (_ & _ & _ & A & B & _). rewrite PP in A, B. auto. }
  assert (V : vx p 2 = Ropp 1 /\ vx p 3 = 1 /\ vy p 2 = Ropp 1 /\ vy p 3 = Ropp 1).
  { unfold vx, vy. destruct VX as [-> ->]. cbn. auto. }
  destruct V as (V1 & V2 & V3 & V4).
  assert (GP : exists q k, get_photoelectron_positions 1 pc (with_uni ex_sr 0 u) 1 1 = Some ([q], k)).
  { unfold get_photoelectron_positions. change (draw (s_uni (with_uni ex_sr 0 u)) 1 1) with [1/2]. unfold np_histogram.
    rewrite BB. assert (ND : existsb (fun d => Rltb d 0) (np_diff (0 :: sqcdf)) = false).
    { unfold sqcdf. cbn [np_diff existsb]. rewrite !(proj2 (Rltb_false _ _)) by lra. auto. }
    rewrite ND, in_bin_half. cbn [bind segments_loop Nat.eqb]. rewrite X0, Y0, NN, PP. cbn [bind].
    cbn [segment_points]. cbn [draw seq map s_uni ex_sr map2 with_uni with_at Nat.eqb Nat.add].
    rewrite (proj2 (rect_outside 1 1 p _ _ Rlt_0_1 Rlt_0_1 HP)).
    2:{ rewrite V1, V2, V3, V4. unfold phem_dist. assert (0 < 1 / 10 ^ 14 < 1) by (split; lra).
        set (d := 1 / 10 ^ 14) in *. split; apply Rabs_def1; lra. }
    cbn [count_true Nat.eqb bind app length map2]. eexists _, _. reflexivity. }
  destruct GP as (q & k & ->). cbn [bind]. destruct q as [[[x y] nx] ny]. cbn [map].
  destruct (mono_set exK exPh 1 (with_uni ex_sr 0 u) k [x] [y] [nx] [ny] exS) as (s' & k' & E); auto using exS_wf.
  intros H. enough (Some (s', k') = None) by discriminate. rewrite <- E. exact H.
Qed.

(** One impact on a Furman-Pivi surface, with yield 1. *)
Lemma fp_ret u l : Furman.fp_impacts 0 ExFurman.exSp (ExFurman.exF false 1) (given_draws (with_uni ex_sr 0 u) 1 l) 1 false [ExFurman.exI 1] 0 <> None.
Proof.
  destruct (FurmanFacts5.fp_returns ExFurman.exSp (ExFurman.exF false 1) (given_draws (with_uni ex_sr 0 u) 1 l) NormalEmission
    eq_refl eq_refl eq_refl ltac:(cbn; lia) ltac:(cbn; lia) 0 1 false [ExFurman.exI 1] 0%nat) as (e & k' & ->); [| | |discriminate].
  - apply ExFurman.exF_ysane. lra.
  - constructor; [apply ExFurman.exI_ok; lra|constructor].
  - intros p _. unfold SpecFurman.de_of. rewrite ExFurman.ex_de, ExFurman.ex_dr. lra.
Qed.

Lemma regen_ret us : Forall (fun u => 0 <= u < 1) us ->
  check_for_regeneration 100 0 ExRegen.exCfg ExRegen.exCh (with_list ExRegen.exRng 0 us) 0 ExRegen.exR <> None.
Proof.
  intros U. destruct ExRegen.exR_case as (W & T & Un & HC & H1 & H2 & H3 & F & _).
  destruct (RegenFacts2.regen_progress 100 0 ExRegen.exCfg ExRegen.exCh (with_list ExRegen.exRng 0 us) 0 ExRegen.exR) as (s' & k' & ->); auto; try discriminate; simpl; try lra; try lia.
  - apply MeanRegen.with_list_ok; assumption.
  - unfold capacity; simpl; lia.
  - assert (H : hist_half (1/2) 1 = 2%nat).
    { unfold hist_half. replace (rceil ((1 / 2 + 2 * 1) / 1)) with 3%Z; [reflexivity|].
      symmetry. apply rceil_unique. lra. }
    unfold hist_grid_len. rewrite H. lia.
Qed.

(** An impact at the energy of the maximum on a surface that also reflects. *)
Definition mean_mod : seymod := MEcloud 300 2 1 150 s135 true true.
Lemma mean_one u : exists q b, sey_one mean_mod u ex_imp = Some (q, b) /\ q <= 4.
Proof.
  pose proof (yield_ECLOUD_ok 300 2 1 150 s135 true true 300 1 ltac:(lra) ltac:(lra) ltac:(lra) ltac:(lra) ltac:(lra) ltac:(lra) ltac:(unfold s135; lra)) as Y.
  unfold sey_one, mean_mod. cbn [i_E i_ct i_nel ex_imp]. destruct (yield_ECLOUD 300 2 1 150 s135 true true 300 1) as [d f].
  destruct Y as (_ & _ & _ & Y). unfold dm_tilde in Y. replace (1 / 2 * (1 - 1)) with 0 in Y by lra. rewrite exp_0 in Y.
  eexists _, _. split; [reflexivity|]. lra.
Qed.
Lemma few_clones q : q <= 4 -> n_clones q 4 = 0%nat.
Proof.
  intros Q. destruct (n_clones_ok q 4 ltac:(lra)) as [_ N]. destruct (n_clones q 4) as [|n] eqn:E; [reflexivity|].
  pose proof (N ltac:(discriminate)) as L. rewrite S_INR in L. pose proof (pos_INR n). lra.
Qed.
Lemma surface_ret us : impacts_on_surface mean_mod ex_cfg 4 false (with_unis ex_sr 0 us) 0 [ex_imp] <> None.
Proof.
  unfold impacts_on_surface, SEY_process. set (sr := with_unis ex_sr 0 us). change (draw (s_uni sr) 0 (length [ex_imp])) with [s_uni sr 0].
  cbn [mapM2]. destruct (mean_one (s_uni sr 0)) as (q & b & E & Q). rewrite E. cbn [bind].
  destruct b; [discriminate|].
  unfold emit_surface. cbn -[gen_vel n_clones ex_imp sr ex_cfg]. rewrite few_clones by exact Q.
  unfold mask_set. cbn -[gen_vel n_clones ex_imp sr ex_cfg].
  assert (G : gen_vel ex_cfg sr 1 1 [i_E ex_imp] [i_nx ex_imp] [i_ny ex_imp] = Some ([vel_normal 1 1 5 (i_nx ex_imp) (i_ny ex_imp)], (1 + 1)%nat)) by exact (ex_gen 1 (i_E ex_imp) (i_nx ex_imp) (i_ny ex_imp)).
  cbn -[gen_vel n_clones sr ex_cfg] in G |- *. rewrite G. discriminate.
Qed.
