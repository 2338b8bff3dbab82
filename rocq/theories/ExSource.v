(** Concrete cases for the primary sources. *)
From Coq Require Import Lra Lia Reals Psatz.
From Verif Require Import Num NumFacts MP SpecMP MPFacts Geom SpecGeom GeomFacts Poly SpecPoly PolyGeo PolyFacts ExGeom
  Sey SpecSey SeyFacts SeyFacts2 SeyFacts3 ExSey Impact SpecImpact ImpactFacts ExImpact
  Source SpecSource SourceFacts SourceFacts2 SourceFacts3 SourceFacts4.

Definition exK : consts := mkConsts 1 1 1.
(** Settings for which the charge of one step is 3/2 reference charges. *)
Definition exGas : gas := mkGas 0 (10 ^ 11 / 13332) (10 ^ 22) 1 1 false.
Definition exChamb : chamber := mkChamb (w_out exW) 1 1.

Lemma round_one : stoch_round (3/2) (1/2) = 1%Z.
Proof.
  unfold stoch_round. rewrite (rfloor_unique (3/2) 1) by lra. rewrite (proj2 (Rltb_false _ _)) by lra. auto.
Qed.

Lemma exGas_charge : gas_DNel exK exGas (3/2) 1 = 3/2.
Proof.
  unfold gas_DNel. cbn [exGas exK gs_P gs_sigma gs_T kB c_light].
  assert (10 ^ 11 <> 0) by (apply pow_nonzero; lra). assert (10 ^ 22 <> 0) by (apply pow_nonzero; lra).
  field; repeat split; auto; lra.
Qed.

Lemma exGas_run : exists s' k', gas_generate 0 exK exGas exChamb 1 (3/2) 1 (1/10) (1/10) (1/2) 0 ex_sr 0 exS = Some (s', k') /\
  N_mp s' = 3%nat.
Proof.
  unfold gas_generate. rewrite exGas_charge. cbn [nel_mp_ref exS s_uni ex_sr].
  replace (3 / 2 / 1) with (3/2) by field. rewrite round_one. cbn [Z.ltb Z.compare]. change (Z.to_nat 1) with 1%nat.
  change (draw (fun _ : nat => 1/2) 1 1) with [1/2]. cbn [map gs_unif exGas]. rewrite (proj2 (Rltb_false _ _)) by lra.
  unfold gas_coord. cbn [length draw map seq s_norm s_uni ex_sr map3].
  cbn [redraw_gas map2 exChamb outside].
  rewrite (proj2 (exW_in _ _)) by lra. cbn [count_true Nat.eqb bind gs_life exGas].
  eexists _, _. split; reflexivity.
Qed.

(** Photoemission with one energy. *)
Definition exPh : photo := mkPhoto 1 None Mono 1 2 NormalEmission 3.

Lemma photo_round : photo_number (3/2) (1/2) = 1%Z.
Proof. rewrite photo_number_stoch by lra. apply round_one. Qed.

Lemma exPh_charge lam : photo_DNel exK (ph_k exPh) (ph_mean exPh) lam 1 = lam.
Proof. unfold photo_DNel. cbn. field. Qed.

Lemma mono_set kc ph mass sr k xs ys nx ny s : ph_dist ph = Mono -> wf s -> (N_mp s + 1 <= capacity s)%nat ->
  length xs = 1%nat -> length ys = 1%nat -> length nx = 1%nat -> length ny = 1%nat ->
  exists s' k', photo_set 0 kc ph mass sr k 1 xs ys nx ny s = Some (s', k').
Proof.
  intros HD W F L1 L2 L3 L4. unfold photo_set. rewrite HD. cbn [get_energy bind repeat].
  destruct (angle_dist_func _ _ _ _ _ _ _ _ _) as [v k1] eqn:A.
  assert (LV : length v = 1%nat).
  { destruct nx as [|a [|]]; try discriminate. destruct ny as [|b [|]]; try discriminate.
    unfold angle_dist_func in A. destruct (ph_angle ph); injection A as <- _; auto. }
  destruct (add_new_spec 1 (mkBatch [nel_mp_ref s] xs ys [0] (map fst3 v) (map snd3 v) (map thd3 v) [-1]) s) as (s' & E & _); auto.
  { unfold batch_ok; cbn. rewrite !map_length. auto 10. }
  rewrite E. cbn [bind]. eauto.
Qed.

Lemma exW_ok : wall_ok exW.
Proof. exact (ell_wall_ok exE (99/100) exE_ok). Qed.
Lemma exW_origin : w_out exW 0 0 = false.
Proof. apply exW_in. lra. Qed.

Lemma mono_hits q mass sr k s : wf s -> (N_mp s + 1 <= capacity s)%nat ->
  w_out exW (t_xin (track4 q)) (t_yin (track4 q)) = false ->
  exists s' k', gen_energy_and_set_MPs 0 exK exPh exW mass sr k 1 [q] s = Some (s', k').
Proof.
  intros W F H. unfold gen_energy_and_set_MPs.
  change (map (fun '(xi, yi, xo, yo) => mkTrack xi yi 0 xo yo 0) [q]) with [track4 q].
  destruct (proj2 exW_ok [track4 q]) as (hs & E & _); [constructor; auto|].
  rewrite E. cbn [bind]. apply (proj1 exW_ok) in E. cbn in E. apply mono_set; auto; rewrite !map_length; auto.
Qed.

Lemma exPh1_ctor : photo1_ctor exPh (1/4) 1 (1/2) 0 None exW = Some (mkPhoto1 exPh (1/4) 1 (1/2) None).
Proof.
  unfold photo1_ctor. rewrite (proj2 (Reqb_true 0 0)) by auto. cbn [negb].
  rewrite (proj2 (exW_in _ _)) by lra. auto.
Qed.

Lemma exPh1_run : exists s' k', photo1_generate 0 exK (mkPhoto1 exPh (1/4) 1 (1/2) None) exW 1 (3/2) 1 ex_sr 0 exS = Some (s', k').
Proof.
  unfold photo1_generate. cbn [p1_ph]. rewrite exPh_charge. cbn [nel_mp_ref exS s_uni ex_sr].
  replace (3 / 2 / 1) with (3/2) by field. rewrite photo_round. cbn [Z.ltb Z.compare]. change (Z.to_nat 1) with 1%nat.
  change (draw (fun _ : nat => 1/2) 1 1) with [1/2]. cbn [map p1_refl]. rewrite (proj2 (Rltb_false _ _)) by lra.
  cbn [count_true negb map draw seq mapM bind repeat mask_put].
  apply mono_hits; [exact exS_wf|cbn; lia|cbn; exact exW_origin].
Qed.

Lemma exPh2_run : exists s' k', photo2_generate 0 exK exPh None exW 1 (3/2) 1 ex_sr 0 exS = Some (s', k').
Proof.
  unfold photo2_generate. rewrite exPh_charge. cbn [nel_mp_ref exS s_uni ex_sr].
  replace (3 / 2 / 1) with (3/2) by field. rewrite photo_round. cbn [Z.ltb Z.compare]. change (Z.to_nat 1) with 1%nat.
  cbn [bind draw seq map]. apply mono_hits; [exact exS_wf|cbn; lia|cbn; exact exW_origin].
Qed.

(** A square with a quarter of the photoelectrons on each side. *)
Definition sqx : list R := [1; Ropp 1; Ropp 1; 1].
Definition sqy : list R := [1; 1; Ropp 1; Ropp 1].
Definition sqcdf : list R := [1/4; 1/2; 3/4; 1].

Lemma sqrt4 a b : a * a + b * b = 4 -> sqrt (a * a + b * b) = 2.
Proof. intros ->. replace 4 with (2 * 2) by ring. apply sqrt_square. lra. Qed.

Lemma sq_ctor : exists pc p, phcham_ctor sqx sqy (99/100) (99/100) sqcdf = Some pc /\
  rect_ctor 1 1 true = Some p /\ pc_poly pc = p /\
  pc_bins pc = 0 :: sqcdf /\ length (pc_nrm pc) = 4%nat /\
  nth_error (pc_x0 pc) 2 = Some (Ropp 1 + phem_dist * 0) /\ nth_error (pc_y0 pc) 2 = Some (Ropp 1 + phem_dist * 1) /\
  nth_error (pc_nrm pc) 2 = Some (0, 1).
Proof.
  destruct (rect_accepted 1 1 true) as [p HP]; try lra.
  assert (N : np_diff (sqx ++ [1]) = [-2; 0; 2; 0] /\ np_diff (sqy ++ [1]) = [0; -2; 0; 2]).
  { split; cbn; repeat (f_equal; try lra). }
  destruct N as [NX NY].
  assert (NR : map2 edge_normal [-2; 0; 2; 0] [0; -2; 0; 2] = [Some (0, -1); Some (1, 0); Some (0, 1); Some (-1, 0)]).
  { unfold edge_normal. cbn [map2]. rewrite !sqrt4 by lra. rewrite (proj2 (Reqb_false 2 0)) by lra.
    repeat (f_equal; try lra). }
  assert (AR : poly_area (sqx ++ [1]) (sqy ++ [1]) = 4).
  { unfold poly_area. rewrite NX. unfold sqy. cbn [app tl removelast map2]. unfold rsum; simpl. lra. }
  assert (CV : is_convex (sqx ++ [1]) (sqy ++ [1]) 4 = true).
  { unfold is_convex. apply convex_loop_spec; auto. right. split; auto. intros c Hc.
    apply in_map_iff in Hc. destruct Hc as (i & <- & Hi). apply in_seq in Hi.
    destruct i as [|[|[|[|i]]]]; [| | | |lia];
    cbv [turn sqx sqy Nat.add Nat.modulo Nat.divmod Nat.sub fst snd nth app]; lra. }
  assert (PP : p = mkPoly (sqx ++ [1]) (sqy ++ [1]) [Some (0, -1); Some (1, 0); Some (0, 1); Some (-1, 0)] 4 (99/100) (99/100) true 4).
  { unfold rect_ctor, poly_ctor in HP. destruct (existsb _ _); [discriminate|].
    replace (99 / 100 * 1) with (99/100) in HP by lra.
    change ([1; Ropp 1; Ropp 1; 1] ++ [1]) with (sqx ++ [1]) in HP. change ([1; 1; Ropp 1; Ropp 1] ++ [1]) with (sqy ++ [1]) in HP.
    rewrite AR, (proj2 (Rltb_false _ _)) in HP by lra. cbn [length] in HP. rewrite CV in HP. cbn [andb negb] in HP.
    rewrite NX, NY, NR in HP. congruence. }
  unfold phcham_ctor. change (rev sqcdf) with [1; 3/4; 1/2; 1/4]. change sqx with (1 :: [Ropp 1; Ropp 1; 1]) at 1. change sqy with (1 :: [1; Ropp 1; Ropp 1]) at 1.
  cbv beta iota. rewrite (proj2 (Reqb_true 1 1)) by auto. cbn [negb].
  assert (ND : existsb (fun d => Rltb d 0) (np_diff sqcdf) = false).
  { unfold sqcdf. cbn [np_diff existsb]. rewrite !(proj2 (Rltb_false _ _)) by lra. auto. }
  rewrite ND. cbv zeta. rewrite AR, (proj2 (Rltb_false 4 0)) by lra. rewrite NX, NY, NR.
  assert (LG : existsb (fun d => Rltb d (1 / 10 ^ 9)) (map2 (fun dx dy => sqrt (dx ^ 2 + dy ^ 2)) [-2; 0; 2; 0] [0; -2; 0; 2]) = false).
  { cbn [map2 existsb]. rewrite !(proj2 (Rltb_false _ _)); auto; apply sqrt_le_sq; nra. }
  rewrite LG. change (length sqx) with 4%nat. rewrite CV. cbn [mapM bind].
  eexists _, p. split; [reflexivity|]. split; [exact HP|]. cbn [pc_poly pc_bins pc_nrm pc_x0 pc_y0]. split; [auto|].
  repeat split.
Qed.

Lemma in_bin_half : hist_bins [1/2] (0 :: sqcdf) = [0; 0; 1; 0]%nat.
Proof.
  unfold sqcdf. cbn [hist_bins map].
  rewrite (proj2 (Rleb_true 0 (1/2))), (proj2 (Rleb_true (1/4) (1/2))), (proj2 (Rleb_true (1/2) (1/2))) by lra.
  rewrite (proj2 (Rltb_false (1/2) (1/4))), (proj2 (Rltb_false (1/2) (1/2))), (proj2 (Rltb_true (1/2) (3/4))) by lra.
  rewrite (proj2 (Rleb_false (3/4) (1/2))) by lra. reflexivity.
Qed.

Lemma exPh3_run : exists pc s' k', phcham_ctor sqx sqy (99/100) (99/100) sqcdf = Some pc /\
  photo3_generate 1 exK exPh pc 1 (3/2) 1 ex_sr 0 exS = Some (s', k').
Proof.
  destruct sq_ctor as (pc & p & CT & HP & PP & BB & LN & X0 & Y0 & NN). exists pc.
  unfold photo3_generate. rewrite exPh_charge. cbn [nel_mp_ref exS s_uni ex_sr].
  replace (3 / 2 / 1) with (3/2) by field. rewrite photo_round. cbn [Z.ltb Z.compare]. change (Z.to_nat 1) with 1%nat.
  assert (VX : Vx p = sqx ++ [1] /\ Vy p = sqy ++ [1]).
  { pose proof (phcham_fields _ _ _ _ _ _ CT) as (_ & _ & _ & A & B & _). rewrite PP in A, B. auto. }
  assert (V : vx p 2 = Ropp 1 /\ vx p 3 = 1 /\ vy p 2 = Ropp 1 /\ vy p 3 = Ropp 1).
  { unfold vx, vy. destruct VX as [-> ->]. cbn. auto. }
  destruct V as (V1 & V2 & V3 & V4).
  assert (GP : exists q k, get_photoelectron_positions 1 pc ex_sr 1 1 = Some ([q], k)).
  { unfold get_photoelectron_positions. change (draw (s_uni ex_sr) 1 1) with [1/2]. unfold np_histogram.
    rewrite BB. assert (ND : existsb (fun d => Rltb d 0) (np_diff (0 :: sqcdf)) = false).
    { unfold sqcdf. cbn [np_diff existsb]. rewrite !(proj2 (Rltb_false _ _)) by lra. auto. }
    rewrite ND, in_bin_half. cbn [bind segments_loop Nat.eqb]. rewrite X0, Y0, NN, PP. cbn [bind].
    cbn [segment_points]. cbn [draw seq map s_uni ex_sr map2].
    rewrite (proj2 (rect_outside 1 1 p _ _ Rlt_0_1 Rlt_0_1 HP)).
    2:{ rewrite V1, V2, V3, V4. unfold phem_dist. assert (0 < 1 / 10 ^ 14 < 1) by (split; lra).
        set (d := 1 / 10 ^ 14) in *. split; apply Rabs_def1; lra. }
    cbn [count_true Nat.eqb bind app length map2]. eexists _, _. reflexivity. }
  destruct GP as (q & k & ->). cbn [bind]. destruct q as [[[x y] nx] ny]. cbn [map].
  destruct (mono_set exK exPh 1 ex_sr k [x] [y] [nx] [ny] exS) as (s' & k' & E); auto using exS_wf.
  exists s', k'. auto.
Qed.

(** Uniform distributions. *)
Lemma exUnif_run : exists s' k', add_uniform_MP_distrib 0 exChamb (3/2) 1 None None None None (fun _ => 1/2) 0 exS = Some (s', k') /\
  N_mp s' = 3%nat.
Proof.
  unfold add_uniform_MP_distrib. cbn [nel_mp_ref exS odef exChamb x_aper y_aper].
  replace (3 / 2 / 1) with (3/2) by field. rewrite round_one. cbn [Z.ltb Z.compare]. change (Z.to_nat 1) with 1%nat.
  cbn [redraw_uniform draw seq map map2 outside exChamb].
  rewrite (proj2 (exW_in _ _)) by lra. cbn [count_true Nat.eqb bind flag_lifetime_hist exS].
  eexists _, _. split; reflexivity.
Qed.

Lemma exDens_run : exists s' k', add_uniform_ele_density exChamb (3/8) 1 None None None None (fun _ => 1/2) 0 exS = Some (s', k') /\
  N_mp s' = 3%nat.
Proof.
  unfold add_uniform_ele_density. cbn [nel_mp_ref exS odef exChamb x_aper y_aper].
  replace (3 / 8 * (1 - - (1)) * (1 - - (1)) / 1) with (3/2) by field. rewrite round_one. cbn [Z.ltb Z.compare]. change (Z.to_nat 1) with 1%nat.
  cbn [draw seq map map2 outside exChamb].
  rewrite (proj2 (exW_in _ _)) by lra. cbn [negb mask_get length bind flag_lifetime_hist exS].
  eexists _, _. split; reflexivity.
Qed.

(** With the lifetime histogram the uniform distribution leaves the old entry
    of the slot: here a macroparticle that has just been created seems to have
    hit the wall at time 7. *)
Definition exSlot : mpsys :=
  mkSys [0; 0; 0] [0; 0; 0] [0; 0; 0] [0; 0; 0] [0; 0; 0] [0; 0; 0] [1; 1; 0] [-1; -1; 7] 2 true 1 (3/2) (1/10) 1 (3/2) (1/10).

Lemma exSlot_ok : wf exSlot /\ tail_zero exSlot.
Proof. split; [constructor; cbn; auto|]. intros i Hi. cbn in Hi. destruct i as [|[|[|[|i]]]]; cbn; auto; lia. Qed.

Lemma stale_time : exists s' k' old, add_uniform_MP_distrib 0 exChamb (3/2) 1 None None None None (fun _ => 1/2) 0 exSlot = Some (s', k') /\
  live s' = live exSlot ++ [old] /\ m_t old = 7.
Proof.
  assert (E : exists s' k', add_uniform_MP_distrib 0 exChamb (3/2) 1 None None None None (fun _ => 1/2) 0 exSlot = Some (s', k') /\
     N_mp s' = 3%nat /\ live s' = live exSlot ++ [mp_at s' 2] /\ m_t (mp_at s' 2) = 7).
  { unfold add_uniform_MP_distrib. cbn [nel_mp_ref exSlot odef exChamb x_aper y_aper].
    replace (3 / 2 / 1) with (3/2) by field. rewrite round_one. cbn [Z.ltb Z.compare]. change (Z.to_nat 1) with 1%nat.
    cbn [redraw_uniform draw seq map map2 outside exChamb].
    rewrite (proj2 (exW_in _ _)) by lra. cbn [count_true Nat.eqb bind flag_lifetime_hist exSlot].
    eexists _, _. split; [reflexivity|]. split; [reflexivity|]. split; reflexivity. }
  destruct E as (s' & k' & E & _ & L & T). exists s', k', (mp_at s' 2). auto.
Qed.

(** Rectangular distribution around 0: a negative energy. *)
Lemma rect_negative : exists en k, get_energy 0 Rectangular 4 1 (mkSrc (fun _ => 0) (fun _ => 0) (fun _ => 0)) 0 1 = Some ([en], k) /\ en < 0.
Proof. eexists _, _. split; [reflexivity|]. cbn. lra. Qed.
