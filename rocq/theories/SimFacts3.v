(** Space charge over a time step and over a run. *)
From Coq Require Import String Lra Lia.
From Verif Require Import Num NumFacts MP SpecMP MPFacts RegenFacts Push SpecPush PushFacts Geom Poly Sey Impact SpecImpact Beam SpecBeam BeamFacts
  Source SpecSource CrossIon SpecCrossIon Sim SpecSim SimFacts.
Local Open Scope list_scope.
Local Open Scope R_scope.

Lemma step_cloud_frame e a main secs sc k full c c' k' full' : step_cloud e a main secs sc k full c = Some (c', k', full') ->
  o_set c' = o_set c /\ o_rho c' = o_rho c.
Proof.
  unfold step_cloud. destruct (cloud_motion _ _ _ _ _ _ _) as [s|]; [|discriminate]. cbn [bind].
  destruct (backtrack_and_second_emiss _ _ _ _ _ _ _ _) as [[[g s1] kq]|]; [|discriminate]. cbn [bind].
  destruct (primary_generation _ _ _ _ _ _ _) as [[[s2 k2] f2]|]; [|discriminate]. cbn [bind]. intros E. injection E as <- _ _. auto.
Qed.

Lemma clouds_loop_frame e a main secs sc cl : forall k full cl' k' full', clouds_loop e a main secs sc k full cl = Some (cl', k', full') ->
  map o_set cl' = map o_set cl /\ map o_rho cl' = map o_rho cl.
Proof.
  induction cl as [|c cl IH]; intros k full cl' k' full' H; cbn [clouds_loop] in H; [injection H as <- _ _; auto|].
  destruct (step_cloud _ _ _ _ _ _ _ _) as [[[c1 k1] f1]|] eqn:E; [|discriminate]. cbn [bind] in H.
  destruct (clouds_loop e a main secs sc k1 f1 cl) as [[[r k2] f2]|] eqn:EL; [|discriminate]. cbn [bind] in H. injection H as <- _ _.
  apply step_cloud_frame in E. apply IH in EL. destruct E as [E1 E2], EL as [L1 L2]. cbn [map]. split; congruence.
Qed.

Lemma add_loop_length prods d cl : forall cnt cl' cnt', add_loop prods d cnt cl = Some (cl', cnt') -> List.length cl' = List.length cl.
Proof.
  induction cl as [|c cl IH]; intros cnt cl' cnt' H; cbn [add_loop] in H; [injection H as <- _; auto|].
  match type of H with bind ?x _ = _ => destruct x as [[c1 n1]|] end; [|discriminate]. cbn [bind] in H.
  destruct (add_loop prods d n1 cl) as [[r n2]|] eqn:E; [|discriminate]. cbn [bind] in H. injection H as <- _. cbn. f_equal. eauto.
Qed.

Lemma map2_put {B} (f : cloud -> B) : forall cl xs, List.length xs = List.length cl ->
  (forall c x, f (put_mp c x) = f c) -> map f (map2 put_mp cl xs) = map f cl.
Proof.
  induction cl as [|c cl IH]; intros [|x xs] L H; cbn in L; try discriminate; auto. cbn [map2 map]. rewrite H, IH; auto.
Qed.

Lemma cross_step_frame e Dt x k cl x' cl' k' : cross_step e Dt x k cl = Some (x', cl', k') ->
  map o_set cl' = map o_set cl /\ map o_rho cl' = map o_rho cl /\ map o_iman cl' = map o_iman cl.
Proof.
  unfold cross_step. destruct x as [x|]; [|intros E; injection E as _ <- _; auto]. unfold cross_generate.
  destruct (proj_loop _ _ _ _ _ _ _ _) as [[[[procs d] cnt] k1]|]; [|discriminate]. cbn [bind].
  destruct (add_loop _ _ _ _) as [[xs cnt1]|] eqn:AL; [|discriminate]. cbn [bind]. intros E. injection E as _ <- _.
  apply add_loop_length in AL. rewrite map_length in AL. rewrite !map2_put by (auto; intros; reflexivity). auto.
Qed.

Lemma clean_loop_frame e a new cl : forall k cl' k', clean_loop e a new k cl = Some (cl', k') ->
  map o_set cl' = map o_set cl /\ map o_rho cl' = map o_rho cl /\ map o_iman cl' = map o_iman cl /\ map o_Q cl' = map o_Q cl.
Proof.
  induction cl as [|c cl IH]; intros k cl' k' H; cbn [clean_loop] in H; [injection H as <- _; auto|].
  destruct (clean_one _ _ _ _ _ _) as [[s k1]|]; [|discriminate]. cbn [bind] in H.
  destruct (clean_loop e a new k1 cl) as [[r k2]|] eqn:E; [|discriminate]. cbn [bind] in H. injection H as <- _.
  apply IH in E. destruct E as (E1 & E2 & E3 & E4). cbn [map o_set o_rho o_iman o_Q]. rewrite E1, E2, E3, E4. auto.
Qed.

Lemma flag_spec t sc : fst (check_for_recomputation t sc) = true <-> match sc_Dt sc with None => True | Some D => D <= t - sc_last sc end.
Proof. unfold check_for_recomputation. cbn [fst]. destruct (sc_Dt sc); [rewrite Rgeb_true; split; intros; lra|tauto]. Qed.

Lemma adds_up_rho cl cl' sc sc' : map o_rho cl' = map o_rho cl -> sc_rho sc' = sc_rho sc -> adds_up cl sc -> adds_up cl' sc'.
Proof.
  intros A B H j. rewrite B, (H j). f_equal.
  rewrite <- (map_map o_rho (fun r => nth j r 0)), <- (map_map o_rho (fun r => nth j r 0)). congruence.
Qed.

Lemma own_same p cl cl' : map o_set cl' = map o_set cl -> map o_mp cl' = map o_mp cl -> map (own_density p) cl' = map (own_density p) cl.
Proof.
  revert cl'. induction cl as [|c cl IH]; intros [|c' cl'] A B; cbn [map] in *; try discriminate; auto.
  injection A as A1 A2. injection B as B1 B2. unfold own_density at 1 3. rewrite A1, B1. f_equal. auto.
Qed.

(** The step up to the saving of the output. *)
Lemma step_main_sc n e a main secs m mid : grid_size (e_pic e) n -> step_main e a main secs m = Some mid ->
  let b := fst (check_for_recomputation (ti_t main) (m_sc m)) in
  sc_check (m_sc mid) = b /\ sc_last (m_sc mid) = (if b then ti_t main else sc_last (m_sc m)) /\ sc_Dt (m_sc mid) = sc_Dt (m_sc m) /\
  map o_set (m_clouds mid) = map o_set (m_clouds m) /\
  (recomputes e a (ti_t main) m -> m_clouds m <> [] ->
     map o_rho (m_clouds mid) = map (own_density (e_pic e)) (m_clouds mid) /\ adds_up (m_clouds mid) (m_sc mid) /\
     sc_fld (m_sc mid) = pi_solve (e_pic e) (sc_rho (m_sc mid))) /\
  (~ recomputes e a (ti_t main) m ->
     map o_rho (m_clouds mid) = map o_rho (m_clouds m) /\ sc_rho (m_sc mid) = sc_rho (m_sc m) /\ sc_fld (m_sc mid) = sc_fld (m_sc m)).
Proof.
  intros G H. unfold step_main in H. destruct (check_for_recomputation (ti_t main) (m_sc m)) as [flag sc] eqn:EC. cbn [fst]. cbv zeta.
  assert (FS := flag_spec (ti_t main) (m_sc m)). rewrite EC in FS. cbn [fst] in FS.
  unfold check_for_recomputation in EC. injection EC as EF ES.
  destruct (clouds_loop _ _ _ _ _ _ _ _) as [[[cl k] full]|] eqn:EL; [|discriminate]. cbn [bind] in H.
  destruct (cross_step _ _ _ _ _) as [[[x cl2] k2]|] eqn:EX; [|discriminate]. cbn [bind] in H.
  apply clouds_loop_frame in EL. apply cross_step_frame in EX. destruct EL as [L1 L2], EX as (X1 & X2 & _).
  unfold recompute_cloud_spacecharge in H.
  assert (Q : (Rgtb (ti_t main) (e_tsc e) && flag) || s_force_sc a = true <-> recomputes e a (ti_t main) m).
  { unfold recomputes. rewrite Bool.orb_true_iff, Bool.andb_true_iff, Rgtb_true, FS. split; (intros [[? ?]|?]; [left; split; auto; lra|right; auto]). }
  destruct ((Rgtb (ti_t main) (e_tsc e) && flag) || s_force_sc a).
  - destruct (recompute_loop (e_pic e) [] cl2 sc) as [cl3 sc3] eqn:ER. injection H as <-. cbn [m_clouds m_sc].
    destruct (recompute_ok n _ G cl2 [] sc cl3 sc3 (Forall_nil _) ltac:(congruence) ER) as (A1 & A2 & A3 & _ & _ & A4 & A5 & A6 & A7).
    rewrite A5, A6, A7. subst sc. cbn [sc_check sc_last sc_Dt]. rewrite EF.
    split; auto. split; auto. split; auto. split; [congruence|]. split.
    + intros _ NE. assert (NE2 : cl2 <> []).
      { intros ->. cbn in X1. rewrite L1 in X1. destruct (m_clouds m); [congruence|discriminate]. }
      destruct (A4 NE2) as [[_ A8] A9]. split; [rewrite A1; symmetry; apply own_same; auto|]. split; [|exact A9].
      intros j. rewrite A8. cbn [app]. rewrite map_map. auto.
    + intros N. exfalso. apply N, Q. auto.
  - injection H as <-. cbn [m_clouds m_sc]. subst sc. cbn [sc_check sc_last sc_Dt sc_rho sc_fld]. rewrite EF.
    split; auto. split; auto. split; auto. split; [congruence|]. split.
    + intros RC. exfalso. apply Q in RC. discriminate.
    + intros _. split; [congruence|auto].
Qed.

Lemma recompute_none p sc : recompute_loop p [] [] sc = ([], sc).
Proof. reflexivity. Qed.

Lemma step_adds_up n e a main secs m m' : grid_size (e_pic e) n -> sim_time_step e a main secs m = Some m' ->
  adds_up (m_clouds m) (m_sc m) -> adds_up (m_clouds m') (m_sc m') /\ map o_set (m_clouds m') = map o_set (m_clouds m) /\
  sc_check (m_sc m') = fst (check_for_recomputation (ti_t main) (m_sc m)) /\
  sc_last (m_sc m') = (if sc_check (m_sc m') then ti_t main else sc_last (m_sc m)) /\ sc_Dt (m_sc m') = sc_Dt (m_sc m).
Proof.
  intros G H AU. unfold sim_time_step in H. destruct (step_main e a main secs m) as [mid|] eqn:EM; [|discriminate]. cbn [bind] in H.
  destruct (clean_loop _ _ _ _ _) as [[cl k]|] eqn:EC; [|discriminate]. cbn [bind] in H. injection H as <-. cbn [m_clouds m_sc].
  apply clean_loop_frame in EC. destruct EC as (C1 & C2 & _).
  destruct (step_main_sc n _ _ _ _ _ _ G EM) as (A1 & A2 & A3 & A4 & A5 & A6). cbv zeta in *. rewrite <- A1 in A2.
  split; [|repeat split; auto; congruence].
  apply (adds_up_rho (m_clouds mid) cl (m_sc mid)); auto.
  destruct (m_clouds m) as [|c0 r0] eqn:EQ.
  - assert (Z : m_clouds mid = []) by (destruct (m_clouds mid); [auto|discriminate]).
    unfold step_main in EM. rewrite EQ in EM. destruct (check_for_recomputation (ti_t main) (m_sc m)) as [f sc] eqn:EF. cbn [clouds_loop bind] in EM.
    destruct (cross_step _ _ _ _ _) as [[[x cl2] k2]|] eqn:EX; [|discriminate]. cbn [bind] in EM.
    apply cross_step_frame in EX. destruct EX as [X1 _]. destruct cl2; [|discriminate].
    unfold recompute_cloud_spacecharge in EM. rewrite recompute_none in EM.
    unfold check_for_recomputation in EF. injection EF as _ EF.
    assert (SR : sc_rho (m_sc mid) = sc_rho (m_sc m)).
    { destruct ((Rgtb (ti_t main) (e_tsc e) && f) || s_force_sc a); injection EM as <-; subst sc; reflexivity. }
    rewrite Z. intros j. rewrite SR. apply AU.
  - assert (NE : m_clouds m <> []) by congruence. rewrite EQ in NE.
    destruct (Bool.bool_dec ((Rgtb (ti_t main) (e_tsc e) && fst (check_for_recomputation (ti_t main) (m_sc m))) || s_force_sc a) true) as [Y|Y].
    + apply A5; auto. apply Bool.orb_true_iff in Y. destruct Y as [Y|Y]; [left|right; auto]. apply Bool.andb_true_iff in Y. destruct Y as [Y1 Y2].
      apply Rgtb_true in Y1. apply flag_spec in Y2. split; auto; lra.
    + destruct A6 as (B1 & B2 & _).
      { intros RC. apply Y. destruct RC as [[R1 R2]|R1]; apply Bool.orb_true_iff; [left|right; auto].
        apply Bool.andb_true_iff. split; [apply Rgtb_true; lra|]. apply flag_spec. auto. }
      eapply adds_up_rho; [exact B1|exact B2|exact AU].
Qed.

Lemma checks_same ts : forall sc sc', sc_Dt sc' = sc_Dt sc -> sc_last sc' = sc_last sc -> fst (checks ts sc') = fst (checks ts sc).
Proof.
  induction ts as [|t ts IH]; intros sc sc' A B; auto. cbn [checks]. unfold check_for_recomputation. rewrite A, B.
  set (f := match sc_Dt sc with Some _ => _ | None => _ end).
  specialize (IH (mkSpch (sc_Dt sc) (if f then t else sc_last sc) f (sc_rho sc) (sc_fld sc))
     (mkSpch (sc_Dt sc) (if f then t else sc_last sc) f (sc_rho sc') (sc_fld sc')) eq_refl eq_refl).
  destruct (checks ts _) as [b1 s1]. destruct (checks ts _) as [b2 s2]. cbn [fst] in *. congruence.
Qed.

Lemma run_sc n e l : grid_size (e_pic e) n -> forall m ms, sim_run e l m = Some ms -> adds_up (m_clouds m) (m_sc m) ->
  Forall (fun m' => adds_up (m_clouds m') (m_sc m') /\ map o_set (m_clouds m') = map o_set (m_clouds m)) ms /\
  map (fun m' => sc_check (m_sc m')) ms = fst (checks (map step_time l) (m_sc m)).
Proof.
  intros G. induction l as [|[[a main] secs] l IH]; intros m ms H AU; cbn [sim_run] in H; [injection H as <-; split; [constructor|reflexivity]|].
  destruct (sim_time_step e a main secs m) as [m1|] eqn:E1; [|discriminate]. cbn [bind] in H.
  destruct (sim_run e l m1) as [r|] eqn:ER; [|discriminate]. cbn [bind] in H. injection H as <-.
  destruct (step_adds_up n _ _ _ _ _ _ G E1 AU) as (B1 & B2 & B3 & B4 & B5). destruct (IH _ _ ER B1) as [C1 C2]. split.
  - constructor; auto. revert C1. apply Forall_impl. intros m' [D1 D2]. split; auto. congruence.
  - cbn [map checks]. unfold step_time at 1. cbn [fst snd]. destruct (check_for_recomputation (ti_t main) (m_sc m)) as [b sc] eqn:EC.
    cbn [fst] in B3. rewrite C2. unfold check_for_recomputation in EC. injection EC as EF ES.
    rewrite (checks_same _ sc (m_sc m1)); [|subst sc; cbn [sc_Dt]; auto|subst sc; cbn [sc_last]; rewrite B4, B3, <- EF; reflexivity].
    destruct (checks _ sc) as [bs sc2]. cbn [fst]. congruence.
Qed.

(** A check before the start of the space charge uses up the slot. *)
Lemma early_check n e a main secs m m' D : grid_size (e_pic e) n -> sim_time_step e a main secs m = Some m' ->
  sc_Dt (m_sc m) = Some D -> ti_t main <= e_tsc e -> s_force_sc a = false -> D <= ti_t main - sc_last (m_sc m) ->
  sc_rho (m_sc m') = sc_rho (m_sc m) /\
  forall a2 t2, s_force_sc a2 = false -> t2 < ti_t main + D -> ~ recomputes e a2 t2 m'.
Proof.
  intros G H HD HT HF HL.
  unfold sim_time_step in H. destruct (step_main e a main secs m) as [mid|] eqn:EM; [|discriminate]. cbn [bind] in H.
  destruct (clean_loop _ _ _ _ _) as [[cl k]|] eqn:EC; [|discriminate]. cbn [bind] in H. injection H as <-. cbn [m_sc].
  destruct (step_main_sc n _ _ _ _ _ _ G EM) as (A1 & A2 & A3 & A4 & A5 & A6). cbv zeta in *.
  assert (B : fst (check_for_recomputation (ti_t main) (m_sc m)) = true).
  { unfold check_for_recomputation. rewrite HD. cbn [fst]. apply Rgeb_true. lra. }
  rewrite B in A2. split.
  - apply A6. unfold recomputes. rewrite HF. intros [[K _]|K]; [lra|discriminate].
  - intros a2 t2 F2 T2 [[_ K]|K]; [|congruence]. cbn [m_sc] in K. rewrite A3, HD, A2 in K. lra.
Qed.
