(** The targets over a run, and the charge one process gives. *)
From Coq Require Import Lra Lia String Psatz.
From Verif Require Import Num NumFacts MP SpecMP MPFacts RegenFacts SourceFacts CrossIon SpecCrossIon CrossIonFacts CrossIonFacts2 CrossIonFacts3.
Local Open Scope list_scope.
Local Open Scope R_scope.

Lemma projectile_live s : projectiles s = map (fun q => mkPj (m_nel q) (m_x q) (m_y q) (m_z q) (speed q)) (live s).
Proof. unfold projectiles, live. rewrite map_map. reflexivity. Qed.

Lemma DN_hits qe p Dt mass s DN :
  Forall2 (fun j d => DN_one qe p Dt mass j = Some d) (projectiles s) DN -> Forall2 (hits qe p Dt mass) (live s) DN.
Proof.
  rewrite projectile_live. generalize (live s). intros l. revert DN. induction l as [|q l IH]; intros DN H; inversion H; subst; constructor; auto.
  match goal with E : DN_one _ _ _ _ _ = Some _ |- _ => unfold DN_one in E; cbn [j_v j_nel] in E;
    replace (1/2 * mass / qe * speed q * speed q) with (1/2 * mass / qe * (speed q * speed q)) in E by ring;
    destruct (get_sigma (x_tab p) (1/2 * mass / qe * (speed q * speed q))) as [sg|] eqn:SG; [|discriminate]; cbn in E; injection E as <- end.
  exists sg. split; [auto|ring].
Qed.

Lemma hits_swept qe p Dt mass l DN : Forall2 (hits qe p Dt mass) l DN ->
  exists areas, Forall2 (swept qe p Dt mass) l areas /\ rsum DN = x_dens p * rsum areas.
Proof.
  induction 1 as [|q dn l DN (sg & S1 & ->) F (areas & A1 & A2)].
  - exists []. split; [constructor|]. change (0 = x_dens p * 0). ring.
  - exists ((sg * (speed q * Dt) * m_nel q) :: areas). split; [constructor; auto; exists sg; auto|].
    match goal with |- rsum (?a :: ?b) = _ * rsum (?c :: ?d) => change (rsum (a :: b)) with (a + rsum b); change (rsum (c :: d)) with (c + rsum d) end.
    rewrite A2. ring.
Qed.

Lemma process_target qe p Dt cl mass s rng k p' infos D k' :
  process_generate qe p Dt cl mass (projectiles s) rng k = Some (p', infos, D, k') ->
  exists DN, Forall2 (hits qe p Dt mass) (live s) DN /\ D = rsum DN /\ p' = deplete p D.
Proof.
  intros E. unfold process_generate in E. destruct (xmapM _ _) as [DN|] eqn:XM; [|discriminate]. cbn [bind] in E.
  apply xmapM_Forall2, DN_hits in XM. exists DN. split; [auto|].
  destruct (x_equal p).
  - destruct (mean_ref _ _ _ _); [|discriminate]. cbn [bind] in E. destruct (products_loop _ _ _ _ _ _ _ _ _) as [[]|]; [|discriminate].
    cbn [bind] in E. injection E as <- <- <- <-. auto.
  - cbn [bind] in E. destruct (products_loop _ _ _ _ _ _ _ _ _) as [[]|]; [|discriminate].
    cbn [bind] in E. injection E as <- <- <- <-. auto.
Qed.

Lemma deplete_full qe p Dt mass l DN areas0 : target_full p -> Forall2 (hits qe p Dt mass) l DN ->
  (forall areas, Forall2 (swept qe p Dt mass) l areas -> rsum areas <= x_area p) ->
  areas0 = rsum DN -> target_full (deplete p areas0).
Proof.
  intros (A & Dn & N) H G ->. apply hits_swept in H. destruct H as (areas & H1 & ->). specialize (G _ H1).
  assert (E : x_dens p * x_area p = x_N p) by (rewrite Dn; field; lra).
  assert (0 <= x_dens p) by (rewrite Dn; unfold Rdiv; apply Rmult_le_pos; auto; left; apply Rinv_0_lt_compat; auto).
  assert (x_dens p * rsum areas <= x_N p) by (rewrite <- E; apply Rmult_le_compat_l; auto).
  split; [auto|]. split; [reflexivity|]. apply deplete_nonneg; auto.
Qed.

Lemma procs_loop_full qe Dt cl mass s rng : forall ps d cnt k ps' d' cnt' k',
  Forall target_full ps ->
  (forall p areas, In p ps -> Forall2 (swept qe p Dt mass) (live s) areas -> rsum areas <= x_area p) ->
  procs_loop qe Dt cl mass (projectiles s) ps d cnt rng k = Some (ps', d', cnt', k') -> Forall target_full ps'.
Proof.
  induction ps as [|p ps IH]; intros d cnt k ps' d' cnt' k' F G E; cbn [procs_loop] in E.
  - injection E as <- <- <- <-. auto.
  - destruct (process_generate _ _ _ _ _ _ _ _) as [[[[p' infos] DN] k1]|] eqn:PG; [|discriminate]. cbn [bind] in E.
    destruct (collect _ _ _ _ _) as [[d1 cnt1]|] eqn:CO; [|discriminate]. cbn [bind] in E.
    destruct (procs_loop _ _ _ _ _ _ _ _ _ _) as [[[[rest d2] cnt2] k2]|] eqn:PL; [|discriminate]. cbn [bind] in E.
    injection E as <- <- <- <-. inversion F; subst. constructor.
    + apply process_target in PG. destruct PG as (DNs & H & E & ->). eapply deplete_full; eauto. intros areas. apply G. cbn; auto.
    + eapply IH; [auto| |exact PL]. intros q areas Hq. apply G. cbn; auto.
Qed.

Lemma proj_loop_full qe Dt cl rng : forall pd d cnt k pd' d' cnt' k',
  Forall target_full (flatp pd) ->
  (forall name ps c p areas, In (name, ps) pd -> In p ps -> In c cl -> xc_name c = name ->
    Forall2 (swept qe p Dt (xc_mass c)) (live (xc_mp c)) areas -> rsum areas <= x_area p) ->
  proj_loop qe Dt cl pd d cnt rng k = Some (pd', d', cnt', k') -> Forall target_full (flatp pd').
Proof.
  induction pd as [|[name ps] pd IH]; intros d cnt k pd' d' cnt' k' F G E; cbn [proj_loop] in E.
  - injection E as <- <- <- <-. auto.
  - destruct (find_cloud name cl) as [c|] eqn:FC; [|discriminate]. cbn [bind] in E. apply find_cloud_In in FC. destruct FC as [FI FN].
    cbn [flatp flat_map snd] in F. rewrite Forall_app in F. destruct F as [F1 F2].
    destruct (if Nat.ltb 0 (N_mp (xc_mp c)) then _ else _) as [[[[ps1 d1] cnt1] k1]|] eqn:PL; [|discriminate]. cbn [bind] in E.
    destruct (proj_loop _ _ _ _ _ _ _ _) as [[[[rest d2] cnt2] k2]|] eqn:PJ; [|discriminate]. cbn [bind] in E.
    injection E as <- <- <- <-. cbn [flatp flat_map snd]. apply Forall_app. split.
    + destruct (Nat.ltb 0 (N_mp (xc_mp c))).
      * eapply procs_loop_full; [exact F1| |exact PL]. intros p areas Hp. apply (G name ps); cbn; auto.
      * injection PL as <- <- <- <-. auto.
    + eapply IH; [auto| |exact PJ]. intros n p0 c0 p areas Hin. apply (G n p0). cbn; auto.
Qed.

Lemma gentle_step qe Dt x cl rng k x' cl' k' : Forall target_full (procs_of x) -> gentle qe Dt x cl ->
  cross_generate qe Dt x cl rng k = Some (x', cl', k') -> Forall target_full (procs_of x').
Proof.
  intros F G E. unfold cross_generate in E.
  destruct (proj_loop _ _ _ _ _ _ _ _) as [[[[procs d] cnt] k1]|] eqn:PL; [|discriminate]. cbn [bind] in E.
  destruct (add_loop _ _ _ _) as [[cl1 cnt1]|] eqn:AL; [|discriminate]. cbn [bind] in E. injection E as <- <- <-.
  eapply proj_loop_full; eauto.
Qed.

Lemma gentle_run_full qe x x' : gentle_run qe x x' -> Forall target_full (procs_of x) -> Forall target_full (procs_of x').
Proof. induction 1; intros F; auto. apply IHgentle_run. eapply gentle_step; eauto. Qed.

(** * The charge of one process *)
Lemma rsum_repeat c n : rsum (repeat c n) = INR n * c.
Proof.
  induction n; [change (0 = 0 * c); ring|]. rewrite S_INR. change (rsum (repeat c (S n))) with (c + rsum (repeat c n)). rewrite IHn. ring.
Qed.

Lemma process_charge qe p Dt cl mass s rng k p' infos D k' :
  table_ok p -> 0 <= x_dens p -> 0 <= Dt -> clouds_ok cl -> (forall j, 0 <= rng j < 1) ->
  Forall (fun q => 0 <= m_nel q) (live s) ->
  process_generate qe p Dt cl mass (projectiles s) rng k = Some (p', infos, D, k') ->
  (exists DN, Forall2 (hits qe p Dt mass) (live s) DN /\ D = rsum DN) /\ depleted p p' D /\ map fst infos = x_prods p /\
  Forall (fun i => exists ref, 0 < ref /\ (x_equal p = false -> exists c, In c cl /\ xc_name c = fst i /\ ref = nel_mp_ref (xc_mp c)) /\
    Forall (fun e => e = ref) (n_nel (snd i)) /\ n_N (snd i) = Z.of_nat (List.length (n_nel (snd i))) /\
    Rabs (rsum (n_nel (snd i)) - D) <= INR (N_mp s) * ref) infos /\
  (x_equal p = true -> forall a b, In a infos -> In b infos ->
    n_nel (snd a) = n_nel (snd b) /\ n_x (snd a) = n_x (snd b) /\ n_y (snd a) = n_y (snd b) /\ n_z (snd a) = n_z (snd b)).
Proof.
  intros T HD Ht CO HR F E. assert (PT := process_target _ _ _ _ _ _ _ _ _ _ _ _ E). destruct PT as (DN & H1 & H2 & H3).
  split; [exists DN; auto|]. split; [rewrite H3; apply depleted_deplete|].
  apply process_ok in E; auto using clouds_refs, projectiles_pos.
  destruct E as (DN' & A1 & A2 & A3 & A4 & A5 & A6).
  assert (LN : List.length DN' = N_mp s).
  { apply Forall2_length in A1. unfold projectiles in A1. rewrite map_length, seq_length in A1. auto. }
  split; [auto|]. split.
  - eapply Forall_impl; [|exact A6]. intros i (ref & src & Hr & If & j & -> & EQ). exists ref. split; [auto|].
    destruct If. rewrite if_nel, if_N, repeat_length. split; [|split; [|split; [auto|]]].
    + intros En. rewrite En in EQ. auto.
    + apply Forall_forall. intros e He. apply repeat_spec in He. auto.
    + rewrite rsum_repeat, repeat_each_length.
      * rewrite <- LN, A3. apply counts_close; auto. intros n. apply HR.
      * rewrite map_length. unfold counts_of. rewrite map2_length, draw_length, Nat.min_id. apply Forall2_length in A1. auto.
  - intros En a b Ha Hb. rewrite Forall_forall in A6.
    destruct (A6 _ Ha) as (r1 & s1 & P1 & I1 & j1 & -> & Q1). destruct (A6 _ Hb) as (r2 & s2 & P2 & I2 & j2 & -> & Q2).
    rewrite En in Q1, Q2. destruct Q1 as [Q1 ->], Q2 as [Q2 ->]. rewrite Q1 in Q2. injection Q2 as ->.
    destruct I1, I2. rewrite if_nel, if_nel0, if_x, if_x0, if_y, if_y0, if_z, if_z0. auto.
Qed.

Lemma save_resets x name r x' : save_cross_ion_data x name = (r, x') ->
  r = (c_nel (xi_cnt x) name, c_N (xi_cnt x) name, c_DN (xi_cnt x) name) /\
  (c_nel (xi_cnt x') name = 0 /\ c_N (xi_cnt x') name = 0%Z /\ c_DN (xi_cnt x') name = 0) /\
  (forall m, m <> name -> c_nel (xi_cnt x') m = c_nel (xi_cnt x) m /\ c_N (xi_cnt x') m = c_N (xi_cnt x) m /\ c_DN (xi_cnt x') m = c_DN (xi_cnt x) m) /\
  xi_procs x' = xi_procs x /\ xi_prods x' = xi_prods x.
Proof.
  unfold save_cross_ion_data. intros E. injection E as <- <-. split; [auto|]. cbn [xi_cnt c_nel c_N c_DN xi_procs xi_prods]. unfold bump.
  rewrite String.eqb_refl. split; [auto|]. split; [|auto]. intros m Hm. apply String.eqb_neq in Hm. rewrite Hm. auto.
Qed.

Lemma history_main qe procs cl x s' : xion_ctor procs cl = Some x ->
  hrun qe (x, cl, mkLed (fun _ => 0) (fun _ => 0%Z) (fun _ => 0) (fun _ => 0%Z)) s' ->
  forall m, In m (map xc_name (snd (fst s'))) ->
  c_nel (xi_cnt (fst (fst s'))) m + read (snd s') m = added (snd s') m /\
  (c_N (xi_cnt (fst (fst s'))) m + readN (snd s') m = addedN (snd s') m)%Z.
Proof.
  intros C H m Hm. unfold xion_ctor in C. destruct (forallb _ _); [|discriminate]. injection C as <-.
  apply (hrun_books qe _ _ (fun _ => 0) (fun _ => 0%Z)) in H.
  - destruct (H m Hm) as [A B]. split; [lra|lia].
  - intros n _. cbn. split; [ring|lia].
Qed.

Lemma gentle_main qe x x' : Forall target_full (procs_of x) -> gentle_run qe x x' ->
  Forall (fun p => 0 <= x_N p /\ x_dens p = x_N p / x_area p) (procs_of x').
Proof.
  intros F G. apply gentle_run_full in G; auto. eapply Forall_impl; [|exact G]. intros p (_ & ? & ?). auto.
Qed.
