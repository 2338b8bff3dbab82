(** The whole of [generate]: counters, targets and clouds. *)
From Coq Require Import Lra Lia String Psatz.
From Verif Require Import Num NumFacts MP SpecMP MPFacts RegenFacts SourceFacts CrossIon SpecCrossIon CrossIonFacts.
Local Open Scope list_scope.
Local Open Scope R_scope.

(** * The dictionary of the macroparticles to be generated *)
Definition info_pts (P : pj -> Prop) (i : xinfo) : Prop :=
  exists src, n_N i = Z.of_nat (List.length src) /\ List.length (n_nel i) = List.length src /\
    n_x i = map j_x src /\ n_y i = map j_y src /\ n_z i = map j_z src /\
    List.length (n_vx i) = List.length src /\ List.length (n_vy i) = List.length src /\ List.length (n_vz i) = List.length src /\
    Forall P src /\ Forall (fun r => 0 < r) (n_nel i).
Definition dict_pts (P : pj -> Prop) (d : xdict) : Prop := Forall (fun q => info_pts P (snd q)) d.

Lemma info_from_pts (P : pj -> Prop) ref pr src i : 0 < ref -> Forall P pr -> info_from ref pr src i -> info_pts P i.
Proof.
  intros Hr F H. destruct H. exists src. rewrite if_nel, repeat_length. do 8 (split; [auto|]). split.
  - eapply Forall_impl; [|exact if_in]. intros j Hj. rewrite Forall_forall in F. auto.
  - apply Forall_forall. intros r Hin. apply repeat_spec in Hin. subst. auto.
Qed.

Lemma add_info_pts P a b : info_pts P a -> info_pts P b -> info_pts P (add_info a b).
Proof.
  intros (s1 & A1 & A2 & A3 & A4 & A5 & A6 & A7 & A8 & A9 & A10) (s2 & B1 & B2 & B3 & B4 & B5 & B6 & B7 & B8 & B9 & B10).
  exists (s1 ++ s2). unfold add_info. cbn [n_N n_nel n_x n_y n_z n_vx n_vy n_vz].
  rewrite !app_length, !map_app, !Forall_app, Nat2Z.inj_add. repeat split; try congruence; auto.
Qed.

Lemma get_info_In d name i : get_info d name = Some i -> In (name, i) d.
Proof.
  unfold get_info. destruct (find _ d) as [[n j]|] eqn:F; [|discriminate]. intros E. injection E as <-.
  apply find_some in F. destruct F as [F1 F2]. apply String.eqb_eq in F2. cbn in *. subst. auto.
Qed.

Lemma put_info_pts P d name i d' : dict_pts P d -> info_pts P i -> put_info d name i = Some d' -> dict_pts P d'.
Proof.
  intros D I E. unfold put_info in E. destruct (get_info d name); [|discriminate]. cbn in E. injection E as <-.
  unfold dict_pts in *. apply Forall_map. eapply Forall_impl; [|exact D]. intros q H. cbn. destruct (String.eqb _ _); auto.
  cbn. apply add_info_pts; auto.
Qed.

Lemma init_dict_pts P l : dict_pts P (init_dict l).
Proof.
  apply Forall_map, Forall_forall. intros n _. exists []. cbn. auto 20.
Qed.

Lemma collect_ok P infos D prods : dict_pts P infos -> forall d cnt d' cnt', dict_pts P d -> NoDup prods ->
  collect infos D prods d cnt = Some (d', cnt') ->
  dict_pts P d' /\ c_nel cnt' = c_nel cnt /\ c_N cnt' = c_N cnt /\
  forall m, c_DN cnt' m = c_DN cnt m + (if existsb (String.eqb m) prods then D else 0).
Proof.
  intros PI. induction prods as [|a prods IH]; intros d cnt d' cnt' PD ND E; cbn [collect] in E.
  - injection E as <- <-. split; [auto|]. split; [auto|]. split; [auto|]. intros m. cbn. lra.
  - destruct (get_info (rev infos) a) as [i|] eqn:GI; [|discriminate]. cbn [bind] in E.
    destruct (put_info d a i) as [d1|] eqn:PU; [|discriminate]. cbn [bind] in E.
    apply get_info_In in GI. apply in_rev in GI.
    assert (II : info_pts P i) by (unfold dict_pts in PI; rewrite Forall_forall in PI; apply (PI _ GI)).
    inversion ND; subst.
    destruct (IH _ _ _ _ (put_info_pts _ _ _ _ _ PD II PU) H2 E) as (A & B & C & Dn). cbn [c_nel c_N c_DN] in *.
    split; [auto|]. split; [auto|]. split; [auto|]. intros m. rewrite Dn. unfold bump. cbn [existsb].
    destruct (String.eqb_spec m a) as [->|N]; cbn [orb]; auto.
    destruct (existsb (String.eqb a) prods) eqn:EX; [|lra].
    apply existsb_exists in EX. destruct EX as (b & Hb & Eb). apply String.eqb_eq in Eb. subst. contradiction.
Qed.

(** * The loops over processes and projectiles *)
Lemma depleted_deplete p D : depleted p (deplete p D) D.
Proof. right. unfold deplete. cbn. repeat split; auto. apply round3_err. Qed.

Lemma fired_shift f : forall ps ps' c c', fired c ps ps' c' -> fired (fun m => c m + f m) ps ps' (fun m => c' m + f m).
Proof.
  intros ps ps' c c' H. induction H as [cnt' H|p p' dn ps ps' c1 c2 H D F IH E].
  - constructor. intros m. rewrite H. auto.
  - eapply fired_cons; [exact H|exact D|exact IH|]. intros m. cbn. rewrite E. lra.
Qed.

Lemma fired_ext c1 c2 ps ps' c' : (forall m, c1 m = c2 m) -> fired c1 ps ps' c' -> fired c2 ps ps' c'.
Proof.
  intros H F. induction F as [cnt' K|p p' dn ps ps' d1 d2 K D F IH E].
  - constructor. intros m. rewrite K. auto.
  - econstructor; eauto.
Qed.

Lemma fired_ext_r c ps ps' c1 c2 : (forall m, c2 m = c1 m) -> fired c ps ps' c1 -> fired c ps ps' c2.
Proof.
  intros H F. destruct F as [cnt' K|p p' dn ps ps' d1 d2 K D F E].
  - constructor. intros m. rewrite H. auto.
  - econstructor; eauto. intros m. rewrite H. auto.
Qed.

Lemma fired_app c ps1 ps1' c1 ps2 ps2' c2 : fired c ps1 ps1' c1 -> fired c1 ps2 ps2' c2 -> fired c (ps1 ++ ps2) (ps1' ++ ps2') c2.
Proof.
  intros F G. revert c2 ps2 ps2' G. induction F as [cnt' K|p p' dn ps ps' d1 d2 K D F IH E]; intros c2 ps2 ps2' G; cbn.
  - eapply fired_ext; [|exact G]. exact K.
  - eapply fired_cons with (c1 := fun m => c2 m - produced m p dn); [exact K|exact D| |intros m; cbn; lra].
    apply IH. apply (fired_shift (fun m => - produced m p dn)) in G.
    eapply fired_ext in G; [|intros m; rewrite E; instantiate (1 := d1); lra].
    eapply fired_ext_r; [|exact G]. intros m. cbn. lra.
Qed.

Lemma unfired c ps : fired c ps ps c.
Proof.
  induction ps as [|p ps IH]; [constructor; auto|]. eapply fired_cons with (dn := 0) (c1 := c); [lra| |auto|].
  - left. auto.
  - intros m. unfold produced. destruct (existsb _ _); lra.
Qed.

Lemma rsum_nonneg l : Forall (fun d => 0 <= d) l -> 0 <= rsum l.
Proof. induction 1 as [|a l H _ IH]; [apply Rle_refl|]. change (0 <= a + rsum l). lra. Qed.

Lemma Forall2_impl_In {A B} (P Q : A -> B -> Prop) l l' : (forall a b, In a l -> P a b -> Q a b) -> Forall2 P l l' -> Forall2 Q l l'.
Proof. intros H F. induction F as [|a b l l' Hab F IH]; constructor; [apply H; cbn; auto|apply IH; intros; apply H; cbn; auto]. Qed.

Lemma procs_loop_ok P qe Dt cl mass pr rng :
  0 <= Dt -> refs_pos cl -> Forall (fun j => 0 <= j_nel j /\ 0 <= j_v j) pr -> Forall P pr ->
  forall ps d cnt k ps' d' cnt' k',
  Forall table_ok ps -> Forall (fun p => 0 <= x_dens p) ps -> Forall (fun p => NoDup (x_prods p)) ps -> dict_pts P d ->
  procs_loop qe Dt cl mass pr ps d cnt rng k = Some (ps', d', cnt', k') ->
  dict_pts P d' /\ c_nel cnt' = c_nel cnt /\ c_N cnt' = c_N cnt /\ fired (c_DN cnt) ps ps' (c_DN cnt').
Proof.
  intros Ht RP F FP. induction ps as [|p ps IH]; intros d cnt k ps' d' cnt' k' T D N PD E; cbn [procs_loop] in E.
  - injection E as <- <- <- <-. split; [auto|]. split; [auto|]. split; [auto|]. constructor. auto.
  - destruct (process_generate _ _ _ _ _ _ _ _) as [[[[p' infos] DN] k1]|] eqn:PG; [|discriminate]. cbn [bind] in E.
    destruct (collect _ _ _ _ _) as [[d1 cnt1]|] eqn:CO; [|discriminate]. cbn [bind] in E.
    destruct (procs_loop _ _ _ _ _ _ _ _ _ _) as [[[[rest d2] cnt2] k2]|] eqn:PL; [|discriminate]. cbn [bind] in E.
    injection E as <- <- <- <-. inversion T; inversion D; inversion N; subst.
    eapply process_ok in PG; eauto. destruct PG as (DNs & G1 & G2 & -> & -> & G3 & G4).
    assert (PI : dict_pts P infos).
    { eapply Forall_impl; [|exact G4]. intros q (ref & src & Hr & If & _). eapply info_from_pts; eauto. }
    destruct (collect_ok P infos (rsum DNs) (x_prods p) PI _ _ _ _ PD ltac:(auto) CO) as (A1 & A2 & A3 & A4).
    destruct (IH _ _ _ _ _ _ _ ltac:(auto) ltac:(auto) ltac:(auto) A1 PL) as (B1 & B2 & B3 & B4).
    split; [auto|]. split; [congruence|]. split; [congruence|].
    change (fired (c_DN cnt) ([p] ++ ps) ([deplete p (rsum DNs)] ++ rest) (c_DN cnt2)).
    eapply fired_app; [|exact B4]. eapply fired_cons; [apply rsum_nonneg; exact G2|apply depleted_deplete| |exact A4].
    constructor. auto.
Qed.

Definition flatp (pd : list (string * list xproc)) : list xproc := flat_map snd pd.

Definition from_clouds (cl : list xcloud) (names : list string) (j : pj) : Prop :=
  exists c, In c cl /\ In (xc_name c) names /\ In j (projectiles (xc_mp c)).

Lemma projectiles_pos s : Forall (fun p => 0 <= m_nel p) (live s) -> Forall (fun j => 0 <= j_nel j /\ 0 <= j_v j) (projectiles s).
Proof.
  intros F. unfold projectiles, live in *. rewrite Forall_map in *. eapply Forall_impl; [|exact F]. intros i H. cbn in *. split; auto. apply sqrt_pos.
Qed.

Lemma clouds_refs cl : clouds_ok cl -> refs_pos cl.
Proof. intros [_ H]. eapply Forall_impl; [|exact H]. cbn. tauto. Qed.

Lemma proj_loop_ok (P : pj -> Prop) qe Dt cl rng : 0 <= Dt -> clouds_ok cl ->
  forall pd d cnt k pd' d' cnt' k',
  (forall j, from_clouds cl (map fst pd) j -> P j) ->
  Forall table_ok (flatp pd) -> Forall (fun p => 0 <= x_dens p) (flatp pd) -> Forall (fun p => NoDup (x_prods p)) (flatp pd) ->
  dict_pts P d ->
  proj_loop qe Dt cl pd d cnt rng k = Some (pd', d', cnt', k') ->
  dict_pts P d' /\ c_nel cnt' = c_nel cnt /\ c_N cnt' = c_N cnt /\ map fst pd' = map fst pd /\
  fired (c_DN cnt) (flatp pd) (flatp pd') (c_DN cnt').
Proof.
  intros Ht OK. assert (RP := clouds_refs _ OK).
  induction pd as [|[name ps] pd IH]; intros d cnt k pd' d' cnt' k' HP T D N PD E; cbn [proj_loop] in E.
  - injection E as <- <- <- <-. do 4 (split; [auto|]). constructor. auto.
  - destruct (find_cloud name cl) as [c|] eqn:FC; [|discriminate]. cbn [bind] in E. apply find_cloud_In in FC. destruct FC as [FI FN].
    cbn [flatp flat_map snd] in T, D, N. rewrite Forall_app in T, D, N. destruct T as [T1 T2], D as [D1 D2], N as [N1 N2].
    destruct (if Nat.ltb 0 (N_mp (xc_mp c)) then _ else _) as [[[[ps1 d1] cnt1] k1]|] eqn:PL; [|discriminate]. cbn [bind] in E.
    destruct (proj_loop _ _ _ _ _ _ _ _) as [[[[rest d2] cnt2] k2]|] eqn:PJ; [|discriminate]. cbn [bind] in E.
    injection E as <- <- <- <-.
    assert (A : dict_pts P d1 /\ c_nel cnt1 = c_nel cnt /\ c_N cnt1 = c_N cnt /\ fired (c_DN cnt) ps ps1 (c_DN cnt1)).
    { destruct (Nat.ltb 0 (N_mp (xc_mp c))).
      - eapply procs_loop_ok in PL; eauto.
        + apply projectiles_pos. destruct OK as [_ OK]. rewrite Forall_forall in OK. apply (OK c FI).
        + apply Forall_forall. intros j Hj. apply HP. exists c. cbn. auto.
      - injection PL as <- <- <- <-. do 3 (split; [auto|]). apply unfired. }
    destruct A as (A1 & A2 & A3 & A4).
    apply IH in PJ; auto.
    + destruct PJ as (B1 & B2 & B3 & B4 & B5). split; [auto|]. split; [congruence|]. split; [congruence|]. split; [cbn; congruence|].
      cbn [flatp flat_map snd]. eapply fired_app; eauto.
    + intros j (c0 & C1 & C2 & C3). apply HP. exists c0. cbn. auto.
Qed.

(** * Adding to the clouds *)
Definition full_info (i : xinfo) : batch :=
  mkBatch (n_nel i) (n_x i) (n_y i) (n_z i) (n_vx i) (n_vy i) (n_vz i) (repeat (-1) (Z.to_nat (n_N i))).

Lemma add_info_batch i s : wf s -> (N_mp s + Z.to_nat (n_N i) <= capacity s)%nat ->
  add_new_MPs (Z.to_nat (n_N i)) (info_batch i) s = add_new_MPs (Z.to_nat (n_N i)) (full_info i) s.
Proof.
  intros W F. destruct W. unfold add_new_MPs, full_info, info_batch. cbn [b_x b_y b_z b_vx b_vy b_vz b_nel b_t].
  rewrite !slice_set_one, !slice_set_repeat by lia. reflexivity.
Qed.

Lemma same_cfg_refl s : same_cfg s s.
Proof. unfold same_cfg. auto 10. Qed.

Lemma same_sizes_refl s : same_sizes s s.
Proof. unfold same_sizes. auto 10. Qed.

Lemma add_one (P : pj -> Prop) (Q : mp -> Prop) i s s' : wf s -> (N_mp s < capacity s)%nat -> info_pts P i ->
  (forall p j, P j -> m_x p = j_x j -> m_y p = j_y j -> m_z p = j_z j -> Q p) ->
  (if (0 <? n_N i)%Z then add_new_MPs (Z.to_nat (n_N i)) (info_batch i) s else Some s) = Some s' ->
  wf s' /\ same_cfg s s' /\ same_sizes s s' /\
  exists new, live s' = live s ++ new /\ Forall (fun p => Q p /\ 0 < m_nel p /\ m_t p = -1) new /\
    rsum (n_nel i) = rsum (map m_nel new) /\ n_N i = Z.of_nat (List.length new).
Proof.
  intros W HC (src & A1 & A2 & A3 & A4 & A5 & A6 & A7 & A8 & A9 & A10) HQ E.
  destruct (Z.ltb_spec 0 (n_N i)) as [H|H].
  - assert (NN : Z.to_nat (n_N i) = List.length src) by lia.
    assert (FT : (N_mp s + Z.to_nat (n_N i) <= capacity s)%nat).
    { eapply add_fits; [auto|auto| |exact E]. cbn. rewrite A3, map_length. auto. }
    rewrite add_info_batch in E by auto.
    assert (B : batch_ok (Z.to_nat (n_N i)) (full_info i)).
    { unfold batch_ok, full_info. cbn. rewrite A3, A4, A5, !map_length, repeat_length, NN. repeat split; auto. }
    destruct (add_new_spec _ _ s W B FT) as (s1 & E1 & L1 & C1 & W1 & TZ & G1 & R1 & R2 & R3).
    rewrite E in E1. injection E1 as <-. split; [auto|]. split; [auto|]. split; [unfold same_sizes; auto|].
    eexists. split; [exact L1|]. rewrite map_length, seq_length. split; [|split; [|lia]].
    + apply Forall_map, Forall_forall. intros n Hn. apply in_seq in Hn. rewrite NN in Hn.
      unfold batch_mp, full_info. cbn [b_x b_y b_z b_vx b_vy b_vz b_nel b_t].
      set (j := nth n src (mkPj 0 0 0 0 0)).
      assert (Hj : In j src) by (apply nth_In; lia).
      split; [|split].
      * rewrite Forall_forall in A9. apply (HQ _ j (A9 _ Hj)); cbn; rewrite ?A3, ?A4, ?A5;
        match goal with |- nth _ (map ?f _) 0 = _ => change 0 with (f (mkPj 0 0 0 0 0)) at 1; apply map_nth end.
      * cbn. rewrite Forall_forall in A10. apply A10, nth_In. lia.
      * cbn. destruct (flag_lifetime_hist s); auto. apply nth_repeat_lt. lia.
    + rewrite map_map. cbn [m_nel batch_mp full_info b_nel]. f_equal. symmetry.
      rewrite NN, <- A2. clear. induction (n_nel i) as [|a l IH]; cbn; auto. rewrite <- seq_shift, map_map. f_equal. exact IH.
  - injection E as <-. assert (src = []) by (destruct src; cbn in *; auto; lia). subst. cbn in *.
    split; [auto|]. split; [apply same_cfg_refl|]. split; [apply same_sizes_refl|]. exists []. rewrite app_nil_r. split; [auto|]. split; [auto|].
    destruct (n_nel i); cbn in *; [auto|discriminate].
Qed.

Lemma add_loop_ok (P : pj -> Prop) (Q : mp -> Prop) prods d : dict_pts P d ->
  (forall p j, P j -> m_x p = j_x j -> m_y p = j_y j -> m_z p = j_z j -> Q p) ->
  forall cl cnt cl' cnt', clouds_ok cl -> add_loop prods d cnt cl = Some (cl', cnt') ->
  Forall2 (grown Q cnt cnt') cl cl' /\ c_DN cnt' = c_DN cnt /\
  (forall m, ~ In m (map xc_name cl) -> c_nel cnt' m = c_nel cnt m /\ c_N cnt' m = c_N cnt m) /\
  (forall c, In c cl -> ~ In (xc_name c) prods -> In c cl').
Proof.
  intros PD HQ. induction cl as [|c cl IH]; intros cnt cl' cnt' OK E; cbn [add_loop] in E.
  - injection E as <- <-. split; [auto|]. split; [auto|]. split; auto.
  - destruct (if existsb _ _ then _ else _) as [[c1 cnt1]|] eqn:HD; [|discriminate]. cbn [bind] in E.
    destruct (add_loop prods d cnt1 cl) as [[rest cnt2]|] eqn:AL; [|discriminate]. cbn [bind] in E. injection E as <- <-.
    destruct OK as [ND OK]. inversion ND as [|? ? Nin ND']; inversion OK as [|? ? OKc OK']; subst.
    destruct OKc as (W & HC & HR & HN).
    destruct (IH _ _ _ (conj ND' OK') AL) as (G & DN & Oth & Kp).
    assert (A : xc_name c1 = xc_name c /\ xc_mass c1 = xc_mass c /\ wf (xc_mp c1) /\ same_cfg (xc_mp c) (xc_mp c1) /\
      same_sizes (xc_mp c) (xc_mp c1) /\ c_DN cnt1 = c_DN cnt /\
      (forall m, m <> xc_name c -> c_nel cnt1 m = c_nel cnt m /\ c_N cnt1 m = c_N cnt m) /\
      (~ In (xc_name c) prods -> c1 = c) /\
      exists new, live (xc_mp c1) = live (xc_mp c) ++ new /\ Forall (fun p => Q p /\ 0 < m_nel p /\ m_t p = -1) new /\
        c_nel cnt1 (xc_name c) = c_nel cnt (xc_name c) + rsum (map m_nel new) /\
        c_N cnt1 (xc_name c) = (c_N cnt (xc_name c) + Z.of_nat (List.length new))%Z).
    { destruct (existsb (String.eqb (xc_name c)) prods) eqn:EX.
      - destruct (get_info d (xc_name c)) as [i|] eqn:GI; [|discriminate]. cbn [bind] in HD.
        destruct (if (0 <? n_N i)%Z then _ else _) as [s1|] eqn:AN; [|discriminate]. cbn [bind] in HD. injection HD as <- <-.
        apply get_info_In in GI. assert (IP : info_pts P i) by (unfold dict_pts in PD; rewrite Forall_forall in PD; apply (PD _ GI)).
        destruct (add_one P Q i _ _ W HC IP HQ AN) as (B1 & B2 & B3 & new & B4 & B5 & B6 & B7).
        cbn [xc_name xc_mass xc_mp c_nel c_N c_DN]. do 6 (split; [auto|]). split; [|split].
        + intros m Hm. unfold bump. apply String.eqb_neq in Hm. rewrite Hm. auto.
        + intros Nn. exfalso. apply Nn. apply existsb_exists in EX. destruct EX as (b & Hb & Eb). apply String.eqb_eq in Eb. subst. auto.
        + exists new. unfold bump. rewrite String.eqb_refl, B6, B7. auto.
      - injection HD as <- <-. do 3 (split; [auto|]). split; [apply same_cfg_refl|]. split; [apply same_sizes_refl|]. do 3 (split; [auto|]).
        exists []. rewrite app_nil_r. split; [auto|]. split; [auto|]. split; [change (rsum (map m_nel [])) with 0; lra|].
        change (Z.of_nat (List.length (@nil mp))) with 0%Z. lia. }
    destruct A as (A1 & A2 & A3 & A4 & A5 & A6 & A7 & A8 & new & A9 & A10 & A11 & A12).
    destruct (Oth (xc_name c) Nin) as [O1 O2].
    split; [|split; [congruence|split]].
    + constructor.
      * unfold grown. do 5 (split; [auto|]). exists new. rewrite O1, O2. auto.
      * eapply Forall2_impl_In; [|exact G]. intros a b Ha Hg.
        assert (Hne : xc_name a <> xc_name c) by (intros K; apply Nin; rewrite <- K; apply in_map; auto).
        destruct (A7 _ Hne) as [K1 K2]. unfold grown in *. rewrite K1, K2 in Hg. exact Hg.
    + intros m Hm. cbn in Hm. destruct (Oth m ltac:(tauto)) as [K1 K2]. destruct (A7 m ltac:(intros ->; tauto)) as [K3 K4].
      rewrite K1, K2, K3, K4. auto.
    + intros x [->|Hx] Hn; cbn; [left; auto|right; auto].
Qed.
