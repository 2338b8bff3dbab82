(** The call returns; runs of a cloud. *)
From Coq Require Import Lra Lia Reals Psatz.
From Verif Require RegenFacts2.
From Verif Require Import Num NumFacts Fort FortFacts MP SpecMP SpecFort MPFacts Push SpecPush PushFacts
  Geom Poly Sey SpecSey SeyFacts SeyFacts2 SeyFacts3 Impact SpecImpact ImpactFacts ImpactFacts2 ImpactFacts3 ImpactFacts4.

Lemma hist_some bias Dx xs hist : 0 < Dx -> hist <> [] -> Forall (fun xw => bias <= fst xw) xs ->
  exists r, compute_hist xs bias Dx hist = Some r /\ r <> [].
Proof.
  intros HD Hne F. rewrite Forall_forall in F. destruct (compute_hist_main bias Dx xs hist HD Hne F) as (r & E & L & _).
  exists r. split; auto. intros ->. destruct hist; auto; discriminate.
Qed.

Lemma seg_lines_some c ps : 0 < k_DEn c -> 0 <= k_Enmax c -> Forall (fun p => 0 <= i_E p) ps ->
  forall lines i, Forall (fun h => h <> []) lines -> exists r, seg_lines c ps i lines = Some r.
Proof.
  intros HD HM HE. induction lines as [|h lines IH]; intros i HN; cbn; [eauto|].
  inversion HN; subst.
  edestruct (hist_some 0 (k_DEn c) (map (fun p => (clip_E (k_Enmax c) (i_E p), i_nel p))
     (mask_get (map (fun p => Nat.eqb (i_seg p) i) ps) ps)) h) as (r & E & _); auto.
  { apply Forall_map. cbn. apply Forall_forall. intros p Hp. apply mask_get_In in Hp. rewrite Forall_forall in HE.
    unfold clip_E. destruct (Rgtb _ _); auto. }
  rewrite E. cbn. destruct (IH (Datatypes.S i)) as (r2 & E2); auto. rewrite E2. cbn. eauto.
Qed.

Lemma count_emitted_some c g nel x vx vy vz seg add : 0 < k_Dx c -> g_en g <> [] -> Forall (fun a => k_bias c <= a) x ->
  exists g', count_emitted c g nel x vx vy vz seg add = Some g' /\ g_en g' <> [].
Proof.
  intros HD Hne F. unfold count_emitted. cbv zeta.
  edestruct (hist_some (k_bias c) (k_Dx c) (combine x (map2 (fun n e => - n * e) nel (map3 (e_kin c) vx vy vz))) (g_en g)) as (r & E & N); auto.
  { apply Forall_forall. intros [a b] Ha. apply in_combine_l in Ha. rewrite Forall_forall in F. cbn; auto. }
  rewrite E. cbn. eauto.
Qed.

Section Call.
Context {S : Type}.
Variables (w : wall) (c : icfg) (em : R -> bool -> list imp -> S -> option (emis * S)) (time : R)
  (old : list R * list R * list R) (g : iman) (s : mpsys) (st : S).
Hypothesis HW : wall_ok w.
Hypothesis HE : emitter_ok w em.
Hypothesis W : wf s.
Hypothesis KL : k_life c = flag_lifetime_hist s.
Hypothesis OS : old_sized (N_mp s) old.
Hypothesis SP : 0 < nel_mp_split s.
Hypothesis OI : old_inside w old.
Hypothesis HO : hist_ok w c g.

Lemma zip_imps_some hs l : Forall (fun p => m_vx p * m_vx p + m_vy p * m_vy p + m_vz p * m_vz p <> 0) l ->
  exists ps, zip_imps c hs (map m_nel l) (map m_vx l) (map m_vy l) (map m_vz l) = Some ps.
Proof.
  intros F. revert hs. induction F as [|p l Hp F IH]; intros [|h hs]; cbn; eauto.
  unfold mk_imp. destruct (Reqb _ 0) eqn:Z.
  { apply Reqb_true in Z. exfalso. apply Hp. apply sqrt_eq_0; auto. nra. }
  cbn. destruct (IH hs) as (ps & E). rewrite E. cbn. eauto.
Qed.

Lemma call_returns :
  Forall (fun p => m_vx p * m_vx p + m_vy p * m_vy p + m_vz p * m_vz p <> 0) (hitters w s) ->
  (k_life c = true -> forall p, In p (live s) -> m_t p <= time) ->
  (k_seg c = true -> k_segline c = true -> Forall (fun h => h <> []) (g_seglines g)) ->
  (forall hs ps, (exists ks, w_hit w ks = Some hs) -> length hs = length (hitters w s) -> Forall2 (fun hm q => impact_of c (fst hm) (snd hm) q) (combine hs (hitters w s)) ps ->
     exists e st', em (nel_mp_split s) (k_seg c) ps st = Some (e, st') /\
     (N_mp s + length (n_nel e) <= capacity s)%nat) ->
  exists g' s' st', backtrack_and_second_emiss w c em time old g s st = Some (g', s', st') /\ (N_mp s' <= capacity s)%nat.
Proof.
  intros HV HT HS HEm. unfold backtrack_and_second_emiss. assert (OI' := tracks_inside w old s OS OI).
  destruct old as [[xo yo] zo]. cbn [fst snd] in OI'. assert (OS' := OS). destruct OS' as (O1 & O2 & O3). rewrite count_impact by auto.
  assert (WN' := wf_N _ W).
  destruct (Nat.eqb (N_mp s) 0); [eauto 6|]. destruct (Nat.eqb (length (hitters w s)) 0); [eauto 6|].
  assert (WC := W). destruct WC as [Wy Wz Wvx Wvy Wvz Wn Wt WN].
  destruct (live_cols s W) as (CX & CY & CZ & CVX & CVY & CVZ & CN & CT).
  assert (CO : forall (a : list R) f, length a = capacity s -> firstn (N_mp s) a = map f (live s) ->
     mask_get (impact_mask w s) a = map f (hitters w s)).
  { intros a f La Fa. rewrite mask_live, Fa, mask_get_map, hitters_mask by auto. auto. }
  rewrite !mask_get_firstn_old by auto.
  assert (LMO : forall a : list R, length a = N_mp s -> length (mask_get (lmask w s) a) = length (hitters w s)).
  { intros a La. rewrite mask_get_length, hitters_count by (rewrite lmask_length; auto). auto. }
  rewrite (CO (x_mp s) m_x), (CO (y_mp s) m_y), (CO (z_mp s) m_z) by auto.
  rewrite zip_tracks_ok by (apply LMO; auto).
  destruct (proj2 HW _ OI') as (hs & EH & FH). rewrite EH. cbn [bind].
  assert (LH : length hs = length (hitters w s)).
  { rewrite <- (Forall2_length FH), map2_length, !combine_length, !LMO by auto. lia. }
  assert (LIFE : exists lh tl, life_part c time (impact_mask w s) (mask_get (impact_mask w s) (nel_mp s))
            (t_last_impact s) (g_life (zero_last g)) = Some (lh, tl) ).
  { unfold life_part. cbn [zero_last g_life]. destruct (k_life c) eqn:K; [|eauto].
    destruct (ho_life _ _ _ HO K) as [K1 K2]. unfold tview in CT. rewrite <- KL in CT.
    rewrite !mask_live by auto. rewrite CN, CT, !mask_get_map, <- hitters_mask.
    rewrite ?map_map, ?mask_get_map. rewrite combine_map.
    edestruct (hist_some 0 (k_Dtlife c) (map (fun x => (time - m_t x, m_nel x))
      (mask_get (map (fun x => Rgtb (m_t x) 0) (hitters w s)) (hitters w s))) (g_life g)) as (r & E & _); auto.
    { apply Forall_map. cbn. apply Forall_forall. intros p Hp. apply mask_get_In in Hp.
      assert (In p (live s)) by (unfold hitters in Hp; apply filter_In in Hp; tauto). specialize (HT eq_refl p ltac:(assumption)). lra. }
    rewrite E. cbn. eauto. }
  destruct LIFE as (lh & tl & EL). rewrite EL. cbn [bind].
  rewrite (CO (vx_mp s) m_vx), (CO (vy_mp s) m_vy), (CO (vz_mp s) m_vz), (CO (nel_mp s) m_nel) by auto.
  destruct (zip_imps_some hs (hitters w s) HV) as (ps & EP). rewrite EP. cbn [bind].
  assert (F := zip_imps_ok c hs (hitters w s) ps LH EP).
  assert (LP : length ps = length (hitters w s)) by (apply Forall2_length in F; rewrite combine_length in F; lia).
  assert (PI : Forall (fun p => w_out w (i_x p) (i_y p) = false) ps).
  { apply (imps_inside w c s hs ps F). apply Forall2_snd in FH. auto. }
  destruct (imps_fields w c s hs ps F LH) as (Fn & FE & Fs & Fc).
  assert (FX : Forall (fun p => k_bias c <= i_x p) ps).
  { eapply Forall_impl; [|exact PI]. cbn. intros p. apply (ho_bias _ _ _ HO). }
  assert (FP : Forall (fun p => 0 <= i_E p) ps).
  { apply Forall_forall. intros p Hp. apply (in_map i_E) in Hp. rewrite FE in Hp. apply in_map_iff in Hp.
    destruct Hp as (m & <- & _). apply (eV_nonneg w c g HO). }
  assert (FF : forall h : imp -> R, Forall (fun xw => k_bias c <= fst xw) (map (fun p => (i_x p, h p)) ps)).
  { intros h. apply Forall_map. cbn. auto. }
  assert (HD := ho_Dx _ _ _ HO).
  assert (CI : exists g1, count_impacts c (set_life (zero_last g) lh) ps = Some g1 /\ g_en g1 <> []).
  { unfold count_impacts. cbn [set_life zero_last g_tot g_scrub g_en g_cos g_seg g_segen g_seglines g_line g_life g_segemit].
    destruct (hist_some (k_bias c) (k_Dx c) _ (g_tot g) HD (ho_tot _ _ _ HO) (FF i_nel)) as (h1 & E1 & _). rewrite E1. cbn [bind].
    destruct (hist_some (k_bias c) (k_Dx c) _ (g_scrub g) HD (ho_scr _ _ _ HO)
       (FF (fun p => i_nel p * (if Rgtb (i_E p) (k_scrub c) then 1 else 0)))) as (h2 & E2 & _). rewrite E2. cbn [bind].
    destruct (hist_some (k_bias c) (k_Dx c) _ (g_en g) HD (ho_en _ _ _ HO) (FF (fun p => i_nel p * i_E p))) as (h3 & E3 & N3). rewrite E3. cbn [bind].
    assert (COS : exists h4, (if k_cos c then compute_hist (map (fun p => (i_ct p, i_nel p)) ps) 0 (k_cosw c) (g_cos g) else Some (g_cos g)) = Some h4).
    { destruct (k_cos c) eqn:KC; [|eauto]. destruct (ho_cos _ _ _ HO KC) as [K1 K2].
      edestruct (hist_some 0 (k_cosw c) (map (fun p => (i_ct p, i_nel p)) ps) (g_cos g)) as (r & E & _); auto; [|eauto].
      apply Forall_map. cbn. auto. }
    destruct COS as (h4 & E4). rewrite E4. cbn [bind]. cbv zeta.
    assert (SL : exists h5, (if k_seg c && k_segline c then seg_lines c ps 0 (g_seglines g) else Some (g_seglines g)) = Some h5).
    { destruct (k_seg c) eqn:K1, (k_segline c) eqn:K2; cbn; eauto. apply seg_lines_some; auto; apply HO. }
    destruct SL as (h5 & E5). rewrite E5. cbn [bind].
    edestruct (hist_some 0 (k_DEn c) (map (fun p => (clip_E (k_Enmax c) (i_E p), i_nel p)) ps) (g_line g)) as (h6 & E6 & _).
    { apply HO. } { apply HO. }
    { apply Forall_map. cbn. eapply Forall_impl; [|exact FP]. cbn. intros p Hp. unfold clip_E. assert (A := ho_Emax _ _ _ HO). destruct (Rgtb _ _); auto. }
    rewrite E6. cbn [bind]. eexists. split; [reflexivity|]. auto. }
  destruct CI as (g1 & E1 & N1). rewrite E1. cbn [bind].
  destruct (HEm hs ps (ex_intro _ _ EH) LH F) as (e & st' & EE & ROOM). rewrite EE. cbn [bind].
  assert (EO := HE _ _ _ _ _ _ SP EE). assert (SZ := eo_sized _ _ _ _ EO). rewrite LP in SZ.
  assert (SZ' := SZ). destruct SZ' as (S1 & S2 & S3 & S4 & S5 & S6 & S7 & S8 & S9 & S10 & S11).
  assert (CIM := count_impact w s W).
  assert (ER : exists s2, replace_MPs s (impact_mask w s) e tl = Some s2).
  { unfold replace_MPs. rewrite !mask_set_exact by congruence. cbn [bind]. eauto. }
  destruct ER as (s2 & ER). rewrite ER. cbn [bind].
  destruct (replace_ok c w s e time _ lh tl (k_seg c) s2 W KL EL SZ ER) as (W2 & (C1 & C2 & _) & N2 & _).
  edestruct (count_emitted_some c (set_last g1 (l_nimp g1) (rsum (o_tot e))) (o_nel e) (o_x e) (o_vx e) (o_vy e) (o_vz e) (o_seg e) 0 HD)
    as (g2 & E2 & N2'). { exact N1. } { eapply F2_left; [|eapply eo_inside; eauto]. intros a b. apply (ho_bias _ _ _ HO). }
  rewrite E2. cbn [bind].
  destruct (Nat.eqb_spec (length (n_nel e)) 0) as [Z|Z]; [do 3 eexists; split; [reflexivity|lia]|].
  assert (EA : exists s3, add_emitted e time s2 = Some s3).
  { unfold add_emitted. set (b := mkBatch (n_nel e) (n_x e) (n_y e) (n_z e) (n_vx e) (n_vy e) (n_vz e) (repeat time (length (n_nel e)))).
    change (mkBatch (n_nel e) (n_x e) (n_y e) (n_z e) (n_vx e) (n_vy e) (n_vz e) [time])
      with (mkBatch (b_nel b) (b_x b) (b_y b) (b_z b) (b_vx b) (b_vy b) (b_vz b) [time]).
    rewrite add_scalar by (auto; lia). cbn [b_nel b_x b_y b_z b_vx b_vy b_vz]. fold b.
    assert (L := news_lens e _ _ 0 SZ). destruct L as (L1 & L2 & L3 & L4 & L5 & L6 & L7 & L8).
    destruct (add_new_spec (length (n_nel e)) b s2 W2) as (s3 & EA & _).
    - unfold batch_ok, b. cbn. rewrite repeat_length. repeat split; auto.
    - lia.
    - exists s3. exact EA. }
  destruct EA as (s3 & EA). unfold add_emitted in EA. rewrite EA. cbn [bind].
  edestruct (count_emitted_some c g2 (n_nel e) (n_x e) (n_vx e) (n_vy e) (n_vz e) (n_seg e) (l_eemit g2) HD N2') as (g3 & E3 & _).
  { destruct (eo_new _ _ _ _ EO) as (cs & NX & _). rewrite NX. apply Forall_map. apply Forall_forall. intros p Hp.
    apply repeat_each_In in Hp. rewrite Forall_forall in FX. auto. }
  rewrite E3. cbn [bind]. do 3 eexists; split; [reflexivity|]. apply add_N in EA. lia.
Qed.
End Call.

(** * Runs *)
Definition cloud_inv (w : wall) (c : icfg) (s : mpsys) : Prop :=
  wf s /\ k_life c = flag_lifetime_hist s /\ sizes_ok s /\ 0 < fact_split s /\ 0 < nel_mp_ref_0 s <= nel_mp_ref s /\
  Forall (fun p => beyond_wall w p = false) (live s).

Lemma moves_facts g s s1 : wf s -> moves_each g s s1 ->
  wf s1 /\ same_cfg s s1 /\ N_mp s1 = N_mp s /\ map m_nel (live s1) = map m_nel (live s) /\
  nel_mp_ref s1 = nel_mp_ref s /\ nel_mp_split s1 = nel_mp_split s /\ nel_mp_cl_th s1 = nel_mp_cl_th s.
Proof.
  intros W (N & NE & T & WF & R1 & R2 & R3 & _). destruct (WF W) as [W1 SC].
  repeat (split; [solve [auto]|]). split; [|auto]. rewrite !map_nel_live by auto. rewrite N, NE. auto.
Qed.

Lemma positions_sized s s1 : N_mp s1 = N_mp s -> old_sized (N_mp s1) (positions s).
Proof. intros N. unfold old_sized, positions. rewrite !map_length, live_length. auto. Qed.

Lemma positions_inside w s : Forall (fun p => beyond_wall w p = false) (live s) -> old_inside w (positions s).
Proof.
  intros F. unfold old_inside, positions. intros i Hi. rewrite map_length in Hi.
  rewrite Forall_forall in F.
  set (d := mp_at s 0). rewrite (nth_indep (map m_x (live s)) 0 (m_x d)), (nth_indep (map m_y (live s)) 0 (m_y d)) by (rewrite map_length; auto).
  rewrite !map_nth. apply (F (nth i (live s) d)). apply nth_In. auto.
Qed.

Lemma cloud_step_inv {S : Type} w c (em : R -> bool -> list imp -> S -> option (emis * S)) a b :
  wall_ok w -> emitter_ok w em -> cloud_step w c em a b -> cloud_inv w c (fst a) -> cloud_inv w c (fst b).
Proof.
  intros HW HE ST (W & KL & SZ & FS & R0 & IN). destruct ST as [g time s s1 s' gm gm' st st' MV BT HN|n b s s' st BO FIT BI AD|s s' st CL|target rng k s s' k' st SO]; cbn [fst] in *.
  - destruct (moves_facts g s s1 W MV) as (W1 & (C1 & C2 & C3 & C4 & C5) & N1 & _ & Q1 & Q2 & Q3).
    assert (KL1 : k_life c = flag_lifetime_hist s1) by congruence.
    assert (OS := positions_sized s s1 N1). assert (OI := positions_inside w s IN).
    destruct SZ as [SZ1 SZ2].
    assert (SP : 0 < nel_mp_split s1) by (rewrite Q2, SZ1; nra).
    assert (HN1 : (N_mp s' <= capacity s1)%nat) by (rewrite C1; auto).
    destruct (call_wf w c em time (positions s) gm s1 st gm' s' st' HW HE W1 KL1 OS SP BT HN1) as (W' & _ & (D1 & D2 & D3 & D4 & D5) & _ & P1 & P2 & P3).
    split; auto. split; [congruence|]. split; [unfold sizes_ok; rewrite P1, P2, P3, D4, D5, Q1, Q2, Q3, C4, C5; auto|].
    split; [congruence|]. split; [rewrite D3, P1, Q1, C3; auto|].
    eapply (call_inside w c em time (positions s) gm s1 st gm' s' st'); eauto.
  - destruct (add_new_spec n b s W BO FIT) as (s2 & E & L & _ & W2 & _ & (D1 & D2 & D3 & D4 & D5) & P1 & P2 & P3).
    rewrite AD in E. injection E as <-. destruct SZ as [SZ1 SZ2].
    split; auto. split; [congruence|]. split; [unfold sizes_ok; rewrite P1, P2, P3, D4, D5; auto|].
    split; [congruence|]. split; [rewrite D3, P1; auto|]. rewrite L. apply Forall_app. split; auto.
    apply Forall_map. apply Forall_forall. intros i Hi. apply in_seq in Hi. apply (BI i). lia.
  - destruct (clean_spec s W) as (s2 & E & L & W2 & _ & (D1 & D2 & D3 & D4 & D5) & A & B). rewrite CL in E. injection E as <-.
    split; auto. split; [congruence|]. destruct SZ as [SZ1 SZ2].
    destruct (Nat.eq_dec (N_mp s') 0) as [Z|Z].
    + destruct (B Z) as (B1 & B2 & B3). split; [unfold sizes_ok; rewrite B1, B2, B3, D4, D5; auto|].
      split; [congruence|]. split; [rewrite D3, B1; lra|]. rewrite L. apply Forall_forall. intros p Hp. apply filter_In in Hp.
      rewrite Forall_forall in IN. apply IN. tauto.
    + destruct (A Z) as (B1 & B2 & B3). split; [unfold sizes_ok; rewrite B1, B2, B3, D4, D5; auto|].
      split; [congruence|]. split; [rewrite D3, B1; lra|]. rewrite L. apply Forall_forall. intros p Hp. apply filter_In in Hp.
      rewrite Forall_forall in IN. apply IN. tauto.
  - destruct (Nat.lt_ge_cases target (N_mp s)) as [Lt|Ge].
    + destruct (soft_spec target rng k s W Lt) as (s2 & E & L & W2 & _ & (D1 & D2 & D3 & D4 & D5) & RF & SZ2).
      rewrite SO in E. injection E as <- _. split; auto. split; [congruence|]. split; auto. split; [congruence|].
      split.
      { rewrite D3, RF. split; [lra|]. unfold new_ref. destruct (Rltb _ _) eqn:Q; [lra|]. apply Rltb_false in Q. lra. }
      rewrite L. apply Forall_map. apply Forall_forall. intros p Hp. apply mask_get_In in Hp.
      rewrite Forall_forall in IN. apply (IN p Hp).
    + unfold perform_soft_regeneration in SO. replace (Nat.ltb target (N_mp s)) with false in SO by (symmetry; apply Nat.ltb_ge; auto).
      injection SO as <- _. repeat (split; [solve [auto]|]). auto.
Qed.

Lemma cloud_run_inv {S : Type} w c (em : R -> bool -> list imp -> S -> option (emis * S)) a b :
  wall_ok w -> emitter_ok w em -> cloud_run w c em a b -> cloud_inv w c (fst a) -> cloud_inv w c (fst b).
Proof. intros HW HE RN. induction RN; auto. intros I. apply IHRN. eapply cloud_step_inv; eauto. Qed.


(** * Charge over a sequence of moves *)
Lemma call_mono {S : Type} w c (em : R -> bool -> list imp -> S -> option (emis * S)) time old g s st g' s' st' :
  backtrack_and_second_emiss w c em time old g s st = Some (g', s', st') -> (N_mp s <= N_mp s')%nat.
Proof.
  unfold backtrack_and_second_emiss. destruct old as [[xo yo] zo]. cbv zeta.
  destruct (Nat.eqb _ 0); [intros E; injection E; intros; subst; auto|].
  destruct (Nat.eqb _ 0); [intros E; injection E; intros; subst; auto|].
  unfold bind. destruct (w_hit _ _); [|discriminate]. destruct (life_part _ _ _ _ _ _) as [[lh tl]|]; [|discriminate].
  destruct (zip_imps _ _ _ _ _ _); [|discriminate]. destruct (count_impacts _ _ _); [|discriminate].
  destruct (em _ _ _ _) as [[e st1]|]; [|discriminate].
  destruct (replace_MPs _ _ _ _) as [s1|] eqn:ER; [|discriminate].
  assert (N1 : N_mp s1 = N_mp s).
  { clear - ER. unfold replace_MPs, bind in ER.
    repeat match type of ER with match ?x with _ => _ end = _ => destruct x; [|discriminate] end. injection ER as <-. auto. }
  destruct (count_emitted _ _ _ _ _ _ _ _ _); [|discriminate].
  destruct (Nat.eqb _ 0); [intros E; injection E; intros; subst; lia|].
  destruct (add_new_MPs _ _ _) as [s2|] eqn:EA; [|discriminate]. apply add_N in EA.
  destruct (count_emitted _ _ _ _ _ _ _ _ _); [|discriminate].
  intros E; injection E; intros; subst; lia.
Qed.

Lemma move_run_mono {S : Type} w c (em : R -> bool -> list imp -> S -> option (emis * S)) l :
  Forall (fun tp => motion (snd tp)) l -> forall g s st s2 st2 h,
  move_run w c em l g s st = Some (s2, st2, h) -> (N_mp s <= N_mp s2)%nat.
Proof.
  induction 1 as [|[time push] l MO F IH]; intros g s st s2 st2 h H; cbn [move_run] in H.
  - injection H; intros; subst; auto.
  - unfold bind in H. destruct (backtrack_and_second_emiss _ _ _ _ _ _ _ _) as [[[g1 s1] st1]|] eqn:BT; [|discriminate].
    destruct (move_run _ _ _ l g1 s1 st1) as [[[s3 st3] h3]|] eqn:MR; [|discriminate]. injection H; intros; subst.
    apply call_mono in BT. apply IH in MR. destruct (MO s) as (gm & N & _). cbn in *. lia.
Qed.

Lemma move_run_charge {S : Type} w c (em : R -> bool -> list imp -> S -> option (emis * S)) l :
  wall_ok w -> emitter_ok w em -> Forall (fun tp => motion (snd tp)) l ->
  forall g s st s2 st2 h, wf s -> k_life c = flag_lifetime_hist s -> 0 < nel_mp_split s ->
  move_run w c em l g s st = Some (s2, st2, h) -> (N_mp s2 <= capacity s)%nat ->
  wf s2 /\ length h = length l /\ (N_mp s <= N_mp s2)%nat /\
  charge s2 = charge s - rsum (map fst h) + rsum (map snd h).
Proof.
  intros HW HE F. induction F as [|[time push] l MO F IH]; intros g s st s2 st2 h W KL SP H HN; cbn [move_run] in H.
  - injection H; intros; subst. repeat (split; [solve [auto]|]). cbn. change (rsum []) with 0. lra.
  - unfold bind in H. destruct (backtrack_and_second_emiss _ _ _ _ _ _ _ _) as [[[g1 s1] st1]|] eqn:BT; [|discriminate].
    destruct (move_run _ _ _ l g1 s1 st1) as [[[s3 st3] h3]|] eqn:MR; [|discriminate].
    assert (MM := move_run_mono w c em l F _ _ _ _ _ _ MR). injection H; intros; subst. clear H.
    destruct (MO s) as (gm & MV). cbn [snd] in MV.
    destruct (moves_facts gm s (push s) W MV) as (W1 & (C1 & C2 & C3 & C4 & C5) & N1 & NE & Q1 & Q2 & Q3).
    assert (OS := positions_sized s (push s) N1).
    assert (KL1 : k_life c = flag_lifetime_hist (push s)) by congruence.
    assert (SP1 : 0 < nel_mp_split (push s)) by (rewrite Q2; auto).
    assert (HN1 : (N_mp s1 <= capacity (push s))%nat) by lia.
    destruct (call_wf w c em time (positions s) g (push s) st g1 s1 st1 HW HE W1 KL1 OS SP1 BT HN1) as (W' & _ & (D1 & D2 & _) & M & _ & P2 & _).
    destruct (call_charge w c em time (positions s) g (push s) st g1 s1 st1 HW HE W1 KL1 OS SP1 BT HN1) as (CH & _).
    destruct (IH g1 s1 st1 s2 st2 h3 W') as (I1 & I2 & I3 & I4).
    { congruence. } { rewrite P2. auto. } { exact MR. } { lia. }
    split; auto. split; [cbn; congruence|]. split; [lia|].
    rewrite I4, CH. cbn [map fst snd]. change (rsum (l_nimp g1 :: map fst h3)) with (l_nimp g1 + rsum (map fst h3)).
    change (rsum (l_nemit g1 :: map snd h3)) with (l_nemit g1 + rsum (map snd h3)).
    unfold charge at 1. rewrite NE. unfold charge. lra.
Qed.

(** The constructor gives settings that fit. *)
Lemma iman_ctor_ok w xap nvert Dx scrub Nbin Enmax Nl lmax life seg segline cosw cosh mass qe c g :
  iman_ctor xap nvert Dx scrub Nbin Enmax Nl lmax life seg segline cosw cosh mass qe = Some (c, g) ->
  0 < xap -> (forall x y, w_out w x y = false -> - xap <= x) ->
  0 < Dx -> 0 < Enmax -> 0 < lmax -> 0 < cosw -> 0 < mass -> 0 < qe ->
  hist_ok w c g /\ Forall (fun h => h <> []) (g_seglines g) /\
  rsum (g_tot g) = 0 /\ rsum (g_scrub g) = 0 /\ rsum (g_en g) = 0 /\ rsum (g_line g) = 0 /\ rsum (g_cos g) = 0 /\ rsum (g_life g) = 0.
Proof.
  unfold iman_ctor. intros H Hx HW HD HE HL HC HM HQ.
  destruct (seg && _); [discriminate|]. destruct (Nat.ltb Nbin 2 || _) eqn:B; [discriminate|].
  apply Bool.orb_false_elim in B. destruct B as [B1 B2]. apply Nat.ltb_ge in B1.
  injection H as <- <-.
  assert (I1 : 0 < INR (Nbin - 1)) by (apply lt_0_INR; lia).
  assert (RN : forall n, (0 < n)%nat -> repeat 0 n <> []) by (intros [|n] ?; [lia|discriminate]).
  assert (HG : (0 < hist_grid_len xap Dx)%nat) by (unfold hist_grid_len; lia).
  assert (RZ : forall n, rsum (repeat 0 n) = 0).
  { induction n as [|n IH]; [reflexivity|]. change (0 + rsum (repeat 0 n) = 0). rewrite IH. lra. }
  split; [constructor; cbn; auto|].
  - intros x y O. apply HW in O. unfold hist_grid_bias. pose proof (RegenFacts2.hist_half_covers xap Dx HD Hx). lra.
  - apply Rdiv_lt_0_compat; lra.
  - lra.
  - intros ->. apply Bool.andb_false_iff in B2. destruct B2 as [B2|B2]; [discriminate|]. apply Nat.ltb_ge in B2. split.
    + apply Rdiv_lt_0_compat; [lra|]. apply lt_0_INR. lia.
    + apply RN. lia.
  - intros ->. split; auto. apply RN.
    assert (P : 0 <= 1 / cosw) by (apply Rlt_le, Rdiv_lt_0_compat; lra).
    assert (0 <= rtrunc (1 / cosw))%Z; [|lia].
    rewrite rtrunc_nonneg by lra. pose proof (rfloor_bounds (1 / cosw)) as FB.
    destruct (Z_lt_le_dec (rfloor (1 / cosw)) 0) as [Q|Q]; auto. assert (Q2 : (rfloor (1 / cosw) <= -1)%Z) by lia. apply IZR_le in Q2. lra.
  - apply RN. lia.
  - split; cbn.
    + destruct (seg && segline); [|constructor]. apply Forall_forall. intros h Hh. apply repeat_spec in Hh. subst. apply RN. lia.
    + repeat (split; [solve [auto; destruct cosh; auto]|]). destruct life; auto.
Qed.

Lemma absorber_call w c time old g s st g' s' st' :
  wall_ok w -> wf s -> k_life c = flag_lifetime_hist s -> old_sized (N_mp s) old -> 0 < nel_mp_split s ->
  backtrack_and_second_emiss w c absorber time old g s st = Some (g', s', st') -> (N_mp s' <= capacity s)%nat ->
  charge s' = charge s - charge_of (hitters w s).
Proof.
  intros HW W KL OS SP H HN.
  destruct (call_charge w c absorber time old g s st g' s' st' HW (absorber_ok w) W KL OS SP H HN) as (A & B).
  destruct (hitters w s) eqn:E.
  - rewrite A, B. destruct (call_pieces w c absorber time old g s st g' s' st' HW (absorber_ok w) W KL OS SP H HN) as [(_ & -> & _)|(N & _)]; [|easy].
    unfold charge_of; cbn. change (rsum []) with 0. lra.
  - destruct (call_emission w c absorber time old g s st g' s' st' HW (absorber_ok w) W KL OS SP H HN) as (hs & ps & e & _ & _ & EM & T).
    { rewrite E. discriminate. }
    injection EM as <- _. rewrite absorber_charge in T. rewrite A, B, T. lra.
Qed.

Lemma cloud_run_inside {S : Type} w c (em : R -> bool -> list imp -> S -> option (emis * S)) s st s' st' :
  wall_ok w -> emitter_ok w em ->
  wf s -> k_life c = flag_lifetime_hist s -> sizes_ok s -> 0 < fact_split s -> 0 < nel_mp_ref_0 s <= nel_mp_ref s ->
  Forall (fun p => beyond_wall w p = false) (live s) ->
  cloud_run w c em (s, st) (s', st') ->
  wf s' /\ sizes_ok s' /\ 0 < nel_mp_ref_0 s' <= nel_mp_ref s' /\ Forall (fun p => beyond_wall w p = false) (live s').
Proof.
  intros HW HE W KL SZ FS R0 IN RN. apply (cloud_run_inv w c em _ _ HW HE) in RN.
  - destruct RN as (A & _ & B & _ & C & D). auto.
  - repeat (split; [solve [auto]|]). auto.
Qed.
