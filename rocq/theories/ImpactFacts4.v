(** Histograms of one call, and runs. *)
From Coq Require Import Lra Lia Reals Psatz.
From Verif Require Import Num NumFacts Fort FortFacts MP SpecMP SpecFort MPFacts Push SpecPush PushFacts
  Geom Poly Sey SpecSey SeyFacts SeyFacts2 SeyFacts3 Impact SpecImpact ImpactFacts ImpactFacts2 ImpactFacts3.

Lemma hist_total bias Dx xs hist r : 0 < Dx -> hist <> [] -> Forall (fun xw => bias <= fst xw) xs ->
  compute_hist xs bias Dx hist = Some r -> length r = length hist /\ rsum r = rsum hist + rsum (map snd xs).
Proof.
  intros HD Hne F E. rewrite Forall_forall in F.
  destruct (compute_hist_main bias Dx xs hist HD Hne F) as (r' & E' & L & T & _). rewrite E in E'. injection E' as <-. auto.
Qed.

Lemma edge_sum_combine k seg : forall qs,
  rsum (map snd (filter (fun iw => (fst iw =? Z.of_nat k)%Z) (combine (map Z.of_nat seg) qs))) = edge_sum k seg qs.
Proof.
  unfold edge_sum. induction seg as [|i seg IH]; intros [|q qs]; cbn; auto.
  destruct (Z.eqb_spec (Z.of_nat i) (Z.of_nat k)), (Nat.eqb_spec i k); try lia; cbn; rewrite ?rsum_cons, IH; lra.
Qed.

Lemma combine_map {A B C} (f : A -> B) (h : A -> C) l : combine (map f l) (map h l) = map (fun x => (f x, h x)) l.
Proof. induction l; cbn; f_equal; auto. Qed.

Lemma seg_update k seg qs hist : (k < length hist)%nat ->
  nth k (update_seg_impact (combine (map Z.of_nat seg) qs) hist) 0 = nth k hist 0 + edge_sum k seg qs.
Proof. intros Hk. rewrite update_seg_impact_nth, edge_sum_combine by auto. auto. Qed.

Lemma edge_sum_app k a b qa qb : length a = length qa -> edge_sum k (a ++ b) (qa ++ qb) = edge_sum k a qa + edge_sum k b qb.
Proof.
  unfold edge_sum. revert qa. induction a as [|i a IH]; intros [|q qa] L; try discriminate; cbn.
  - change (rsum []) with 0. lra.
  - rewrite !rsum_cons, IH by (cbn in L; lia). lra.
Qed.

Lemma edge_sum_opp k a qs : edge_sum k a (map Ropp qs) = - edge_sum k a qs.
Proof.
  unfold edge_sum. revert qs. induction a as [|i a IH]; intros [|q qs]; cbn; try (change (rsum []) with 0; lra).
  rewrite !rsum_cons, IH. destruct (Nat.eqb i k); lra.
Qed.

Lemma rsum_opp qs : rsum (map Ropp qs) = - rsum qs.
Proof. induction qs; cbn; rewrite ?rsum_cons; [change (rsum []) with 0; lra|]. rewrite IHqs. lra. Qed.

Lemma e_kin_eV c vx vy vz : e_kin c vx vy vz = kin_eV (k_qe c) (k_mass c) vx vy vz.
Proof.
  unfold e_kin, kin_eV. rewrite Rmult_assoc, sqrt_sqrt by nra. ring.
Qed.

(** Emission side for MPs [l]. *)
Lemma count_emitted_hist c g (l : list mp) seg add g' : 0 < k_Dx c -> g_en g <> [] ->
  Forall (fun p => k_bias c <= m_x p) l ->
  count_emitted c g (map m_nel l) (map m_x l) (map m_vx l) (map m_vy l) (map m_vz l) seg add = Some g' ->
  rsum (g_en g') = rsum (g_en g) - energy_of c l /\ length (g_en g') = length (g_en g) /\
  l_eemit g' = add + energy_of c l /\
  (k_seg c = true ->
     length (g_segen g') = length (g_segen g) /\ length (g_segemit g') = length (g_segemit g) /\
     (forall k, (k < length (g_segen g))%nat ->
       nth k (g_segen g') 0 = nth k (g_segen g) 0 - edge_sum k seg (map (fun p => m_nel p * mp_eV c p) l)) /\
     (forall k, (k < length (g_segemit g))%nat ->
       nth k (g_segemit g') 0 = nth k (g_segemit g) 0 + edge_sum k seg (map m_nel l))) /\
  g_tot g' = g_tot g /\ g_scrub g' = g_scrub g /\ g_line g' = g_line g /\ g_cos g' = g_cos g /\
  g_life g' = g_life g /\ g_seg g' = g_seg g /\ g_seglines g' = g_seglines g /\ l_eimp g' = l_eimp g.
Proof.
  intros HD Hne F H. unfold count_emitted in H.
  assert (E1 : map3 (e_kin c) (map m_vx l) (map m_vy l) (map m_vz l) = map (mp_eV c) l).
  { clear. induction l; cbn; f_equal; auto. apply e_kin_eV. }
  assert (E2 : map2 (fun n e => - n * e) (map m_nel l) (map (mp_eV c) l) = map Ropp (map (fun p => m_nel p * mp_eV c p) l)).
  { clear. induction l; cbn; f_equal; auto. lra. }
  assert (E3 : map2 (fun e n => e * n) (map (mp_eV c) l) (map m_nel l) = map (fun p => m_nel p * mp_eV c p) l).
  { clear. induction l; cbn; f_equal; auto. lra. }
  rewrite E1, E2, E3 in H. unfold bind in H. destruct (compute_hist _ _ _ _) as [r|] eqn:CH; [|discriminate].
  apply hist_total in CH; auto.
  2:{ apply Forall_forall. intros [x q] Hx. apply in_combine_l in Hx. apply in_map_iff in Hx. destruct Hx as (p & <- & Hp).
      rewrite Forall_forall in F. cbn. auto. }
  rewrite combine_snd in CH by (rewrite !map_length; auto). rewrite rsum_opp in CH. destruct CH as [L T].
  injection H as <-. cbn [g_en l_eemit g_segen g_segemit g_tot g_scrub g_line g_cos g_life g_seg g_seglines l_eimp].
  split; [rewrite T; unfold energy_of; lra|]. split; [auto|]. split; [reflexivity|]. split; [|repeat split].
  intros KS. rewrite KS, !update_seg_impact_length. repeat split; auto.
  - intros k Hk. rewrite seg_update, edge_sum_opp by auto. lra.
  - intros k Hk. apply seg_update; auto.
Qed.

(** Energy lines of the segments. *)
Lemma seg_lines_ok c ps : 0 < k_DEn c -> 0 <= k_Enmax c -> Forall (fun p => 0 <= i_E p) ps ->
  forall lines i lines', Forall (fun h => h <> []) lines -> seg_lines c ps i lines = Some lines' ->
  length lines' = length lines /\
  forall k, (k < length lines)%nat -> rsum (nth k lines' []) = rsum (nth k lines []) + edge_sum (i + k) (map i_seg ps) (map i_nel ps).
Proof.
  intros HD HM HE. induction lines as [|h lines IH]; intros i lines' HN H; cbn in H.
  - injection H as <-. split; auto. intros k Hk. cbn in Hk; lia.
  - unfold bind in H. destruct (compute_hist _ _ _ _) as [r|] eqn:CH; [|discriminate].
    destruct (seg_lines _ _ _ _) as [l'|] eqn:SL; [|discriminate]. injection H as <-.
    inversion HN as [|? ? Hh HN']; subst. destruct (IH (Datatypes.S i) l' HN' SL) as [L N].
    split; [cbn; auto|]. intros [|k] Hk; cbn [nth].
    + apply hist_total in CH; auto.
      2:{ apply Forall_forall. intros [x q] Hx. apply in_map_iff in Hx. destruct Hx as (p & E & Hp). injection E as <- <-.
          apply mask_get_In in Hp. rewrite Forall_forall in HE. specialize (HE p Hp). unfold clip_E. cbn.
          destruct (Rgtb _ _); auto. }
      destruct CH as [_ ->]. f_equal. rewrite map_map. cbn. rewrite Nat.add_0_r.
      clear. induction ps as [|p ps IH]; [reflexivity|]. cbn. unfold edge_sum in *. cbn.
      rewrite rsum_cons. destruct (Nat.eqb (i_seg p) i); cbn; rewrite ?rsum_cons, IH; lra.
    + rewrite N by (cbn in Hk; lia). do 2 f_equal. lia.
Qed.

Section Call.
Context {S : Type}.
Variables (w : wall) (c : icfg) (em : R -> bool -> list imp -> S -> option (emis * S)) (time : R)
  (old : list R * list R * list R) (g : iman) (s : mpsys) (st : S) (g' : iman) (s' : mpsys) (st' : S).
Hypothesis HW : wall_ok w.
Hypothesis HE : emitter_ok w em.
Hypothesis W : wf s.
Hypothesis KL : k_life c = flag_lifetime_hist s.
Hypothesis OS : old_sized (N_mp s) old.
Hypothesis SP : 0 < nel_mp_split s.
Hypothesis H : backtrack_and_second_emiss w c em time old g s st = Some (g', s', st').
Hypothesis HN : (N_mp s' <= capacity s)%nat.
Hypothesis OI : old_inside w old.
Hypothesis HO : hist_ok w c g.

Lemma emitted_none : hitters w s = [] -> emitted w s s = [].
Proof.
  intros A. unfold emitted. rewrite mask_get_filter. fold (hitters w s). rewrite A. cbn. apply skipn_all2.
  rewrite live_length. auto.
Qed.

Lemma emitted_pieces e : emis_sized (length (hitters w s)) (k_seg c) e ->
  live s' = mask_put (lmask w s) (live s) (reps e (length (hitters w s)) (tval s time)) ++ news e (tval s time) ->
  emitted w s s' = reps e (length (hitters w s)) (tval s time) ++ news e (tval s time).
Proof.
  intros SZ L. unfold emitted. rewrite L. fold (lmask w s). f_equal.
  - rewrite <- (app_nil_r (lmask w s)) at 1. rewrite mask_get_app by (rewrite mask_put_length, lmask_length, live_length; auto).
    cbn [mask_get]. rewrite app_nil_r. apply mask_put_get_same; [rewrite lmask_length, live_length; auto|].
    unfold reps. rewrite (zip8_length _ _ _ _ _ _ _ _ _ (reps_lens e _ _ (tval s time) SZ)). apply hitters_count.
  - apply skipn_app_exact. rewrite mask_put_length, live_length. auto.
Qed.

Lemma imps_fields hs ps : Forall2 (fun hm q => impact_of c (fst hm) (snd hm) q) (combine hs (hitters w s)) ps ->
  length hs = length (hitters w s) ->
  map i_nel ps = map m_nel (hitters w s) /\ map i_E ps = map (mp_eV c) (hitters w s) /\ map i_seg ps = map snd hs /\
  Forall (fun p => 0 <= i_ct p) ps.
Proof using.
  clear HN. generalize (hitters w s) as l. intros l F. remember (combine hs l) as z eqn:Z. revert hs l Z.
  induction F as [|[h m] q z ps I F IH]; intros [|h' hs] [|m' l] Z L; try discriminate; auto.
  cbn in Z. injection Z as -> -> Z. destruct (IH hs l Z) as (A & B & C & D); [cbn in L; lia|].
  destruct I as (I1 & _ & _ & _ & _ & _ & _ & _ & _ & I2 & I3 & _ & I4 & _). cbn in *.
  split; [f_equal; auto|]. split; [f_equal; auto|]. split; [f_equal; auto|]. constructor; auto.
Qed.

Lemma map_fields {A B} (f1 f2 : A -> R) (h1 h2 : B -> R) (F : R -> R -> R) la lb :
  map f1 la = map h1 lb -> map f2 la = map h2 lb -> map (fun x => F (f1 x) (f2 x)) la = map (fun x => F (h1 x) (h2 x)) lb.
Proof.
  revert lb. induction la as [|a la IH]; intros [|b lb] E1 E2; try discriminate; auto.
  cbn in *. injection E1 as A1 E1. injection E2 as A2 E2. rewrite A1, A2. f_equal. auto.
Qed.

Lemma eV_nonneg p : 0 <= mp_eV c p.
Proof.
  assert (Hm := ho_m _ _ _ HO). assert (Hq := ho_q _ _ _ HO). unfold mp_eV, kin_eV.
  apply Rmult_le_pos; [|nra]. unfold Rdiv. apply Rmult_le_pos; [nra|]. left. apply Rinv_0_lt_compat; auto.
Qed.

Lemma scrub_sum l : rsum (map (fun m => m_nel m * (if Rgtb (mp_eV c m) (k_scrub c) then 1 else 0)) l)
  = charge_of (filter (fun m => Rgtb (mp_eV c m) (k_scrub c)) l).
Proof.
  unfold charge_of. induction l as [|m l IH]; [reflexivity|]. cbn. rewrite rsum_cons, IH.
  destruct (Rgtb _ _); cbn; rewrite ?rsum_cons; lra.
Qed.

(** Histograms of the impacts. *)
Lemma count_impacts_hist gg ps hs gg' :
  g_tot gg = g_tot g -> g_scrub gg = g_scrub g -> g_en gg = g_en g -> g_line gg = g_line g -> g_cos gg = g_cos g ->
  Forall2 (fun hm q => impact_of c (fst hm) (snd hm) q) (combine hs (hitters w s)) ps ->
  length hs = length (hitters w s) ->
  Forall (fun p => w_out w (i_x p) (i_y p) = false) ps ->
  count_impacts c gg ps = Some gg' ->
  rsum (g_tot gg') = rsum (g_tot g) + charge_of (hitters w s) /\ length (g_tot gg') = length (g_tot g) /\
  rsum (g_scrub gg') = rsum (g_scrub g) + charge_of (filter (fun m => Rgtb (mp_eV c m) (k_scrub c)) (hitters w s)) /\
  length (g_scrub gg') = length (g_scrub g) /\
  rsum (g_en gg') = rsum (g_en g) + energy_of c (hitters w s) /\ length (g_en gg') = length (g_en g) /\
  rsum (g_line gg') = rsum (g_line g) + charge_of (hitters w s) /\ length (g_line gg') = length (g_line g) /\
  (k_cos c = true -> rsum (g_cos gg') = rsum (g_cos g) + charge_of (hitters w s) /\ length (g_cos gg') = length (g_cos g)) /\
  (k_seg c = true ->
     length (g_seg gg') = length (g_seg gg) /\ length (g_segen gg') = length (g_segen gg) /\
     (forall k, (k < length (g_seg gg))%nat ->
       nth k (g_seg gg') 0 = nth k (g_seg gg) 0 + edge_sum k (map snd hs) (map m_nel (hitters w s))) /\
     (forall k, (k < length (g_segen gg))%nat ->
       nth k (g_segen gg') 0 = nth k (g_segen gg) 0 + edge_sum k (map snd hs) (map (fun p => m_nel p * mp_eV c p) (hitters w s))) /\
     (k_segline c = true -> Forall (fun h => h <> []) (g_seglines gg) ->
       length (g_seglines gg') = length (g_seglines gg) /\
       forall k, (k < length (g_seglines gg))%nat -> rsum (nth k (g_seglines gg') [])
         = rsum (nth k (g_seglines gg) []) + edge_sum k (map snd hs) (map m_nel (hitters w s)))) /\
  g_life gg' = g_life gg /\ g_segemit gg' = g_segemit gg /\ l_eimp gg' = energy_of c (hitters w s).
Proof.
  intros G1 G2 G3 G4 G5 F LH PI E. destruct (imps_fields hs ps F LH) as (Fn & FE & Fs & Fc).
  assert (FX : Forall (fun p => k_bias c <= i_x p) ps).
  { eapply Forall_impl; [|exact PI]. cbn. intros p. apply (ho_bias _ _ _ HO). }
  assert (FP : Forall (fun p => 0 <= i_E p) ps).
  { apply Forall_forall. intros p Hp. apply (in_map i_E) in Hp. rewrite FE in Hp. apply in_map_iff in Hp.
    destruct Hp as (m & <- & _). apply eV_nonneg. }
  assert (CE : forall x, 0 <= x -> 0 <= clip_E (k_Enmax c) x).
  { intros x Hx. unfold clip_E. assert (A := ho_Emax _ _ _ HO). destruct (Rgtb _ _); auto. }
  unfold count_impacts in E.
  unfold bind at 1 in E. destruct (compute_hist _ _ _ (g_tot gg)) as [h1|] eqn:E1; [|discriminate].
  unfold bind at 1 in E. destruct (compute_hist _ _ _ (g_scrub gg)) as [h2|] eqn:E2; [|discriminate].
  unfold bind at 1 in E. destruct (compute_hist _ _ _ (g_en gg)) as [h3|] eqn:E3; [|discriminate].
  unfold bind at 1 in E. destruct (if k_cos c then _ else _) as [h4|] eqn:E4; [|discriminate]. cbv zeta in E.
  unfold bind at 1 in E. destruct (if k_seg c && k_segline c then _ else _) as [h5|] eqn:E5; [|discriminate].
  unfold bind at 1 in E. destruct (compute_hist _ _ _ (g_line gg)) as [h6|] eqn:E6; [|discriminate].
  assert (FF : forall h : imp -> R, Forall (fun xw => k_bias c <= fst xw) (map (fun p => (i_x p, h p)) ps)).
  { intros h. apply Forall_map. cbn. auto. }
  assert (HD := ho_Dx _ _ _ HO).
  rewrite G1 in E1. rewrite G2 in E2. rewrite G3 in E3. rewrite G4 in E6. rewrite G5 in E4.
  apply hist_total in E1; auto; [|apply HO]. apply hist_total in E2; auto; [|apply HO]. apply hist_total in E3; auto; [|apply HO].
  apply hist_total in E6; auto; [|apply HO|apply HO|].
  2:{ apply Forall_map. cbn. eapply Forall_impl; [|exact FP]. cbn. auto. }
  rewrite map_map in E1, E2, E3, E6. cbn [snd] in E1, E2, E3, E6.
  change (map (fun x => i_nel x) ps) with (map i_nel ps) in *. rewrite Fn in E1, E6.
  rewrite (map_fields i_nel i_E m_nel (mp_eV c) (fun n e => n * (if Rgtb e (k_scrub c) then 1 else 0)) ps (hitters w s) Fn FE), scrub_sum in E2.
  rewrite (map_fields i_nel i_E m_nel (mp_eV c) Rmult ps (hitters w s) Fn FE) in E3.
  injection E as <-. cbn [g_tot g_scrub g_en g_line g_cos g_seg g_segen g_seglines g_life g_segemit l_eimp].
  destruct E1 as [L1 T1], E2 as [L2 T2], E3 as [L3 T3], E6 as [L6 T6].
  do 8 (split; [auto|]). split; [|split; [|split; [|split]]]; auto.
  - intros KC. rewrite KC in E4. destruct (ho_cos _ _ _ HO KC) as [K1 K2].
    apply hist_total in E4; auto.
    + rewrite map_map in E4. cbn [snd] in E4. change (map (fun x => i_nel x) ps) with (map i_nel ps) in E4. rewrite Fn in E4. destruct E4; auto.
    + apply Forall_map. cbn. auto.
  - intros KS. rewrite KS in *. cbn [andb] in E5. rewrite !update_seg_impact_length. split; [auto|]. split; [auto|]. split; [|split].
    + intros k Hk. rewrite <- Fn, <- Fs. rewrite <- (seg_update k (map i_seg ps)) by auto. rewrite map_map, combine_map. auto.
    + intros k Hk. rewrite <- (map_fields i_nel i_E m_nel (mp_eV c) Rmult ps (hitters w s) Fn FE), <- Fs.
      rewrite <- (seg_update k (map i_seg ps)) by auto. rewrite map_map, combine_map. auto.
    + intros KSL HL. rewrite KSL in E5. apply seg_lines_ok in E5; auto; [|apply HO|apply HO].
      destruct E5 as [A B]. split; auto. intros k Hk. rewrite (B k Hk), Fn, Fs. auto.
  - rewrite <- (map_map (fun p => (i_E p, i_nel p)) (fun xy => fst xy * snd xy)). rewrite map_map. cbn [fst snd].
    unfold energy_of. rewrite <- (map_fields i_nel i_E m_nel (mp_eV c) Rmult ps (hitters w s) Fn FE).
    f_equal. apply map_ext. intros; ring.
Qed.

(** The lifetime histogram. *)
Lemma life_hist tl lh : k_life c = true -> (forall p, In p (live s) -> m_t p <= time) ->
  life_part c time (impact_mask w s) (mask_get (impact_mask w s) (nel_mp s)) (t_last_impact s) (g_life g) = Some (lh, tl) ->
  length lh = length (g_life g) /\ rsum lh = rsum (g_life g) + charge_of (filter (fun m => Rgtb (m_t m) 0) (hitters w s)).
Proof.
  intros K HT E. unfold life_part in E. rewrite K in E. destruct (ho_life _ _ _ HO K) as [K1 K2].
  destruct (live_cols s W) as (_ & _ & _ & _ & _ & _ & CN & CT). unfold tview in CT. rewrite <- KL, K in CT.
  rewrite !mask_live in E by (auto; apply W). rewrite CN, CT, !mask_get_map, <- hitters_mask in E.
  unfold bind in E. destruct (compute_hist _ _ _ _) as [r|] eqn:CH; [|discriminate]. injection E as <- _.
  rewrite ?map_map, ?mask_get_map in CH. rewrite combine_map in CH.
  apply hist_total in CH; auto.
  - destruct CH as [L T]. split; auto. rewrite T, map_map. cbn [snd]. rewrite mask_get_filter. reflexivity.
  - apply Forall_map. cbn. apply Forall_forall. intros p Hp. apply mask_get_In in Hp.
    assert (In p (live s)) by (unfold hitters in Hp; apply filter_In in Hp; tauto). specialize (HT p ltac:(assumption)). lra.
Qed.

Lemma bias_inside l : Forall (fun p => beyond_wall w p = false) l -> Forall (fun p => k_bias c <= m_x p) l.
Proof. apply Forall_impl. intros p. apply (ho_bias _ _ _ HO). Qed.

Lemma nil_sum l : l = [] -> charge_of l = 0 /\ energy_of c l = 0.
Proof. intros ->. split; reflexivity. Qed.

Lemma call_hist :
  let hit := hitters w s in
  let out := emitted w s s' in
  rsum (g_tot g') = rsum (g_tot g) + charge_of hit /\ length (g_tot g') = length (g_tot g) /\
  rsum (g_scrub g') = rsum (g_scrub g) + charge_of (filter (fun m => Rgtb (mp_eV c m) (k_scrub c)) hit) /\
  length (g_scrub g') = length (g_scrub g) /\
  rsum (g_line g') = rsum (g_line g) + charge_of hit /\ length (g_line g') = length (g_line g) /\
  (k_cos c = true -> rsum (g_cos g') = rsum (g_cos g) + charge_of hit /\ length (g_cos g') = length (g_cos g)) /\
  rsum (g_en g') = rsum (g_en g) + energy_of c hit - energy_of c out /\ length (g_en g') = length (g_en g) /\
  l_eimp g' = energy_of c hit /\ l_eemit g' = energy_of c out /\
  l_nimp g' = charge_of hit /\ l_nemit g' = charge_of out /\
  (k_life c = true -> (forall p, In p (live s) -> m_t p <= time) ->
     length (g_life g') = length (g_life g) /\
     rsum (g_life g') = rsum (g_life g) + charge_of (filter (fun m => Rgtb (m_t m) 0) hit)) /\
  (k_seg c = true -> exists edges oedges,
     length edges = length hit /\ length oedges = length out /\
     length (g_seg g') = length (g_seg g) /\ length (g_segen g') = length (g_segen g) /\
     length (g_segemit g') = length (g_segemit g) /\
     (forall k, (k < length (g_seg g))%nat -> nth k (g_seg g') 0 = nth k (g_seg g) 0 + edge_sum k edges (map m_nel hit)) /\
     (forall k, (k < length (g_segemit g))%nat -> nth k (g_segemit g') 0 = nth k (g_segemit g) 0 + edge_sum k oedges (map m_nel out)) /\
     (forall k, (k < length (g_segen g))%nat -> nth k (g_segen g') 0 = nth k (g_segen g) 0
        + edge_sum k edges (map (fun p => m_nel p * mp_eV c p) hit) - edge_sum k oedges (map (fun p => m_nel p * mp_eV c p) out)) /\
     (forall i, (i < length out)%nat -> exists j, (j < length hit)%nat /\ nth i oedges 0%nat = nth j edges 0%nat) /\
     (k_segline c = true -> Forall (fun h => h <> []) (g_seglines g) ->
       length (g_seglines g') = length (g_seglines g) /\
       forall k, (k < length (g_seglines g))%nat -> rsum (nth k (g_seglines g') [])
         = rsum (nth k (g_seglines g) []) + edge_sum k edges (map m_nel hit))).
Proof.
  cbv zeta.
  destruct (call_pieces w c em time old g s st g' s' st' HW HE W KL OS SP H HN)
    as [(A & G & S0 & _)|(_ & hs & ps & e & lh & g1 & g2 & WS & LH & LP & F & EO & L & _)].
  - subst s'. rewrite (emitted_none A), A. subst g'. cbn [zero_last g_tot g_scrub g_line g_cos g_en g_life g_seg g_segen g_segemit g_seglines l_nimp l_nemit l_eimp l_eemit filter].
    unfold charge_of, energy_of; cbn [map]. change (rsum []) with 0.
    repeat (split; [solve [auto; intros; split; auto; lra|lra]|]). intros KS. exists [], []. unfold edge_sum; cbn. change (rsum []) with 0.
    do 9 (split; [solve [auto|intros; lra|intros; lia]|]).
    intros; split; auto; intros; lra.
  - assert (PI : Forall (fun p => w_out w (i_x p) (i_y p) = false) ps) by (eapply step_imps_inside; eauto).
    assert (AI := call_inside w c em time old g s st g' s' st' HW HE W KL OS SP H HN OI).
    assert (SZ := eo_sized _ _ _ _ EO). rewrite LP in SZ.
    assert (EM := emitted_pieces e SZ L). rewrite EM.
    set (n := length (hitters w s)) in *. set (t := tval s time) in *.
    assert (RL := reps_lens e _ _ t SZ). assert (NL := news_lens e _ _ t SZ).
    destruct (zip8_cols _ _ _ _ _ _ _ _ _ RL) as (RX & _ & _ & RVX & RVY & RVZ & RN & _).
    destruct (zip8_cols _ _ _ _ _ _ _ _ _ NL) as (NX & _ & _ & NVX & NVY & NVZ & NN & _).
    cbv zeta in *. fold (reps e n t) in *. fold (news e t) in *.
    destruct WS as [B1 (tl & B2) B3 B4 B5 B6 B7 B8].
    assert (BI : Forall (fun p => beyond_wall w p = false) (reps e n t ++ news e t)).
    { rewrite <- EM. unfold emitted. apply Forall_app. split.
      - apply Forall_forall. intros p Hp. apply mask_get_In in Hp. rewrite Forall_forall in AI. auto.
      - apply Forall_skipn. auto. }
    apply Forall_app in BI. destruct BI as [BI1 BI2]. apply bias_inside in BI1. apply bias_inside in BI2.
    assert (C1 := count_impacts_last c _ _ _ B4).
    apply (count_impacts_hist _ ps hs) in B4; auto.
    destruct B4 as (T1 & T2 & T3 & T4 & T5 & T6 & T7 & T8 & T9 & T10 & T11 & T12 & T13).
    cbn [set_life zero_last g_life g_seg g_segen g_segemit g_seglines] in T10, T11, T12.
    assert (HD := ho_Dx _ _ _ HO).
    assert (NE1 : g_en g1 <> []) by (intros Z; rewrite Z in T6; apply (ho_en _ _ _ HO); destruct (g_en g); auto; discriminate).
    rewrite <- RN, <- RX, <- RVX, <- RVY, <- RVZ in B6.
    assert (C2 := count_emitted_last c _ _ _ _ _ _ _ _ _ B6). cbn [set_last l_nimp l_nemit l_eimp] in C2.
    apply count_emitted_hist in B6; auto. cbn [set_last g_tot g_scrub g_en g_line g_cos g_life g_seg g_segemit g_segen g_seglines l_eimp] in B6.
    destruct B6 as (U1 & U2 & U3 & U4 & U5 & U6 & U7 & U8 & U9 & U10 & U11 & U12).
    assert (NE2 : g_en g2 <> []) by (intros Z; rewrite Z in U2; destruct (g_en g1); auto; discriminate).
    assert (V : l_nimp g' = l_nimp g2 /\ l_nemit g' = l_nemit g2 /\ l_eimp g' = l_eimp g2 /\
      rsum (g_en g') = rsum (g_en g2) - energy_of c (news e t) /\ length (g_en g') = length (g_en g2) /\
      l_eemit g' = l_eemit g2 + energy_of c (news e t) /\
      (k_seg c = true ->
         length (g_segen g') = length (g_segen g2) /\ length (g_segemit g') = length (g_segemit g2) /\
         (forall k, (k < length (g_segen g2))%nat ->
           nth k (g_segen g') 0 = nth k (g_segen g2) 0 - edge_sum k (n_seg e) (map (fun p => m_nel p * mp_eV c p) (news e t))) /\
         (forall k, (k < length (g_segemit g2))%nat ->
           nth k (g_segemit g') 0 = nth k (g_segemit g2) 0 + edge_sum k (n_seg e) (map m_nel (news e t)))) /\
      g_tot g' = g_tot g2 /\ g_scrub g' = g_scrub g2 /\ g_line g' = g_line g2 /\ g_cos g' = g_cos g2 /\
      g_life g' = g_life g2 /\ g_seg g' = g_seg g2 /\ g_seglines g' = g_seglines g2).
    { destruct B7 as [[Z ->]|[_ B7]].
      - assert (NW : news e t = []).
        { apply length_zero_iff_nil. unfold news. rewrite (zip8_length _ _ _ _ _ _ _ _ _ NL). auto. }
        rewrite NW. unfold energy_of; cbn [map]. change (rsum []) with 0.
        assert (NS : k_seg c = true -> n_seg e = []).
        { intros KS. apply length_zero_iff_nil. destruct SZ as (_ & _ & _ & _ & _ & _ & _ & _ & _ & _ & Q). cbv zeta in Q.
          destruct Q as (_ & _ & _ & _ & _ & _ & Q & _). rewrite Q; auto. }
        split; [auto|]. split; [auto|]. split; [auto|]. split; [lra|]. split; [auto|]. split; [lra|]. split; [|repeat split].
        intros KS. rewrite (NS KS). unfold edge_sum. cbn. change (rsum []) with 0. repeat split; auto; intros; lra.
      - rewrite <- NN, <- NX, <- NVX, <- NVY, <- NVZ in B7.
        assert (C3 := count_emitted_last c _ _ _ _ _ _ _ _ _ B7).
        apply count_emitted_hist in B7; auto. tauto. }
    destruct V as (V1 & V2 & V3 & V4 & V5 & V6 & V7 & V8 & V9 & V10 & V11 & V12 & V13 & V14).
    rewrite V8, V9, V10, V11, V12, V13, V14, V1, V2, V3, V6, U3, U5, U6, U7, U8, U9, U10, U11, U12.
    assert (EA : energy_of c (reps e n t ++ news e t) = energy_of c (reps e n t) + energy_of c (news e t))
      by (unfold energy_of; rewrite map_app, rsum_app; auto).
    assert (CA : charge_of (reps e n t ++ news e t) = rsum (o_nel e) + rsum (n_nel e))
      by (unfold charge_of; rewrite map_app, rsum_app, RN, NN; auto).
    destruct C2 as (C2a & C2b & C2c). destruct C1 as [C1a C1b].
    do 7 (split; [solve [auto]|]).
    split; [rewrite V4, U1, T5, EA; lra|]. split; [congruence|]. split; [auto|]. split; [rewrite EA; lra|].
    split. { rewrite C2a, C1a. unfold charge_of. f_equal. apply (imps_fields hs ps F LH). }
    split. { rewrite C2b, CA, (eo_charge _ _ _ _ EO). auto. }
    split. { intros K HT. rewrite T11. apply (life_hist tl); auto. }
    intros KS. destruct (T10 KS) as (S1 & S2 & S3 & S4 & S5). destruct (U4 KS) as (S6 & S7 & S8 & S9).
    destruct (V7 KS) as (S10 & S11 & S12 & S13).
    destruct (imps_fields hs ps F LH) as (_ & _ & Fs & _).
    assert (OSG : o_seg e = map snd hs) by (rewrite (eo_seg _ _ _ _ EO); auto).
    assert (LRN : length (reps e n t) = n) by (unfold reps; apply (zip8_length _ _ _ _ _ _ _ _ _ RL)).
    assert (LNN : length (news e t) = length (n_nel e)) by (unfold news; apply (zip8_length _ _ _ _ _ _ _ _ _ NL)).
    assert (LNS : length (n_seg e) = length (n_nel e)).
    { destruct SZ as (_ & _ & _ & _ & _ & _ & _ & _ & _ & _ & Q). cbv zeta in Q. apply Q. auto. }
    exists (map snd hs), (o_seg e ++ n_seg e).
    assert (LO : length (o_seg e) = n) by (rewrite OSG, map_length; auto).
    split; [rewrite map_length; auto|]. split; [rewrite !app_length; lia|].
    split; [congruence|]. split; [congruence|]. split; [congruence|]. split; [auto|].
    rewrite T12 in *. split; [|split; [|split; [|auto]]].
    + intros k Hk. rewrite S13 by lia. rewrite S9 by auto. rewrite map_app, edge_sum_app by (rewrite map_length; lia). lra.
    + intros k Hk. rewrite S12 by lia. rewrite S8 by lia. rewrite S4 by auto. rewrite map_app, edge_sum_app by (rewrite map_length; lia). lra.
    + intros i Hi. rewrite app_length in Hi. destruct (Nat.lt_ge_cases i n) as [Li|Li].
      * exists i. split; auto. rewrite app_nth1 by lia. rewrite OSG. auto.
      * rewrite app_nth2 by lia. rewrite LO.
        destruct (eo_new _ _ _ _ EO) as (cs & _ & _ & NS). specialize (NS KS).
        assert (IN : In (nth (i - n) (n_seg e) 0%nat) (map snd hs)).
        { assert (I0 : In (nth (i - n) (n_seg e) 0%nat) (n_seg e)) by (apply nth_In; lia).
          rewrite NS in I0 at 2. apply in_map_iff in I0. destruct I0 as (p & <- & Hp). apply repeat_each_In in Hp.
          rewrite <- Fs. apply in_map. auto. }
        apply (In_nth _ _ 0%nat) in IN. destruct IN as (j & Hj & E). rewrite map_length in Hj.
        exists j. split; [lia|auto].
Qed.
End Call.
