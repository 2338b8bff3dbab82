(** What one call of the wall handling does to the macroparticles. *)
From Coq Require Import Lra Lia Reals Psatz.
From Verif Require Import Num NumFacts Fort FortFacts MP SpecMP SpecFort MPFacts Push SpecPush PushFacts
  Geom Poly Sey SpecSey SeyFacts SeyFacts2 SeyFacts3 Impact SpecImpact ImpactFacts.

(** Last impact time given to emitted MPs. *)
Definition tval (s : mpsys) (time : R) : R := if flag_lifetime_hist s then time else -1.
Definition reps (e : emis) (n : nat) (t : R) : list mp :=
  zip8 (o_x e) (o_y e) (o_z e) (o_vx e) (o_vy e) (o_vz e) (o_nel e) (repeat t n).
Definition news (e : emis) (t : R) : list mp :=
  zip8 (n_x e) (n_y e) (n_z e) (n_vx e) (n_vy e) (n_vz e) (n_nel e) (repeat t (length (n_nel e))).

Lemma reps_lens e n seg t : emis_sized n seg e ->
  lens8 n (o_x e) (o_y e) (o_z e) (o_vx e) (o_vy e) (o_vz e) (o_nel e) (repeat t n).
Proof.
  intros (A & B & C & D & E & F & G & H & I & J & _). repeat split; auto. apply repeat_length.
Qed.
Lemma news_lens e n seg t : emis_sized n seg e ->
  lens8 (length (n_nel e)) (n_x e) (n_y e) (n_z e) (n_vx e) (n_vy e) (n_vz e) (n_nel e) (repeat t (length (n_nel e))).
Proof.
  intros (A & B & C & D & E & F & G & H & I & J & K). cbv zeta in K.
  destruct K as (K1 & K2 & K3 & K4 & K5 & K6 & _). repeat split; auto. apply repeat_length.
Qed.

Lemma fill_repeat {A} m (a : A) n : mask_fill m (repeat a n) a = repeat a n.
Proof. revert n. induction m as [|b m IH]; intros [|n]; cbn; auto. rewrite IH. destruct b; auto. Qed.

Lemma firstn_repeat {A} (c : A) : forall n k, (n <= k)%nat -> firstn n (repeat c k) = repeat c n.
Proof. induction n; intros [|k] H; cbn; auto; try lia. f_equal. apply IHn. lia. Qed.

(** [life_part] on the last impact times. *)
Lemma life_part_t c w s time h lh tl : wf s -> k_life c = flag_lifetime_hist s ->
  life_part c time (impact_mask w s) (mask_get (impact_mask w s) (nel_mp s)) (t_last_impact s) h = Some (lh, tl) ->
  length tl = capacity s /\
  firstn (N_mp s) (if flag_lifetime_hist s then tl else repeat (-1) (capacity s))
  = mask_put (lmask w s) (firstn (N_mp s) (tview s)) (repeat (tval s time) (length (hitters w s))).
Proof.
  intros W KL H. unfold life_part in H. rewrite KL in H. unfold tview, tval.
  assert (LM : length (impact_mask w s) = capacity s).
  { rewrite impact_mask_live, app_length, lmask_length, repeat_length by auto. destruct W; lia. }
  destruct (flag_lifetime_hist s) eqn:F.
  - unfold bind in H. destruct (compute_hist _ _ _ _) as [r|]; [|discriminate]. injection H as <- <-.
    assert (LT := wf_t s W). split; [rewrite mask_fill_length; auto|].
    rewrite <- (mask_put_repeat _ (t_last_impact s)) by lia.
    rewrite impact_mask_live at 1 by auto. rewrite count_impact by auto.
    rewrite put_pad; rewrite ?repeat_length, ?lmask_length; auto. { destruct W; lia. } apply hitters_count.
  - injection H as <- <-. split; [apply wf_t; auto|]. fold (capacity s). rewrite firstn_repeat by (destruct W; auto).
    rewrite hitters_count, mask_put_repeat, fill_repeat; auto. rewrite lmask_length, repeat_length; auto.
Qed.

(** Sum of the charge after replacement. *)
Lemma put_charge m l v : length m = length l -> length v = count_true m ->
  rsum (map m_nel (mask_put m l v)) = rsum (map m_nel l) - rsum (map m_nel (mask_get m l)) + rsum (map m_nel v).
Proof.
  intros L1 L2. rewrite <- mask_put_map.
  rewrite (mask_get_split_rsum m (mask_put m (map m_nel l) (map m_nel v))) by (rewrite mask_put_length, map_length; auto).
  rewrite mask_put_get_same, mask_put_get_neg by (rewrite ?map_length; auto).
  rewrite (mask_get_split_rsum m (map m_nel l)) by (rewrite map_length; auto).
  rewrite !mask_get_map. lra.
Qed.

Lemma replace_ok c w s e time h lh tl seg s' : wf s -> k_life c = flag_lifetime_hist s ->
  life_part c time (impact_mask w s) (mask_get (impact_mask w s) (nel_mp s)) (t_last_impact s) h = Some (lh, tl) ->
  emis_sized (length (hitters w s)) seg e ->
  replace_MPs s (impact_mask w s) e tl = Some s' ->
  wf s' /\ same_cfg s s' /\ N_mp s' = N_mp s /\
  nel_mp_ref s' = nel_mp_ref s /\ nel_mp_split s' = nel_mp_split s /\ nel_mp_cl_th s' = nel_mp_cl_th s /\
  (tail_zero s -> tail_zero s') /\
  live s' = mask_put (lmask w s) (live s) (reps e (length (hitters w s)) (tval s time)).
Proof.
  intros W KL LP SZ H. unfold replace_MPs in H.
  assert (RL := reps_lens e _ seg (tval s time) SZ).
  destruct (life_part_t c w s time h lh tl W KL LP) as [LTL TV].
  destruct SZ as (S1 & S2 & S3 & S4 & S5 & S6 & S7 & S8 & S9 & S10 & _).
  assert (CI := count_impact w s W).
  rewrite !mask_set_exact in H by congruence. cbn [bind] in H. injection H as <-.
  assert (WC := W). destruct WC as [Wy Wz Wvx Wvy Wvz Wn Wt WN].
  assert (W' : wf (mkSys (mask_put (impact_mask w s) (x_mp s) (o_x e)) (mask_put (impact_mask w s) (y_mp s) (o_y e))
     (mask_put (impact_mask w s) (z_mp s) (o_z e)) (mask_put (impact_mask w s) (vx_mp s) (o_vx e))
     (mask_put (impact_mask w s) (vy_mp s) (o_vy e)) (mask_put (impact_mask w s) (vz_mp s) (o_vz e))
     (mask_put (impact_mask w s) (nel_mp s) (o_nel e)) tl (N_mp s) (flag_lifetime_hist s)
     (nel_mp_ref s) (nel_mp_split s) (nel_mp_cl_th s) (nel_mp_ref_0 s) (fact_split s) (fact_clean s))).
  { constructor; unfold capacity; cbn; rewrite ?mask_put_length; auto. }
  split; [exact W'|]. split.
  { unfold same_cfg, capacity; cbn. rewrite mask_put_length. repeat split; auto. }
  do 4 (split; [reflexivity|]). split.
  - intros TZ i Hi. unfold capacity in Hi. cbn in Hi. rewrite mask_put_length in Hi. cbn.
    transitivity (nth i (nel_mp s) 0); [|apply TZ; unfold capacity; lia].
    assert (NE := mask_put_nth_false (impact_mask w s) (nel_mp s) (o_nel e) i).
    assert (M : nth i (impact_mask w s) false = false).
    { rewrite impact_mask_live by auto. rewrite app_nth2 by (rewrite lmask_length; lia).
      apply nth_repeat. }
    specialize (NE M). unfold capacity in *.
    rewrite (nth_error_nth' _ 0), (nth_error_nth' (nel_mp s) 0) in NE by (rewrite ?mask_put_length; lia). congruence.
  - rewrite live_zip8 by exact W'. cbn [N_mp x_mp y_mp z_mp vx_mp vy_mp vz_mp nel_mp].
    unfold tview. cbn [flag_lifetime_hist x_mp t_last_impact]. rewrite mask_put_length. fold (capacity s).
    rewrite TV. rewrite impact_mask_live by auto.
    assert (LM := lmask_length w s). assert (HC := hitters_count w s).
    rewrite !put_pad; try (unfold capacity in *; congruence); try (unfold capacity in *; lia).
    rewrite (zip8_put (N_mp s)); auto.
    + rewrite live_zip8 by auto. reflexivity.
    + apply wf_lens8. auto.
    + rewrite <- HC. exact RL.
Qed.

(** Scalar last impact time for new MPs. *)
Lemma add_scalar n b time s : wf s -> (N_mp s + n <= capacity s)%nat -> (0 < n)%nat ->
  add_new_MPs n (mkBatch (b_nel b) (b_x b) (b_y b) (b_z b) (b_vx b) (b_vy b) (b_vz b) [time]) s
  = add_new_MPs n (mkBatch (b_nel b) (b_x b) (b_y b) (b_z b) (b_vx b) (b_vy b) (b_vz b) (repeat time n)) s.
Proof.
  intros W Hf Hn. unfold add_new_MPs. cbn [b_nel b_x b_y b_z b_vx b_vy b_vz b_t].
  destruct (flag_lifetime_hist s); [|reflexivity].
  assert (E : slice_set (t_last_impact s) (N_mp s) (N_mp s + n) [time]
            = slice_set (t_last_impact s) (N_mp s) (N_mp s + n) (repeat time n)).
  { assert (LT := wf_t s W). unfold slice_set.
    assert (L : length (slice_get (t_last_impact s) (N_mp s) (N_mp s + n)) = n).
    { rewrite slice_get_length. lia. }
    rewrite L, repeat_length, Nat.eqb_refl. unfold slice_fill. rewrite L.
    destruct (Nat.eqb_spec (length [time]) n) as [E|E]; [|reflexivity]. cbn in E. subst n. reflexivity. }
  rewrite E. reflexivity.
Qed.

Definition add_emitted (e : emis) (time : R) (s : mpsys) : option mpsys :=
  add_new_MPs (length (n_nel e)) (mkBatch (n_nel e) (n_x e) (n_y e) (n_z e) (n_vx e) (n_vy e) (n_vz e) [time]) s.

(** When it does not fit, the call fails, or leaves more MPs than slots. *)
Lemma add_N n b s s' : add_new_MPs n b s = Some s' -> N_mp s' = (N_mp s + n)%nat.
Proof.
  unfold add_new_MPs, bind. intros H.
  repeat match type of H with match ?x with _ => _ end = _ => destruct x; [|discriminate] end.
  injection H as <-. reflexivity.
Qed.

Lemma add_emitted_ok e time s s' m seg : wf s -> emis_sized m seg e -> (0 < length (n_nel e))%nat ->
  add_emitted e time s = Some s' -> (N_mp s' <= capacity s)%nat ->
  live s' = live s ++ news e (tval s time) /\ wf s' /\ (tail_zero s -> tail_zero s') /\ same_cfg s s' /\
  nel_mp_ref s' = nel_mp_ref s /\ nel_mp_split s' = nel_mp_split s /\ nel_mp_cl_th s' = nel_mp_cl_th s.
Proof.
  intros W SZ Hn H HN. unfold add_emitted in H. rewrite (add_N _ _ _ _ H) in HN.
  set (b := mkBatch (n_nel e) (n_x e) (n_y e) (n_z e) (n_vx e) (n_vy e) (n_vz e) [time]) in *.
  assert (H' := H). change b with (mkBatch (b_nel b) (b_x b) (b_y b) (b_z b) (b_vx b) (b_vy b) (b_vz b) [time]) in H'.
  rewrite add_scalar in H' by auto. cbn [b_nel b_x b_y b_z b_vx b_vy b_vz] in H'. unfold b in H'. cbn [b_nel b_x b_y b_z b_vx b_vy b_vz] in H'.
  assert (L := news_lens e m seg (tval s time) SZ). destruct L as (L1 & L2 & L3 & L4 & L5 & L6 & L7 & L8).
  set (b' := mkBatch (n_nel e) (n_x e) (n_y e) (n_z e) (n_vx e) (n_vy e) (n_vz e) (repeat time (length (n_nel e)))) in *.
  assert (BO : batch_ok (length (n_nel e)) b').
  { unfold batch_ok, b'. cbn. rewrite repeat_length. repeat split; auto. }
  destruct (add_new_spec _ b' s W BO HN) as (s2 & E & LV & CH & W2 & TZ & SC & R1 & R2 & R3).
  rewrite E in H'. injection H' as <-. split; [|repeat (split; [auto|]); auto].
  rewrite LV, batch_zip8 by auto. f_equal. unfold news, b'. cbn [b_x b_y b_z b_vx b_vy b_vz b_nel b_t].
  f_equal. unfold tval. destruct (flag_lifetime_hist s); auto.
Qed.

(** The pieces of one call. *)
Record wall_step {S : Type} (w : wall) (c : icfg) (em : R -> bool -> list imp -> S -> option (emis * S)) (time : R)
  (old : list R * list R * list R) (g : iman) (s : mpsys) (st : S) (g' : iman) (s' : mpsys) (st' : S)
  (hs : list (hit * nat)) (ps : list imp) (e : emis) (lh : list R) (g1 g2 : iman) : Prop := mkWS {
  ws_hits : w_hit w (map2 mk_track (combine (combine (mask_get (lmask w s) (fst (fst old)))
       (mask_get (lmask w s) (snd (fst old)))) (mask_get (lmask w s) (snd old))) (hitters w s)) = Some hs;
  ws_life : exists tl, life_part c time (impact_mask w s) (mask_get (impact_mask w s) (nel_mp s)) (t_last_impact s) (g_life g) = Some (lh, tl);
  ws_imps : length hs = length (hitters w s) ->
     length ps = length (hitters w s) /\
     Forall2 (fun hm q => impact_of c (fst hm) (snd hm) q) (combine hs (hitters w s)) ps;
  ws_count : count_impacts c (set_life (zero_last g) lh) ps = Some g1;
  ws_emit : em (nel_mp_split s) (k_seg c) ps st = Some (e, st');
  ws_rep : count_emitted c (set_last g1 (l_nimp g1) (rsum (o_tot e))) (o_nel e) (o_x e) (o_vx e) (o_vy e) (o_vz e) (o_seg e) 0 = Some g2;
  ws_new : (length (n_nel e) = 0%nat /\ g' = g2) \/
     (length (n_nel e) <> 0%nat /\ count_emitted c g2 (n_nel e) (n_x e) (n_vx e) (n_vy e) (n_vz e) (n_seg e) (l_eemit g2) = Some g');
  ws_live : emis_sized (length (hitters w s)) (k_seg c) e -> (N_mp s' <= capacity s)%nat ->
     live s' = mask_put (lmask w s) (live s) (reps e (length (hitters w s)) (tval s time)) ++ news e (tval s time) /\
     wf s' /\ (tail_zero s -> tail_zero s') /\ same_cfg s s' /\
     nel_mp_ref s' = nel_mp_ref s /\ nel_mp_split s' = nel_mp_split s /\ nel_mp_cl_th s' = nel_mp_cl_th s }.

Lemma mask_get_firstn_old {A} w s (a : list A) : wf s -> length a = N_mp s ->
  mask_get (firstn (N_mp s) (impact_mask w s)) a = mask_get (lmask w s) a.
Proof. intros W L. rewrite impact_mask_live, firstn_app_exact by (auto; apply lmask_length). auto. Qed.

Lemma backtrack_pieces {S : Type} w c (em : R -> bool -> list imp -> S -> option (emis * S)) time old g s st g' s' st' :
  wf s -> k_life c = flag_lifetime_hist s -> old_sized (N_mp s) old ->
  backtrack_and_second_emiss w c em time old g s st = Some (g', s', st') ->
  (hitters w s = [] /\ g' = zero_last g /\ s' = s /\ st' = st) \/
  (hitters w s <> [] /\ exists hs ps e lh g1 g2, wall_step w c em time old g s st g' s' st' hs ps e lh g1 g2).
Proof.
  intros W KL OS H. unfold backtrack_and_second_emiss in H. destruct old as [[xo yo] zo].
  destruct OS as (O1 & O2 & O3). rewrite count_impact in H by auto.
  destruct (Nat.eqb_spec (N_mp s) 0) as [N0|N0].
  { left. injection H as <- <- <-. repeat split; auto. unfold hitters.
    assert (L := live_length s). rewrite N0 in L. destruct (live s); [auto|discriminate]. }
  destruct (Nat.eqb_spec (length (hitters w s)) 0) as [H0|H0].
  { left. injection H as <- <- <-. repeat split; auto. apply length_zero_iff_nil; auto. }
  right. split; [intros E; apply H0; rewrite E; auto|].
  assert (WC := W). destruct WC as [Wy Wz Wvx Wvy Wvz Wn Wt WN].
  destruct (live_cols s W) as (CX & CY & CZ & CVX & CVY & CVZ & CN & CT).
  assert (CO : forall (a : list R) f, length a = capacity s -> firstn (N_mp s) a = map f (live s) ->
     mask_get (impact_mask w s) a = map f (hitters w s)).
  { intros a f La Fa. rewrite mask_live, Fa, mask_get_map, hitters_mask by auto. auto. }
  rewrite !mask_get_firstn_old in H by auto.
  assert (LMO : forall a : list R, length a = N_mp s -> length (mask_get (lmask w s) a) = length (hitters w s)).
  { intros a La. rewrite mask_get_length, hitters_count by (rewrite lmask_length; auto). auto. }
  rewrite (CO (x_mp s) m_x), (CO (y_mp s) m_y), (CO (z_mp s) m_z) in H by auto.
  rewrite zip_tracks_ok in H by (apply LMO; auto).
  unfold bind at 1 in H. destruct (w_hit w _) as [hs|] eqn:WH; [|discriminate].
  unfold bind at 1 in H. destruct (life_part _ _ _ _ _ _) as [[lh tl]|] eqn:LP; [|discriminate].
  rewrite (CO (vx_mp s) m_vx), (CO (vy_mp s) m_vy), (CO (vz_mp s) m_vz), (CO (nel_mp s) m_nel) in H by auto.
  unfold bind at 1 in H. destruct (zip_imps _ _ _ _ _ _) as [ps|] eqn:ZI; [|discriminate].
  unfold bind at 1 in H. destruct (count_impacts _ _ _) as [g1|] eqn:CI; [|discriminate].
  unfold bind at 1 in H. destruct (em _ _ _ _) as [[e st1]|] eqn:EM; [|discriminate]. cbv beta iota zeta in H.
  unfold bind at 1 in H. destruct (replace_MPs _ _ _ _) as [s2|] eqn:RP; [|discriminate].
  unfold bind at 1 in H. destruct (count_emitted _ _ _ _ _ _ _ _ _) as [g2|] eqn:CE; [|discriminate].
  exists hs, ps, e, lh, g1, g2.
  assert (ZO := fun L => zip_imps_ok c hs (hitters w s) ps L ZI).
  assert (ZL : length hs = length (hitters w s) -> length ps = length (hitters w s)).
  { intros L. specialize (ZO L). apply Forall2_length in ZO. rewrite combine_length in ZO. lia. }
  assert (RO := fun SZ => replace_ok c w s e time _ lh tl (k_seg c) s2 W KL LP SZ RP).
  destruct (Nat.eqb_spec (length (n_nel e)) 0) as [E0|E0].
  - injection H as <- <- <-. constructor; cbn [fst snd]; eauto.
    intros SZ HN. destruct (RO SZ) as (W2 & SC & N2 & R1 & R2 & R3 & TZ & LV).
    repeat (split; [auto|]); auto. rewrite LV. unfold news. apply length_zero_iff_nil in E0. rewrite E0. cbn.
    destruct (n_x e), (n_y e), (n_z e), (n_vx e), (n_vy e), (n_vz e); cbn; rewrite ?app_nil_r; auto.
  - unfold bind at 1 in H. match type of H with match ?x with _ => _ end = _ => destruct x as [s3|] eqn:AD; [|discriminate] end.
    unfold bind at 1 in H. destruct (count_emitted _ g2 _ _ _ _ _ _ _) as [g3|] eqn:CE2; [|discriminate].
    injection H as <- <- <-. constructor; cbn [fst snd]; eauto.
    intros SZ HN. destruct (RO SZ) as (W2 & SC & N2 & R1 & R2 & R3 & TZ & LV).
    assert (SC' := SC). destruct SC' as (C1 & C2 & C3 & C4 & C5).
    destruct (add_emitted_ok e time s2 s3 _ (k_seg c) W2 SZ ltac:(lia) AD ltac:(lia)) as (LV3 & W3 & TZ3 & SC3 & Q1 & Q2 & Q3).
    destruct SC3 as (D1 & D2 & D3 & D4 & D5).
    split; [|split; [auto|split; [auto|split; [|repeat split; congruence]]]].
    + rewrite LV3, LV. unfold tval. rewrite C2. auto.
    + unfold same_cfg. repeat split; congruence.
Qed.
