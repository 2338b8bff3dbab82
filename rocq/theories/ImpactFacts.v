(** Facts about the wall handling. *)
From Coq Require Import Lra Lia Reals Psatz.
From Verif Require Import Num NumFacts Fort FortFacts MP SpecMP SpecFort MPFacts Push SpecPush PushFacts
  Geom SpecGeom GeomFacts Poly PolyFacts Sey SpecSey SeyFacts SeyFacts2 SeyFacts3 Impact SpecImpact.

(** * Columns of the live MPs *)
Lemma zip8_cols n a b c d e f g h : lens8 n a b c d e f g h ->
  let l := zip8 a b c d e f g h in
  map m_x l = a /\ map m_y l = b /\ map m_z l = c /\ map m_vx l = d /\ map m_vy l = e /\
  map m_vz l = f /\ map m_nel l = g /\ map m_t l = h.
Proof.
  revert a b c d e f g h; induction n as [|n IH]; intros a b c d e f g h
    (Ha & Hb & Hc & Hd & He & Hf & Hg & Hh); dl8; [repeat split; reflexivity|].
  cbn [zip8 map]. cbv zeta. destruct (IH a b c d e f g h) as (I1 & I2 & I3 & I4 & I5 & I6 & I7 & I8); [repeat split; auto|].
  cbv zeta in *. cbn [m_x m_y m_z m_vx m_vy m_vz m_nel m_t]. rewrite I1, I2, I3, I4, I5, I6, I7, I8. repeat split.
Qed.

Lemma live_cols s : wf s ->
  firstn (N_mp s) (x_mp s) = map m_x (live s) /\ firstn (N_mp s) (y_mp s) = map m_y (live s) /\
  firstn (N_mp s) (z_mp s) = map m_z (live s) /\ firstn (N_mp s) (vx_mp s) = map m_vx (live s) /\
  firstn (N_mp s) (vy_mp s) = map m_vy (live s) /\ firstn (N_mp s) (vz_mp s) = map m_vz (live s) /\
  firstn (N_mp s) (nel_mp s) = map m_nel (live s) /\ firstn (N_mp s) (tview s) = map m_t (live s).
Proof.
  intros W. destruct (zip8_cols _ _ _ _ _ _ _ _ _ (wf_lens8 s W)) as (A & B & C & D & E & F & G & H).
  cbv zeta in *. rewrite <- live_zip8 in * by auto. repeat split; symmetry; auto.
Qed.

Lemma map2_map {X} (f : R -> R -> bool) (a b : X -> R) l : map2 f (map a l) (map b l) = map (fun x => f (a x) (b x)) l.
Proof. induction l; cbn; f_equal; auto. Qed.

(** Mask over the live MPs. *)
Definition lmask (w : wall) (s : mpsys) : list bool := map (beyond_wall w) (live s).

Lemma impact_mask_live w s : wf s -> impact_mask w s = lmask w s ++ repeat false (capacity s - N_mp s).
Proof.
  intros W. unfold impact_mask. destruct (live_cols s W) as (X & Y & _). rewrite X, Y, map2_map. reflexivity.
Qed.

Lemma lmask_length w s : length (lmask w s) = N_mp s.
Proof. unfold lmask. rewrite map_length. apply live_length. Qed.

Lemma hitters_mask w s : hitters w s = mask_get (lmask w s) (live s).
Proof. unfold hitters, lmask. rewrite mask_get_filter. auto. Qed.

Lemma hitters_count w s : length (hitters w s) = count_true (lmask w s).
Proof. rewrite hitters_mask. unfold lmask. rewrite <- count_get. auto. Qed.

Lemma mask_live {A} w s (a : list A) : wf s -> length a = capacity s ->
  mask_get (impact_mask w s) a = mask_get (lmask w s) (firstn (N_mp s) a).
Proof.
  intros W L. rewrite impact_mask_live by auto. rewrite mask_pad; rewrite lmask_length; auto. destruct W; lia.
Qed.

Lemma count_impact w s : wf s -> count_true (impact_mask w s) = length (hitters w s).
Proof.
  intros W. rewrite impact_mask_live, count_true_app, count_true_repeat_false, hitters_count by auto. lia.
Qed.

Lemma put_pad {A} m k (a v : list A) n : length m = n -> (n <= length a)%nat -> length v = count_true m ->
  firstn n (mask_put (m ++ repeat false k) a v) = mask_put m (firstn n a) v.
Proof.
  intros Lm La Lv. rewrite <- (firstn_skipn n a) at 1. rewrite <- (app_nil_r v) at 1.
  rewrite mask_put_app by (rewrite ?firstn_length; lia). apply firstn_app_exact.
  rewrite mask_put_length, firstn_length. lia.
Qed.

Lemma zip8_put n m : forall a b c d e f g h a' b' c' d' e' f' g' h',
  length m = n -> lens8 n a b c d e f g h -> lens8 (count_true m) a' b' c' d' e' f' g' h' ->
  zip8 (mask_put m a a') (mask_put m b b') (mask_put m c c') (mask_put m d d')
       (mask_put m e e') (mask_put m f f') (mask_put m g g') (mask_put m h h')
  = mask_put m (zip8 a b c d e f g h) (zip8 a' b' c' d' e' f' g' h').
Proof.
  revert n. induction m as [|q m IH]; intros n a b c d e f g h a' b' c' d' e' f' g' h' Hm L L'; cbn in Hm; subst n.
  - destruct L as (Ha & Hb & Hc & Hd & He & Hf & Hg & Hh). dl8. reflexivity.
  - destruct L as (Ha & Hb & Hc & Hd & He & Hf & Hg & Hh). dl8.
    destruct q; cbn [count_true fold_right] in L'; fold (count_true m) in L'.
    + destruct L' as (Ha' & Hb' & Hc' & Hd' & He' & Hf' & Hg' & Hh'). dl8.
      cbn [mask_put zip8]. f_equal. apply (IH (length m)); repeat split; auto.
    + cbn [mask_put zip8]. f_equal. apply (IH (length m)); repeat split; auto. all: apply L'.
Qed.

(** * Impacts *)
Definition mk_track (o : R * R * R) (p : mp) : track :=
  mkTrack (fst (fst o)) (snd (fst o)) (snd o) (m_x p) (m_y p) (m_z p).

Lemma zip_tracks_ok : forall xo yo zo (l : list mp),
  length xo = length l -> length yo = length l -> length zo = length l ->
  zip_tracks xo yo zo (map m_x l) (map m_y l) (map m_z l)
  = map2 mk_track (combine (combine xo yo) zo) l.
Proof.
  induction xo as [|x xo IH]; intros [|y yo] [|z zo] [|p l] L1 L2 L3; try discriminate; cbn in *; auto.
  f_equal. apply IH; lia.
Qed.

Lemma mk_imp_ok c hi m q : mk_imp c hi (m_nel m) (m_vx m) (m_vy m) (m_vz m) = Some q -> impact_of c hi m q.
Proof.
  unfold mk_imp, impact_of. set (vv := m_vx m * m_vx m + m_vy m * m_vy m + m_vz m * m_vz m).
  destruct (Reqb (sqrt vv) 0) eqn:Z; [discriminate|]. apply Reqb_false in Z.
  intros H. injection H as <-. cbn [i_nel i_x i_y i_z i_vx i_vy i_vz i_nx i_ny i_seg i_E i_vn i_ct].
  assert (P : 0 <= vv) by (unfold vv; nra). assert (SP := sqrt_pos vv).
  do 10 (split; [reflexivity|]). split; [|split; [|split; [|split]]].
  - unfold mp_eV, kin_eV. fold vv. rewrite (Rmult_assoc _ (sqrt vv)), sqrt_sqrt by auto. reflexivity.
  - reflexivity.
  - apply Rabs_pos.
  - rewrite <- (Rabs_pos_eq (sqrt vv)) at 2 by auto. rewrite <- Rabs_mult. f_equal. field. auto.
  - destruct P as [P|P]; auto. rewrite <- P, sqrt_0 in Z. congruence.
Qed.

Lemma zip_imps_ok c : forall hs l ps, length hs = length l ->
  zip_imps c hs (map m_nel l) (map m_vx l) (map m_vy l) (map m_vz l) = Some ps ->
  Forall2 (fun hm q => impact_of c (fst hm) (snd hm) q) (combine hs l) ps.
Proof.
  induction hs as [|h hs IH]; intros [|m l] ps L H; try discriminate; cbn in H.
  - injection H as <-. constructor.
  - unfold bind in H. destruct (mk_imp _ _ _ _ _ _) as [q|] eqn:Q; [|discriminate].
    destruct (zip_imps _ _ _ _ _ _) as [qs|] eqn:QS; [|discriminate]. injection H as <-.
    cbn. constructor; [apply mk_imp_ok; auto|]. apply IH; auto.
Qed.

(** * The emission models *)
Lemma at_points w ps (e : emis) : o_x e = map i_x ps -> o_y e = map i_y ps -> forall i, (i < length ps)%nat ->
  let p := impat ps i in
  (nth i (o_x e) 0, nth i (o_y e) 0) = (i_x p, i_y p) \/ ((nth i (o_x e) 0, nth i (o_y e) 0) = (0, 0) /\ w_out w 0 0 = false).
Proof.
  intros -> -> i Hi. left. unfold impat. rewrite (nth_indep _ 0 (i_x imp0)), (nth_indep (map i_y ps) 0 (i_y imp0)) by (rewrite map_length; auto).
  rewrite !map_nth. auto.
Qed.

Lemma emit_ok c th fs sr k ps pr e k' : 0 < th -> length pr = length ps ->
  emit_surface c th fs sr k ps pr = Some (e, k') -> forall w, emission_ok w fs ps e.
Proof.
  intros Hth L H w. apply emit_shape in H; auto. destruct H as ((counts & SP & NS) & T & SZ).
  assert (SP' := SP). destruct SP' as (_ & _ & NX & NY & _ & OX & OY & _ & OS & _).
  constructor; auto.
  - destruct SZ as (L1 & _ & L2 & _). apply (split_total th ps counts); auto.
  - apply at_points; auto.
  - exists counts. auto.
Qed.

Lemma std_emitter_ok w m c sr : emitter_ok w (std_emitter m c sr).
Proof.
  intros th seg ps k e k' Hth H. unfold std_emitter, impacts_on_surface, bind in H.
  destruct (SEY_process m sr k ps) as [[pr k1]|] eqn:SP; [|discriminate].
  apply SEY_process_ok in SP. destruct SP as (L & _). eapply emit_ok; eauto.
Qed.

Lemma charging_emitter_ok w segs E0 gs c sr : emitter_ok w (charging_emitter segs E0 gs c sr).
Proof.
  intros th seg ps st e st' Hth H. unfold charging_emitter, impacts_on_surface_charging, bind in H.
  destruct (charging_process _ _ _ _ _ _ _ _) as [[[pr Qs] k1]|] eqn:CP; [|discriminate].
  apply charging_process_ok in CP. destruct CP as (L & _).
  destruct (emit_surface _ _ _ _ _ _ _) as [[e1 k2]|] eqn:E; [|discriminate]. injection H as <- <-.
  eapply emit_ok; eauto.
Qed.

Lemma absorber_ok w : emitter_ok w absorber.
Proof.
  intros th seg ps st e st' Hth H. unfold absorber in H. injection H as <- <-.
  constructor; cbn [absorb_surface o_nel n_nel o_tot o_x o_y o_seg n_x n_y]; auto.
  - unfold emis_sized. cbn. rewrite !map_length. repeat split; auto.
  - unfold rsum at 2. cbn. lra.
  - apply (at_points w ps (absorb_surface ps)); auto.
  - exists []. destruct ps; repeat split; auto.
Qed.

Lemma absorber_charge ps : rsum (o_tot (absorb_surface ps)) = 0.
Proof. cbn. induction ps; cbn; rewrite ?rsum_cons; [reflexivity|]. rewrite IHps. lra. Qed.

Lemma absorber_absorbs ps : absorbed ps (absorb_surface ps).
Proof.
  assert (F : forall {B} (f : imp -> B) (P : imp -> B -> Prop), (forall p, P p (f p)) -> Forall2 P ps (map f ps)).
  { intros B f P H. induction ps; constructor; auto. }
  unfold absorbed. cbn. repeat (split; [apply F; intros; first [reflexivity|ring]|]). repeat split.
Qed.

(** * The walls *)
Lemma ell_wall_ok e resc : ellip_ok e -> wall_ok (ell_wall e resc).
Proof.
  intros He. split.
  { intros ks hs H. cbn [ell_wall w_hit] in H. unfold bind in H. destruct (ell_impact_inside e resc ks He) as (h & E & F).
    rewrite E in H. injection H as <-. rewrite map_length. symmetry. eapply Forall2_length; eauto. }
  intros ks _. destruct (ell_impact_inside e resc ks He) as (hs & H & F).
  exists (map (fun h => (h, 0%nat)) hs). cbn [ell_wall w_hit w_out]. rewrite H. split; [reflexivity|].
  clear H. induction F as [|k h ks hs (A & _) F IH]; cbn; constructor; auto. cbn.
  apply ell_outside_spec; auto.
Qed.

Lemma poly_wall_ok p resc : 0 < resc < 1 -> wall_ok (poly_wall p resc).
Proof.
  intros Hr. split.
  { intros ks hs H. cbn [poly_wall w_hit] in H. unfold poly_impact in H. cbv zeta in H.
    destruct (existsb _ _); [discriminate|]. injection H as <-. apply map_length. }
  intros ks Hk. destruct (poly_impact_inside p resc ks Hr Hk) as (hs & H & F).
  exists hs. split; [exact H|]. clear H Hk. induction F as [|k h ks hs (A & _) F IH]; constructor; auto.
Qed.
