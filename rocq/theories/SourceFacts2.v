(** Lemmas about photoemission. *)
From Coq Require Import Lra Lia.
From Verif Require Import Num NumFacts MP SpecMP MPFacts RegenFacts Geom SpecGeom Poly Sey SpecSey SeyFacts SeyFacts2 Impact SpecImpact Source SpecSource SourceFacts.

(** * Energies *)
Lemma cauchy_nonneg u loc scale : 0 <= u < 1 -> 0 < scale ->
  let m := cauchy_cdf 0 loc scale in 0 <= cauchy_ppf (u * (1 - m) + m) loc scale.
Proof.
  intros Hu Hs m. unfold cauchy_ppf.
  pose proof PI_RGT_0 as P. pose proof (atan_bound ((0 - loc) / scale)) as [A1 A2].
  set (a := atan ((0 - loc) / scale)) in *.
  assert (Em : m = 1/2 + a / PI) by reflexivity.
  assert (Ea : a = PI * (m - 1/2)) by (rewrite Em; field; lra).
  assert (M : m < 1).
  { rewrite Em. assert (a / PI < 1/2); [|lra]. apply Rmult_lt_reg_r with PI; auto. unfold Rdiv. rewrite Rmult_assoc, Rinv_l by lra. lra. }
  set (z := PI * (u * (1 - m) + m - 1/2)).
  assert (Z1 : a <= z).
  { rewrite Ea. unfold z. apply Rmult_le_compat_l; [lra|]. assert (0 <= u * (1 - m)) by (apply Rmult_le_pos; lra). lra. }
  assert (Z2 : z < PI / 2).
  { unfold z. replace (PI / 2) with (PI * (1/2)) by lra. apply Rmult_lt_compat_l; auto.
    assert (u * (1 - m) < 1 * (1 - m)) by (apply Rmult_lt_compat_r; lra). lra. }
  assert (T : tan a <= tan z).
  { destruct Z1 as [Z1| <-]; [left; apply tan_increasing; lra|lra]. }
  unfold a in T. rewrite tan_atan in T.
  assert (scale * ((0 - loc) / scale) <= scale * tan z) by (apply Rmult_le_compat_l; lra).
  replace (scale * ((0 - loc) / scale)) with (- loc) in H by (field; lra). lra.
Qed.

Lemma redraw_neg_ok fuel sig mx sr : forall k en r k',
  redraw_neg fuel sig mx sr k en = Some (r, k') -> length r = length en /\ Forall (fun E => 0 <= E) r.
Proof.
  induction fuel as [|fuel IH]; intros k en r k' E; cbn [redraw_neg] in E.
  - destruct (Nat.eqb_spec (count_true (map (fun e => Rltb e 0) en)) 0) as [Z|Z]; [|discriminate].
    injection E as <- <-. split; auto. apply count_true_0 in Z. rewrite Forall_map in Z.
    eapply Forall_impl; [|exact Z]. intros a Ha. apply Rltb_false in Ha. auto.
  - destruct (Nat.eqb_spec (count_true (map (fun e => Rltb e 0) en)) 0) as [Z|Z].
    + injection E as <- <-. split; auto. apply count_true_0 in Z. rewrite Forall_map in Z.
      eapply Forall_impl; [|exact Z]. intros a Ha. apply Rltb_false in Ha. auto.
    + apply IH in E. rewrite mask_put_length in E. auto.
Qed.

Lemma get_energy_ok fuel d sig mx sr k n en k' : src_ok sr -> 0 < sig ->
  get_energy fuel d sig mx sr k n = Some (en, k') ->
  length en = n /\ Forall (energy_range d sig mx) en.
Proof.
  intros [HU HL] Hs E. destruct d; cbn [get_energy] in E.
  - injection E as <- <-. split; [apply draw_length|]. apply draw_Forall. auto.
  - apply redraw_neg_ok in E. rewrite map_length, draw_length in E. auto.
  - injection E as <- <-. split; [rewrite map_length, draw_length; auto|]. rewrite Forall_map. apply draw_Forall.
    intros j. specialize (HU j). cbn. nra.
  - injection E as <- <-. split; [apply repeat_length|]. apply Forall_forall. intros x Hx. apply repeat_spec in Hx.
    subst. cbn. lra.
  - injection E as <- <-. split; [rewrite map_length, draw_length; auto|]. rewrite Forall_map. apply draw_Forall.
    intros j. cbn [energy_range]. apply cauchy_nonneg; auto.
Qed.

(** * Velocities *)
Definition vel_ok (qe mass : R) (q : R * (R * R)) (v : R * R * R) : Prop :=
  let '(E, (nx, ny)) := q in let '(vx, vy, vz) := v in
  0 <= E -> nx * nx + ny * ny = 1 -> kin_eV qe mass vx vy vz = E /\ 0 <= normal_comp nx ny vx vy.

Lemma angle_dist_ok d qe mass sr k n en nx ny : src_ok sr -> 0 < qe -> 0 < mass ->
  length en = n -> length nx = n -> length ny = n ->
  Forall2 (vel_ok qe mass) (combine en (combine nx ny)) (fst (angle_dist_func d qe mass sr k n en nx ny)).
Proof.
  intros [HU _] Hq Hm L1 L2 L3. unfold angle_dist_func.
  assert (SQ : forall u, 0 <= u < 1 -> 0 <= sqrt u <= 1).
  { intros u Hu. split; [apply sqrt_pos|]. rewrite <- sqrt_1. apply sqrt_le_1_alt. lra. }
  assert (L : length (combine en (combine nx ny)) = n) by (rewrite !combine_length; lia).
  set (l := combine en (combine nx ny)) in *. clearbody l. clear L1 L2 L3.
  assert (GEN : forall st phi : list R, length st = n -> length phi = n -> Forall (fun s => 0 <= s <= 1) st ->
    Forall2 (vel_ok qe mass) l
     (map2 (fun '(e, (a, b)) '(s, p) => vel_angle qe mass e a b s p) l (combine st phi))).
  { clear -L Hq Hm. revert n L. induction l as [|[e [a b]] l IH]; intros n L st phi L1 L2 F; [constructor|].
    cbn in L. destruct st as [|s st]; cbn in L1; [lia|]. destruct phi as [|p phi]; cbn in L2; [lia|].
    inversion F; subst. cbn. constructor.
    - unfold vel_ok. pose proof (vel_angle_ok qe mass e a b s p Hq Hm) as K.
      destruct (vel_angle qe mass e a b s p) as [[vx vy] vz]. intros; apply K; auto.
    - apply (IH (length l)); auto; lia. }
  destruct d; cbn [fst].
  - apply GEN; [rewrite map_length; apply draw_length|rewrite map_length; apply draw_length|].
    rewrite Forall_map. apply draw_Forall. intros. apply SQ. apply HU.
  - apply GEN; [apply draw_length|rewrite map_length; apply draw_length|].
    apply draw_Forall. intros j. specialize (HU j). lra.
  - clear GEN L. induction l as [|[e [a b]] l IH]; cbn; [constructor|]. constructor; auto.
    unfold vel_ok. pose proof (vel_normal_ok qe mass e a b Hq Hm) as K.
    destruct (vel_normal qe mass e a b) as [[vx vy] vz]. intros; apply K; auto.
Qed.

(** * The new macroparticles *)
Definition zip4 (a b c d : list R) : list (R * R * R * R) :=
  map2 (fun '(x, y) '(z, w) => (x, y, z, w)) (combine a b) (combine c d).

Lemma nth_map_v {X} (f : X -> R) l i x : nth_error l i = Some x -> nth i (map f l) 0 = f x.
Proof. intros H. apply (map_nth_error f) in H. apply nth_error_nth with (d := 0) in H. auto. Qed.

Lemma nth_zip4 a b c d i : (i < length a)%nat -> length b = length a -> length c = length a -> length d = length a ->
  nth_error (zip4 a b c d) i = Some (nth i a 0, nth i b 0, nth i c 0, nth i d 0).
Proof.
  unfold zip4. revert a b c d. induction i; intros [|x a] [|y b] [|z c] [|w d] H L1 L2 L3; cbn in *; try lia; auto.
  apply IHi; lia.
Qed.

Lemma Forall2_idx {A B} (P : A -> B -> Prop) (a : list A) (b : list B) : length a = length b ->
  (forall i x y, nth_error a i = Some x -> nth_error b i = Some y -> P x y) -> Forall2 P a b.
Proof.
  revert b; induction a as [|x a IH]; intros [|y b] L H; cbn in *; try lia; constructor.
  - apply (H 0%nat); auto.
  - apply IH; [lia|]. intros i. apply (H (S i)).
Qed.

Lemma Forall2_at {A B} (P : A -> B -> Prop) (a : list A) (b : list B) : Forall2 P a b ->
  forall i x y, nth_error a i = Some x -> nth_error b i = Some y -> P x y.
Proof.
  induction 1; intros [|i] u v Ha Hb; cbn in *; try discriminate; [injection Ha as <-; injection Hb as <-; auto|eauto].
Qed.

Lemma nth_combine3 (a : list R) b c i : (i < length a)%nat -> length b = length a -> length c = length a ->
  nth_error (combine a (combine b c)) i = Some (nth i a 0, (nth i b 0, nth i c 0)).
Proof.
  revert a b c. induction i; intros [|x a] [|y b] [|z c] H L1 L2; cbn in *; try lia; auto. apply IHi; lia.
Qed.

Lemma photo_set_ok out fuel kc ph mass sr k n xs ys nx ny s s' k' :
  wf s -> (N_mp s < capacity s)%nat -> src_ok sr -> 0 < q_e kc -> 0 < mass -> 0 < ph_sig ph ->
  length xs = n -> length ys = n -> length nx = n -> length ny = n ->
  Forall2 (fun x y => out x y = false) xs ys ->
  photo_set fuel kc ph mass sr k n xs ys nx ny s = Some (s', k') ->
  exists new, generated out s s' new /\ never_hit new /\ length new = n /\
    Forall2 (photo_mp kc ph mass) (zip4 xs ys nx ny) new /\
    charge s' = charge s + INR n * nel_mp_ref s.
Proof.
  intros W F HS Hq Hm Hg L1 L2 L3 L4 IN E. unfold photo_set in E.
  destruct (get_energy _ _ _ _ _ _ _) as [[en k1]|] eqn:EN; [|discriminate]. cbn [bind] in E.
  destruct (get_energy_ok _ _ _ _ _ _ _ _ _ HS Hg EN) as [LE RE].
  pose proof (angle_dist_ok (ph_angle ph) (q_e kc) mass sr k1 n en nx ny HS Hq Hm LE L3 L4) as V.
  destruct (angle_dist_func (ph_angle ph) (q_e kc) mass sr k1 n en nx ny) as [v k2]. cbn [fst] in V.
  assert (LV : length v = n).
  { rewrite <- (Forall2_length V), !combine_length. lia. }
  destruct (add_new_MPs n _ s) as [s1|] eqn:AD; [|discriminate]. cbn [bind] in E. injection E as <- <-.
  assert (Fit : (N_mp s + n <= capacity s)%nat) by (apply (add_fits _ _ _ _ W F) in AD; auto).
  rewrite add_new_scalars in AD by auto.
  assert (M : forall f : R * R * R -> R, length (map f v) = n) by (intros; rewrite map_length; auto).
  destruct (full_batch_added out _ _ _ _ _ _ _ _ W F L1 L2 (M _) (M _) (M _) IN Fit AD) as (new & G & NH & LN & EQ & CH).
  exists new. split; [auto|]. split; [auto|]. split; [auto|]. split; [|auto].
  apply Forall2_idx.
  - rewrite LN. unfold zip4. rewrite map2_length, !combine_length. lia.
  - intros i [[[x y] a] b] p Hz Hp.
    assert (Hi : (i < n)%nat) by (rewrite <- LN; apply nth_error_Some; congruence).
    rewrite nth_zip4 in Hz by lia. injection Hz as <- <- <- <-.
    rewrite EQ, nth_error_map in Hp.
    replace (nth_error (seq 0 n) i) with (Some i) in Hp
      by (symmetry; rewrite (nth_error_nth' _ 0%nat) by (rewrite seq_length; auto); rewrite seq_nth by auto; reflexivity).
    cbn [option_map] in Hp. injection Hp as <-. cbn [photo_mp batch_mp m_x m_y full_batch b_x b_y].
    split; [reflexivity|]. split; [reflexivity|].
    exists (nth i en 0). split.
    + rewrite Forall_forall in RE. apply RE. apply nth_In. lia.
    + intros HE HN. destruct (nth_error v i) as [[[vx vy] vz]|] eqn:Ev; [|apply nth_error_None in Ev; lia].
      pose proof (Forall2_at _ _ _ V i _ _ (nth_combine3 en nx ny i ltac:(lia) ltac:(lia) ltac:(lia)) Ev) as K.
      unfold vel_ok in K. specialize (K HE HN). unfold leaves_wall. cbn [m_vx m_vy m_vz b_vx b_vy b_vz full_batch batch_mp].
      rewrite (nth_map_v fst3 v i _ Ev), (nth_map_v snd3 v i _ Ev), (nth_map_v thd3 v i _ Ev). exact K.
Qed.

(** * Models 1 and 2 *)
Lemma zip4_hits hs : zip4 (map h_x hs) (map h_y hs) (map h_nx hs) (map h_ny hs) = map hit4 hs.
Proof. unfold zip4. induction hs as [|h hs IH]; cbn; auto. rewrite IH. reflexivity. Qed.

Definition track4 (q : R * R * R * R) : track := let '(xi, yi, xo, yo) := q in mkTrack xi yi 0 xo yo 0.

Lemma gen_energy_ok fuel kc ph w mass sr k n xy s s' k' :
  wf s -> (N_mp s < capacity s)%nat -> src_ok sr -> 0 < q_e kc -> 0 < mass -> 0 < ph_sig ph ->
  wall_ok w -> length xy = n ->
  Forall (fun q => w_out w (t_xin (track4 q)) (t_yin (track4 q)) = false) xy ->
  gen_energy_and_set_MPs fuel kc ph w mass sr k n xy s = Some (s', k') ->
  exists new hs, generated (w_out w) s s' new /\ never_hit new /\ length new = n /\
    w_hit w (map track4 xy) = Some hs /\
    Forall2 (photo_mp kc ph mass) (map hit4 (map fst hs)) new /\
    charge s' = charge s + INR n * nel_mp_ref s.
Proof.
  intros W F HS Hq Hm Hg [WL WO] L ST E. unfold gen_energy_and_set_MPs in E.
  change (map (fun '(xi, yi, xo, yo) => mkTrack xi yi 0 xo yo 0) xy) with (map track4 xy) in E.
  destruct (WO (map track4 xy)) as (hs & EH & IN).
  { apply Forall_map. exact ST. }
  rewrite EH in E. cbn [bind] in E.
  assert (LH : length hs = n) by (rewrite (WL _ _ EH), map_length; auto).
  assert (M : forall f : hit -> R, length (map f (map fst hs)) = n) by (intros; rewrite !map_length; auto).
  apply (photo_set_ok (w_out w)) in E; auto.
  - destruct E as (new & G & NH & LN & V & CH). exists new, hs. rewrite zip4_hits in V. auto 10.
  - clear -IN. induction IN; cbn; auto.
Qed.

Lemma mapM_length {A B} (f : A -> option B) l r : mapM f l = Some r -> length r = length l.
Proof.
  revert r; induction l as [|a l IH]; intros r E; cbn in E; [injection E as <-; auto|].
  destruct (f a); [|discriminate]. cbn in E. destruct (mapM f l); [|discriminate]. cbn in E. injection E as <-. cbn. f_equal. auto.
Qed.

Lemma mapM_Forall {A B} (f : A -> option B) (P : B -> Prop) l r :
  (forall a b, f a = Some b -> P b) -> mapM f l = Some r -> Forall P r.
Proof.
  intros H. revert r; induction l as [|a l IH]; intros r E; cbn in E; [injection E as <-; constructor|].
  destruct (f a) eqn:Fa; [|discriminate]. cbn in E. destruct (mapM f l); [|discriminate]. cbn in E. injection E as <-.
  constructor; eauto.
Qed.

Lemma mask_put_cover {A} (P : A -> Prop) m (a v u : list A) :
  length a = length m -> length v = count_true m -> length u = count_true (map negb m) ->
  Forall P v -> Forall P u -> Forall P (mask_put (map negb m) (mask_put m a v) u).
Proof.
  revert a v u; induction m as [|b m IH]; intros [|x a] v u L1 L2 L3 F1 F2; cbn in *; try lia; auto.
  destruct b; cbn in *.
  - destruct v as [|y v]; cbn in *; [lia|]. inversion F1; subst. constructor; auto.
  - destruct u as [|y u]; cbn in *; [lia|]. inversion F2; subst. constructor; auto.
Qed.

Lemma photo1_main fuel kc ph refl al x0 y0 cdf w p mass lam Dt sr k s s' k' :
  photo1_ctor ph refl al x0 y0 cdf w = Some p ->
  wf s -> (N_mp s < capacity s)%nat -> 0 < nel_mp_ref s -> src_ok sr -> 0 < q_e kc -> 0 < mass -> 0 < ph_sig ph ->
  wall_ok w -> w_out w 0 0 = false ->
  0 <= photo_DNel kc (ph_k ph) (ph_mean ph) lam Dt ->
  photo1_generate fuel kc p w mass lam Dt sr k s = Some (s', k') ->
  exists new, generated (w_out w) s s' new /\ never_hit new /\
    rounded (photo_DNel kc (ph_k ph) (ph_mean ph) lam Dt / nel_mp_ref s) (s_uni sr k) (length new) /\
    close_charge (photo_DNel kc (ph_k ph) (ph_mean ph) lam Dt) s s' /\
    exists ks hs, length ks = length new /\ Forall (starts_inside w) ks /\ w_hit w ks = Some hs /\
      Forall2 (photo_mp kc ph mass) (map hit4 (map fst hs)) new.
Proof.
  intros CT W F Hr HS Hq Hm Hg WO O0 HD E. unfold photo1_ctor in CT.
  destruct (Reqb y0 0) eqn:Y0; cbn [negb] in CT; [|discriminate]. apply Reqb_true in Y0. subst y0.
  destruct (w_out w x0 0) eqn:X0; [discriminate|]. injection CT as <-.
  unfold photo1_generate in E. cbn [p1_ph] in E.
  set (req := photo_DNel kc (ph_k ph) (ph_mean ph) lam Dt) in *.
  assert (Hq0 : 0 <= req / nel_mp_ref s) by (unfold Rdiv; apply Rmult_le_pos; auto; left; apply Rinv_0_lt_compat; auto).
  rewrite photo_number_stoch in E by auto.
  destruct (stoch_round_rounded _ (s_uni sr k) Hq0) as (n & En & Rn). rewrite En in E.
  destruct (Z.ltb_spec 0 (Z.of_nat n)) as [Hn|Hn].
  - rewrite Nat2Z.id in E. set (p := mkPhoto1 ph refl al x0 cdf) in *.
    set (rf := map _ (draw (s_uni sr) (S k) n)) in *.
    assert (LR : length rf = n) by (unfold rf; rewrite map_length, draw_length; auto).
    destruct (mapM (refl_track p) _) as [rt|] eqn:MR; [|discriminate]. cbn [bind] in E.
    set (gt := map (gauss_track p) _) in E.
    assert (LT : length rt = count_true rf) by (rewrite (mapM_length _ _ _ MR), draw_length; auto).
    assert (LG : length gt = count_true (map negb rf)) by (unfold gt; rewrite map_length, draw_length; auto).
    assert (ST : Forall (fun q => w_out w (t_xin (track4 q)) (t_yin (track4 q)) = false)
      (mask_put (map negb rf) (mask_put rf (repeat (0, 0, 0, 0) n) rt) gt)).
    { apply mask_put_cover; auto.
      * rewrite repeat_length. auto.
      * eapply mapM_Forall; [|exact MR]. intros u b Hb. unfold refl_track in Hb. cbn [p p1_cdf p1_x0 p1_ph] in Hb.
        destruct cdf as [tab|].
        -- destruct (np_interp u tab); [|discriminate]. cbn in Hb. injection Hb as <-. exact X0.
        -- injection Hb as <-. exact O0.
      * unfold gt. rewrite Forall_map. apply draw_Forall. intros j. exact O0. }
    apply gen_energy_ok in E; auto.
    + destruct E as (new & hs & G & NH & LN & EH & V & CH). exists new. split; [auto|]. split; [auto|].
      rewrite LN. split; [auto|]. split; [apply (close_rounded _ (s_uni sr k) n); auto; apply HS|].
      eexists _, hs. split; [|split; [|split; [exact EH|auto]]].
      * rewrite map_length, !mask_put_length, repeat_length. auto.
      * apply Forall_map. exact ST.
    + rewrite !mask_put_length, repeat_length. auto.
  - injection E as <- <-. assert (n = 0%nat) by lia. subst n. exists []. split; [apply generated_none; auto|].
    split; [constructor|]. split; [auto|]. split; [apply (close_rounded _ (s_uni sr k) 0); auto; [apply HS|cbn; lra]|].
    destruct WO as [WL WO]. destruct (WO []) as (hs & EH & _); [constructor|].
    exists [], hs. split; [auto|]. split; [auto|]. split; [auto|].
    pose proof (WL _ _ EH) as L. destruct hs; [|discriminate L]. cbn. auto.
Qed.

Lemma photo2_main fuel kc ph cdf w mass lam Dt sr k s s' k' :
  wf s -> (N_mp s < capacity s)%nat -> 0 < nel_mp_ref s -> src_ok sr -> 0 < q_e kc -> 0 < mass -> 0 < ph_sig ph ->
  wall_ok w -> w_out w 0 0 = false ->
  0 <= photo_DNel kc (ph_k ph) (ph_mean ph) lam Dt ->
  photo2_generate fuel kc ph cdf w mass lam Dt sr k s = Some (s', k') ->
  exists new, generated (w_out w) s s' new /\ never_hit new /\
    rounded (photo_DNel kc (ph_k ph) (ph_mean ph) lam Dt / nel_mp_ref s) (s_uni sr k) (length new) /\
    close_charge (photo_DNel kc (ph_k ph) (ph_mean ph) lam Dt) s s' /\
    exists ks hs, length ks = length new /\ Forall (starts_inside w) ks /\ w_hit w ks = Some hs /\
      Forall2 (photo_mp kc ph mass) (map hit4 (map fst hs)) new.
Proof.
  intros W F Hr HS Hq Hm Hg WO O0 HD E.
  unfold photo2_generate in E.
  set (req := photo_DNel kc (ph_k ph) (ph_mean ph) lam Dt) in *.
  assert (Hq0 : 0 <= req / nel_mp_ref s) by (unfold Rdiv; apply Rmult_le_pos; auto; left; apply Rinv_0_lt_compat; auto).
  rewrite photo_number_stoch in E by auto.
  destruct (stoch_round_rounded _ (s_uni sr k) Hq0) as (n & En & Rn). rewrite En in E.
  destruct (Z.ltb_spec 0 (Z.of_nat n)) as [Hn|Hn].
  - rewrite Nat2Z.id in E.
    match type of E with context[bind ?o _] => destruct o as [th|] eqn:TH; [|discriminate] end. cbn [bind] in E.
    assert (LT : length th = n).
    { destruct cdf; [apply mapM_length in TH; rewrite TH, draw_length; auto|injection TH as <-; rewrite map_length, draw_length; auto]. }
    apply gen_energy_ok in E; auto.
    + destruct E as (new & hs & G & NH & LN & EH & V & CH). exists new. split; [auto|]. split; [auto|].
      rewrite LN. split; [auto|]. split; [apply (close_rounded _ (s_uni sr k) n); auto; apply HS|].
      eexists _, hs. split; [|split; [|split; [exact EH|auto]]]; [rewrite !map_length; auto|].
      rewrite !Forall_map. apply Forall_forall. intros. exact O0.
    + rewrite map_length. auto.
    + apply Forall_map, Forall_forall. intros. exact O0.
  - injection E as <- <-. assert (n = 0%nat) by lia. subst n. exists []. split; [apply generated_none; auto|].
    split; [constructor|]. split; [auto|]. split; [apply (close_rounded _ (s_uni sr k) 0); auto; [apply HS|cbn; lra]|].
    destruct WO as [WL WO]. destruct (WO []) as (hs & EH & _); [constructor|].
    exists [], hs. split; [auto|]. split; [auto|]. split; [auto|].
    pose proof (WL _ _ EH) as L. destruct hs; [|discriminate L]. cbn. auto.
Qed.
