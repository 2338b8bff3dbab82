(** Lemmas about the uniform initial distributions. *)
From Coq Require Import Lra Lia.
From Verif Require Import Num NumFacts MP SpecMP MPFacts RegenFacts Geom Poly Sey SpecSey SeyFacts2 Impact SpecImpact Source SpecSource SourceFacts.

Lemma scaled_box lo hi u : lo <= hi -> 0 <= u < 1 -> lo <= (hi - lo) * u + lo <= hi.
Proof. intros. nra. Qed.

Lemma scaled_draw lo hi rng k n : (forall j, 0 <= rng j < 1) -> lo <= hi ->
  Forall (fun x => lo <= x <= hi) (map (fun u => (hi - lo) * u + lo) (draw rng k n)).
Proof. intros HU H. rewrite Forall_map. apply draw_Forall. intros j. apply scaled_box; auto. Qed.

Lemma redraw_uniform_box fuel c a b d e rng : (forall j, 0 <= rng j < 1) -> b <= a -> e <= d ->
  forall k xt yt xt' yt' k',
  Forall (fun x => b <= x <= a) xt -> Forall (fun y => e <= y <= d) yt ->
  redraw_uniform fuel c a b d e rng k xt yt = Some (xt', yt', k') ->
  Forall (fun x => b <= x <= a) xt' /\ Forall (fun y => e <= y <= d) yt'.
Proof.
  intros HU H1 H2. induction fuel as [|fuel IH]; intros k xt yt xt' yt' k' F1 F2 E; cbn [redraw_uniform] in E.
  - destruct (Nat.eqb _ 0); [|discriminate]. injection E as <- <- <-. auto.
  - destruct (Nat.eqb _ 0).
    + injection E as <- <- <-. auto.
    + apply IH in E; auto; apply mask_put_Forall; auto; apply scaled_draw; auto.
Qed.

Definition set_t (s : mpsys) (t : list R) : mpsys :=
  mkSys (x_mp s) (y_mp s) (z_mp s) (vx_mp s) (vy_mp s) (vz_mp s) (nel_mp s) t (N_mp s) (flag_lifetime_hist s)
    (nel_mp_ref s) (nel_mp_split s) (nel_mp_cl_th s) (nel_mp_ref_0 s) (fact_split s) (fact_clean s).

Definition noflag (s : mpsys) : mpsys :=
  mkSys (x_mp s) (y_mp s) (z_mp s) (vx_mp s) (vy_mp s) (vz_mp s) (nel_mp s) (t_last_impact s) (N_mp s) false
    (nel_mp_ref s) (nel_mp_split s) (nel_mp_cl_th s) (nel_mp_ref_0 s) (fact_split s) (fact_clean s).

(** [write_uniform] with any array of last impact times that agrees with the
    old one on the old slots. *)
Lemma write_any_t out s n xt yt a b c t s' :
  wf s -> (N_mp s < capacity s)%nat -> length xt = n -> length yt = n ->
  Forall2 (fun x y => out x y = false) xt yt -> length t = capacity s ->
  (forall i, (i < N_mp s)%nat -> nth i t 0 = nth i (t_last_impact s) 0) ->
  write_uniform s n xt yt a b c t = Some s' ->
  exists new, generated out s s' new /\ length new = n /\ charge s' = charge s + INR n * nel_mp_ref s /\
    (flag_lifetime_hist s = false -> never_hit new) /\
    ((forall i, (i < n)%nat -> nth (N_mp s + i) t 0 = -1) -> never_hit new) /\
    map m_x new = xt /\ map m_y new = yt.
Proof.
  intros W F L1 L2 IN LT TT E.
  assert (Fit : (N_mp s + n <= capacity s)%nat) by exact (write_fits s n xt yt a b c t s' W F L1 E).
  (* the run on a system without last impact times *)
  set (s0 := noflag s).
  assert (W0 : wf s0) by (destruct W; constructor; auto).
  destruct (write_uniform s0 n xt yt a b c (t_last_impact s0)) as [s1|] eqn:E0.
  2:{ exfalso. unfold write_uniform in E, E0. cbn in E0. destruct (slice_set (x_mp s) _ _ _); [|discriminate].
      cbn in E, E0. destruct (slice_set (y_mp s) _ _ _); discriminate. }
  assert (S1 : s' = mkSys (x_mp s1) (y_mp s1) (z_mp s1) (vx_mp s1) (vy_mp s1) (vz_mp s1) (nel_mp s1) t (N_mp s1)
     (flag_lifetime_hist s) (nel_mp_ref s1) (nel_mp_split s1) (nel_mp_cl_th s1) (nel_mp_ref_0 s1) (fact_split s1) (fact_clean s1)
     /\ flag_lifetime_hist s1 = false).
  { unfold write_uniform in E, E0. cbn in E0. destruct (slice_set (x_mp s) _ _ _); [|discriminate].
    cbn in E, E0. destruct (slice_set (y_mp s) _ _ _); [|discriminate]. cbn in E, E0.
    injection E as <-. injection E0 as <-. cbn. auto. }
  destruct S1 as [S1 FL1]. 
  rewrite write_uniform_add in E0 by auto.
  destruct (full_batch_added out n xt yt (repeat a n) (repeat b n) (repeat c n) s0 s1) as (new0 & G & NH & LN & EQ & CH); auto;
    try apply repeat_length.
  destruct G as [GL GS GP GI GW GT GC GR].
  assert (NN : N_mp s' = (N_mp s + n)%nat).
  { rewrite S1. cbn. pose proof (f_equal (@length mp) GL) as K. rewrite app_length, !live_length, LN in K. exact K. }
  assert (N1 : N_mp s1 = (N_mp s + n)%nat) by (rewrite S1 in NN; exact NN).
  assert (LV : live s' = live s ++ map (fun i => mp_at s' (N_mp s + i)) (seq 0 n)).
  { unfold live at 1. rewrite NN, seq_app, map_app. cbn [plus]. f_equal.
    - apply map_ext_in. intros i Hi. apply in_seq in Hi.
      assert (K : mp_at s1 i = mp_at s0 i).
      { assert (H1 : nth_error (live s1) i = Some (mp_at s1 i)).
        { unfold live. rewrite nth_error_map, (nth_error_nth' _ 0%nat), seq_nth by (rewrite ?seq_length; lia). reflexivity. }
        rewrite GL, nth_error_app1 in H1 by (rewrite live_length; cbn; lia).
        unfold live in H1. rewrite nth_error_map, (nth_error_nth' _ 0%nat), seq_nth in H1 by (rewrite ?seq_length; cbn; lia).
        cbn in H1. congruence. }
      unfold mp_at in K |- *. cbn in K. rewrite S1. cbn. injection K as K1 K2 K3 K4 K5 K6 K7.
      rewrite K1, K2, K3, K4, K5, K6, K7. f_equal. destruct (flag_lifetime_hist s); auto. apply TT. lia.
    - rewrite <- (map_map (fun i => (N_mp s + i)%nat) (mp_at s')). f_equal.
      clear. generalize (N_mp s) as N. induction n; intros; cbn; auto. rewrite Nat.add_0_r. f_equal.
      rewrite IHn. clear. replace (S N) with (N + 1)%nat by lia. rewrite <- (seq_shift n 0), map_map. apply map_ext. intros; lia. }
  assert (NEW : forall i, (i < n)%nat -> exists q, In q new0 /\ nth_error new0 i = Some q /\ let p := mp_at s' (N_mp s + i) in
      m_x p = m_x q /\ m_y p = m_y q /\ m_z p = m_z q /\ m_nel p = m_nel q).
  { intros i Hi. exists (mp_at s1 (N_mp s + i)).
    assert (H1 : nth_error (live s1) (N_mp s + i) = Some (mp_at s1 (N_mp s + i))).
    { unfold live. rewrite nth_error_map, (nth_error_nth' _ 0%nat), seq_nth by (rewrite ?seq_length; lia). reflexivity. }
    rewrite GL, nth_error_app2 in H1 by (rewrite live_length; cbn; lia). rewrite live_length in H1. cbn in H1.
    replace (N_mp s + i - N_mp s)%nat with i in H1 by lia.
    split; [eapply nth_error_In; eauto|]. split; [auto|]. rewrite S1. cbn. auto. }
  set (new := map (fun i => mp_at s' (N_mp s + i)) (seq 0 n)) in *.
  assert (ALL : forall P Q : mp -> Prop, Forall Q new0 ->
    (forall p q, m_x p = m_x q -> m_y p = m_y q -> m_z p = m_z q -> m_nel p = m_nel q -> Q q -> P p) -> Forall P new).
  { intros P Q HQ HPQ. unfold new. apply Forall_map, Forall_forall. intros i Hi. apply in_seq in Hi.
    destruct (NEW i ltac:(lia)) as (q & Hq & _ & A & B & C & D). rewrite Forall_forall in HQ. eapply HPQ; eauto. }
  exists new.
  assert (XY : forall f : mp -> R, (forall p q, m_x p = m_x q -> m_y p = m_y q -> f p = f q) -> map f new = map f new0).
  { intros f Hf. apply nth_error_ext. intros i. rewrite !nth_error_map. unfold new. rewrite nth_error_map.
    destruct (lt_dec i n).
    - destruct (NEW i l) as (q & _ & Hq & A & B & _). rewrite Hq.
      rewrite (nth_error_nth' _ 0%nat), seq_nth by (rewrite ?seq_length; lia). cbn [option_map plus]. f_equal. apply Hf; auto.
    - rewrite (proj2 (nth_error_None (seq 0 n) i)) by (rewrite seq_length; lia).
      rewrite (proj2 (nth_error_None new0 i)) by lia. reflexivity. }
  split; [|split; [|split; [|split; [|split; [|split]]]]].
  - constructor; auto.
    + eapply ALL; [exact GS|]. intros p q _ _ _ -> H. exact H.
    + eapply ALL; [exact GP|]. intros p q _ _ -> _ H. exact H.
    + eapply ALL; [exact GI|]. intros p q -> -> _ _ H. exact H.
    + destruct GC as (C1 & _). rewrite S1. destruct GW. constructor; cbn in *; auto.
      unfold capacity in *; cbn in *. lia.
    + intros T. rewrite S1. exact (GT T).
    + destruct GC as (C1 & _ & C3 & C4 & C5). rewrite S1. unfold same_cfg, capacity in *; cbn in *. auto 10.
    + rewrite S1. exact GR.
  - unfold new. rewrite map_length, seq_length. auto.
  - unfold charge. rewrite LV, map_app, rsum_app. f_equal.
    transitivity (rsum (repeat (nel_mp_ref s) n)); [|apply rsum_repeat]. f_equal.
    assert (K : Forall (fun p => m_nel p = nel_mp_ref s) new) by (eapply ALL; [exact GS|]; intros p q _ _ _ -> H; exact H).
    assert (LNW : length new = n) by (unfold new; rewrite map_length, seq_length; auto).
    clearbody new. clear -K LNW. subst n. induction K; cbn; congruence.
  - intros HF. unfold never_hit, new. apply Forall_map, Forall_forall. intros i _. rewrite S1. cbn. rewrite HF. auto.
  - intros HT. unfold never_hit, new. apply Forall_map, Forall_forall. intros i Hi. apply in_seq in Hi. rewrite S1. cbn.
    destruct (flag_lifetime_hist s); auto. apply HT. lia.
  - rewrite (XY m_x) by auto. rewrite EQ, map_map. cbn [batch_mp m_x full_batch b_x].
    transitivity (map (fun i => nth i xt 0) (seq 0 (length xt))); [rewrite L1; auto|].
    clear. induction xt as [|x xt IH]; cbn; auto. f_equal. rewrite <- seq_shift, map_map. exact IH.
  - rewrite (XY m_y) by auto. rewrite EQ, map_map. cbn [batch_mp m_y full_batch b_y].
    transitivity (map (fun i => nth i yt 0) (seq 0 (length yt))); [rewrite L2; auto|].
    clear. induction yt as [|x xt IH]; cbn; auto. f_equal. rewrite <- seq_shift, map_map. exact IH.
Qed.

Lemma slice_fill_nth (a : list R) lo hi c i : (i < lo)%nat -> (lo <= length a)%nat -> nth i (slice_fill a lo hi c) 0 = nth i a 0.
Proof.
  intros H L. unfold slice_fill. rewrite app_nth1 by (rewrite firstn_length; lia). apply nth_firstn. auto.
Qed.

Lemma slice_fill_nth_in (a : list R) lo n c i : (i < n)%nat -> (lo + n <= length a)%nat ->
  nth (lo + i) (slice_fill a lo (lo + n) c) 0 = c.
Proof.
  intros H L. rewrite slice_fill_exact by lia. rewrite app_nth2 by (rewrite firstn_length; lia).
  rewrite firstn_length, Nat.min_l by lia. replace (lo + i - lo)%nat with i by lia.
  rewrite app_nth1 by (rewrite repeat_length; lia). apply nth_repeat_lt. lia.
Qed.

Lemma slice_fill_clip (a : list R) lo hi c i : (i < length a)%nat -> (i < lo)%nat -> nth i (slice_fill a lo hi c) 0 = nth i a 0.
Proof.
  intros H H2. unfold slice_fill. rewrite app_nth1 by (rewrite firstn_length; lia). apply nth_firstn. auto.
Qed.

Lemma Forall_xy (P Q : R -> Prop) (l : list mp) xt yt : map m_x l = xt -> map m_y l = yt -> Forall P xt -> Forall Q yt ->
  Forall (fun p => P (m_x p) /\ Q (m_y p)) l.
Proof.
  intros <- <- F1 F2. rewrite Forall_map in F1, F2. rewrite Forall_forall in *. auto.
Qed.

Lemma uniform_main fuel c DNel v0 oxa oxi oya oyi rng k s s' k' :
  let xmax := odef oxa (x_aper c) in let xmin := odef oxi (- x_aper c) in
  let ymax := odef oya (y_aper c) in let ymin := odef oyi (- y_aper c) in
  wf s -> (N_mp s < capacity s)%nat -> 0 < nel_mp_ref s -> (forall j, 0 <= rng j < 1) -> 0 <= DNel ->
  xmin <= xmax -> ymin <= ymax ->
  add_uniform_MP_distrib fuel c DNel v0 oxa oxi oya oyi rng k s = Some (s', k') ->
  exists new, generated (outside c) s s' new /\ (flag_lifetime_hist s = false -> never_hit new) /\
    rounded (DNel / nel_mp_ref s) (rng k) (length new) /\ close_charge DNel s s' /\
    Forall (in_box xmin xmax ymin ymax) new.
Proof.
  intros xmax xmin ymax ymin W F Hr HU HD HX HY E. unfold add_uniform_MP_distrib in E.
  fold xmax xmin ymax ymin in E.
  assert (Hq : 0 <= DNel / nel_mp_ref s) by (unfold Rdiv; apply Rmult_le_pos; auto; left; apply Rinv_0_lt_compat; auto).
  destruct (stoch_round_rounded _ (rng k) Hq) as (n & En & Rn). rewrite En in E.
  destruct (Z.ltb_spec 0 (Z.of_nat n)) as [Hn|Hn].
  - rewrite Nat2Z.id in E.
    destruct (redraw_uniform _ _ _ _ _ _ _ _ _ _) as [[[xt yt] k1]|] eqn:RD; [|discriminate]. cbn [bind] in E.
    pose proof (redraw_uniform_box _ _ _ _ _ _ _ HU HX HY _ _ _ _ _ _ (scaled_draw _ _ _ _ _ HU HX) (scaled_draw _ _ _ _ _ HU HY) RD) as [BX BY].
    apply redraw_uniform_ok in RD; [|rewrite !map_length, !draw_length; auto].
    rewrite map_length, draw_length in RD. destruct RD as (L1 & L2 & IN).
    match type of E with context[write_uniform s n xt yt ?a ?b ?d ?t] =>
      destruct (write_uniform s n xt yt a b d t) as [s1|] eqn:WU; [|discriminate] end.
    cbn [bind] in E. injection E as <- <-.
    assert (Fit : (N_mp s + n <= capacity s)%nat) by (eapply write_fits; [exact W|exact F| |exact WU]; auto).
    apply (write_any_t (outside c)) in WU; auto.
    + destruct WU as (new & G & LN & CH & NH & _ & MX & MY). exists new. split; [auto|]. split; [auto|]. rewrite LN.
      split; [auto|]. split; [apply (close_rounded _ (rng k) n); auto; apply HU|].
      eapply Forall_xy in BY; [|exact MX|exact MY|exact BX]. exact BY.
    + destruct (flag_lifetime_hist s); [|destruct W; auto]. rewrite slice_fill_length; destruct W; auto; lia.
    + intros i Hi. destruct (flag_lifetime_hist s); auto. apply slice_fill_clip; destruct W; lia.
  - injection E as <- <-. assert (n = 0%nat) by lia. subst n. exists []. split; [apply generated_none; auto|].
    split; [constructor|]. split; [auto|]. split; [|constructor]. apply (close_rounded _ (rng k) 0); auto; [apply HU|cbn; lra].
Qed.

Lemma keep_inside (out : R -> R -> bool) xt yt : length xt = length yt ->
  let m := map negb (map2 out xt yt) in Forall2 (fun x y => out x y = false) (mask_get m xt) (mask_get m yt).
Proof.
  cbn zeta. revert yt; induction xt as [|x xt IH]; intros [|y yt] L; cbn in *; try lia; auto.
  destruct (out x y) eqn:O; cbn; auto.
Qed.

Lemma mask_get_Forall {A} (P : A -> Prop) m a : Forall P a -> Forall P (mask_get m a).
Proof. intros H. rewrite Forall_forall in *. intros x Hx. apply H. eapply mask_get_In; eauto. Qed.

Lemma density_main c n_ele v0 oxa oxi oya oyi rng k s s' k' :
  let xmax := odef oxa (x_aper c) in let xmin := odef oxi (- x_aper c) in
  let ymax := odef oya (y_aper c) in let ymin := odef oyi (- y_aper c) in
  let req := n_ele * (xmax - xmin) * (ymax - ymin) in
  wf s -> (N_mp s < capacity s)%nat -> 0 < nel_mp_ref s -> (forall j, 0 <= rng j < 1) -> 0 <= n_ele ->
  xmin <= xmax -> ymin <= ymax ->
  add_uniform_ele_density c n_ele v0 oxa oxi oya oyi rng k s = Some (s', k') ->
  exists new all, generated (outside c) s s' new /\ never_hit new /\
    rounded (req / nel_mp_ref s) (rng k) (length all) /\
    map (fun p => (m_x p, m_y p)) new = filter (fun q => negb (outside c (fst q) (snd q))) all /\
    Forall (fun q => xmin <= fst q <= xmax /\ ymin <= snd q <= ymax) all /\
    charge s' - charge s < req + nel_mp_ref s.
Proof.
  intros xmax xmin ymax ymin req W F Hr HU HD HX HY E. unfold add_uniform_ele_density in E.
  fold xmax xmin ymax ymin in E. fold req in E.
  assert (Hreq : 0 <= req) by (unfold req; apply Rmult_le_pos; [apply Rmult_le_pos|]; lra).
  assert (Hq : 0 <= req / nel_mp_ref s) by (unfold Rdiv; apply Rmult_le_pos; auto; left; apply Rinv_0_lt_compat; auto).
  destruct (stoch_round_rounded _ (rng k) Hq) as (n & En & Rn). rewrite En in E.
  destruct (Z.ltb_spec 0 (Z.of_nat n)) as [Hn|Hn].
  - rewrite Nat2Z.id in E.
    pose proof (scaled_draw xmin xmax rng (k + 1) n HU HX) as BX.
    pose proof (scaled_draw ymin ymax rng (k + 1 + n) n HU HY) as BY.
    set (xt := map _ (draw rng (k + 1) n)) in *. set (yt := map _ (draw rng (k + 1 + n) n)) in *.
    assert (LX : length xt = n) by (unfold xt; rewrite map_length, draw_length; auto).
    assert (LY : length yt = n) by (unfold yt; rewrite map_length, draw_length; auto).
    set (m := map negb (map2 (outside c) xt yt)) in *.
    assert (LM : length m = n) by (unfold m; rewrite map_length, map2_length; lia).
    match type of E with context[write_uniform s ?nn ?x ?y ?a ?b ?d ?t] =>
      destruct (write_uniform s nn x y a b d t) as [s1|] eqn:WU; [|discriminate] end.
    cbn [bind] in E. injection E as <- <-.
    assert (LEN : length (mask_get m yt) = length (mask_get m xt)) by (rewrite !mask_get_length by lia; auto).
    assert (Fit : (N_mp s + length (mask_get m xt) <= capacity s)%nat) by (eapply write_fits; [exact W|exact F| |exact WU]; auto).
    apply (write_any_t (outside c)) in WU; auto.
    + destruct WU as (new & G & LN & CH & _ & NH & MX & MY). exists new, (combine xt yt). split; [auto|].
      split.
      { destruct (flag_lifetime_hist s) eqn:FL.
        - apply NH. intros i Hi. apply slice_fill_nth_in; destruct W; auto. lia.
        - unfold never_hit. apply Forall_forall. intros p Hp. apply (in_or_app (live s)) in Hp || idtac.
          assert (P : In p (live s1)) by (rewrite (ge_live _ _ _ _ G); apply in_or_app; auto).
          unfold live in P. apply in_map_iff in P. destruct P as (i & <- & _). cbn.
          destruct (ge_cfg _ _ _ _ G) as (_ & -> & _). rewrite FL. auto. }
      rewrite combine_length, LX, LY, Nat.min_id. split; [auto|]. split; [|split].
      * transitivity (combine (map m_x new) (map m_y new)).
        { clear. induction new; cbn; congruence. }
        rewrite MX, MY. unfold m. assert (LXY : length xt = length yt) by lia. clearbody xt yt. clear -LXY.
        revert yt LXY; induction xt as [|x xt IH]; intros [|y yt] L; cbn in *; try lia; auto.
        destruct (outside c x y); cbn; auto. f_equal. auto.
      * assert (LXY : length xt = length yt) by lia. clearbody xt yt. clear -BX BY LXY. revert yt BY LXY. induction BX; intros [|y yt] BY L; cbn in *; try lia; auto.
        inversion BY; subst. constructor; auto.
      * rewrite CH. assert (KK : (length (mask_get m xt) <= n)%nat) by (rewrite mask_get_length by lia; rewrite <- LM; apply count_true_le).
        apply le_INR in KK. pose proof (rounded_close _ _ _ (proj1 (HU k)) Rn) as RC. apply Rabs_def2 in RC.
        assert (INR n * nel_mp_ref s < (req / nel_mp_ref s + 1) * nel_mp_ref s) by (apply Rmult_lt_compat_r; lra).
        replace ((req / nel_mp_ref s + 1) * nel_mp_ref s) with (req + nel_mp_ref s) in H by (field; lra).
        assert (INR (length (mask_get m xt)) * nel_mp_ref s <= INR n * nel_mp_ref s) by (apply Rmult_le_compat_r; lra). lra.
    + apply keep_inside. lia.
    + destruct (flag_lifetime_hist s); [rewrite slice_fill_length|]; destruct W; auto; lia.
    + intros i Hi. destruct (flag_lifetime_hist s); auto. apply slice_fill_clip; destruct W; lia.
  - injection E as <- <-. assert (n = 0%nat) by lia. subst n. exists [], []. split; [apply generated_none; auto|].
    split; [constructor|]. split; [auto|]. split; [auto|]. split; [constructor|]. lra.
Qed.

Lemma gas_DNel_is kc g lam Dt : gas_DNel kc g lam Dt = ionised kc (gs_P g) (gs_sigma g) (gs_T g) lam Dt.
Proof. unfold gas_DNel, ionised. unfold Rdiv. ring. Qed.

Lemma photo_DNel_is kc k mean lam Dt : photo_DNel kc k mean lam Dt = photoemitted kc k mean lam Dt.
Proof. unfold photo_DNel, photoemitted. ring. Qed.

Lemma gas_thm fuel kc g c mass lam Dt sx sy xb yb sr k s s' k' :
  wf s -> (N_mp s < capacity s)%nat -> 0 < nel_mp_ref s -> (forall j, 0 <= s_uni sr j < 1) ->
  gs_life g = flag_lifetime_hist s ->
  0 < kB kc -> 0 <= c_light kc -> 0 <= gs_P g -> 0 <= gs_sigma g -> 0 < gs_T g -> 0 <= lam -> 0 <= Dt ->
  gas_generate fuel kc g c mass lam Dt sx sy xb yb sr k s = Some (s', k') ->
  exists new, generated (outside c) s s' new /\ never_hit new /\
    rounded (ionised kc (gs_P g) (gs_sigma g) (gs_T g) lam Dt / nel_mp_ref s) (s_uni sr k) (length new) /\
    close_charge (ionised kc (gs_P g) (gs_sigma g) (gs_T g) lam Dt) s s'.
Proof.
  intros. rewrite <- gas_DNel_is. eapply gas_main; eauto. apply gas_DNel_nonneg; auto.
Qed.

Lemma generated_inside out s s' new : generated out s s' new ->
  Forall (fun p => out (m_x p) (m_y p) = false) (live s) -> Forall (fun p => out (m_x p) (m_y p) = false) (live s').
Proof. intros G H. rewrite (ge_live _ _ _ _ G). apply Forall_app. split; [exact H|exact (ge_inside _ _ _ _ G)]. Qed.
