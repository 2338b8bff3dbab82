From Verif Require Import Num NumFacts Fort SpecFort FortFacts MP SpecMP SpecRegen MPFacts MPFacts2 RegenFacts.

(* ---------- the horizontal cut ---------- *)
Lemma rsum_swap {A B} (f : A -> B -> R) la lb :
  rsum (map (fun a => rsum (map (f a) lb)) la) = rsum (map (fun b => rsum (map (fun a => f a b) la)) lb).
Proof.
  induction la as [|a la IH]; simpl.
  - rewrite (rsum_ext _ (fun _ => 0)); [symmetry; apply rsum_zero|]. intros; reflexivity.
  - rewrite rsum_cons, IH, <- rsum_map_plus. apply rsum_ext. intros b _. rewrite rsum_cons. reflexivity.
Qed.

Lemma rsum_ends (l : list R) j :
  Forall (fun x => 0 <= x) l ->
  (forall k, (j <= k < length l - j)%nat -> nth k l 0 = 0) ->
  rsum l <= rsum (firstn j l) + rsum (skipn (length l - j) l).
Proof.
  intros Hp Hm. destruct (Nat.le_gt_cases (j + j) (length l)) as [H|H].
  - rewrite <- (firstn_skipn j l) at 1. rewrite rsum_app.
    assert (E : rsum (skipn j l) = rsum (skipn (length l - j) l)); [|lra].
    replace (length l - j)%nat with ((length l - j - j) + j)%nat at 1 by lia.
    rewrite skipn_add. rewrite <- (firstn_skipn (length l - j - j) (skipn j l)) at 1. rewrite rsum_app.
    rewrite (rsum_0 (firstn _ _)); [lra|]. apply Forall_forall. intros x Hx.
    apply In_nth with (d := 0) in Hx as (k & Hk & <-). rewrite firstn_length, skipn_length in Hk.
    rewrite nth_firstn by lia. rewrite nth_skipn'. apply Hm. lia.
  - rewrite <- (firstn_skipn j l) at 1. rewrite rsum_app. apply Rplus_le_compat_l.
    destruct (Nat.le_gt_cases (length l) j).
    + rewrite skipn_all2 by lia. apply rsum_nonneg. apply Forall_skipn; auto.
    + replace j with ((j - (length l - j)) + (length l - j))%nat at 1 by lia.
      rewrite skipn_add. set (q := skipn (length l - j) l).
      rewrite <- (firstn_skipn (j - (length l - j)) q) at 2. rewrite rsum_app.
      assert (0 <= rsum (firstn (j - (length l - j)) q)).
      { apply rsum_nonneg, Forall_firstn, Forall_skipn; auto. }
      lra.
Qed.

Lemma share_nonneg b d n k xw : 0 <= snd xw -> 0 <= bin_share b d n k xw.
Proof.
  intros H. unfold bin_share. destruct (Rlt_dec _ _).
  - pose proof (hat_nonneg ((fst xw - (b + INR k * d)) / d)). nra.
  - destruct (Nat.eq_dec _ _); lra.
Qed.

Lemma hist_as_map bias Dx xs n :
  0 < Dx -> (0 < n)%nat -> (forall xw, In xw xs -> bias <= fst xw) ->
  compute_hist xs bias Dx (repeat 0 n)
  = Some (map (fun k => rsum (map (bin_share bias Dx n k) xs)) (seq 0 n)) /\
  rsum (map (fun k => rsum (map (bin_share bias Dx n k) xs)) (seq 0 n)) = rsum (map snd xs).
Proof.
  intros HD Hn Hb. destruct (compute_hist_main bias Dx xs (repeat 0 n) HD) as (r & E & L & S & N); auto.
  { destruct n; [lia|discriminate]. }
  rewrite repeat_length in *.
  assert (Er : r = map (fun k => rsum (map (bin_share bias Dx n k) xs)) (seq 0 n)).
  { apply nth_ext with (d := 0) (d' := 0); [rewrite map_length, seq_length; auto|].
    intros k Hk. rewrite N by lia. rewrite nth_repeat_lt by lia.
    rewrite (nth_indep _ 0 (rsum (map (bin_share bias Dx n 0) xs))) by (rewrite map_length, seq_length; lia).
    rewrite (map_nth (fun k => rsum (map (bin_share bias Dx n k) xs))). rewrite seq_nth by lia. simpl. lra. }
  rewrite <- Er. split; auto. rewrite S, rsum_repeat. lra.
Qed.

Lemma share_total b d n xw :
  0 < d -> (0 < n)%nat -> b <= fst xw ->
  rsum (map (fun k => bin_share b d n k xw) (seq 0 n)) = snd xw.
Proof.
  intros. destruct (hist_as_map b d [xw] n) as [_ E]; auto.
  { intros ? [<-|[]]; auto. }
  simpl in E. rewrite rsum_cons in E. unfold rsum at 3 in E. simpl in E.
  rewrite Rplus_0_r in E. rewrite <- E. apply rsum_ext. intros k _. rewrite rsum_cons. unfold rsum; simpl. lra.
Qed.

Lemma removed_middle_zero (M i k : nat) D xw :
  0 < D -> (1 <= i)%nat -> Rabs (fst xw) <= INR M * D -> Rabs (fst xw) > (INR M + 2 - INR i) * D ->
  (i - 1 <= k < 2 * M + 1 - (i - 1))%nat ->
  bin_share (- (INR M * D)) D (2 * M + 1) k xw = 0.
Proof.
  intros HD Hi Hle Hgt [Hk1 Hk2]. destruct xw as [x w]. unfold bin_share. simpl fst in *. simpl snd.
  apply Rabs_le_inv in Hle.
  rewrite plus_INR, mult_INR. simpl (INR 2). simpl (INR 1).
  assert (K1 : INR i - 1 <= INR k).
  { apply le_INR in Hk1. rewrite minus_INR in Hk1 by lia. simpl in Hk1. lra. }
  assert (K2 : (i >= 2 * M + 3)%nat \/ INR k <= 2 * INR M + 1 - INR i).
  { destruct (Nat.le_gt_cases (2 * M + 3) i); [left; lia|right].
    assert (k + i <= 2 * M + 1)%nat by lia. apply le_INR in H0.
    rewrite !plus_INR, mult_INR in H0. simpl in H0. lra. }
  destruct K2 as [K2|K2]; [lia|].
  destruct (Rlt_dec _ _) as [G|G].
  - rewrite hat_out; [ring|].
    replace ((x - (- (INR M * D) + INR k * D)) / D) with (x / D + INR M - INR k) by (field; lra).
    assert (Ex : x = x / D * D) by (field; lra). set (t := x / D) in *.
    unfold Rabs in Hgt. destruct (Rcase_abs x) as [Hn|Hn].
    + left. assert (t < - (INR M + 2 - INR i)) by nra. lra.
    + right. assert (t > INR M + 2 - INR i) by nra. lra.
  - destruct (Nat.eq_dec _ _) as [Ek|]; [|auto]. exfalso.
    assert (i = 1)%nat by lia. subst i. simpl (INR 1) in Hgt.
    unfold Rabs in Hgt. destruct (Rcase_abs x); nra.
Qed.

Lemma cut_removed (M i : nat) D xs :
  0 < D -> (1 <= i)%nat ->
  Forall (fun xw => Rabs (fst xw) <= INR M * D /\ 0 <= snd xw) xs ->
  rsum (map snd (filter (fun xw => Rgtb (Rabs (fst xw)) ((INR M + 2 - INR i) * D)) xs))
  <= cut_sum (map (fun k => rsum (map (bin_share (- (INR M * D)) D (2 * M + 1) k) xs)) (seq 0 (2 * M + 1))) (i - 1).
Proof.
  intros HD Hi HF. set (n := (2 * M + 1)%nat). set (b := - (INR M * D)).
  unfold cut_sum. rewrite map_length, seq_length.
  rewrite firstn_map, skipn_map. rewrite (rsum_swap _ (firstn (i - 1) (seq 0 n))), (rsum_swap _ (skipn (n - (i - 1)) (seq 0 n))), <- rsum_map_plus.
  induction HF as [|xw xs [Hx Hw] HF IH]; simpl; [unfold rsum; simpl; lra|].
  rewrite !rsum_cons.
  set (f := fun k => bin_share b D n k xw).
  assert (Hends : 0 <= rsum (map f (firstn (i - 1) (seq 0 n))) /\
                  0 <= rsum (map f (skipn (n - (i - 1)) (seq 0 n)))).
  { split; apply rsum_nonneg, Forall_map, Forall_forall; intros k _; apply share_nonneg; auto. }
  destruct (Rgtb (Rabs (fst xw)) ((INR M + 2 - INR i) * D)) eqn:E.
  - apply Rgtb_true in E. simpl. rewrite rsum_cons.
    assert (T : rsum (map f (seq 0 n)) = snd xw).
    { apply share_total; auto; [unfold n; lia|]. apply Rabs_le_inv in Hx. subst b. lra. }
    assert (B : rsum (map f (seq 0 n)) <= rsum (firstn (i - 1) (map f (seq 0 n)))
        + rsum (skipn (length (map f (seq 0 n)) - (i - 1)) (map f (seq 0 n)))).
    { apply rsum_ends.
      - apply Forall_map, Forall_forall; intros k _; apply share_nonneg; auto.
      - intros k Hk. rewrite map_length, seq_length in Hk.
        rewrite (nth_indep _ 0 (f 0%nat)) by (rewrite map_length, seq_length; lia).
        rewrite map_nth, seq_nth by lia. apply removed_middle_zero with (i := i); auto. }
    rewrite map_length, seq_length, firstn_map, skipn_map in B. rewrite T in B.
    apply Rplus_le_compat; [exact B|exact IH].
  - replace (rsum (map snd (filter _ xs))) with (0 + rsum (map snd (filter (fun xw => Rgtb (Rabs (fst xw)) ((INR M + 2 - INR i) * D)) xs))) by lra.
    apply Rplus_le_compat; [apply Rplus_le_le_0_compat; apply Hends|exact IH].
Qed.

Lemma cut_loop_spec fuel hist thr : forall i i',
  cut_loop fuel hist thr i = Some i' ->
  (i <= i')%nat /\ (i' = i \/ cut_sum hist (i' - 1) < thr) /\ thr <= cut_sum hist i'.
Proof.
  induction fuel as [|fuel IH]; intros i i' E; simpl in E.
  - destruct (Rltb _ _) eqn:G; [discriminate|]. injection E as <-. apply Rltb_false in G. auto.
  - destruct (Rltb _ _) eqn:G.
    + destruct (IH _ _ E) as (H1 & H2 & H3). split; [lia|]. split; [|auto].
      right. destruct H2 as [->|H2]; auto. apply Rltb_true in G. replace (S i - 1)%nat with i by lia. auto.
    + injection E as <-. apply Rltb_false in G. auto.
Qed.

(** The cut loop ends for every cut fraction up to 2. *)
Lemma cut_loop_terminates hist cut : forall fuel i,
  (length hist <= fuel + i)%nat -> cut <= 2 -> 0 <= rsum hist ->
  exists i', cut_loop fuel hist (cut * rsum hist) i = Some i'.
Proof.
  assert (G : forall i, (length hist <= i)%nat -> cut_sum hist i = 2 * rsum hist).
  { intros i Hi. unfold cut_sum. rewrite firstn_all2 by lia.
    replace (length hist - i)%nat with 0%nat by lia. simpl. lra. }
  induction fuel as [|fuel IH]; intros i HL Hc Hp; simpl.
  - rewrite G by lia. destruct (Rltb _ _) eqn:E; eauto. apply Rltb_true in E. nra.
  - destruct (Rltb _ _); eauto. apply IH; auto. lia.
Qed.

Lemma hist_half_covers xap Dx : 0 < Dx -> 0 < xap -> xap <= INR (hist_half xap Dx) * Dx.
Proof.
  intros HD Hx. unfold hist_half. pose proof (rceil_bounds ((xap + 2 * Dx) / Dx)) as B.
  replace ((xap + 2 * Dx) / Dx) with (xap / Dx + 2) in * by (field; lra).
  assert (P : 0 < xap / Dx) by (apply Rdiv_lt_0_compat; auto).
  assert (Z0 : (2 < rceil (xap / Dx + 2))%Z) by (apply lt_IZR; lra).
  rewrite INR_IZR_INZ, Z2Nat.id by lia. rewrite minus_IZR.
  assert (E : xap = xap / Dx * Dx) by (field; lra). set (t := xap / Dx) in *. nra.
Qed.

Definition noT (s : mpsys) : mpsys :=
  mkSys (x_mp s) (y_mp s) (z_mp s) (vx_mp s) (vy_mp s) (vz_mp s) (nel_mp s) (t_last_impact s)
    (N_mp s) false (nel_mp_ref s) (nel_mp_split s) (nel_mp_cl_th s) (nel_mp_ref_0 s)
    (fact_split s) (fact_clean s).

Lemma live_noT s : live (noT s) = map forget_t (live s).
Proof. unfold live. rewrite map_map. reflexivity. Qed.
Lemma wf_noT s : wf s -> wf (noT s).
Proof. intros []; constructor; auto. Qed.
Lemma kept_noT s s' m : kept s s' m false -> kept (noT s) (noT s') m true.
Proof.
  intros [Kx Ky Kz Kvx Kvy Kvz Kn Kt KN Kc Kr]. constructor; auto.
  destruct Kc as (A & B & C & D & E). repeat split; simpl; auto.
Qed.

Lemma filter_ext_map {A B} (f : A -> B) (g : B -> bool) (h : A -> bool) l :
  (forall a, h a = g (f a)) -> filter g (map f l) = map f (filter h l).
Proof.
  intros H. induction l as [|a l IH]; simpl; auto. rewrite H, IH. destruct (g (f a)); auto.
Qed.

Lemma map_x_live s : wf s -> map m_x (live s) = firstn (N_mp s) (x_mp s).
Proof.
  intros W. unfold live. rewrite map_map. apply nth_ext with (d := 0) (d' := 0).
  - rewrite map_length, seq_length, firstn_length. destruct W. unfold capacity in *. lia.
  - intros i Hi. rewrite map_length, seq_length in Hi.
    rewrite (nth_indep _ 0 (m_x (mp_at s 0))) by (rewrite map_length, seq_length; auto).
    rewrite (map_nth (fun i => m_x (mp_at s i))), seq_nth by auto. rewrite nth_firstn by auto. reflexivity.
Qed.

Lemma keep_flags s (f : R -> bool) : wf s ->
  slice_fill (map f (x_mp s)) (N_mp s) (length (map f (x_mp s))) false
  = map f (firstn (N_mp s) (x_mp s)) ++ repeat false (capacity s - N_mp s).
Proof.
  intros W. rewrite slice_fill_exact.
  - rewrite map_length, firstn_map. fold (capacity s). rewrite skipn_all2; [rewrite app_nil_r; auto|].
    rewrite map_length. unfold capacity. lia.
  - destruct W. rewrite map_length. fold (capacity s). lia.
  - lia.
Qed.

Lemma regen_cut_spec x_max s :
  wf s -> exists s2, regen_cut x_max s = Some s2 /\ wf s2 /\ tail_zero s2 /\ same_cfg s s2 /\
    map forget_t (live s2) = map forget_t (within_cut x_max (live s)) /\
    nel_mp_ref s2 = nel_mp_ref s /\ nel_mp_split s2 = nel_mp_split s /\ nel_mp_cl_th s2 = nel_mp_cl_th s.
Proof.
  intros W. unfold regen_cut. rewrite map_map.
  rewrite keep_flags by auto.
  set (m := map (fun x => negb (Rgtb (Rabs x) x_max)) (firstn (N_mp s) (x_mp s))).
  assert (Lm : length m = N_mp s).
  { subst m. rewrite map_length, firstn_length. destruct W. unfold capacity in *. lia. }
  destruct (keep_masked_kept s m false W Lm) as (s2 & E & K & W2 & T2).
  exists s2. split; [exact E|]. split; [auto|]. split; [auto|]. split; [apply K|].
  split; [|destruct K as [_ _ _ _ _ _ _ _ _ _ Kr]; exact Kr].
  rewrite <- !live_noT. rewrite (kept_live (noT s) (noT s2) m); auto using wf_noT, kept_noT.
  rewrite live_noT, mask_get_map. f_equal. unfold within_cut. rewrite <- mask_get_filter. f_equal.
  subst m. rewrite <- map_x_live by auto. rewrite map_map. apply map_ext. intros p.
  unfold Rgtb, Rltb, Rleb. destruct (Rlt_dec _ _), (Rle_dec _ _); auto; lra.
Qed.

Lemma vmax_spec v : 0 < vmax v /\ Forall (fun x => Rabs x <= vmax v) v.
Proof.
  assert (G : 0 <= fold_right Rmax 0 (map Rabs v) /\ Forall (fun x => Rabs x <= fold_right Rmax 0 (map Rabs v)) v).
  { induction v as [|x v [I1 I2]]; simpl; [split; [lra|constructor]|].
    split; [eapply Rle_trans; [exact I1|apply Rmax_r]|]. constructor; [apply Rmax_l|].
    eapply Forall_impl; [|exact I2]. intros a Ha. eapply Rle_trans; [exact Ha|apply Rmax_r]. }
  destruct G as [G1 G2]. unfold vmax. destruct (Reqb _ _) eqn:E.
  - apply Reqb_true in E. split; [lra|]. eapply Forall_impl; [|exact G2]. simpl; intros. lra.
  - apply Reqb_false in E. split; [lra|]. auto.
Qed.

Definition mp_cell cfg d (p : mp) : Z := mp_index cfg d (m_x p) (m_y p) (m_vx p) (m_vy p) (m_vz p).

Lemma mp_indexes_live cfg d s l :
  map forget_t (live s) = map forget_t l -> mp_indexes cfg d s = map (mp_cell cfg d) l.
Proof.
  intros H. transitivity (map (mp_cell cfg d) (map forget_t (live s))).
  - unfold mp_indexes, live. rewrite !map_map. reflexivity.
  - rewrite H, map_map. reflexivity.
Qed.

Lemma nel_forget s l : wf s ->
  map forget_t (live s) = map forget_t l -> firstn (N_mp s) (nel_mp s) = map m_nel l.
Proof.
  intros W H. rewrite <- map_nel_live by auto.
  transitivity (map m_nel (map forget_t (live s))); [rewrite map_map; reflexivity|].
  rewrite H, map_map. reflexivity.
Qed.

Lemma cell_charge_in cfg d l c :
  cell_charge (map (mp_cell cfg d) l) (map m_nel l) c = charge_in cfg d c l.
Proof.
  rewrite cell_charge_sum. unfold charge_in. f_equal.
  induction l as [|p l IH]; simpl; auto. fold (mp_cell cfg d p).
  destruct (mp_cell cfg d p =? c)%Z; simpl; rewrite IH; auto.
Qed.

Lemma vel_forget s l p : map forget_t (live s) = map forget_t l -> In p l ->
  wf s ->
  In (m_vx p) (vx_mp s) /\ In (m_vy p) (vy_mp s) /\ In (m_vz p) (vz_mp s).
Proof.
  intros H Hp W. assert (Hf : In (forget_t p) (map forget_t (live s))) by (rewrite H; apply in_map; auto).
  apply in_map_iff in Hf as (q & Eq & Hq). unfold live in Hq. apply in_map_iff in Hq as (j & <- & Hj).
  apply in_seq in Hj. destruct W. unfold capacity in *.
  assert (E1 : m_vx p = nth j (vx_mp s) 0) by (change (m_vx (forget_t p) = nth j (vx_mp s) 0); rewrite <- Eq; reflexivity).
  assert (E2 : m_vy p = nth j (vy_mp s) 0) by (change (m_vy (forget_t p) = nth j (vy_mp s) 0); rewrite <- Eq; reflexivity).
  assert (E3 : m_vz p = nth j (vz_mp s) 0) by (change (m_vz (forget_t p) = nth j (vz_mp s) 0); rewrite <- Eq; reflexivity).
  rewrite E1, E2, E3. repeat split; apply nth_In; lia.
Qed.

Lemma nsum_Z num : Forall (fun z => 0 <= z)%Z num ->
  Z.to_nat (fold_right Z.add 0%Z num) = nsum (map Z.to_nat num).
Proof.
  induction 1 as [|z num Hz HF IH]; simpl; auto.
  assert (0 <= fold_right Z.add 0 num)%Z by (clear IH; induction HF; simpl; lia).
  rewrite Z2Nat.inj_add by auto. rewrite IH. reflexivity.
Qed.

Lemma Forall2_intro {A B} (P : A -> B -> Prop) a b :
  length a = length b ->
  (forall i x y, nth_error a i = Some x -> nth_error b i = Some y -> P x y) -> Forall2 P a b.
Proof.
  revert b; induction a as [|x a IH]; intros [|y b] HL H; simpl in *; try discriminate; auto.
  constructor; [apply (H 0%nat); auto|]. apply IH; [lia|]. intros i u v Hu Hv. apply (H (S i)); auto.
Qed.

Lemma combine_map2 {A} (f g : A -> R) l : combine (map f l) (map g l) = map (fun p => (f p, g p)) l.
Proof. induction l; simpl; auto. f_equal; auto. Qed.

Lemma regen_x_max_spec fuel cfg s x_max c :
  wf s -> hist_cfg_ok cfg (x_aper c) -> 0 <= regen_hist_cut cfg ->
  Forall (fun p => Rabs (m_x p) <= x_aper c /\ 0 <= m_nel p) (live s) ->
  regen_x_max fuel cfg s = Some x_max ->
  charge s - rsum (map m_nel (within_cut x_max (live s))) <= regen_hist_cut cfg * charge s.
Proof.
  intros W (HD & Hx & Hn & Hb) Hcut HF E. unfold regen_x_max in E.
  rewrite <- map_x_live, <- map_nel_live, combine_map2 in E by auto.
  set (xs := map (fun p => (m_x p, m_nel p)) (live s)) in *.
  set (D := Dx_hist_reg cfg) in *. set (M := hist_half (x_aper c) D) in *.
  rewrite Hn, Hb in E. unfold hist_grid_len, hist_grid_bias in E. fold M in E.
  pose proof (hist_half_covers (x_aper c) D HD Hx) as Cov. fold M in Cov.
  assert (HF' : Forall (fun xw => Rabs (fst xw) <= INR M * D /\ 0 <= snd xw) xs).
  { subst xs. apply Forall_map. eapply Forall_impl; [|exact HF]. simpl. intros p []. split; auto; lra. }
  destruct (hist_as_map (- (INR M * D)) D xs (2 * M + 1) HD ltac:(lia)) as [E1 E2].
  { intros xw Hin. rewrite Forall_forall in HF'. destruct (HF' _ Hin) as [G _]. apply Rabs_le_inv in G. lra. }
  rewrite E1 in E. cbn [bind] in E. rewrite E2 in E.
  assert (Esum : rsum (map snd xs) = charge s).
  { subst xs. unfold charge. rewrite map_map. reflexivity. }
  rewrite Esum in E.
  destruct (cut_loop _ _ _ _) as [i|] eqn:EL; [|discriminate]. cbn [bind] in E. injection E as E.
  apply cut_loop_spec in EL as (L1 & L2 & L3).
  pose proof (cut_removed M i D xs HD L1 HF') as CR.
  assert (Ex : (INR M + 2 - INR i) * D = x_max).
  { rewrite <- E. rewrite map_length, seq_length.
    rewrite plus_IZR, minus_IZR, <- !INR_IZR_INZ, !plus_INR. simpl. rewrite ?Rplus_0_r, ?plus_INR. simpl. ring. }
  rewrite Ex in CR.
  assert (Esplit : charge s - rsum (map m_nel (within_cut x_max (live s)))
     = rsum (map snd (filter (fun xw => Rgtb (Rabs (fst xw)) x_max) xs))).
  { subst xs. rewrite (filter_ext_map _ _ (fun p => Rgtb (Rabs (m_x p)) x_max)) by reflexivity.
    rewrite map_map. simpl. unfold charge, within_cut. clear. induction (live s) as [|p l IH]; simpl.
    - unfold rsum; simpl; lra.
    - unfold Rgtb, Rltb, Rleb in *. rewrite rsum_cons. destruct (Rlt_dec _ _), (Rle_dec _ _); simpl; rewrite ?rsum_cons; lra. }
  rewrite Esplit.
  assert (0 <= charge s).
  { unfold charge. apply rsum_nonneg, Forall_map. eapply Forall_impl; [|exact HF]. simpl; intros ? []; auto. }
  assert (0 <= regen_hist_cut cfg * charge s) by (apply Rmult_le_pos; auto).
  destruct L2 as [->|L2]; [|lra].
  eapply Rle_trans; [exact CR|]. unfold cut_sum. simpl (1 - 1)%nat.
  rewrite Nat.sub_0_r, skipn_all. simpl. unfold rsum; simpl. lra.
Qed.

Lemma slice_set_overflow' (a : list R) c n :
  (length a < n)%nat -> n <> 1%nat -> slice_set a 0 n (repeat c n) = None.
Proof.
  intros H1 H2. apply (slice_set_overflow a (repeat c n) 0 n); rewrite ?repeat_length; lia.
Qed.

Lemma regen_main fuel fuel_in cfg c rng k s s' k' :
  wf s -> tail_zero s -> unit_rng rng ->
  hist_cfg_ok cfg (x_aper c) -> 0 <= regen_hist_cut cfg ->
  (0 < N_mp_after_regen cfg)%nat -> 0 < nel_mp_ref_0 s ->
  Forall (fun p => Rabs (m_x p) <= x_aper c /\ 0 <= m_nel p) (live s) ->
  regen_needed cfg s = true ->
  check_for_regeneration fuel fuel_in cfg c rng k s = Some (s', k') ->
  exists x_max d owners,
    let kept := within_cut x_max (live s) in
    let ref := Rmax (nel_mp_ref_0 s) (charge s / INR (N_mp_after_regen cfg)) in
    steps_ok cfg x_max (y_aper c) kept d /\
    nel_mp_ref s' = ref /\ sizes_ok s' /\ same_cfg s s' /\ wf s' /\ tail_zero s' /\
    Forall2 (regenerated cfg c d ref) owners
      (map (fun p => if flag_lifetime_hist s then p else forget_t p) (live s')) /\
    (forall o, Rabs (INR (count_occ Z.eq_dec owners o) * ref - charge_in cfg d o kept) < ref) /\
    charge s - rsum (map m_nel kept) <= regen_hist_cut cfg * charge s.
Proof.
  intros W T HU HC Hcut HN Hr0 HF Hneed E. unfold check_for_regeneration in E. rewrite Hneed in E.
  set (ref := Rmax (nel_mp_ref_0 s) (charge s / INR (N_mp_after_regen cfg))).
  assert (Eref : new_ref s (N_mp_after_regen cfg) = ref).
  { unfold new_ref. rewrite rsum_all_tail_zero by auto. unfold ref, Rmax, Rltb.
    destruct (Rlt_dec _ _), (Rle_dec _ _); lra. }
  rewrite Eref in E. set (s1 := set_nel_mp_ref s ref) in *.
  assert (W1 : wf s1) by (apply set_ref_wf; auto).
  destruct (regen_x_max fuel cfg s1) as [x_max|] eqn:EX; [|discriminate]. cbn [bind] in E.
  assert (HX : charge s - rsum (map m_nel (within_cut x_max (live s))) <= regen_hist_cut cfg * charge s)
    by exact (regen_x_max_spec fuel cfg s1 x_max c W1 HC Hcut HF EX).
  destruct (regen_cut_spec x_max s1 W1) as (s2 & Ec & W2 & T2 & C2 & L2 & R2 & R2' & R2'').
  change (live s1) with (live s) in L2. rewrite Ec in E. cbn [bind] in E.
  set (kept := within_cut x_max (live s)) in *.
  set (d := regen_steps cfg x_max (y_aper c) s2) in *.
  rewrite (mp_indexes_live cfg d s2 kept L2), (nel_forget s2 kept W2 L2) in E.
  set (idx := map (mp_cell cfg d) kept) in *.
  destruct (sorted_set_spec idx) as [ND Hin]. set (cells := sorted_set idx) in *.
  rewrite (map_ext _ _ (cell_charge_in cfg d kept)) in E.
  change (nel_mp_ref s1) with ref in R2. rewrite R2 in E.
  set (num := map2 (fun q u => stoch_round (q / ref) u)
      (map (fun c0 => charge_in cfg d c0 kept) cells) (draw rng k (length cells))) in *.
  assert (Href : 0 < ref) by (unfold ref; eapply Rlt_le_trans; [exact Hr0|apply Rmax_l]).
  assert (Lnum : length cells = length num).
  { subst num. rewrite map2_length, map_length, draw_length. lia. }
  assert (Hkin : forall p, In p kept -> In p (live s)).
  { intros p Hp. apply filter_In in Hp. tauto. }
  assert (Hq : forall o, 0 <= charge_in cfg d o kept).
  { intros o. apply rsum_nonneg, Forall_map, Forall_forall. intros p Hp. apply filter_In in Hp as [Hp _].
    rewrite Forall_forall in HF. apply HF; auto. }
  assert (Hnum : forall j o z, nth_error cells j = Some o -> nth_error num j = Some z ->
      exists u, 0 <= u < 1 /\ z = stoch_round (charge_in cfg d o kept / ref) u).
  { subst num. assert (HU' := draw_unit rng k (length cells) HU). revert HU'.
    generalize (draw rng k (length cells)). generalize cells. clear. induction cells as [|a l IH];
    intros us HU [|j] o z Ho Hz; destruct us as [|u us]; simpl in *; try discriminate.
    - injection Ho as ->. injection Hz as <-. inversion HU; subst. eauto.
    - inversion HU; subst. eapply IH; eauto. }
  assert (Hnn : Forall (fun z => 0 <= z)%Z num).
  { apply Forall_forall. intros z Hz. apply In_nth_error in Hz as (j & Hj).
    destruct (nth_error cells j) as [o|] eqn:Ho.
    - destruct (Hnum j o z Ho Hj) as (u & _ & ->). apply stoch_round_nonneg.
      apply Rmult_le_pos; [apply Hq|]. left. apply Rinv_0_lt_compat; auto.
    - exfalso. apply nth_error_None in Ho. assert (j < length num)%nat by (apply nth_error_Some; congruence). lia. }
  rewrite nsum_Z in E by auto. set (Nex := nsum (map Z.to_nat num)) in *.
  fold (capacity s2) in E. rewrite (wf_nel s2 W2) in E.
  set (cap := capacity s2) in *.
  assert (Hcap : (Nex <= cap)%nat \/ Nex = 1%nat /\ cap = 0%nat).
  { destruct (Nat.le_gt_cases Nex cap); auto. right.
    destruct (Nat.eq_dec Nex 1) as [E1|E1]; [lia|]. exfalso.
    rewrite slice_set_overflow' in E by (rewrite ?repeat_length; lia). discriminate. }
  assert (Hfit : (Nex <= cap)%nat).
  { destruct Hcap as [|[HN1 Hc0]]; auto. exfalso.
    assert (Hk0 : kept = []).
    { assert (N0 : N_mp s2 = 0%nat) by (pose proof (wf_N s2 W2) as G; change (capacity s2) with cap in G; lia).
      assert (Hl : live s2 = []) by (unfold live; rewrite N0; auto). rewrite Hl in L2.
      apply (f_equal (@length mp)) in L2. rewrite !map_length in L2. simpl in L2.
      apply length_zero_iff_nil. auto. }
    assert (num = []).
    { destruct num; auto. subst cells idx. rewrite Hk0 in Lnum. discriminate. }
    subst Nex. rewrite H in HN1. discriminate. }
  clear Hcap.
  rewrite slice_set_exact in E; [|lia|rewrite repeat_length; lia|rewrite repeat_length; lia].
  cbn [bind] in E.
  destruct (fill_loop _ _ _ _ _ _ _ _) as [st|] eqn:EF; [|discriminate]. cbn [bind] in E.
  assert (I0 : fill_inv c d cap (cell_centre cfg d)
      (mkFill (repeat 0 cap) (repeat 0 cap) (repeat 0 cap) (repeat 0 cap) (repeat 0 cap) 0 (k + length cells)) []).
  { constructor; simpl; rewrite ?repeat_length; auto; try lia. intros [|i] ? ?; discriminate. }
  destruct (fill_loop_spec fuel fuel_in c d cap (cell_centre cfg d) cells rng num _ [] st HU ND Lnum I0 ltac:(simpl; lia) EF)
    as (own & [Ix Iy Ivx Ivy Ivz IN If Is] & Oin & Ocnt & Olen).
  simpl app in *. fold Nex in Olen.
  injection E as <- <-.
  exists x_max, d, own. cbv zeta. fold ref kept.
  destruct C2 as (C21 & C22 & C23 & C24 & C25). change (capacity s1) with (capacity s) in C21.
  change (flag_lifetime_hist s1) with (flag_lifetime_hist s) in C22.
  fold cap in C21.
  split; [|split; [|split; [|split; [|split; [|split; [|split; [|split]]]]]]].
  - (* steps *)
    exists (vmax (vx_mp s2)), (vmax (vy_mp s2)), (vmax (vz_mp s2)).
    destruct (vmax_spec (vx_mp s2)) as [A1 A2]. destruct (vmax_spec (vy_mp s2)) as [B1 B2].
    destruct (vmax_spec (vz_mp s2)) as [D1 D2].
    split; [reflexivity|]. split; [reflexivity|]. split; [reflexivity|]. split; [reflexivity|].
    split; [reflexivity|]. split; [auto|]. split; [auto|]. split; [auto|].
    apply Forall_forall. intros p Hp. destruct (vel_forget s2 kept p L2 Hp W2) as (V1 & V2 & V3).
    rewrite Forall_forall in A2, B2, D2. auto.
  - reflexivity.
  - unfold sizes_ok. simpl. rewrite R2', R2'', C24, C25. split; reflexivity.
  - unfold same_cfg, capacity. simpl. rewrite Ix. repeat split; auto.
  - constructor; unfold capacity; simpl; rewrite ?Ix, ?Iy, ?Ivx, ?Ivy, ?Ivz, ?app_length, ?repeat_length, ?skipn_length, ?repeat_length; auto; try lia.
    destruct (flag_lifetime_hist s2); rewrite ?map_length; apply (wf_t s2 W2).
  - unfold tail_zero, capacity. simpl. rewrite Ix. intros i Hi.
    rewrite app_nth2 by (rewrite repeat_length; lia). rewrite nth_skipn'. apply nth_repeat.
  - apply Forall2_intro.
    + rewrite map_length, live_length. simpl. lia.
    + intros i o p Ho Hp. rewrite nth_error_map in Hp. unfold live in Hp.
      rewrite nth_error_map in Hp. cbn [N_mp] in Hp.
      destruct (nth_error (seq 0 (f_N st)) i) as [i'|] eqn:Ei; [|discriminate].
      assert (Hi : (i < f_N st)%nat).
      { rewrite <- (seq_length (f_N st) 0). apply nth_error_Some. congruence. }
      assert (i' = i).
      { apply nth_error_nth with (d := 0%nat) in Ei. rewrite seq_nth in Ei by auto. lia. }
      subst i'. cbn [option_map] in Hp. injection Hp as <-.
      destruct (Is i o Ho) as (S1 & S2 & S3 & S4 & S5 & S6).
      assert (Hnel : nth i (repeat ref Nex ++ skipn Nex (repeat 0 cap)) 0 = ref).
      { rewrite app_nth1 by (rewrite repeat_length; lia). apply nth_repeat_lt. lia. }
      rewrite <- C22.
      assert (Ht : flag_lifetime_hist s2 = true -> nth i (map (fun _ : R => -1) (t_last_impact s2)) 0 = -1).
      { intros _. rewrite (nth_indep _ 0 (-1)).
        - exact (map_nth (fun _ : R => -1) (t_last_impact s2) 0 i).
        - rewrite map_length, (wf_t s2 W2). fold cap. lia. }
      cbv beta; unfold regenerated, in_box, inside.
      destruct (flag_lifetime_hist s2) eqn:Efl; simpl.
      * split; [repeat split; assumption|]. split; [exact S6|]. split; [exact Hnel|].
        split; [apply nth_repeat|]. auto.
      * split; [repeat split; assumption|]. split; [exact S6|]. split; [exact Hnel|].
        split; [apply nth_repeat|]. auto.
  - intros o. destruct (in_dec Z.eq_dec o cells) as [Ho|Ho].
    + apply In_nth_error in Ho as (j & Hj).
      destruct (nth_error num j) as [z|] eqn:Hz.
      2:{ exfalso. apply nth_error_None in Hz. assert (j < length cells)%nat by (apply nth_error_Some; congruence). lia. }
      rewrite (Ocnt j o z Hj Hz). destruct (Hnum j o z Hj Hz) as (u & Hu & Ez).
      assert (0 <= z)%Z by (rewrite Forall_forall in Hnn; apply Hnn; eapply nth_error_In; eauto).
      rewrite INR_IZR_INZ, Z2Nat.id by auto.
      pose proof (stoch_round_err (charge_in cfg d o kept / ref) u (proj1 Hu)) as Er. rewrite <- Ez in Er.
      replace (IZR z * ref - charge_in cfg d o kept) with ((IZR z - charge_in cfg d o kept / ref) * ref) by (field; lra).
      rewrite Rabs_mult, (Rabs_pos_eq ref) by lra. nra.
    + rewrite (proj1 (count_occ_not_In Z.eq_dec own o)) by (intros H; apply Ho, Oin; auto).
      assert (Z0 : charge_in cfg d o kept = 0).
      { unfold charge_in. replace (filter _ kept) with (@nil mp); [reflexivity|].
        symmetry. assert (Hnot : forall p, In p kept -> mp_cell cfg d p <> o).
        { intros p Hp He. apply Ho, Hin. subst idx. rewrite <- He. apply in_map; auto. }
        revert Hnot. generalize kept. clear. induction kept as [|p l IH]; intros Hn; simpl; auto.
        fold (mp_cell cfg d p). destruct (Z.eqb_spec (mp_cell cfg d p) o) as [He|].
        - exfalso. apply (Hn p); simpl; auto.
        - apply IH. intros; apply Hn; simpl; auto. }
      rewrite Z0. simpl. rewrite Rmult_0_l, Rminus_0_r, Rabs_R0. auto.
  - exact HX.
Qed.

Lemma rsum_Rabs {A} (f : A -> R) l : Rabs (rsum (map f l)) <= rsum (map (fun a => Rabs (f a)) l).
Proof.
  induction l as [|a l IH]; simpl; [unfold rsum; simpl; rewrite Rabs_R0; lra|].
  rewrite !rsum_cons. eapply Rle_trans; [apply Rabs_triang|]. lra.
Qed.

Lemma regen_total cfg d ref (kept : list mp) owners :
  (forall o, Rabs (INR (count_occ Z.eq_dec owners o) * ref - charge_in cfg d o kept) < ref) ->
  Rabs (INR (length owners) * ref - rsum (map m_nel kept)) <= INR (n_cells cfg d kept) * ref.
Proof.
  intros H. unfold n_cells. change (fun p => mp_index cfg d (m_x p) (m_y p) (m_vx p) (m_vy p) (m_vz p)) with (mp_cell cfg d).
  set (cells := nodup Z.eq_dec (map (mp_cell cfg d) kept)).
  assert (ND : NoDup cells) by apply NoDup_nodup.
  assert (Hin : forall p, In p kept -> In (mp_cell cfg d p) cells).
  { intros p Hp. apply nodup_In, in_map; auto. }
  assert (Hown : forall o, In o owners -> In o cells).
  { intros o Ho. destruct (in_dec Z.eq_dec o cells) as [|Hn]; auto. exfalso.
    assert (Z0 : charge_in cfg d o kept = 0).
    { unfold charge_in. replace (filter _ kept) with (@nil mp); [reflexivity|]. symmetry.
      assert (Hnot : forall p, In p kept -> mp_cell cfg d p <> o) by (intros p Hp <-; auto).
      revert Hnot. clear. induction kept as [|p l IH]; intros Hn; simpl; auto.
      fold (mp_cell cfg d p). destruct (Z.eqb_spec (mp_cell cfg d p) o) as [He|].
      - exfalso. apply (Hn p); simpl; auto.
      - apply IH. intros; apply Hn; simpl; auto. }
    specialize (H o). rewrite Z0, Rminus_0_r in H.
    apply (count_occ_In Z.eq_dec) in Ho. apply lt_le_S, le_INR in Ho. simpl (INR 1) in Ho.
    assert (0 < ref) by (eapply Rle_lt_trans; [apply Rabs_pos|exact H]).
    rewrite Rabs_pos_eq in H by nra. nra. }
  assert (E1 : INR (length owners) * ref = rsum (map (fun o => INR (count_occ Z.eq_dec owners o) * ref) cells)).
  { assert (G : rsum (map (fun c => rsum (map (fun _ : Z * R => ref) (filter (fun p => (fst p =? c)%Z) (map (fun o => (o, ref)) owners)))) cells)
       = rsum (map (fun _ : Z * R => ref) (map (fun o => (o, ref)) owners))).
    { apply cells_total; auto. intros p Hp. apply in_map_iff in Hp as (o & <- & Ho). apply Hown; auto. }
    rewrite map_map in G. rewrite (rsum_ext (fun _ : Z => ref) (fun _ => ref * 1)) in G by (intros; ring).
    assert (Hc : forall (A : Type) (l : list A), rsum (map (fun _ => ref * 1) l) = INR (length l) * ref).
    { intros A l. rewrite <- rsum_repeat. f_equal. induction l; simpl; f_equal; auto. ring. }
    rewrite Hc in G. rewrite <- G. apply rsum_ext. intros c Hc'.
    rewrite (rsum_ext _ (fun _ => ref * 1)) by (intros; ring). rewrite Hc. f_equal. f_equal.
    clear. induction owners as [|o l IH]; simpl; auto.
    destruct (Z.eqb_spec o c), (Z.eq_dec o c); simpl; try congruence; auto. }
  assert (E2 : rsum (map m_nel kept) = rsum (map (fun o => charge_in cfg d o kept) cells)).
  { rewrite <- (rsum_cell_charge (map (mp_cell cfg d) kept) (map m_nel kept) cells ND).
    - apply rsum_ext. intros; apply cell_charge_in.
    - intros c Hc. apply in_map_iff in Hc as (p & <- & Hp); auto.
    - rewrite !map_length; auto. }
  rewrite E1, E2, <- rsum_map_minus. eapply Rle_trans; [apply rsum_Rabs|].
  rewrite <- rsum_repeat. rewrite <- (map_id (repeat ref _)).
  clear E1 E2 ND Hin Hown. induction cells as [|c cells IH]; simpl; [lra|].
  rewrite !rsum_cons. specialize (H c). lra.
Qed.

(** Position of an MP relative to the centre of its cell. *)
Lemma mp_near_cell cfg x_max y_ap l d p :
  good_sizes cfg -> 0 < x_max -> 0 < y_ap -> steps_ok cfg x_max y_ap l d ->
  In p l -> Rabs (m_x p) <= x_max -> Rabs (m_y p) <= y_ap ->
  in_box d (cell_centre cfg d (mp_index cfg d (m_x p) (m_y p) (m_vx p) (m_vy p) (m_vz p))) p.
Proof.
  intros (G1 & G2 & G3 & G4 & G5) Hx Hy (hx & hy & hz & S1 & S2 & S3 & S4 & S5 & P1 & P2 & P3 & HF) Hp Bx By.
  rewrite Forall_forall in HF. destruct (HF p Hp) as (B1 & B2 & B3).
  assert (NZ : forall h N, 0 < h -> good_size N -> 2 * h / IZR (N - 1) <> 0).
  { intros h N Hh [HN _]. assert (0 < IZR (N - 1)) by (apply (IZR_lt 0); lia).
    apply Rgt_not_eq. apply Rdiv_lt_0_compat; lra. }
  unfold mp_index, cell_centre.
  rewrite unflatten_flat.
  - unfold in_box; simpl. rewrite S1, S2, S3, S4, S5.
    split; [apply reg_index_near; apply NZ; auto|]. split; [apply reg_index_near; apply NZ; auto|].
    split; [apply reg_index_near; apply NZ; auto|]. split; [apply reg_index_near; apply NZ; auto|].
    apply reg_index_near; apply NZ; auto.
  - rewrite S1, S2, S3, S4, S5.
    split; [apply reg_index_range; auto; apply G1|]. split; [apply reg_index_range; auto; apply G2|].
    split; [apply reg_index_range; auto; apply G3|]. split; [apply reg_index_range; auto; apply G4|].
    apply reg_index_range; auto; apply G5.
Qed.

(* ---------- progress when no position is rejected ---------- *)
Lemma map2_false_count {A B} (f : A -> B -> bool) a b :
  (forall x y, f x y = false) -> count_true (map2 f a b) = 0%nat.
Proof. intros H. revert b; induction a; intros [|y b]; simpl; auto. rewrite H. simpl. auto. Qed.

Lemma redraw_total fuel c Dx Dy cxs cys rng k xt yt :
  (forall x y, outside c x y = false) ->
  redraw_cells fuel c Dx Dy cxs cys rng k xt yt = Some (xt, yt, k).
Proof. intros H. destruct fuel; simpl; rewrite map2_false_count by auto; reflexivity. Qed.

Lemma fill_loop_total fuel fuel_in ch d cap cells rng :
  (forall x y, outside ch x y = false) ->
  forall num st, length cells = length num ->
  length (f_x st) = cap -> length (f_y st) = cap -> length (f_vx st) = cap ->
  length (f_vy st) = cap -> length (f_vz st) = cap ->
  (f_N st + nsum (map Z.to_nat num) <= cap)%nat ->
  Forall (fun z => (Z.to_nat z <= fuel)%nat) num ->
  exists st', fill_loop fuel fuel_in ch d cells num rng st = Some st'.
Proof.
  intros Hout. induction fuel as [|fuel IH]; intros num st HL Hx Hy Hvx Hvy Hvz Hfit HF.
  - cbn [fill_loop]. assert (E0 : count_true (map (fun n => (0 <? n)%Z) num) = 0%nat).
    { clear -HF. induction HF as [|z num Hz HF IH]; simpl; auto.
      destruct (Z.ltb_spec 0 z); [lia|]. auto. }
    rewrite E0. simpl. eauto.
  - cbn [fill_loop]. set (flag := map (fun n => (0 <? n)%Z) num).
    destruct (Nat.eqb_spec (count_true flag) 0); [eauto|].
    rewrite redraw_total by auto. cbn [bind].
    set (n0 := count_true flag) in *. set (sel := mask_get flag cells).
    assert (Lsel : length sel = n0).
    { subst sel n0 flag. apply mask_get_length. rewrite map_length. lia. }
    pose proof (dec_num_sum num) as DS. fold flag in DS. fold n0 in DS.
    rewrite !slice_set_exact by (rewrite ?jitter_length, ?map_length; rewrite ?draw_length, ?map_length; lia).
    cbn [bind]. apply IH; simpl; try (apply ins_length; rewrite ?jitter_length, ?map_length; rewrite ?draw_length, ?map_length; lia).
    + change (length cells = length (dec_num flag num)). unfold flag. rewrite dec_num_length; auto.
    + change (f_N st + n0 + nsum (map Z.to_nat (dec_num flag num)) <= cap)%nat. lia.
    + change (Forall (fun z => (Z.to_nat z <= fuel)%nat) (dec_num flag num)).
      subst flag. clear -HF. unfold dec_num. induction HF as [|z num Hz HF IH]; simpl; constructor; auto.
      destruct (Z.ltb_spec 0 z); lia.
Qed.

Lemma regen_progress fuel fuel_in cfg c rng k s :
  wf s -> tail_zero s -> unit_rng rng -> hist_cfg_ok cfg (x_aper c) -> regen_hist_cut cfg <= 2 ->
  (0 < N_mp_after_regen cfg)%nat -> 0 < nel_mp_ref_0 s ->
  Forall (fun p => Rabs (m_x p) <= x_aper c /\ 0 <= m_nel p) (live s) ->
  (forall x y, outside c x y = false) ->
  (N_mp_after_regen cfg + N_mp s <= capacity s)%nat ->
  (Nxg_hist_reg cfg + N_mp_after_regen cfg + 2 <= fuel)%nat ->
  exists s' k', check_for_regeneration fuel fuel_in cfg c rng k s = Some (s', k').
Proof.
  intros W T HU (HD & Hxa & Hng & Hb) Hcut HN Hr0 HF Hout Hcap Hfuel.
  unfold check_for_regeneration. destruct (regen_needed cfg s); [|eauto].
  set (ref := new_ref s (N_mp_after_regen cfg)).
  assert (Hnp : 0 < INR (N_mp_after_regen cfg)) by (apply lt_0_INR; auto).
  assert (Href : 0 < ref /\ charge s / INR (N_mp_after_regen cfg) <= ref).
  { unfold ref, new_ref. rewrite rsum_all_tail_zero by auto. unfold Rltb.
    destruct (Rlt_dec _ _); split; lra. }
  destruct Href as [Href Href2].
  set (s1 := set_nel_mp_ref s ref).
  assert (W1 : wf s1) by (apply set_ref_wf; auto).
  assert (Hch : 0 <= charge s).
  { unfold charge. apply rsum_nonneg, Forall_map. eapply Forall_impl; [|exact HF]. simpl; intros ? []; auto. }
  assert (EX : exists x_max, regen_x_max fuel cfg s1 = Some x_max).
  { unfold regen_x_max. rewrite <- map_x_live, <- map_nel_live, combine_map2 by auto.
    change (live s1) with (live s). set (xs := map (fun p => (m_x p, m_nel p)) (live s)).
    assert (Hn0 : (0 < Nxg_hist_reg cfg)%nat) by (rewrite Hng; unfold hist_grid_len; lia).
    destruct (hist_as_map (bias_x_hist_reg cfg) (Dx_hist_reg cfg) xs (Nxg_hist_reg cfg) HD Hn0) as [E1 E2].
    - intros xw Hin. subst xs. apply in_map_iff in Hin as (p & <- & Hp). simpl.
      rewrite Forall_forall in HF. destruct (HF p Hp) as [G _]. apply Rabs_le_inv in G.
      rewrite Hb. unfold hist_grid_bias. pose proof (hist_half_covers _ _ HD Hxa). lra.
    - rewrite E1. cbn [bind].
      match goal with |- context [cut_loop fuel ?h _ 1] => set (hst := h) in * end.
      destruct (cut_loop_terminates hst (regen_hist_cut cfg) fuel 1) as (i' & Ei).
      + subst hst. rewrite map_length, seq_length. lia.
      + auto.
      + rewrite E2. subst xs. rewrite map_map. exact Hch.
      + rewrite Ei. cbn [bind]. eauto. }
  destruct EX as (x_max & EX). rewrite EX. cbn [bind].
  destruct (regen_cut_spec x_max s1 W1) as (s2 & Ec & W2 & T2 & C2 & L2 & R2 & R2' & R2'').
  change (live s1) with (live s) in L2. rewrite Ec. cbn [bind].
  set (kept := within_cut x_max (live s)) in *.
  set (d := regen_steps cfg x_max (y_aper c) s2) in *.
  rewrite (mp_indexes_live cfg d s2 kept L2), (nel_forget s2 kept W2 L2).
  set (idx := map (mp_cell cfg d) kept) in *.
  destruct (sorted_set_spec idx) as [ND Hin]. set (cells := sorted_set idx) in *.
  rewrite (map_ext _ _ (cell_charge_in cfg d kept)).
  change (nel_mp_ref s1) with ref in R2. rewrite R2.
  set (num := map2 (fun q u => stoch_round (q / ref) u)
      (map (fun c0 => charge_in cfg d c0 kept) cells) (draw rng k (length cells))) in *.
  assert (Lnum : length cells = length num).
  { subst num. rewrite map2_length, map_length, draw_length. lia. }
  assert (Hkin : forall p, In p kept -> In p (live s)).
  { intros p Hp. apply filter_In in Hp. tauto. }
  assert (Hnel : forall p, In p kept -> 0 <= m_nel p).
  { intros p Hp. rewrite Forall_forall in HF. apply HF; auto. }
  assert (Hq : forall o, 0 <= charge_in cfg d o kept).
  { intros o. apply rsum_nonneg, Forall_map, Forall_forall. intros p Hp. apply filter_In in Hp as [Hp _]. auto. }
  assert (Hkc : rsum (map m_nel kept) <= charge s).
  { unfold charge, kept, within_cut. clear -HF. induction HF as [|p l [_ Hp] HF IH]; simpl; [lra|].
    rewrite rsum_cons. destruct (Rleb _ _); simpl; rewrite ?rsum_cons; lra. }
  assert (Hqt : rsum (map (fun o => charge_in cfg d o kept) cells) <= charge s).
  { rewrite <- (map_ext _ _ (cell_charge_in cfg d kept)).
    rewrite rsum_cell_charge; auto; [intros; apply Hin; auto|]. rewrite !map_length; auto. }
  assert (Hlc : (length cells <= N_mp s)%nat).
  { assert (G : (length cells <= length idx)%nat).
    { apply (NoDup_incl_length ND). intros o Ho. apply Hin in Ho. exact Ho. }
    subst idx. rewrite map_length in G. rewrite <- live_length.
    eapply Nat.le_trans; [exact G|]. unfold kept, within_cut. clear.
    induction (live s) as [|p l IH]; simpl; auto. destruct (Rleb _ _); simpl; lia. }
  assert (Hdiv : charge s / ref <= INR (N_mp_after_regen cfg)).
  { apply Rmult_le_reg_r with ref; auto. unfold Rdiv. rewrite Rmult_assoc, Rinv_l, Rmult_1_r by lra.
    apply Rmult_le_reg_r with (/ INR (N_mp_after_regen cfg)); [apply Rinv_0_lt_compat; auto|].
    replace (INR (N_mp_after_regen cfg) * ref * / INR (N_mp_after_regen cfg)) with ref by (field; lra).
    exact Href2. }
  assert (Hnum : Forall (fun z => (0 <= z)%Z /\ IZR z <= charge s / ref + 1) num /\
     INR (nsum (map Z.to_nat num)) <= rsum (map (fun o => charge_in cfg d o kept) cells) / ref + INR (length cells)).
  { assert (Hq1 : forall o, In o cells -> charge_in cfg d o kept <= charge s).
    { intros o _. eapply Rle_trans; [|exact Hkc]. unfold charge_in. clear -Hnel.
      induction kept as [|p l IH]; simpl; [lra|].
      assert (0 <= m_nel p) by (apply Hnel; simpl; auto).
      assert (forall q, In q l -> 0 <= m_nel q) by (intros; apply Hnel; simpl; auto).
      specialize (IH H0). rewrite rsum_cons. destruct (_ =? o)%Z; simpl; rewrite ?rsum_cons; lra. }
    subst num. generalize (draw_unit rng k (length cells) HU).
    generalize (draw_length rng k (length cells)).
    generalize (draw rng k (length cells)). clear - Hq Hq1 Href. revert Hq1.
    generalize cells. clear cells. induction cells as [|o l IH]; intros Hq1 us HL HU; destruct us as [|u us]; simpl in *; try lia.
    - split; [constructor|]. unfold rsum; simpl. lra.
    - inversion HU as [|? ? Hu HU']; subst.
      destruct (IH ltac:(intros; apply Hq1; auto) us ltac:(lia) HU') as [I1 I2].
      assert (Hqr : 0 <= charge_in cfg d o kept / ref).
      { apply Rmult_le_pos; [apply Hq|]. left. apply Rinv_0_lt_compat; auto. }
      assert (Hqs : charge_in cfg d o kept / ref <= charge s / ref).
      { apply Rmult_le_compat_r; [left; apply Rinv_0_lt_compat; auto|]. apply Hq1; auto. }
      pose proof (stoch_round_err (charge_in cfg d o kept / ref) u (proj1 Hu)) as Er.
      apply Rabs_def2 in Er.
      pose proof (stoch_round_nonneg (charge_in cfg d o kept / ref) u Hqr) as Ez.
      split; [constructor; [split; [auto|lra]|auto]|].
      change (nsum (?a :: ?b)) with (a + nsum b)%nat. rewrite plus_INR, rsum_cons.
      rewrite INR_IZR_INZ, Z2Nat.id by auto.
      replace ((charge_in cfg d o kept + rsum (map (fun o0 => charge_in cfg d o0 kept) l)) / ref)
        with (charge_in cfg d o kept / ref + rsum (map (fun o0 => charge_in cfg d o0 kept) l) / ref) by (field; lra).
      destruct l; simpl in *; lra. }
  destruct Hnum as [Hn1 Hn2].
  rewrite nsum_Z by (eapply Forall_impl; [|exact Hn1]; simpl; tauto).
  set (Nex := nsum (map Z.to_nat num)) in *.
  assert (HNex : (Nex <= N_mp_after_regen cfg + N_mp s)%nat).
  { apply INR_le. rewrite plus_INR. apply le_INR in Hlc.
    assert (rsum (map (fun o => charge_in cfg d o kept) cells) / ref <= charge s / ref).
    { apply Rmult_le_compat_r; [left; apply Rinv_0_lt_compat; auto|auto]. }
    lra. }
  destruct C2 as (C21 & _). change (capacity s1) with (capacity s) in C21.
  rewrite slice_set_exact; [|lia|rewrite repeat_length, (wf_nel s2 W2); lia|rewrite repeat_length; lia].
  cbn [bind].
  match goal with |- context [fill_loop fuel fuel_in c d ?cs num rng ?st0] =>
    destruct (fill_loop_total fuel fuel_in c d (capacity s2) cs rng Hout num st0) as (st & Est) end;
    simpl; rewrite ?repeat_length; auto.
  - rewrite map_length; auto.
  - fold Nex. lia.
  - eapply Forall_impl; [|exact Hn1]. simpl. intros z [Hz1 Hz2].
    assert (IZR z <= INR (N_mp_after_regen cfg + 1)) by (rewrite plus_INR; simpl; lra).
    rewrite INR_IZR_INZ in H. apply le_IZR in H. lia.
  - rewrite Est. cbn [bind]. eauto.
Qed.

Lemma regen_due_needed cfg s : regen_due cfg s -> regen_needed cfg s = true.
Proof.
  unfold regen_needed. intros [H|[H1 H2]]; apply Bool.orb_true_iff.
  - left. apply Nat.ltb_lt. exact H.
  - right. apply andb_true_intro. split; [apply Nat.ltb_lt; exact H1|apply Rgtb_true; lra].
Qed.

Lemma regen_due_main fuel fuel_in cfg c rng k s s' k' :
  wf s -> tail_zero s -> unit_rng rng ->
  hist_cfg_ok cfg (x_aper c) -> 0 <= regen_hist_cut cfg ->
  (0 < N_mp_after_regen cfg)%nat -> 0 < nel_mp_ref_0 s ->
  Forall (fun p => Rabs (m_x p) <= x_aper c /\ 0 <= m_nel p) (live s) ->
  regen_due cfg s ->
  check_for_regeneration fuel fuel_in cfg c rng k s = Some (s', k') ->
  exists x_max d owners,
    let kept := within_cut x_max (live s) in
    let ref := Rmax (nel_mp_ref_0 s) (charge s / INR (N_mp_after_regen cfg)) in
    steps_ok cfg x_max (y_aper c) kept d /\
    nel_mp_ref s' = ref /\ sizes_ok s' /\ same_cfg s s' /\ wf s' /\ tail_zero s' /\
    Forall2 (regenerated cfg c d ref) owners
      (map (fun p => if flag_lifetime_hist s then p else forget_t p) (live s')) /\
    (forall o, Rabs (INR (count_occ Z.eq_dec owners o) * ref - charge_in cfg d o kept) < ref) /\
    charge s - rsum (map m_nel kept) <= regen_hist_cut cfg * charge s.
Proof. intros. eapply regen_main; eauto using regen_due_needed. Qed.
