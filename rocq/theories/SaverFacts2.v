(** The sums and histograms over the cloud in the output are those over its
    macroparticles. *)
From Coq Require Import String Lia Lra Bool.
From Verif Require Import Num NumFacts Fort SpecFort FortFacts MP SpecMP MPFacts Impact ImpactFacts ImpactFacts4 SeyFacts2 FurmanFacts2 Saver SpecSaver SaverFacts.
Local Open Scope string_scope.
Local Open Scope list_scope.
Local Open Scope R_scope.

Lemma n_live_firstn s a : n_live s a = firstn (N_mp s) a.
Proof. unfold n_live, slice_get. rewrite Nat.sub_0_r. reflexivity. Qed.

Lemma map3_maps {X A B C D} (f : A -> B -> C -> D) (a : X -> A) (b : X -> B) (c : X -> C) l :
  map3 f (map a l) (map b l) (map c l) = map (fun x => f (a x) (b x) (c x)) l.
Proof. induction l; cbn; f_equal; auto. Qed.

Lemma Nel_tot_charge s : wf s -> Nel_tot s = charge s.
Proof. intros W. unfold Nel_tot. rewrite n_live_firstn. symmetry. apply charge_firstn, W. Qed.

Lemma En_kin_kinetic c s : wf s -> k_qe (c_ic c) <> 0 -> En_kin c s = kinetic c s.
Proof.
  intros W Q. unfold En_kin, kinetic. rewrite !n_live_firstn.
  destruct (live_cols s W) as (_ & _ & _ & E4 & E5 & E6 & E7 & _). rewrite E4, E5, E6, E7.
  rewrite map_map, map3_maps, map2_maps. f_equal. apply map_ext. intros p. field. exact Q.
Qed.

Lemma map2_firstn {A B C} (f : A -> B -> C) : forall n a b, firstn n (map2 f a b) = map2 f (firstn n a) (firstn n b).
Proof. induction n as [|n IH]; intros [|x a] [|y b]; cbn; auto. f_equal. apply IH. Qed.

Lemma density_at_density x y r s : wf s -> density_at x y r s = density x y r s.
Proof.
  intros W. unfold density_at, density. f_equal. f_equal.
  set (flag := map2 _ (x_mp s) (y_mp s)).
  assert (LF : List.length flag = capacity s) by (unfold flag; rewrite map2_length, (wf_y s W); apply Nat.min_id).
  assert (NC : (N_mp s <= capacity s)%nat) by apply (wf_N s W).
  assert (E : slice_fill flag (N_mp s) (List.length flag) false = firstn (N_mp s) flag ++ repeat false (capacity s - N_mp s)).
  { unfold slice_fill, slice_get. rewrite firstn_length, skipn_length, LF.
    rewrite (skipn_all2 flag) by lia. rewrite app_nil_r. f_equal. f_equal. lia. }
  rewrite E. assert (FE : firstn (N_mp s) flag = map (in_circle x y r) (live s)).
  { unfold flag. rewrite map2_firstn. destruct (live_cols s W) as (E1 & E2 & _). rewrite E1, E2, map2_maps. reflexivity. }
  rewrite FE. rewrite <- (firstn_skipn (N_mp s) (nel_mp s)).
  rewrite mask_get_app.
  - rewrite mask_get_false, app_nil_r. destruct (live_cols s W) as (_ & _ & _ & _ & _ & _ & E7 & _). rewrite E7.
    rewrite mask_get_map_l, mask_get_filter. reflexivity.
  - rewrite map_length, live_length, firstn_length. pose proof (wf_nel s W). unfold capacity in *. lia.
Qed.

Lemma hist_eq b D n pts : 0 < D -> (0 < n)%nat -> Forall (fun q => b <= fst q) pts ->
  compute_hist pts b D (repeat 0 n) = Some (histogram b D n pts).
Proof.
  intros HD Hn HF.
  destruct (compute_hist_main b D pts (repeat 0 n) HD) as (r & E & L & _ & N).
  - destruct n; [lia|discriminate].
  - intros q Hq. rewrite Forall_forall in HF. apply HF, Hq.
  - rewrite E. f_equal. rewrite repeat_length in *. unfold histogram.
    apply (nth_ext _ _ 0 0); [rewrite map_length, seq_length; exact L|]. intros k Hk. rewrite L in Hk. rewrite N by exact Hk.
    rewrite nth_repeat_lt by exact Hk.
    rewrite (nth_indep _ 0 (rsum (map (bin_share b D n 0%nat) pts))) by (rewrite map_length, seq_length; exact Hk).
    rewrite (map_nth (fun k => rsum (map (bin_share b D n k) pts))). rewrite seq_nth by exact Hk. cbn. lra.
Qed.

Lemma hist_nil b D n : histogram b D n [] = repeat 0 n.
Proof.
  unfold histogram. cbn. generalize 0%nat. induction n as [|n IH]; intros a; cbn; [reflexivity|]. f_equal. apply IH.
Qed.

Lemma live_nil s : N_mp s = 0%nat -> live s = [].
Proof. intros E. unfold live. rewrite E. reflexivity. Qed.

Lemma position_hist_eq c s : wf s -> 0 < k_Dx (c_ic c) -> (0 < c_nx c)%nat -> Forall (fun p => k_bias (c_ic c) <= m_x p) (live s) ->
  position_hist c s = Some (x_histogram c s).
Proof.
  intros W HD Hn HF. unfold position_hist, x_histogram. destruct (Nat.ltb 0 (N_mp s)) eqn:E.
  - rewrite !n_live_firstn. destruct (live_cols s W) as (E1 & _ & _ & _ & _ & _ & E7 & _). rewrite E1, E7, combine_map.
    apply hist_eq; auto. apply Forall_map. cbn [fst]. exact HF.
  - apply Nat.ltb_ge in E. rewrite live_nil by lia. cbn [map]. rewrite hist_nil. reflexivity.
Qed.

Lemma ekin_hist_eq c s : wf s -> 0 < k_DEn (c_ic c) -> (0 < c_nbin c)%nat -> 0 < k_mass (c_ic c) -> 0 < k_qe (c_ic c) ->
  ekin_hist c s = Some (e_histogram c s).
Proof.
  intros W HD Hn Hm Hq. unfold ekin_hist, e_histogram. destruct (Nat.ltb 0 (N_mp s)) eqn:E.
  - rewrite !n_live_firstn. destruct (live_cols s W) as (_ & _ & _ & E4 & E5 & E6 & E7 & _). rewrite E4, E5, E6, E7, map3_maps, combine_map.
    apply hist_eq; auto. apply Forall_map. cbn [fst]. apply Forall_forall. intros p _.
    pose proof (Rinv_0_lt_compat _ Hq) as Hi. unfold Rdiv. apply Rmult_le_pos.
    + apply Rmult_le_pos; [lra|lra].
    + pose proof (Rle_0_sqr (m_vx p)). pose proof (Rle_0_sqr (m_vy p)). pose proof (Rle_0_sqr (m_vz p)). unfold Rsqr in *. lra.
  - apply Nat.ltb_ge in E. rewrite live_nil by lia. cbn [map]. rewrite hist_nil. reflexivity.
Qed.

Lemma zeros_repeat l : zeros l = repeat 0 (List.length l).
Proof. unfold zeros. induction l as [|x l IH]; cbn; [reflexivity|]. rewrite IH, Rmult_0_l. reflexivity. Qed.

Lemma filter_none {A} (f : A -> bool) l : count_true (map f l) = 0%nat -> filter f l = [].
Proof.
  induction l as [|x l IH]; cbn; [reflexivity|]. destruct (f x); cbn; intros H; [lia|]. apply IH, H.
Qed.

Lemma detail_line_eq c s h line : wf s -> c_hdet c = Some h -> 0 < hd_Dx h -> (0 < hd_n h)%nat -> hd_bias h <= hd_x0 h -> List.length line = hd_n h ->
  detail_line c s line = Some (if Nat.ltb 0 (N_mp s) then d_histogram h s else line).
Proof.
  intros W Hc HD Hn HB HL. unfold detail_line. rewrite Hc. destruct (Nat.ltb 0 (N_mp s)) eqn:E; [|reflexivity].
  rewrite !n_live_firstn. destruct (live_cols s W) as (E1 & E2 & _ & _ & _ & _ & E7 & _). rewrite E1, E2, E7, !map_map, map2_maps.
  set (mask := map _ (live s)).
  assert (EM : mask = map (in_window h) (live s)).
  { unfold mask. apply map_ext. intros p. unfold in_window, Rgtb. rewrite <- !andb_assoc. reflexivity. }
  rewrite EM, zeros_repeat, HL. rewrite !mask_get_map_l, mask_get_filter, combine_map.
  destruct (Nat.ltb 0 (count_true (map (in_window h) (live s)))) eqn:EC.
  - rewrite hist_eq; auto. apply Forall_map. apply Forall_forall. intros p Hp. apply filter_In in Hp. destruct Hp as [_ Hp]. cbn [fst].
    unfold in_window in Hp. rewrite !andb_true_iff in Hp. destruct Hp as [[[H1 _] _] _]. apply Rltb_true in H1. lra.
  - apply Nat.ltb_ge in EC. unfold d_histogram. rewrite filter_none by lia. cbn [map]. rewrite hist_nil. reflexivity.
Qed.
