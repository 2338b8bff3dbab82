From Verif Require Import Num NumFacts Fort FortFacts MP SpecMP SpecFort.

(** The array of last impact times as the user sees it. *)
Definition tview (s : mpsys) : list R :=
  if flag_lifetime_hist s then t_last_impact s else repeat (-1) (length (x_mp s)).

Fixpoint zip8 (a b c d e f g h : list R) : list mp :=
  match a, b, c, d, e, f, g, h with
  | xa :: a', xb :: b', xc :: c', xd :: d', xe :: e', xf :: f', xg :: g', xh :: h' =>
      mkMP xa xb xc xd xe xf xg xh :: zip8 a' b' c' d' e' f' g' h'
  | _, _, _, _, _, _, _, _ => []
  end.

Definition lens8 (n : nat) (a b c d e f g h : list R) : Prop :=
  length a = n /\ length b = n /\ length c = n /\ length d = n /\
  length e = n /\ length f = n /\ length g = n /\ length h = n.

Ltac z8 := unfold lens8; intros; repeat match goal with
  | H : _ /\ _ |- _ => destruct H end; subst.

Ltac dl8 :=
  repeat match goal with
  | H : length ?l = S _ |- _ => destruct l; simpl in H; [discriminate|]; apply Nat.succ_inj in H
  | H : length ?l = 0%nat |- _ => destruct l; simpl in H; [clear H|discriminate]
  end.

Lemma zip8_length n a b c d e f g h :
  lens8 n a b c d e f g h -> length (zip8 a b c d e f g h) = n.
Proof.
  revert a b c d e f g h; induction n as [|n IH]; intros a b c d e f g h
    (Ha & Hb & Hc & Hd & He & Hf & Hg & Hh); dl8; [reflexivity|].
  simpl. f_equal. apply IH. repeat split; auto.
Qed.

Lemma zip8_nel n a b c d e f g h :
  lens8 n a b c d e f g h -> map m_nel (zip8 a b c d e f g h) = g.
Proof.
  revert a b c d e f g h; induction n as [|n IH]; intros a b c d e f g h
    (Ha & Hb & Hc & Hd & He & Hf & Hg & Hh); dl8; [reflexivity|].
  simpl. f_equal. apply IH. repeat split; auto.
Qed.

Lemma zip8_mask n m a b c d e f g h :
  length m = n -> lens8 n a b c d e f g h ->
  mask_get m (zip8 a b c d e f g h) =
  zip8 (mask_get m a) (mask_get m b) (mask_get m c) (mask_get m d)
       (mask_get m e) (mask_get m f) (mask_get m g) (mask_get m h).
Proof.
  revert m a b c d e f g h; induction n as [|n IH]; intros m a b c d e f g h
    Hm (Ha & Hb & Hc & Hd & He & Hf & Hg & Hh).
  - dl8. reflexivity.
  - dl8.
    cbn [zip8 mask_get]. rewrite IH by (repeat split; auto).
    match goal with |- context [if ?q then _ else _] => destruct q end; reflexivity.
Qed.

Lemma zip8_app n a b c d e f g h a' b' c' d' e' f' g' h' :
  lens8 n a b c d e f g h ->
  zip8 (a ++ a') (b ++ b') (c ++ c') (d ++ d') (e ++ e') (f ++ f') (g ++ g') (h ++ h')
  = zip8 a b c d e f g h ++ zip8 a' b' c' d' e' f' g' h'.
Proof.
  revert a b c d e f g h; induction n as [|n IH]; intros a b c d e f g h
    (Ha & Hb & Hc & Hd & He & Hf & Hg & Hh); dl8; [reflexivity|].
  simpl. f_equal. apply IH. repeat split; auto.
Qed.

Lemma zip8_nth n a b c d e f g h i :
  lens8 n a b c d e f g h -> (i < n)%nat ->
  nth_error (zip8 a b c d e f g h) i =
  Some (mkMP (nth i a 0) (nth i b 0) (nth i c 0) (nth i d 0)
             (nth i e 0) (nth i f 0) (nth i g 0) (nth i h 0)).
Proof.
  revert i a b c d e f g h; induction n as [|n IH]; intros i a b c d e f g h
    (Ha & Hb & Hc & Hd & He & Hf & Hg & Hh) Hi; dl8; [lia|].
  destruct i; simpl; [reflexivity|]. apply IH; [repeat split; auto|lia].
Qed.

Lemma nth_error_ext {A} (l l' : list A) :
  (forall i, nth_error l i = nth_error l' i) -> l = l'.
Proof.
  revert l'; induction l as [|x l IH]; intros [|y l'] H; auto.
  - specialize (H 0%nat); discriminate.
  - specialize (H 0%nat); discriminate.
  - f_equal.
    + specialize (H 0%nat). simpl in H. congruence.
    + apply IH. intros i. apply (H (S i)).
Qed.

Lemma map_seq_zip8 n (F : nat -> mp) a b c d e f g h :
  lens8 n a b c d e f g h ->
  (forall i, (i < n)%nat -> F i = mkMP (nth i a 0) (nth i b 0) (nth i c 0) (nth i d 0)
             (nth i e 0) (nth i f 0) (nth i g 0) (nth i h 0)) ->
  map F (seq 0 n) = zip8 a b c d e f g h.
Proof.
  intros HL HF. apply nth_error_ext. intros i.
  destruct (Nat.lt_ge_cases i n).
  - rewrite (zip8_nth n) by auto. rewrite <- HF by auto.
    rewrite (map_nth_error F i (seq 0 n) (d:=i)); auto.
    rewrite (nth_error_nth' (seq 0 n) 0%nat) by (rewrite seq_length; auto).
    rewrite seq_nth by auto. reflexivity.
  - transitivity (@None mp); [|symmetry]; apply nth_error_None.
    + rewrite map_length, seq_length; auto.
    + rewrite (zip8_length n) by auto; auto.
Qed.

Lemma nth_firstn {A} (l : list A) n i d : (i < n)%nat -> nth i (firstn n l) d = nth i l d.
Proof.
  revert n i; induction l as [|x l IH]; intros [|n] [|i] H; simpl; auto; try lia.
  apply IH; lia.
Qed.

Lemma nth_repeat_lt {A} (c d : A) n i : (i < n)%nat -> nth i (repeat c n) d = c.
Proof. revert i; induction n; intros [|i] H; simpl; auto; try lia. apply IHn; lia. Qed.

Lemma wf_tview s : wf s -> length (tview s) = capacity s.
Proof.
  intros W. unfold tview. destruct (flag_lifetime_hist s); [apply wf_t; auto|].
  apply repeat_length.
Qed.

Lemma wf_lens8 s : wf s ->
  lens8 (N_mp s) (firstn (N_mp s) (x_mp s)) (firstn (N_mp s) (y_mp s))
   (firstn (N_mp s) (z_mp s)) (firstn (N_mp s) (vx_mp s)) (firstn (N_mp s) (vy_mp s))
   (firstn (N_mp s) (vz_mp s)) (firstn (N_mp s) (nel_mp s)) (firstn (N_mp s) (tview s)).
Proof.
  intros W. pose proof (wf_tview s W). destruct W. unfold capacity in *.
  unfold lens8; rewrite !firstn_length; lia.
Qed.

Lemma live_zip8 s : wf s ->
  live s = zip8 (firstn (N_mp s) (x_mp s)) (firstn (N_mp s) (y_mp s))
   (firstn (N_mp s) (z_mp s)) (firstn (N_mp s) (vx_mp s)) (firstn (N_mp s) (vy_mp s))
   (firstn (N_mp s) (vz_mp s)) (firstn (N_mp s) (nel_mp s)) (firstn (N_mp s) (tview s)).
Proof.
  intros W. unfold live. apply map_seq_zip8; [apply wf_lens8; auto|].
  intros i Hi. unfold mp_at. rewrite !nth_firstn by auto. f_equal.
  unfold tview. destruct (flag_lifetime_hist s); auto.
  symmetry; apply nth_repeat_lt. destruct W; unfold capacity in *; lia.
Qed.

Lemma live_length s : length (live s) = N_mp s.
Proof. unfold live; rewrite map_length, seq_length; auto. Qed.

Lemma charge_firstn s : wf s -> charge s = rsum (firstn (N_mp s) (nel_mp s)).
Proof.
  intros W. unfold charge. rewrite live_zip8 by auto.
  rewrite (zip8_nel (N_mp s)) by (apply wf_lens8; auto). reflexivity.
Qed.

Lemma tail_zero_skipn s : wf s -> tail_zero s <-> Forall (fun x => x = 0) (skipn (N_mp s) (nel_mp s)).
Proof.
  intros W. unfold tail_zero. destruct W. split.
  - intros H. apply Forall_forall. intros x Hx. apply (In_nth _ _ 0) in Hx as (i & Hi & <-).
    rewrite skipn_length in Hi.
    rewrite <- (firstn_skipn (N_mp s) (nel_mp s)) in H.
    specialize (H (N_mp s + i)%nat). rewrite app_nth2 in H by (rewrite firstn_length; lia).
    rewrite firstn_length, Nat.min_l in H by lia.
    replace (N_mp s + i - N_mp s)%nat with i in H by lia. apply H. lia.
  - intros H i Hi. rewrite <- (firstn_skipn (N_mp s) (nel_mp s)).
    rewrite app_nth2 by (rewrite firstn_length; lia).
    rewrite Forall_forall in H. apply H. apply nth_In.
    rewrite skipn_length, firstn_length. lia.
Qed.

Lemma rsum_all_tail_zero s : wf s -> tail_zero s -> rsum (nel_mp s) = charge s.
Proof.
  intros W T. rewrite charge_firstn by auto. apply tail_zero_skipn in T; auto.
  rewrite <- (firstn_skipn (N_mp s) (nel_mp s)) at 1. rewrite rsum_app, (rsum_0 (skipn _ _)) by auto.
  lra.
Qed.

(* ---------- compaction ---------- *)
Lemma compact_Some keep n a :
  length keep = length a -> count_true keep = n ->
  compact keep n a = Some (mask_get keep a ++ skipn n a).
Proof.
  intros H1 H2. unfold compact. pose proof (count_true_le keep).
  rewrite slice_set_exact; simpl; try lia; [reflexivity|].
  rewrite mask_get_length; lia.
Qed.

Lemma mask_pad {A} (m : list bool) (a : list A) k :
  (length m <= length a)%nat ->
  mask_get (m ++ repeat false k) a = mask_get m (firstn (length m) a).
Proof.
  intros H. rewrite <- (firstn_skipn (length m) a) at 1.
  rewrite mask_get_app by (rewrite firstn_length; lia).
  rewrite mask_get_false, app_nil_r. reflexivity.
Qed.

Record kept (s s' : mpsys) (m : list bool) (wt : bool) : Prop := mkKept {
  k_x : x_mp s' = mask_get m (firstn (N_mp s) (x_mp s)) ++ skipn (count_true m) (x_mp s);
  k_y : y_mp s' = mask_get m (firstn (N_mp s) (y_mp s)) ++ skipn (count_true m) (y_mp s);
  k_z : z_mp s' = mask_get m (firstn (N_mp s) (z_mp s)) ++ skipn (count_true m) (z_mp s);
  k_vx : vx_mp s' = mask_get m (firstn (N_mp s) (vx_mp s)) ++ skipn (count_true m) (vx_mp s);
  k_vy : vy_mp s' = mask_get m (firstn (N_mp s) (vy_mp s)) ++ skipn (count_true m) (vy_mp s);
  k_vz : vz_mp s' = mask_get m (firstn (N_mp s) (vz_mp s)) ++ skipn (count_true m) (vz_mp s);
  k_nel : nel_mp s' = mask_get m (firstn (N_mp s) (nel_mp s)) ++ repeat 0 (capacity s - count_true m);
  k_t : t_last_impact s' =
        if wt && flag_lifetime_hist s then
          mask_get m (firstn (N_mp s) (t_last_impact s)) ++ skipn (count_true m) (t_last_impact s)
        else t_last_impact s;
  k_N : N_mp s' = count_true m;
  k_cfg : same_cfg s s';
  k_ref : nel_mp_ref s' = nel_mp_ref s /\ nel_mp_split s' = nel_mp_split s
          /\ nel_mp_cl_th s' = nel_mp_cl_th s }.

Lemma keep_masked_kept s m wt :
  wf s -> length m = N_mp s ->
  exists s', keep_masked s (m ++ repeat false (capacity s - N_mp s)) wt = Some s' /\
    kept s s' m wt /\ wf s' /\ tail_zero s'.
Proof.
  intros W Hm. assert (W0 := W). destruct W0 as [Hy Hz Hvx Hvy Hvz Hn Ht HN].
  set (keep := m ++ repeat false (capacity s - N_mp s)).
  assert (Hk : length keep = capacity s).
  { subst keep. rewrite app_length, repeat_length. lia. }
  assert (Hc : count_true keep = count_true m).
  { subst keep. rewrite count_true_app, count_true_repeat_false. lia. }
  assert (Hle : (count_true m <= N_mp s)%nat) by (rewrite <- Hm; apply count_true_le).
  unfold keep_masked. rewrite Hc.
  assert (HC : forall a, length a = capacity s ->
    compact keep (count_true m) a = Some (mask_get m (firstn (N_mp s) a) ++ skipn (count_true m) a)).
  { intros a Ha. rewrite compact_Some by congruence. subst keep.
    rewrite mask_pad by lia. rewrite Hm. reflexivity. }
  assert (HL : forall a : list R, length a = capacity s ->
     length (mask_get m (firstn (N_mp s) a)) = count_true m).
  { intros a Ha. apply mask_get_length. rewrite firstn_length. lia. }
  assert (HL2 : forall a : list R, length a = capacity s ->
     length (mask_get m (firstn (N_mp s) a) ++ skipn (count_true m) a) = capacity s).
  { intros a Ha. rewrite app_length, HL, skipn_length by auto. lia. }
  rewrite (HC (x_mp s)) by reflexivity. rewrite (HC (y_mp s)), (HC (z_mp s)), (HC (vx_mp s)),
    (HC (vy_mp s)), (HC (vz_mp s)), (HC (nel_mp s)) by auto. cbn [bind].
  assert (Hnel : slice_fill (mask_get m (firstn (N_mp s) (nel_mp s)) ++ skipn (count_true m) (nel_mp s))
      (count_true m) (length (mask_get m (firstn (N_mp s) (nel_mp s)) ++ skipn (count_true m) (nel_mp s))) 0
      = mask_get m (firstn (N_mp s) (nel_mp s)) ++ repeat 0 (capacity s - count_true m)).
  { rewrite HL2 by auto. rewrite slice_fill_exact; [|lia|rewrite HL2; auto].
    rewrite firstn_app_exact by (apply HL; auto).
    rewrite skipn_all2 by (rewrite HL2; auto). rewrite app_nil_r. reflexivity. }
  rewrite Hnel.
  set (t' := if wt && flag_lifetime_hist s then
          mask_get m (firstn (N_mp s) (t_last_impact s)) ++ skipn (count_true m) (t_last_impact s)
        else t_last_impact s).
  assert (Et : (if wt && flag_lifetime_hist s then compact keep (count_true m) (t_last_impact s)
     else Some (t_last_impact s)) = Some t').
  { subst t'. destruct (wt && flag_lifetime_hist s); auto. }
  rewrite Et. cbn [bind]. eexists. split; [reflexivity|].
  assert (Hcap : length (mask_get m (firstn (N_mp s) (x_mp s)) ++ skipn (count_true m) (x_mp s)) = capacity s)
    by (apply HL2; reflexivity).
  split; [|split].
  - constructor; simpl; auto.
    unfold same_cfg; simpl; repeat split; auto.
  - constructor; unfold capacity; simpl; rewrite Hcap; auto.
    + rewrite app_length, HL, repeat_length by auto. unfold capacity in *; lia.
    + subst t'. destruct (_ && _); auto.
    + unfold capacity in *; lia.
  - intros i Hi. unfold capacity in Hi. simpl in *. rewrite Hcap in Hi.
    rewrite app_nth2 by (rewrite HL by auto; lia). rewrite HL by auto.
    apply nth_repeat_lt. lia.
Qed.

Lemma kept_live s s' m :
  wf s -> wf s' -> length m = N_mp s -> kept s s' m true -> live s' = mask_get m (live s).
Proof.
  intros W W' Hm K. rewrite (live_zip8 s), (live_zip8 s') by auto.
  rewrite (zip8_mask (N_mp s)) by (auto using wf_lens8).
  destruct K as [Kx Ky Kz Kvx Kvy Kvz Kn Kt KN Kc _]. destruct W.
  rewrite Kx, Ky, Kz, Kvx, Kvy, Kvz, Kn, KN.
  assert (HL : forall a : list R, length a = capacity s ->
     length (mask_get m (firstn (N_mp s) a)) = count_true m).
  { intros a Ha. apply mask_get_length. rewrite firstn_length. lia. }
  assert (T : firstn (count_true m) (tview s') = mask_get m (firstn (N_mp s) (tview s))).
  { destruct Kc as (Kcap & Kf & _). unfold tview. rewrite Kf, Kt. simpl andb.
    destruct (flag_lifetime_hist s) eqn:Ef.
    - apply firstn_app_exact, HL; auto.
    - fold (capacity s'). fold (capacity s). rewrite Kcap.
      assert (count_true m <= N_mp s)%nat by (rewrite <- Hm; apply count_true_le).
      assert (R1 : forall n k, (n <= k)%nat -> firstn n (repeat (-1) k) = repeat (-1) n).
      { induction n; intros [|k] Hk; simpl; auto; try lia. f_equal; apply IHn; lia. }
      rewrite !R1 by lia. rewrite <- Hm. clear. induction m as [|b m IH]; simpl; auto.
      destruct b; simpl; rewrite ?IH; auto. }
  rewrite T. rewrite !firstn_app_exact by (apply HL; auto). reflexivity.
Qed.

(* ---------- cleaning ---------- *)
Lemma clean_mask s : wf s ->
  slice_fill (map negb (map (fun q => Rltb q (nel_mp_cl_th s)) (nel_mp s))) (N_mp s)
    (length (map negb (map (fun q => Rltb q (nel_mp_cl_th s)) (nel_mp s)))) false
  = map (fun q => Rleb (nel_mp_cl_th s) q) (firstn (N_mp s) (nel_mp s))
    ++ repeat false (capacity s - N_mp s).
Proof.
  intros W. destruct W as [_ _ _ _ _ Wn _ WN]. rewrite !map_length.
  rewrite slice_fill_exact; rewrite ?map_length; try lia.
  rewrite map_map. rewrite skipn_all2 by (rewrite map_length; lia).
  rewrite app_nil_r, Wn. f_equal. rewrite <- firstn_map. f_equal.
  apply map_ext. intros q. unfold Rltb, Rleb.
  destruct (Rlt_dec q (nel_mp_cl_th s)), (Rle_dec (nel_mp_cl_th s) q); auto; lra.
Qed.

Definition keep_mp (th : R) (p : mp) : bool := Rleb th (m_nel p).

Lemma map_nel_live s : wf s -> map m_nel (live s) = firstn (N_mp s) (nel_mp s).
Proof.
  intros W. rewrite live_zip8 by auto. apply (zip8_nel (N_mp s)). apply wf_lens8; auto.
Qed.

Lemma clean_spec s : wf s ->
  exists s', clean_small_MPs s = Some s' /\
    live s' = filter (keep_mp (nel_mp_cl_th s)) (live s) /\
    wf s' /\ tail_zero s' /\ same_cfg s s' /\
    (N_mp s' <> 0%nat -> nel_mp_ref s' = nel_mp_ref s /\ nel_mp_split s' = nel_mp_split s /\
        nel_mp_cl_th s' = nel_mp_cl_th s) /\
    (N_mp s' = 0%nat -> nel_mp_ref s' = nel_mp_ref_0 s /\
        nel_mp_split s' = fact_split s * nel_mp_ref_0 s /\
        nel_mp_cl_th s' = fact_clean s * nel_mp_ref_0 s).
Proof.
  intros W. unfold clean_small_MPs. rewrite clean_mask by auto.
  set (m := map _ (firstn _ _)).
  assert (Hm : length m = N_mp s).
  { subst m. rewrite map_length, firstn_length. destruct W; lia. }
  destruct (keep_masked_kept s m true W Hm) as (s' & E & K & W' & T).
  rewrite E. cbn [bind].
  assert (HL : live s' = filter (keep_mp (nel_mp_cl_th s)) (live s)).
  { rewrite (kept_live s s' m) by auto. rewrite <- mask_get_filter. f_equal.
    subst m. rewrite <- map_nel_live by auto. rewrite map_map. reflexivity. }
  destruct (Nat.eqb_spec (N_mp s') 0) as [E0|E0].
  - eexists. split; [reflexivity|]. destruct K as [_ _ _ _ _ _ _ _ _ Kc Kr].
    destruct Kc as (C1 & C2 & C3 & C4 & C5).
    split; [exact HL|]. split; [destruct W'; constructor; auto|]. split; [exact T|].
    split; [unfold same_cfg, capacity in *; simpl; auto|]. simpl. split; [easy|].
    rewrite C3, C4, C5. auto.
  - exists s'. destruct K as [_ _ _ _ _ _ _ _ _ Kc Kr].
    split; [auto|]. split; [auto|]. split; [auto|]. split; [auto|]. split; [auto|]. split; [auto|]. easy.
Qed.

Lemma filter_le_charge th l :
  rsum (map m_nel l) - rsum (map m_nel (filter (keep_mp th) l))
  = rsum (map m_nel (filter (fun p => negb (keep_mp th p)) l)).
Proof.
  induction l as [|p l IH]; simpl; [unfold rsum; simpl; lra|].
  destruct (keep_mp th p); simpl; rewrite !rsum_cons; lra.
Qed.

Lemma removed_bound th l :
  filter (fun p => negb (keep_mp th p)) l <> [] ->
  rsum (map m_nel (filter (fun p => negb (keep_mp th p)) l))
  < INR (length (filter (fun p => negb (keep_mp th p)) l)) * th.
Proof.
  assert (G : forall r, Forall (fun p => m_nel p < th) r ->
     rsum (map m_nel r) <= INR (length r) * th /\ (r <> [] -> rsum (map m_nel r) < INR (length r) * th)).
  { induction 1 as [|p r Hp HF [IH1 IH2]]; simpl map; cbn [length].
    - split; [unfold rsum; simpl; lra|easy].
    - rewrite rsum_cons, S_INR. split; [lra|]. intros _. lra. }
  intros Hne. apply G; auto. apply Forall_forall. intros p Hp. apply filter_In in Hp as [_ Hp].
  unfold keep_mp in Hp. apply negb_true_iff, Rleb_false in Hp. auto.
Qed.

(* ---------- appending ---------- *)
Record appended (s s' : mpsys) (n : nat) (ax ay az avx avy avz an at_ : list R) : Prop := mkApp {
  a_x : x_mp s' = firstn (N_mp s) (x_mp s) ++ ax ++ skipn (N_mp s + n) (x_mp s);
  a_y : y_mp s' = firstn (N_mp s) (y_mp s) ++ ay ++ skipn (N_mp s + n) (y_mp s);
  a_z : z_mp s' = firstn (N_mp s) (z_mp s) ++ az ++ skipn (N_mp s + n) (z_mp s);
  a_vx : vx_mp s' = firstn (N_mp s) (vx_mp s) ++ avx ++ skipn (N_mp s + n) (vx_mp s);
  a_vy : vy_mp s' = firstn (N_mp s) (vy_mp s) ++ avy ++ skipn (N_mp s + n) (vy_mp s);
  a_vz : vz_mp s' = firstn (N_mp s) (vz_mp s) ++ avz ++ skipn (N_mp s + n) (vz_mp s);
  a_nel : nel_mp s' = firstn (N_mp s) (nel_mp s) ++ an ++ skipn (N_mp s + n) (nel_mp s);
  a_t : t_last_impact s' = if flag_lifetime_hist s then
          firstn (N_mp s) (t_last_impact s) ++ at_ ++ skipn (N_mp s + n) (t_last_impact s)
        else t_last_impact s;
  a_N : N_mp s' = (N_mp s + n)%nat;
  a_flag : flag_lifetime_hist s' = flag_lifetime_hist s;
  a_lens : lens8 n ax ay az avx avy avz an at_;
  a_fit : (N_mp s + n <= capacity s)%nat }.

Lemma ins_length (a v : list R) N n cap :
  length a = cap -> length v = n -> (N + n <= cap)%nat ->
  length (firstn N a ++ v ++ skipn (N + n) a) = cap.
Proof. intros. rewrite !app_length, firstn_length, skipn_length. lia. Qed.

Lemma ins_firstn (a v : list R) N n cap :
  length a = cap -> length v = n -> (N + n <= cap)%nat ->
  firstn (N + n) (firstn N a ++ v ++ skipn (N + n) a) = firstn N a ++ v.
Proof.
  intros. rewrite app_assoc. apply firstn_app_exact.
  rewrite app_length, firstn_length. lia.
Qed.

Lemma ins_skipn (a v : list R) N n cap :
  length a = cap -> length v = n -> (N + n <= cap)%nat ->
  skipn (N + n) (firstn N a ++ v ++ skipn (N + n) a) = skipn (N + n) a.
Proof.
  intros. rewrite app_assoc. apply skipn_app_exact.
  rewrite app_length, firstn_length. lia.
Qed.

Lemma appended_wf s s' n ax ay az avx avy avz an at_ :
  wf s -> appended s s' n ax ay az avx avy avz an at_ ->
  wf s' /\ capacity s' = capacity s.
Proof.
  intros W A. destruct W, A. destruct a_lens0 as (L1 & L2 & L3 & L4 & L5 & L6 & L7 & L8).
  assert (C : capacity s' = capacity s).
  { unfold capacity at 1. rewrite a_x0. apply ins_length; auto. }
  split; auto. constructor; rewrite C.
  - rewrite a_y0; apply ins_length; auto.
  - rewrite a_z0; apply ins_length; auto.
  - rewrite a_vx0; apply ins_length; auto.
  - rewrite a_vy0; apply ins_length; auto.
  - rewrite a_vz0; apply ins_length; auto.
  - rewrite a_nel0; apply ins_length; auto.
  - rewrite a_t0; destruct (flag_lifetime_hist s); auto. apply ins_length; auto.
  - lia.
Qed.

Lemma appended_live s s' n ax ay az avx avy avz an at_ :
  wf s -> appended s s' n ax ay az avx avy avz an at_ ->
  live s' = live s ++ zip8 ax ay az avx avy avz an
     (if flag_lifetime_hist s then at_ else repeat (-1) n).
Proof.
  intros W A. destruct (appended_wf _ _ _ _ _ _ _ _ _ _ _ W A) as [W' C].
  rewrite (live_zip8 s), (live_zip8 s') by auto.
  pose proof (wf_lens8 s W) as L. rewrite <- (zip8_app (N_mp s)) by auto.
  destruct W, A. destruct a_lens0 as (L1 & L2 & L3 & L4 & L5 & L6 & L7 & L8).
  assert (T : firstn (N_mp s + n) (tview s') = firstn (N_mp s) (tview s) ++
    (if flag_lifetime_hist s then at_ else repeat (-1) n)).
  { unfold tview. rewrite a_flag0, a_t0. destruct (flag_lifetime_hist s).
    - apply (ins_firstn _ _ _ _ (capacity s)); auto.
    - fold (capacity s') (capacity s). rewrite C.
      assert (R1 : forall n k, (n <= k)%nat -> firstn n (repeat (-1) k) = repeat (-1) n).
      { clear. induction n; intros [|k] Hk; simpl; auto; try lia. f_equal; apply IHn; lia. }
      rewrite !R1 by lia. rewrite <- repeat_app. reflexivity. }
  rewrite a_N0, T, a_x0, a_y0, a_z0, a_vx0, a_vy0, a_vz0, a_nel0.
  rewrite !(fun a v => ins_firstn a v (N_mp s) n (capacity s)) by auto. reflexivity.
Qed.

Lemma appended_tail s s' n ax ay az avx avy avz an at_ :
  wf s -> appended s s' n ax ay az avx avy avz an at_ -> tail_zero s -> tail_zero s'.
Proof.
  intros W A T. destruct (appended_wf _ _ _ _ _ _ _ _ _ _ _ W A) as [W' C].
  apply tail_zero_skipn; auto. apply tail_zero_skipn in T; auto.
  destruct W, A. destruct a_lens0 as (L1 & L2 & L3 & L4 & L5 & L6 & L7 & L8).
  rewrite a_N0, a_nel0, (ins_skipn _ _ _ _ (capacity s)) by auto.
  rewrite Nat.add_comm, skipn_add. apply Forall_skipn; auto.
Qed.

Lemma batch_zip8 n fl b : batch_ok n b ->
  map (batch_mp fl b) (seq 0 n) =
  zip8 (b_x b) (b_y b) (b_z b) (b_vx b) (b_vy b) (b_vz b) (b_nel b)
    (if fl then b_t b else repeat (-1) n).
Proof.
  intros (L1 & L2 & L3 & L4 & L5 & L6 & L7 & L8). apply map_seq_zip8.
  - repeat split; auto. destruct fl; auto. apply repeat_length.
  - intros i Hi. unfold batch_mp. f_equal. destruct fl; auto.
    symmetry; apply nth_repeat_lt; auto.
Qed.

Lemma add_new_appended n b s :
  wf s -> batch_ok n b -> (N_mp s + n <= capacity s)%nat ->
  exists s', add_new_MPs n b s = Some s' /\
    appended s s' n (b_x b) (b_y b) (b_z b) (b_vx b) (b_vy b) (b_vz b) (b_nel b) (b_t b) /\
    same_cfg s s' /\ nel_mp_ref s' = nel_mp_ref s /\ nel_mp_split s' = nel_mp_split s /\
    nel_mp_cl_th s' = nel_mp_cl_th s.
Proof.
  intros W B Hfit. assert (W0 := W). destruct W0 as [Hy Hz Hvx Hvy Hvz Hn Ht HN].
  assert (B0 := B). destruct B0 as (L1 & L2 & L3 & L4 & L5 & L6 & L7 & L8).
  unfold add_new_MPs.
  assert (HS : forall a v : list R, length a = capacity s -> length v = n ->
     slice_set a (N_mp s) (N_mp s + n) v
     = Some (firstn (N_mp s) a ++ v ++ skipn (N_mp s + n) a)).
  { intros a v Ha Hv. apply slice_set_exact; lia. }
  rewrite (HS (x_mp s)), (HS (y_mp s)), (HS (z_mp s)), (HS (vx_mp s)), (HS (vy_mp s)),
    (HS (vz_mp s)), (HS (nel_mp s)), (HS (t_last_impact s)) by auto.
  cbn [bind].
  assert (CAP : length (firstn (N_mp s) (x_mp s) ++ b_x b ++ skipn (N_mp s + n) (x_mp s)) = capacity s)
    by (apply ins_length; auto).
  destruct (flag_lifetime_hist s) eqn:Ef; cbn [bind]; eexists;
    (split; [reflexivity|]; split;
      [constructor; simpl; rewrite ?Ef; auto; unfold lens8; repeat split; auto
      |unfold same_cfg, capacity in *; simpl; rewrite Ef; auto 10]).
Qed.

Lemma add_new_spec n b s :
  wf s -> batch_ok n b -> (N_mp s + n <= capacity s)%nat ->
  exists s', add_new_MPs n b s = Some s' /\
    live s' = live s ++ map (batch_mp (flag_lifetime_hist s) b) (seq 0 n) /\
    charge s' = charge s + rsum (b_nel b) /\
    wf s' /\ (tail_zero s -> tail_zero s') /\ same_cfg s s' /\
    nel_mp_ref s' = nel_mp_ref s /\ nel_mp_split s' = nel_mp_split s /\
    nel_mp_cl_th s' = nel_mp_cl_th s.
Proof.
  intros W B Hfit. destruct (add_new_appended n b s W B Hfit) as (s' & E & A & C).
  exists s'. split; auto. pose proof (appended_live _ _ _ _ _ _ _ _ _ _ _ W A) as L.
  rewrite batch_zip8 by auto. split; [auto|]. split.
  - unfold charge. rewrite L, map_app, rsum_app. f_equal.
    rewrite (zip8_nel n); auto.
    destruct B as (L1 & L2 & L3 & L4 & L5 & L6 & L7 & L8). repeat split; auto.
    destruct (flag_lifetime_hist s); auto. apply repeat_length.
  - split; [eapply appended_wf; eauto|]. split; [intros; eapply appended_tail; eauto|]. auto.
Qed.

Lemma slice_set_overflow (a v : list R) N n :
  (N <= length a)%nat -> (length a < N + n)%nat -> length v = n -> n <> 1%nat ->
  slice_set a N (N + n) v = None.
Proof.
  intros H1 H2 H3 H4. unfold slice_set. rewrite slice_get_length.
  destruct (Nat.eqb_spec (length v) (min (N + n - N) (length a - N))); [lia|].
  destruct v as [|c [|]]; simpl in *; auto; lia.
Qed.

Lemma add_new_overflow n b s :
  wf s -> batch_ok n b -> (capacity s < N_mp s + n)%nat ->
  ~ (n = 1%nat /\ N_mp s = capacity s) -> add_new_MPs n b s = None.
Proof.
  intros W B Ho Hn. assert (n <> 1%nat) by (destruct W; lia).
  unfold add_new_MPs. destruct B as (L1 & _). destruct W.
  rewrite slice_set_overflow by (unfold capacity in *; lia || auto). reflexivity.
Qed.

Lemma add_from_appended d s :
  wf s -> length (d_x d) = d_N d -> length (d_y d) = d_N d -> length (d_z d) = d_N d ->
  length (d_vx d) = d_N d -> length (d_vy d) = d_N d -> length (d_vz d) = d_N d ->
  length (d_nel d) = d_N d ->
  (forall t, d_t d = Some t -> length t = d_N d) ->
  (N_mp s + d_N d <= capacity s)%nat ->
  exists s', add_from_file d s = Some s' /\
    appended s s' (d_N d) (d_x d) (d_y d) (d_z d) (d_vx d) (d_vy d) (d_vz d) (d_nel d)
      (match d_t d with Some t => t | None => repeat (-1) (d_N d) end) /\
    same_cfg s s' /\ nel_mp_ref s' = nel_mp_ref s /\ nel_mp_split s' = nel_mp_split s /\
    nel_mp_cl_th s' = nel_mp_cl_th s.
Proof.
  intros W L1 L2 L3 L4 L5 L6 L7 L8 Hfit. assert (W0 := W).
  destruct W0 as [Hy Hz Hvx Hvy Hvz Hn Ht HN].
  unfold add_from_file.
  assert (HS : forall a v : list R, length a = capacity s -> length v = d_N d ->
     slice_set a (N_mp s) (N_mp s + d_N d) v
     = Some (firstn (N_mp s) a ++ v ++ skipn (N_mp s + d_N d) a)).
  { intros a v Ha Hv. apply slice_set_exact; lia. }
  rewrite (HS (x_mp s)), (HS (y_mp s)), (HS (z_mp s)), (HS (vx_mp s)), (HS (vy_mp s)),
    (HS (vz_mp s)), (HS (nel_mp s)) by auto.
  cbn [bind].
  assert (CAP : length (firstn (N_mp s) (x_mp s) ++ d_x d ++ skipn (N_mp s + d_N d) (x_mp s)) = capacity s)
    by (apply ins_length; auto).
  set (tn := match d_t d with Some t => t | None => repeat (-1) (d_N d) end).
  assert (Ltn : length tn = d_N d).
  { subst tn. destruct (d_t d); auto. apply repeat_length. }
  assert (Et : match d_t d with
             | Some t => slice_set (t_last_impact s) (N_mp s) (N_mp s + d_N d) t
             | None => Some (slice_fill (t_last_impact s) (N_mp s) (N_mp s + d_N d) (-1))
             end = Some (firstn (N_mp s) (t_last_impact s) ++ tn ++ skipn (N_mp s + d_N d) (t_last_impact s))).
  { subst tn. destruct (d_t d); [apply HS; auto|].
    rewrite slice_fill_exact by lia. do 4 f_equal. f_equal; lia. }
  rewrite Et.
  destruct (flag_lifetime_hist s) eqn:Ef; cbn [bind]; eexists;
    (split; [reflexivity|]; split;
      [constructor; simpl; rewrite ?Ef; auto; unfold lens8; repeat split; auto
      |unfold same_cfg, capacity in *; simpl; rewrite Ef; auto 10]).
Qed.

(* ---------- soft regeneration ---------- *)
Lemma set_ref_wf s v : wf s -> wf (set_nel_mp_ref s v).
Proof. intros []; constructor; auto. Qed.

Definition soft_mask (rng : nat -> R) (k target : nat) (s : mpsys) : list bool :=
  map (fun u => Rgtb u (INR (N_mp s - target) / INR (N_mp s))) (draw rng k (N_mp s)).

Lemma soft_spec target rng k s :
  wf s -> (target < N_mp s)%nat ->
  let m := soft_mask rng k target s in
  let f := rsum (nel_mp s) / rsum (map m_nel (mask_get m (live s))) in
  exists s', perform_soft_regeneration target rng k s = Some (s', (k + N_mp s)%nat) /\
    live s' = map (scale_nel f) (mask_get m (live s)) /\
    wf s' /\ tail_zero s' /\ same_cfg s s' /\
    nel_mp_ref s' = new_ref s target /\ sizes_ok s'.
Proof.
  intros W Ht m f. unfold perform_soft_regeneration.
  destruct (Nat.ltb_spec target (N_mp s)); [|lia].
  fold (soft_mask rng k target s). fold m.
  assert (Lm : length m = N_mp s) by (subst m; unfold soft_mask; rewrite map_length; apply draw_length).
  rewrite slice_set_exact; simpl; rewrite ?repeat_length; try lia;
    [|destruct W; unfold capacity in *; lia].
  replace (skipn (N_mp s) (repeat false (length (x_mp s)))) with (repeat false (capacity s - N_mp s)).
  2:{ destruct W. fold (capacity s). replace (capacity s) with (N_mp s + (capacity s - N_mp s))%nat at 2 by lia.
      rewrite repeat_app, skipn_app_exact by apply repeat_length. reflexivity. }
  set (s1 := set_nel_mp_ref s (new_ref s target)).
  assert (W1 : wf s1) by (apply set_ref_wf; auto).
  destruct (keep_masked_kept s1 m true W1 Lm) as (s2 & E & K & W2 & T2).
  change (capacity s1) with (capacity s) in E. change (N_mp s1) with (N_mp s) in E.
  rewrite E. cbn [bind].
  pose proof (kept_live s1 s2 m W1 W2 Lm K) as HL2. change (live s1) with (live s) in HL2.
  assert (Hsum : rsum (nel_mp s2) = rsum (map m_nel (mask_get m (live s)))).
  { rewrite rsum_all_tail_zero by auto. unfold charge. rewrite HL2. reflexivity. }
  rewrite Hsum. fold f. rewrite slice_get_0.
  assert (LN : length (firstn (N_mp s2) (nel_mp s2)) = N_mp s2).
  { rewrite firstn_length. destruct W2; lia. }
  rewrite slice_set_exact; [|lia|destruct W2; lia|rewrite map_length; lia].
  cbn [bind]. eexists. split; [reflexivity|]. cbn [firstn app].
  set (nel' := map (fun q => q * f) (firstn (N_mp s2) (nel_mp s2)) ++ skipn (N_mp s2) (nel_mp s2)).
  assert (W' : wf (set_nel s2 nel')).
  { destruct W2. constructor; auto. simpl. unfold nel'. rewrite app_length, map_length, LN, skipn_length.
    unfold capacity in *; simpl in *. lia. }
  split.
  - rewrite (live_zip8 (set_nel s2 nel')) by auto. rewrite <- HL2, (live_zip8 s2) by auto.
    simpl. change (tview (set_nel s2 nel')) with (tview s2).
    unfold nel'. rewrite firstn_app_exact by (rewrite map_length; auto).
    pose proof (wf_lens8 s2 W2) as L8. revert L8.
    generalize (firstn (N_mp s2) (x_mp s2)) (firstn (N_mp s2) (y_mp s2)) (firstn (N_mp s2) (z_mp s2))
      (firstn (N_mp s2) (vx_mp s2)) (firstn (N_mp s2) (vy_mp s2)) (firstn (N_mp s2) (vz_mp s2))
      (firstn (N_mp s2) (nel_mp s2)) (firstn (N_mp s2) (tview s2)).
    generalize (N_mp s2). clear. induction n as [|n IH]; intros a b c d e g h i
      (Ha & Hb & Hc & Hd & He & Hf & Hg & Hh); dl8; [reflexivity|].
    simpl. f_equal. apply IH. repeat split; auto.
  - split; [auto|]. split.
    + apply tail_zero_skipn; auto. simpl. unfold nel'.
      rewrite skipn_app_exact by (rewrite map_length; auto). apply tail_zero_skipn; auto.
    + destruct K as [_ _ _ _ _ _ _ _ _ Kc Kr]. destruct Kc as (C1 & C2 & C3 & C4 & C5).
      destruct Kr as (R1 & R2 & R3). split.
      * unfold same_cfg, capacity in *; simpl in *; auto.
      * simpl. split; [rewrite R1; reflexivity|].
        unfold sizes_ok; simpl. rewrite R1, R2, R3, C4, C5. auto.
Qed.

Lemma scale_charge f l : rsum (map m_nel (map (scale_nel f) l)) = rsum (map m_nel l) * f.
Proof. rewrite map_map. simpl. rewrite <- rsum_map_mult, map_map. reflexivity. Qed.

Lemma rsum_pos l : l <> [] -> Forall (fun x => 0 < x) l -> 0 < rsum l.
Proof.
  intros Hne HF. destruct HF as [|x l Hx HF]; [easy|]. rewrite rsum_cons.
  assert (0 <= rsum l); [|lra]. apply rsum_nonneg. eapply Forall_impl; [|eauto]. simpl; intros; lra.
Qed.
