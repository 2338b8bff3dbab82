From Coq Require Import FinFun.
From Verif Require Import Num NumFacts Fort SpecFort.

Lemma nodes_length n : length (nodes n) = n.
Proof. unfold nodes; rewrite map_length, seq_length; auto. Qed.

Lemma nodes_In n k : In k (nodes n) <-> (1 <= k <= Z.of_nat n)%Z.
Proof.
  unfold nodes; rewrite in_map_iff. split.
  - intros (m & <- & H). apply in_seq in H. lia.
  - intros H. exists (Z.to_nat (k - 1)). split; [lia|]. apply in_seq; lia.
Qed.

Lemma nodes_NoDup n : NoDup (nodes n).
Proof.
  unfold nodes. apply FinFun.Injective_map_NoDup; [|apply seq_NoDup].
  intros a b H; lia.
Qed.

Lemma rsum_ext {A} (f g : A -> R) l :
  (forall x, In x l -> f x = g x) -> rsum (map f l) = rsum (map g l).
Proof.
  intros H; induction l as [|a l IH]; simpl; auto.
  rewrite !rsum_cons, (H a) by (left; auto). rewrite IH; auto. intros; apply H; right; auto.
Qed.

Lemma rsum_zero {A} (l : list A) : rsum (map (fun _ => 0) l) = 0.
Proof. induction l; simpl; auto. rewrite rsum_cons, IHl; lra. Qed.

Lemma rsum_single (l : list Z) (i : Z) (c : Z -> R) :
  NoDup l -> In i l ->
  rsum (map (fun k => if (k =? i)%Z then c k else 0) l) = c i.
Proof.
  induction l as [|a l IH]; simpl; [easy|].
  intros HN HI. inversion HN as [|? ? Hn HN']; subst. rewrite rsum_cons.
  destruct (Z.eqb_spec a i).
  - subst. rewrite (rsum_ext _ (fun _ => 0)).
    + rewrite rsum_zero; lra.
    + intros k Hk. destruct (Z.eqb_spec k i); subst; easy.
  - destruct HI as [->|HI]; [easy|]. rewrite IH; auto; lra.
Qed.

Lemma node_sum_ext n m f g :
  (forall i j, (1 <= i <= Z.of_nat n)%Z -> (1 <= j <= Z.of_nat m)%Z -> f i j = g i j) ->
  node_sum n m f = node_sum n m g.
Proof.
  intros H. unfold node_sum. apply rsum_ext. intros i Hi.
  apply rsum_ext. intros j Hj. apply H; apply nodes_In; auto.
Qed.

Lemma node_sum_plus n m f g :
  node_sum n m (fun i j => f i j + g i j) = node_sum n m f + node_sum n m g.
Proof.
  unfold node_sum. rewrite <- rsum_map_plus. apply rsum_ext. intros.
  rewrite <- rsum_map_plus. reflexivity.
Qed.

Lemma node_sum_zero n m : node_sum n m (fun _ _ => 0) = 0.
Proof.
  unfold node_sum. rewrite (rsum_ext _ (fun _ => 0)); [apply rsum_zero|].
  intros; apply rsum_zero.
Qed.

Lemma node_sum_single n m i j (c : Z -> Z -> R) :
  (1 <= i <= Z.of_nat n)%Z -> (1 <= j <= Z.of_nat m)%Z ->
  node_sum n m (fun a b => if ((a =? i) && (b =? j))%Z then c a b else 0) = c i j.
Proof.
  intros Hi Hj. unfold node_sum.
  rewrite (rsum_ext _ (fun a => if (a =? i)%Z then c a j else 0)).
  - apply (rsum_single _ i (fun a => c a j)); [apply nodes_NoDup|apply nodes_In; auto].
  - intros a _. destruct (Z.eqb_spec a i); simpl.
    + apply (rsum_single _ j (fun b => c a b)); [apply nodes_NoDup|apply nodes_In; auto].
    + apply rsum_zero.
Qed.

(* ---------- hat function ---------- *)
Lemma hat_nonneg t : 0 <= hat t.
Proof. unfold hat; apply Rmax_l. Qed.

Lemma hat_left t : -1 <= t <= 0 -> hat t = 1 + t.
Proof. intros H. unfold hat. rewrite Rabs_left1 by lra. rewrite Rmax_right; lra. Qed.
Lemma hat_right t : 0 <= t <= 1 -> hat t = 1 - t.
Proof. intros H. unfold hat. rewrite Rabs_right by lra. rewrite Rmax_right; lra. Qed.
Lemma hat_out t : t <= -1 \/ 1 <= t -> hat t = 0.
Proof.
  intros H. unfold hat. apply Rmax_left. destruct H.
  - rewrite Rabs_left1 by lra. lra.
  - rewrite Rabs_right by lra. lra.
Qed.

(** The weight of node [k] seen from position [u] with [i = floor u]. *)
Definition share (i : Z) (h : R) (k : Z) : R :=
  (if (k =? i)%Z then 1 - h else 0) + (if (k =? i + 1)%Z then h else 0).

Lemma share_hat u i k :
  IZR i <= u < IZR i + 1 -> share i (u - IZR i) k = hat (u - IZR k).
Proof.
  intros H. unfold share.
  destruct (Z.eqb_spec k i); destruct (Z.eqb_spec k (i + 1)); subst; try lia.
  - rewrite hat_right; lra.
  - rewrite plus_IZR. rewrite hat_left; lra.
  - rewrite hat_out; [lra|].
    assert (k <= i - 1 \/ i + 2 <= k)%Z as [Hk|Hk] by lia; apply IZR_le in Hk.
    + rewrite minus_IZR in Hk. lra.
    + rewrite plus_IZR in Hk. lra.
Qed.

Lemma cell_covered x b d n :
  0 < d -> covered x b d n ->
  let u := 1 + (x - b) / d in
  1 <= u < INR n /\ cell_i x b d = rfloor u /\
  (0 < cell_i x b d < Z.of_nat n)%Z /\
  IZR (cell_i x b d) <= u < IZR (cell_i x b d) + 1.
Proof.
  intros Hd [H1 H2] u.
  assert (Hu : 1 <= u < INR n).
  { subst u. split.
    - assert (0 <= (x - b) / d); [|lra].
      unfold Rdiv. apply Rmult_le_pos; [lra|]. left; apply Rinv_0_lt_compat; lra.
    - assert ((x - b) / d < INR n - 1); [|lra].
      apply Rmult_lt_reg_r with d; auto. unfold Rdiv.
      rewrite Rmult_assoc, Rinv_l by lra. lra. }
  assert (E : cell_i x b d = rfloor u).
  { unfold cell_i. fold u. apply rtrunc_nonneg; lra. }
  split; [auto|]. split; [auto|]. rewrite E. split.
  - split.
    + assert (1 <= rfloor u)%Z by (apply rfloor_ge; lra). lia.
    + apply rfloor_lt. rewrite <- INR_IZR_INZ. lra.
  - apply rfloor_bounds.
Qed.

Lemma cell_not_covered x b d n :
  0 < d -> ~ covered x b d n ->
  (cell_i x b d <= 0 \/ Z.of_nat n <= cell_i x b d)%Z.
Proof.
  intros Hd Hc. unfold cell_i. set (u := 1 + (x - b) / d).
  assert (Hxu : x = b + (u - 1) * d) by (subst u; field; lra).
  destruct (Rlt_dec u 1) as [H|H].
  - left. unfold rtrunc. destruct (Rlt_dec u 0).
    + apply (rceil_le_of u 0); lra.
    + assert (rfloor u < 1)%Z by (apply rfloor_lt; lra). lia.
  - right. rewrite rtrunc_nonneg by lra.
    destruct (Rlt_dec u (INR n)) as [H'|H'].
    + exfalso. apply Hc. split; rewrite Hxu; nra.
    + apply rfloor_ge. rewrite <- INR_IZR_INZ. lra.
Qed.

(* ---------- deposition ---------- *)
Definition covered_b (x b d : R) (n : nat) : bool :=
  Rleb b x && Rltb x (b + (INR n - 1) * d).

Lemma covered_b_spec x b d n : covered_b x b d n = true <-> covered x b d n.
Proof. unfold covered_b, covered. rewrite andb_true_iff, Rleb_true, Rltb_true. tauto. Qed.

Lemma in_grid_covered x y bx by_ dx dy n m :
  0 < dx -> 0 < dy ->
  in_grid (Z.of_nat n) (Z.of_nat m) (cell_i x bx dx) (cell_i y by_ dy)
  = covered_b x bx dx n && covered_b y by_ dy m.
Proof.
  intros Hx Hy. apply eq_true_iff_eq. unfold in_grid.
  rewrite !andb_true_iff, !covered_b_spec, !Z.ltb_lt. split.
  - intros [[[H1 H2] H3] H4]. split.
    + destruct (covered_b x bx dx n) eqn:E; [apply covered_b_spec; auto|].
      exfalso. destruct (cell_not_covered x bx dx n Hx); try lia.
      intros C; apply covered_b_spec in C; congruence.
    + destruct (covered_b y by_ dy m) eqn:E; [apply covered_b_spec; auto|].
      exfalso. destruct (cell_not_covered y by_ dy m Hy); try lia.
      intros C; apply covered_b_spec in C; congruence.
  - intros [C1 C2].
    destruct (cell_covered x bx dx n Hx C1) as (_ & _ & H & _).
    destruct (cell_covered y by_ dy m Hy C2) as (_ & _ & H' & _). tauto || lia.
Qed.

Definition inside_b (bx by_ dx dy : R) (n m : nat) (p : part) : bool :=
  covered_b (p_x p) bx dx n && covered_b (p_y p) by_ dy m.

Lemma gadd4 rho i j hx hy w a b :
  gadd (gadd (gadd (gadd rho i j (w * (1 - hx) * (1 - hy)))
     (i + 1) j (w * hx * (1 - hy))) i (j + 1) (w * (1 - hx) * hy))
     (i + 1) (j + 1) (w * hx * hy) a b
  = rho a b + w * share i hx a * share j hy b.
Proof.
  unfold gadd, share.
  destruct (Z.eqb_spec a i), (Z.eqb_spec a (i+1)), (Z.eqb_spec b j), (Z.eqb_spec b (j+1));
    subst; try lia; simpl; ring.
Qed.

Lemma rho_one_hat bx by_ Dh n m rho p a b :
  0 < Dh ->
  rho_one bx by_ Dh (Z.of_nat n) (Z.of_nat m) rho p a b
  = rho a b + (if inside_b bx by_ Dh Dh n m p then
      p_w p * hat ((p_x p - bx) / Dh - (IZR a - 1)) * hat ((p_y p - by_) / Dh - (IZR b - 1))
      else 0).
Proof.
  intros HD. unfold rho_one. rewrite in_grid_covered by auto. fold (inside_b bx by_ Dh Dh n m p).
  destruct (inside_b bx by_ Dh Dh n m p) eqn:E; [|lra].
  unfold inside_b in E. apply andb_true_iff in E as [E1 E2].
  apply covered_b_spec in E1, E2.
  destruct (cell_covered _ _ _ _ HD E1) as (_ & _ & _ & Hx).
  destruct (cell_covered _ _ _ _ HD E2) as (_ & _ & _ & Hy).
  rewrite gadd4. unfold cell_h.
  rewrite (share_hat _ _ a Hx), (share_hat _ _ b Hy).
  do 2 f_equal; [f_equal|]; f_equal; lra.
Qed.

Lemma compute_rho_hat_acc bx by_ Dh n m ps rho a b :
  0 < Dh ->
  fold_left (rho_one bx by_ Dh (Z.of_nat n) (Z.of_nat m)) ps rho a b
  = rho a b + rsum (map (fun p =>
      p_w p * hat ((p_x p - bx) / Dh - (IZR a - 1)) * hat ((p_y p - by_) / Dh - (IZR b - 1)))
      (filter (inside_b bx by_ Dh Dh n m) ps)).
Proof.
  intros HD. revert rho. induction ps as [|p ps IH]; intros rho; simpl.
  - unfold rsum; simpl; lra.
  - rewrite IH, rho_one_hat by auto.
    destruct (inside_b bx by_ Dh Dh n m p); simpl; [rewrite rsum_cons|]; lra.
Qed.

Lemma interp_one_hat bx by_ dx dy n m ef x y :
  0 < dx -> 0 < dy ->
  interp_one bx by_ dx dy (Z.of_nat n) (Z.of_nat m) ef x y
  = if covered_b x bx dx n && covered_b y by_ dy m then
      node_sum n m (fun a b => ef a b * hat ((x - bx) / dx - (IZR a - 1))
                                      * hat ((y - by_) / dy - (IZR b - 1)))
    else 0.
Proof.
  intros Hx Hy. unfold interp_one. rewrite in_grid_covered by auto.
  destruct (_ && _) eqn:E; auto. apply andb_true_iff in E as [E1 E2].
  apply covered_b_spec in E1, E2.
  destruct (cell_covered _ _ _ _ Hx E1) as (_ & _ & Bi & Hi).
  destruct (cell_covered _ _ _ _ Hy E2) as (_ & _ & Bj & Hj).
  set (i := cell_i x bx dx) in *. set (j := cell_i y by_ dy) in *.
  unfold cell_h. fold i. fold j. set (hx := 1 + (x - bx) / dx - IZR i).
  set (hy := 1 + (y - by_) / dy - IZR j).
  symmetry. rewrite (node_sum_ext _ _ _ (fun a b =>
     (if ((a =? i) && (b =? j))%Z then ef a b * (1-hx) * (1-hy) else 0) +
     ((if ((a =? i+1) && (b =? j))%Z then ef a b * hx * (1-hy) else 0) +
     ((if ((a =? i) && (b =? j+1))%Z then ef a b * (1-hx) * hy else 0) +
     (if ((a =? i+1) && (b =? j+1))%Z then ef a b * hx * hy else 0))))).
  - rewrite !node_sum_plus.
    rewrite !node_sum_single by lia. ring.
  - intros a b _ _.
    replace ((x - bx) / dx - (IZR a - 1)) with (1 + (x - bx) / dx - IZR a) by ring.
    replace ((y - by_) / dy - (IZR b - 1)) with (1 + (y - by_) / dy - IZR b) by ring.
    rewrite <- (share_hat _ _ a Hi), <- (share_hat _ _ b Hj). fold hx hy.
    unfold share.
    destruct (Z.eqb_spec a i), (Z.eqb_spec a (i+1)), (Z.eqb_spec b j), (Z.eqb_spec b (j+1));
      subst; try lia; simpl; ring.
Qed.

Lemma node_sum_scal n m c f :
  node_sum n m (fun i j => c * f i j) = c * node_sum n m f.
Proof.
  unfold node_sum. rewrite <- rsum_map_scal. apply rsum_ext. intros.
  rewrite <- rsum_map_scal. reflexivity.
Qed.

Lemma node_sum_rsum n m {A} (l : list A) (f : A -> Z -> Z -> R) :
  node_sum n m (fun i j => rsum (map (fun p => f p i j) l))
  = rsum (map (fun p => node_sum n m (f p)) l).
Proof.
  induction l as [|p l IH]; simpl.
  - apply node_sum_zero.
  - rewrite rsum_cons, <- IH, <- node_sum_plus. apply node_sum_ext. intros. apply rsum_cons.
Qed.

Lemma rsum_filter_if {A} (g : A -> bool) (f : A -> R) l :
  rsum (map f (filter g l)) = rsum (map (fun p => if g p then f p else 0) l).
Proof.
  induction l as [|p l IH]; simpl; auto. destruct (g p); simpl; rewrite !rsum_cons, IH; lra.
Qed.

Lemma rho_interp_adjoint bx by_ Dh n m ps ef :
  0 < Dh ->
  node_sum n m (fun a b => compute_rho bx by_ Dh (Z.of_nat n) (Z.of_nat m) ps a b * ef a b)
  = rsum (map (fun p => p_w p *
      interp_one bx by_ Dh Dh (Z.of_nat n) (Z.of_nat m) ef (p_x p) (p_y p)) ps).
Proof.
  intros HD. unfold compute_rho.
  rewrite (node_sum_ext _ _ _ (fun a b => rsum (map (fun p =>
      p_w p * (ef a b * hat ((p_x p - bx) / Dh - (IZR a - 1)) * hat ((p_y p - by_) / Dh - (IZR b - 1))))
      (filter (inside_b bx by_ Dh Dh n m) ps)))).
  2:{ intros a b _ _. rewrite compute_rho_hat_acc by auto.
      rewrite Rplus_0_l, Rmult_comm, <- rsum_map_scal. apply rsum_ext. intros; ring. }
  rewrite node_sum_rsum, rsum_filter_if. apply rsum_ext. intros p _.
  rewrite interp_one_hat by auto. fold (inside_b bx by_ Dh Dh n m p).
  destruct (inside_b bx by_ Dh Dh n m p); [apply node_sum_scal|lra].
Qed.

Lemma interp_bilinear bx by_ dx dy n m c0 c1 c2 c3 x y :
  0 < dx -> 0 < dy -> covered x bx dx n -> covered y by_ dy m ->
  interp_one bx by_ dx dy (Z.of_nat n) (Z.of_nat m)
    (fun i j => let X := bx + (IZR i - 1) * dx in
                let Y := by_ + (IZR j - 1) * dy in
                c0 + c1 * X + c2 * Y + c3 * X * Y) x y
  = c0 + c1 * x + c2 * y + c3 * x * y.
Proof.
  intros Hx Hy C1 C2. unfold interp_one. rewrite in_grid_covered by auto.
  apply covered_b_spec in C1, C2. rewrite C1, C2. simpl.
  unfold cell_h. rewrite !plus_IZR. set (i := IZR (cell_i x bx dx)). set (j := IZR (cell_i y by_ dy)).
  field. lra.
Qed.

Lemma interp_one_in_grid bx by_ dx dy n m (ef : grid) x y lo hi :
  0 < dx -> 0 < dy -> covered x bx dx n -> covered y by_ dy m ->
  (forall i j, (1 <= i <= Z.of_nat n)%Z -> (1 <= j <= Z.of_nat m)%Z -> lo <= ef i j <= hi) ->
  lo <= interp_one bx by_ dx dy (Z.of_nat n) (Z.of_nat m) ef x y <= hi.
Proof.
  intros Hx Hy C1 C2 Hb. unfold interp_one. rewrite in_grid_covered by auto.
  destruct (cell_covered _ _ _ _ Hx C1) as (_ & _ & Bi & Hi).
  destruct (cell_covered _ _ _ _ Hy C2) as (_ & _ & Bj & Hj).
  apply covered_b_spec in C1, C2. rewrite C1, C2. simpl.
  unfold cell_h. set (i := cell_i x bx dx) in *. set (j := cell_i y by_ dy) in *.
  set (hx := 1 + (x - bx) / dx - IZR i). set (hy := 1 + (y - by_) / dy - IZR j).
  assert (0 <= hx < 1) by (subst hx; lra). assert (0 <= hy < 1) by (subst hy; lra).
  assert (B1 := Hb i j ltac:(lia) ltac:(lia)).
  assert (B2 := Hb (i+1)%Z j ltac:(lia) ltac:(lia)).
  assert (B3 := Hb i (j+1)%Z ltac:(lia) ltac:(lia)).
  assert (B4 := Hb (i+1)%Z (j+1)%Z ltac:(lia) ltac:(lia)).
  assert (0 <= (1-hx)*(1-hy)) by (apply Rmult_le_pos; lra).
  assert (0 <= hx*(1-hy)) by (apply Rmult_le_pos; lra).
  assert (0 <= (1-hx)*hy) by (apply Rmult_le_pos; lra).
  assert (0 <= hx*hy) by (apply Rmult_le_pos; lra).
  split; nra.
Qed.

(* ---------- histogram ---------- *)
Lemma for_add_nth a i w r k :
  for_add a i w = Some r ->
  nth k r 0 = nth k a 0 + (if (Z.of_nat (S k) =? i)%Z then w else 0).
Proof.
  unfold for_add. destruct (_ && _)%bool eqn:E; [|easy].
  intros H; injection H as <-. apply andb_true_iff in E as [E1 E2].
  apply Z.leb_le in E1, E2.
  assert (G : forall j, (j < length a)%nat -> nth k (upd_nth a j (fun x => x + w)) 0
      = nth k a 0 + (if Nat.eqb k j then w else 0)).
  { clear. revert k. induction a as [|x a IH]; intros k j Hj; simpl in *; [lia|].
    destruct j, k; simpl; try lra. apply IH. lia. }
  rewrite G by lia. f_equal.
  destruct (Nat.eqb_spec k (Z.to_nat (i - 1))), (Z.eqb_spec (Z.of_nat (S k)) i); auto; lia.
Qed.

(** What one sample contributes to bin [k] (1-based). *)
Definition hist_contrib (bias Dx : R) (n : nat) (k : Z) (xw : R * R) : R :=
  let u := 1 + (fst xw - bias) / Dx in
  if Rltb u (INR n) then snd xw * hat (u - IZR k)
  else if (k =? Z.of_nat n)%Z then snd xw else 0.

Lemma hist_one_spec bias Dx hist xw :
  0 < Dx -> bias <= fst xw -> hist <> [] ->
  exists r, hist_one bias Dx hist xw = Some r /\ length r = length hist /\
    rsum r = rsum hist + snd xw /\
    forall k, nth k r 0 = nth k hist 0 +
       hist_contrib bias Dx (length hist) (Z.of_nat (S k)) xw * (if (k <? length hist)%nat then 1 else 0).
Proof.
  intros HD Hb Hne. destruct xw as [x w]; cbn [fst snd] in *.
  set (n := length hist). assert (Hn : (1 <= n)%nat).
  { subst n. destruct hist; simpl; [easy|lia]. }
  unfold hist_one. set (u := 1 + (x - bias) / Dx).
  assert (Hu : 1 <= u).
  { subst u. assert (0 <= (x - bias) / Dx); [|lra].
    unfold Rdiv; apply Rmult_le_pos; [lra|left; apply Rinv_0_lt_compat; lra]. }
  fold n. rewrite rtrunc_nonneg by lra.
  assert (Hi : (1 <= rfloor u)%Z) by (apply rfloor_ge; lra).
  pose proof (rfloor_bounds u) as Hfl.
  destruct (Z.ltb_spec (rfloor u) (Z.of_nat n)) as [Hlt|Hge].
  - destruct (for_add_Some hist (rfloor u) (w * (1 - (u - IZR (rfloor u))))) as (h1 & E1 & L1 & S1).
    { fold n; lia. }
    destruct (for_add_Some h1 (rfloor u + 1) (w * (u - IZR (rfloor u)))) as (h2 & E2 & L2 & S2).
    { rewrite L1; fold n; lia. }
    rewrite E1. cbn [bind]. exists h2. split; [auto|]. split; [unfold n; congruence|].
    split; [rewrite S2, S1; ring|].
    intros k. rewrite (for_add_nth _ _ _ _ k E2), (for_add_nth _ _ _ _ k E1).
    unfold hist_contrib. cbv zeta. simpl fst. simpl snd. fold u.
    assert (Hun : u < INR n).
    { apply (Z.le_lt_trans (rfloor u) (rfloor u)) in Hlt; [|lia].
      assert (rfloor u + 1 <= Z.of_nat n)%Z by lia. apply IZR_le in H.
      rewrite plus_IZR, <- INR_IZR_INZ in H. lra. }
    replace (Rltb u (INR n)) with true by (symmetry; apply Rltb_true; auto).
    rewrite <- (share_hat u (rfloor u) (Z.of_nat (S k))) by auto.
    unfold share.
    destruct (Z.eqb_spec (Z.of_nat (S k)) (rfloor u)), (Z.eqb_spec (Z.of_nat (S k)) (rfloor u + 1)), (Nat.ltb_spec k n); subst; try lia; ring.
  - destruct (for_add_Some hist (Z.of_nat n) w) as (h1 & E1 & L1 & S1).
    { fold n; lia. }
    exists h1. split; [auto|]. split; [auto|]. split; [auto|].
    intros k. rewrite (for_add_nth _ _ _ _ k E1). unfold hist_contrib. cbv zeta. simpl fst. simpl snd. fold u.
    assert (Hun : INR n <= u).
    { apply IZR_le in Hge. rewrite <- INR_IZR_INZ in Hge. lra. }
    replace (Rltb u (INR n)) with false by (symmetry; apply Rltb_false; auto).
    destruct (Z.eqb_spec (Z.of_nat (S k)) (Z.of_nat n)), (Nat.ltb_spec k n); try lia; ring.
Qed.

Lemma compute_hist_spec bias Dx xs : forall hist,
  0 < Dx -> (forall xw, In xw xs -> bias <= fst xw) -> hist <> [] ->
  exists r, compute_hist xs bias Dx hist = Some r /\ length r = length hist /\
    rsum r = rsum hist + rsum (map snd xs) /\
    forall k, (k < length hist)%nat ->
      nth k r 0 = nth k hist 0 +
        rsum (map (hist_contrib bias Dx (length hist) (Z.of_nat (S k))) xs).
Proof.
  induction xs as [|xw xs IH]; intros hist HD Hb Hne; cbn [compute_hist map].
  - exists hist. split; [auto|]. split; [auto|]. split; intros; unfold rsum; simpl; lra.
  - destruct (hist_one_spec bias Dx hist xw HD) as (h1 & E1 & L1 & S1 & N1); auto.
    { apply Hb; left; auto. }
    rewrite E1; cbn [bind].
    destruct (IH h1 HD) as (r & E & L & S & N).
    { intros; apply Hb; right; auto. }
    { intros ->; simpl in L1; destruct hist; easy. }
    exists r. split; [auto|]. split; [congruence|]. rewrite !rsum_cons. split; [lra|].
    intros k Hk. rewrite N, N1, rsum_cons, L1 by lia.
    destruct (Nat.ltb_spec k (length hist)); [lra|lia].
Qed.

Lemma hist_one_below bias Dx hist x w :
  0 < Dx -> x < bias -> (0 < length hist)%nat -> hist_one bias Dx hist (x, w) = None.
Proof.
  intros HD Hx Hn. unfold hist_one. set (u := 1 + (x - bias) / Dx).
  assert (Hu : u < 1).
  { subst u. assert ((x - bias) / Dx < 0); [|lra].
    unfold Rdiv. apply Ropp_lt_cancel. rewrite Ropp_0, <- Ropp_mult_distr_l_reverse.
    apply Rmult_lt_0_compat; [lra|apply Rinv_0_lt_compat; auto]. }
  assert (rtrunc u <= 0)%Z.
  { unfold rtrunc. destruct (Rlt_dec u 0).
    - apply (rceil_le_of u 0); lra.
    - assert (rfloor u < 1)%Z by (apply rfloor_lt; lra). lia. }
  destruct (Z.ltb_spec (rtrunc u) (Z.of_nat (length hist))); [|lia].
  unfold for_add at 1. destruct (Z.leb_spec 1 (rtrunc u)); [lia|]. reflexivity.
Qed.

(* ---------- segments ---------- *)
Lemma upd_nth_nth (a : list R) i f k :
  (i < length a)%nat ->
  nth k (upd_nth a i f) 0 = if Nat.eqb k i then f (nth k a 0) else nth k a 0.
Proof.
  revert i k; induction a as [|x a IH]; intros i k H; simpl in *; [lia|].
  destruct i, k; simpl; auto. apply IH; lia.
Qed.

Lemma seg_one_length hist iw : length (seg_one hist iw) = length hist.
Proof.
  destruct iw as [i w]; unfold seg_one. destruct (_ && _)%bool; auto. apply upd_nth_length.
Qed.

Lemma seg_one_nth hist i w k :
  (k < length hist)%nat ->
  nth k (seg_one hist (i, w)) 0 = nth k hist 0 + (if (i =? Z.of_nat k)%Z then w else 0).
Proof.
  intros Hk. unfold seg_one. destruct (_ && _)%bool eqn:E.
  - apply andb_true_iff in E as [E1 E2]. apply Z.leb_le in E1, E2.
    rewrite upd_nth_nth by lia.
    destruct (Nat.eqb_spec k (Z.to_nat (i + 1 - 1))), (Z.eqb_spec i (Z.of_nat k)); try lia; lra.
  - destruct (Z.eqb_spec i (Z.of_nat k)); [|lra]. exfalso.
    apply andb_false_iff in E as [E|E]; apply Z.leb_gt in E; lia.
Qed.

Lemma update_seg_impact_length iws : forall hist,
  length (update_seg_impact iws hist) = length hist.
Proof.
  unfold update_seg_impact. induction iws as [|iw iws IH]; intros hist; cbn [fold_left]; auto.
  rewrite IH. apply seg_one_length.
Qed.

Lemma update_seg_impact_nth iws : forall hist k,
  (k < length hist)%nat ->
  nth k (update_seg_impact iws hist) 0
  = nth k hist 0 + rsum (map snd (filter (fun iw => (fst iw =? Z.of_nat k)%Z) iws)).
Proof.
  unfold update_seg_impact.
  induction iws as [|[i w] iws IH]; intros hist k Hk; cbn [fold_left filter fst].
  - unfold rsum; simpl; lra.
  - rewrite IH by (rewrite seg_one_length; auto). rewrite seg_one_nth by auto.
    destruct (i =? Z.of_nat k)%Z; cbn [map snd]; rewrite ?rsum_cons; lra.
Qed.

Lemma hist_contrib_share bias Dx n k xw :
  0 < Dx -> (1 <= n)%nat ->
  hist_contrib bias Dx n (Z.of_nat (S k)) xw = bin_share bias Dx n k xw.
Proof.
  intros HD Hn. unfold hist_contrib, bin_share. cbv zeta. destruct xw as [x w]; cbn [fst snd].
  set (u := (x - bias) / Dx). assert (Hx : x = bias + u * Dx) by (subst u; field; lra).
  replace ((x - (bias + INR k * Dx)) / Dx) with (u - INR k) by (rewrite Hx; field; lra).
  replace (1 + u - IZR (Z.of_nat (S k))) with (u - INR k)
    by (rewrite <- INR_IZR_INZ, S_INR; ring).
  destruct (Rlt_dec x (bias + (INR n - 1) * Dx)) as [H|H].
  - replace (Rltb (1 + u) (INR n)) with true; auto. symmetry; apply Rltb_true.
    rewrite Hx in H. nra.
  - replace (Rltb (1 + u) (INR n)) with false.
    + destruct (Z.eqb_spec (Z.of_nat (S k)) (Z.of_nat n)), (Nat.eq_dec k (n-1)); auto; lia.
    + symmetry; apply Rltb_false. rewrite Hx in H. nra.
Qed.

Lemma compute_hist_main bias Dx xs hist :
  0 < Dx -> hist <> [] -> (forall xw, In xw xs -> bias <= fst xw) ->
  exists r, compute_hist xs bias Dx hist = Some r /\
    length r = length hist /\
    rsum r = rsum hist + rsum (map snd xs) /\
    forall k, (k < length hist)%nat ->
      nth k r 0 = nth k hist 0 + rsum (map (bin_share bias Dx (length hist) k) xs).
Proof.
  intros HD Hne Hb.
  destruct (compute_hist_spec bias Dx xs hist HD Hb Hne) as (r & E & L & S & N).
  exists r. repeat split; auto. intros k Hk. rewrite N by auto. f_equal.
  apply rsum_ext. intros xw _. apply hist_contrib_share; auto. lia.
Qed.

Lemma inside_b_spec bx by_ d n m p : inside_b bx by_ d d n m p = true <-> in_range bx by_ d n m p.
Proof. unfold inside_b, in_range. rewrite andb_true_iff, !covered_b_spec. tauto. Qed.

Lemma hat_node x b d i : 0 < d -> hat ((x - b) / d - (IZR i - 1)) = hat ((x - (b + (IZR i - 1) * d)) / d).
Proof. intros. f_equal. field. lra. Qed.

Lemma compute_rho_nodes bx by_ Dh n m ps i j :
  0 < Dh -> (forall p, In p ps -> in_range bx by_ Dh n m p) ->
  compute_rho bx by_ Dh (Z.of_nat n) (Z.of_nat m) ps i j
  = rsum (map (node_share bx by_ Dh i j) ps).
Proof.
  intros HD Hin. unfold compute_rho. rewrite compute_rho_hat_acc, Rplus_0_l by auto.
  rewrite rsum_filter_if. apply rsum_ext. intros p Hp.
  apply Hin, inside_b_spec in Hp. rewrite Hp. unfold node_share.
  rewrite !hat_node by auto. reflexivity.
Qed.

Lemma compute_rho_outside bx by_ Dh n m ps1 p ps2 i j :
  0 < Dh -> ~ in_range bx by_ Dh n m p ->
  compute_rho bx by_ Dh (Z.of_nat n) (Z.of_nat m) (ps1 ++ p :: ps2) i j
  = compute_rho bx by_ Dh (Z.of_nat n) (Z.of_nat m) (ps1 ++ ps2) i j.
Proof.
  intros HD Hout. unfold compute_rho. rewrite !compute_rho_hat_acc by auto. f_equal.
  rewrite !filter_app. cbn [filter].
  destruct (inside_b bx by_ Dh Dh n m p) eqn:E; auto.
  apply inside_b_spec in E; easy.
Qed.

Lemma interp_one_const bx by_ dx dy n m c x y :
  0 < dx -> 0 < dy -> covered x bx dx n -> covered y by_ dy m ->
  interp_one bx by_ dx dy (Z.of_nat n) (Z.of_nat m) (fun _ _ => c) x y = c.
Proof.
  intros Hx Hy C1 C2.
  destruct (interp_one_in_grid bx by_ dx dy n m (fun _ _ => c) x y c c) as [A B]; auto.
  - intros; lra.
  - lra.
Qed.

Lemma compute_rho_total bx by_ Dh n m ps :
  0 < Dh -> (forall p, In p ps -> in_range bx by_ Dh n m p) ->
  node_sum n m (compute_rho bx by_ Dh (Z.of_nat n) (Z.of_nat m) ps) = rsum (map p_w ps).
Proof.
  intros HD Hin. pose proof (rho_interp_adjoint bx by_ Dh n m ps (fun _ _ => 1) HD) as A.
  rewrite (node_sum_ext _ _ _ (compute_rho bx by_ Dh (Z.of_nat n) (Z.of_nat m) ps)) in A
    by (intros; ring).
  rewrite A. apply rsum_ext. intros p Hp. destruct (Hin p Hp).
  rewrite interp_one_const by auto. ring.
Qed.

Lemma int_field_components bx by_ dx dy Nx Ny efx efy pos k x y :
  nth_error pos k = Some (x, y) ->
  nth_error (int_field bx by_ dx dy Nx Ny efx efy pos) k
  = Some (interp_one bx by_ dx dy Nx Ny efx x y, interp_one bx by_ dx dy Nx Ny efy x y).
Proof. intros H. unfold int_field. erewrite map_nth_error by eauto. reflexivity. Qed.
