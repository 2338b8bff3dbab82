(** Lemmas about the helpers of [Num]. *)
From Coq Require Export Lia Lra Psatz.
From Verif Require Export Num.

(* ---------- comparisons ---------- *)
Lemma Rltb_true x y : Rltb x y = true <-> x < y.
Proof. unfold Rltb; destruct (Rlt_dec x y); split; intros; try easy. Qed.
Lemma Rltb_false x y : Rltb x y = false <-> y <= x.
Proof. unfold Rltb; destruct (Rlt_dec x y); split; intros; try easy; lra. Qed.
Lemma Rleb_true x y : Rleb x y = true <-> x <= y.
Proof. unfold Rleb; destruct (Rle_dec x y); split; intros; try easy. Qed.
Lemma Rleb_false x y : Rleb x y = false <-> y < x.
Proof. unfold Rleb; destruct (Rle_dec x y); split; intros; try easy; lra. Qed.
Lemma Rgtb_true x y : Rgtb x y = true <-> x > y.
Proof. unfold Rgtb; rewrite Rltb_true; lra. Qed.
Lemma Rgtb_false x y : Rgtb x y = false <-> x <= y.
Proof. unfold Rgtb; rewrite Rltb_false; lra. Qed.
Lemma Rgeb_true x y : Rgeb x y = true <-> x >= y.
Proof. unfold Rgeb; rewrite Rleb_true; lra. Qed.
Lemma Rgeb_false x y : Rgeb x y = false <-> x < y.
Proof. unfold Rgeb; rewrite Rleb_false; lra. Qed.
Lemma Reqb_true x y : Reqb x y = true <-> x = y.
Proof. unfold Reqb; destruct (Req_EM_T x y); split; intros; try easy. Qed.
Lemma Reqb_false x y : Reqb x y = false <-> x <> y.
Proof. unfold Reqb; destruct (Req_EM_T x y); split; intros; try easy. Qed.

(** Decide every real comparison in the goal by [lra]. *)
Ltac rdec :=
  repeat match goal with
  | |- context [Rltb ?a ?b] =>
      first [ replace (Rltb a b) with true by (symmetry; apply Rltb_true; lra)
            | replace (Rltb a b) with false by (symmetry; apply Rltb_false; lra) ]
  | |- context [Rleb ?a ?b] =>
      first [ replace (Rleb a b) with true by (symmetry; apply Rleb_true; lra)
            | replace (Rleb a b) with false by (symmetry; apply Rleb_false; lra) ]
  | |- context [Rgtb ?a ?b] =>
      first [ replace (Rgtb a b) with true by (symmetry; apply Rgtb_true; lra)
            | replace (Rgtb a b) with false by (symmetry; apply Rgtb_false; lra) ]
  | |- context [Rgeb ?a ?b] =>
      first [ replace (Rgeb a b) with true by (symmetry; apply Rgeb_true; lra)
            | replace (Rgeb a b) with false by (symmetry; apply Rgeb_false; lra) ]
  | |- context [Reqb ?a ?b] =>
      first [ replace (Reqb a b) with true by (symmetry; apply Reqb_true; lra)
            | replace (Reqb a b) with false by (symmetry; apply Reqb_false; lra) ]
  end.

(* ---------- floor, ceil, trunc, around ---------- *)
Lemma rfloor_bounds x : IZR (rfloor x) <= x < IZR (rfloor x) + 1.
Proof. unfold rfloor. pose proof (base_Int_part x) as [H1 H2]. lra. Qed.

Lemma rfloor_unique x n : IZR n <= x < IZR n + 1 -> rfloor x = n.
Proof.
  intros [H1 H2]. pose proof (rfloor_bounds x) as [H3 H4].
  assert (IZR (rfloor x) < IZR n + 1) by lra.
  assert (IZR n < IZR (rfloor x) + 1) by lra.
  rewrite <- plus_IZR in *.
  apply lt_IZR in H. apply lt_IZR in H0. lia.
Qed.

Lemma rfloor_IZR n : rfloor (IZR n) = n.
Proof. apply rfloor_unique; lra. Qed.

Lemma rfloor_le x y : x <= y -> (rfloor x <= rfloor y)%Z.
Proof.
  intros H. pose proof (rfloor_bounds x). pose proof (rfloor_bounds y).
  assert (IZR (rfloor x) < IZR (rfloor y) + 1) by lra.
  rewrite <- plus_IZR in H2. apply lt_IZR in H2. lia.
Qed.

Lemma rfloor_ge x n : IZR n <= x -> (n <= rfloor x)%Z.
Proof. intros H. rewrite <- (rfloor_IZR n). apply rfloor_le; lra. Qed.

Lemma rfloor_lt x n : x < IZR n -> (rfloor x < n)%Z.
Proof.
  intros H. pose proof (rfloor_bounds x). apply lt_IZR. lra.
Qed.

Lemma rceil_bounds x : IZR (rceil x) - 1 < x <= IZR (rceil x).
Proof.
  unfold rceil. pose proof (rfloor_bounds (- x)). unfold rfloor in H.
  rewrite opp_IZR. lra.
Qed.

Lemma rceil_unique x n : IZR n - 1 < x <= IZR n -> rceil x = n.
Proof.
  intros H. unfold rceil.
  assert (rfloor (- x) = (- n)%Z) as E.
  { apply rfloor_unique. rewrite opp_IZR. lra. }
  unfold rfloor in E. lia.
Qed.

Lemma rceil_IZR n : rceil (IZR n) = n.
Proof. apply rceil_unique; lra. Qed.

Lemma rceil_le_of x n : x <= IZR n -> (rceil x <= n)%Z.
Proof.
  intros H. pose proof (rceil_bounds x).
  assert (IZR (rceil x) < IZR n + 1) by lra.
  rewrite <- plus_IZR in H1. apply lt_IZR in H1. lia.
Qed.

Lemma rceil_gt x n : IZR n < x -> (n < rceil x)%Z.
Proof. intros H. pose proof (rceil_bounds x). apply lt_IZR. lra. Qed.

Lemma rtrunc_nonneg x : 0 <= x -> rtrunc x = rfloor x.
Proof. intros H; unfold rtrunc. destruct (Rlt_dec x 0); [lra|reflexivity]. Qed.

Lemma rtrunc_neg x : x < 0 -> rtrunc x = rceil x.
Proof. intros H; unfold rtrunc. destruct (Rlt_dec x 0); [reflexivity|lra]. Qed.

Lemma rtrunc_IZR n : rtrunc (IZR n) = n.
Proof.
  unfold rtrunc. destruct (Rlt_dec (IZR n) 0); [apply rceil_IZR|apply rfloor_IZR].
Qed.

Lemma raround_err x : Rabs (x - IZR (raround x)) <= 1/2.
Proof.
  unfold raround. pose proof (rfloor_bounds x). unfold rfloor in H.
  set (f := Int_part x) in *.
  destruct (Rlt_dec (x - IZR f) (1/2)); [|destruct (Rlt_dec (1/2) (x - IZR f))].
  - apply Rabs_le; lra.
  - rewrite plus_IZR. apply Rabs_le; lra.
  - destruct (Z.even f); [|rewrite plus_IZR]; apply Rabs_le; lra.
Qed.

Lemma raround_IZR n : raround (IZR n) = n.
Proof.
  unfold raround.
  pose proof (rfloor_IZR n) as E; unfold rfloor in E; rewrite E.
  destruct (Rlt_dec (IZR n - IZR n) (1/2)); [reflexivity|lra].
Qed.

(* ---------- sums ---------- *)
Lemma rsum_app a b : rsum (a ++ b) = rsum a + rsum b.
Proof. unfold rsum; induction a; simpl; [lra|]. rewrite IHa; lra. Qed.

Lemma rsum_cons x a : rsum (x :: a) = x + rsum a.
Proof. reflexivity. Qed.

Lemma rsum_repeat c n : rsum (repeat c n) = INR n * c.
Proof.
  unfold rsum; induction n; [simpl; lra|].
  cbn [repeat fold_right]. rewrite IHn, S_INR. lra.
Qed.

Lemma rsum_map_mult c a : rsum (map (fun x => x * c) a) = rsum a * c.
Proof. unfold rsum; induction a; simpl; [lra|]. rewrite IHa; lra. Qed.

Lemma rsum_map_scal {A} c (f : A -> R) l :
  rsum (map (fun x => c * f x) l) = c * rsum (map f l).
Proof. unfold rsum; induction l; simpl; [lra|]. rewrite IHl; lra. Qed.

Lemma rsum_map_plus {A} (f g : A -> R) l :
  rsum (map (fun x => f x + g x) l) = rsum (map f l) + rsum (map g l).
Proof. unfold rsum; induction l; simpl; [lra|]. rewrite IHl; lra. Qed.

Lemma rsum_map_minus {A} (f g : A -> R) l :
  rsum (map (fun x => f x - g x) l) = rsum (map f l) - rsum (map g l).
Proof. unfold rsum; induction l; simpl; [lra|]. rewrite IHl; lra. Qed.

Lemma rsum_nonneg l : Forall (fun x => 0 <= x) l -> 0 <= rsum l.
Proof. unfold rsum; induction 1; simpl; lra. Qed.

Lemma rsum_map2_mult_l c a : rsum (map (fun x => c * x) a) = c * rsum a.
Proof. unfold rsum; induction a; simpl; [lra|]. rewrite IHa; lra. Qed.

Lemma rsum_rev l : rsum (rev l) = rsum l.
Proof.
  induction l; simpl; auto. rewrite rsum_app, IHl. unfold rsum; simpl; lra.
Qed.

Lemma rsum_0 l : Forall (fun x => x = 0) l -> rsum l = 0.
Proof. unfold rsum; induction 1; simpl; lra. Qed.

Lemma rsum_le {A} (f g : A -> R) l :
  (forall x, In x l -> f x <= g x) -> rsum (map f l) <= rsum (map g l).
Proof.
  intros H; induction l as [|a l IH]; [simpl; lra|]. cbn [map]. rewrite !rsum_cons.
  pose proof (H a (or_introl eq_refl)).
  assert (rsum (map f l) <= rsum (map g l)) by (apply IH; intros; apply H; right; auto).
  lra.
Qed.

Lemma nsum_app a b : nsum (a ++ b) = (nsum a + nsum b)%nat.
Proof. unfold nsum; induction a; simpl; lia. Qed.

(* ---------- masks ---------- *)
Lemma count_true_app m1 m2 :
  count_true (m1 ++ m2) = (count_true m1 + count_true m2)%nat.
Proof. unfold count_true; induction m1 as [|b m1]; simpl; auto. destruct b; simpl; lia. Qed.

Lemma count_true_le m : (count_true m <= length m)%nat.
Proof. unfold count_true; induction m as [|b m]; simpl; auto. destruct b; simpl; lia. Qed.

Lemma count_true_repeat_false n : count_true (repeat false n) = 0%nat.
Proof. induction n; simpl; auto. Qed.

Lemma count_true_map {A} (f : A -> bool) l :
  count_true (map f l) = length (filter f l).
Proof.
  unfold count_true; induction l as [|a l]; simpl; auto.
  destruct (f a); simpl; lia.
Qed.

Lemma mask_get_length {A} m (a : list A) :
  length m = length a -> length (mask_get m a) = count_true m.
Proof.
  revert a; induction m as [|b m IH]; destruct a; simpl; try easy.
  intros H. destruct b; simpl; rewrite IH; auto.
Qed.

Lemma mask_get_app {A} m1 m2 (a1 a2 : list A) :
  length m1 = length a1 ->
  mask_get (m1 ++ m2) (a1 ++ a2) = mask_get m1 a1 ++ mask_get m2 a2.
Proof.
  revert a1; induction m1 as [|b m1 IH]; destruct a1; simpl; try easy.
  intros H. destruct b; simpl; rewrite IH; auto.
Qed.

Lemma mask_get_false {A} n (a : list A) : mask_get (repeat false n) a = [].
Proof. revert a; induction n; destruct a; simpl; auto. Qed.

Lemma mask_get_nil_r {A} m : @mask_get A m [] = [].
Proof. destruct m; reflexivity. Qed.

Lemma mask_get_map {A B} (f : A -> B) m a :
  mask_get m (map f a) = map f (mask_get m a).
Proof.
  revert a; induction m as [|b m IH]; destruct a; simpl; auto.
  destruct b; simpl; rewrite IH; auto.
Qed.

Lemma mask_get_filter {A} (f : A -> bool) a : mask_get (map f a) a = filter f a.
Proof. induction a as [|x a IH]; simpl; auto. destruct (f x); rewrite IH; auto. Qed.

Lemma mask_get_In {A} m (a : list A) x : In x (mask_get m a) -> In x a.
Proof.
  revert a; induction m as [|b m IH]; destruct a; simpl; try easy.
  destruct b; simpl; intuition.
Qed.

Lemma mask_get_split_rsum m a :
  length m = length a ->
  rsum a = rsum (mask_get m a) + rsum (mask_get (map negb m) a).
Proof.
  revert a; induction m as [|b m IH]; destruct a; simpl; try easy; intros H;
    try (unfold rsum; simpl; lra).
  specialize (IH a). destruct b; simpl; unfold rsum in *; simpl; rewrite IH; auto; lra.
Qed.

Lemma mask_put_length {A} m (a v : list A) : length (mask_put m a v) = length a.
Proof.
  revert a v; induction m as [|b m IH]; destruct a; simpl; auto.
  destruct b; [destruct v|]; simpl; intros; rewrite IH; auto.
Qed.

Lemma mask_put_get_same {A} m (a v : list A) :
  length m = length a -> length v = count_true m ->
  mask_get m (mask_put m a v) = v.
Proof.
  revert a v; induction m as [|b m IH]; destruct a; simpl; try easy.
  - intros v _ H; destruct v; simpl in *; auto; lia.
  - intros v H1 H2. destruct b; [destruct v|]; simpl in *; try lia.
    + rewrite IH; auto.
    + apply IH; auto.
Qed.

Lemma mask_put_get_neg {A} m (a v : list A) :
  length m = length a ->
  mask_get (map negb m) (mask_put m a v) = mask_get (map negb m) a.
Proof.
  revert a v; induction m as [|b m IH]; destruct a; simpl; try easy.
  intros v H. destruct b; [destruct v|]; simpl; rewrite IH; auto.
Qed.

Lemma mask_put_nth_false {A} m (a v : list A) i :
  nth i m false = false -> nth_error (mask_put m a v) i = nth_error a i.
Proof.
  revert a v i; induction m as [|b m IH]; destruct a; simpl; try easy.
  intros v i H. destruct i.
  - subst b; reflexivity.
  - destruct b; [destruct v|]; simpl; apply IH; auto.
Qed.

Lemma mask_put_app {A} m1 m2 (a1 a2 v1 v2 : list A) :
  length m1 = length a1 -> length v1 = count_true m1 ->
  mask_put (m1 ++ m2) (a1 ++ a2) (v1 ++ v2) = mask_put m1 a1 v1 ++ mask_put m2 a2 v2.
Proof.
  revert a1 v1; induction m1 as [|b m1 IH]; destruct a1; simpl; try easy.
  - intros v1 _ H; destruct v1; simpl in *; auto; lia.
  - intros v1 H1 H2. destruct b; [destruct v1|]; simpl in *; try lia; rewrite IH; auto.
Qed.

Lemma mask_put_false {A} n (a v : list A) : mask_put (repeat false n) a v = a.
Proof. revert a v; induction n; destruct a; simpl; auto. intros; f_equal; auto. Qed.

Lemma mask_fill_length {A} m (a : list A) c : length (mask_fill m a c) = length a.
Proof. revert a; induction m as [|b m IH]; destruct a; simpl; auto. Qed.

Lemma mask_put_repeat {A} m (a : list A) c :
  length m = length a -> mask_put m a (repeat c (count_true m)) = mask_fill m a c.
Proof.
  revert a; induction m as [|b m IH]; destruct a; simpl; try easy.
  intros H. destruct b; simpl; rewrite IH; auto.
Qed.

Lemma mask_set_length {A} m (a v r : list A) :
  mask_set m a v = Some r -> length r = length a.
Proof.
  unfold mask_set. destruct (Nat.eqb_spec (length v) (count_true m)).
  - intros E; injection E as <-; apply mask_put_length.
  - destruct v as [|c [|]]; try easy. intros E; injection E as <-; apply mask_fill_length.
Qed.

Lemma mask_set_exact {A} m (a v : list A) :
  length v = count_true m -> mask_set m a v = Some (mask_put m a v).
Proof. intros H; unfold mask_set; rewrite H, Nat.eqb_refl; reflexivity. Qed.

(* ---------- slices ---------- *)
Lemma slice_get_length {A} (a : list A) lo hi :
  length (slice_get a lo hi) = min (hi - lo) (length a - lo).
Proof. unfold slice_get; rewrite firstn_length, skipn_length; reflexivity. Qed.

Lemma slice_get_0 {A} (a : list A) hi : slice_get a 0 hi = firstn hi a.
Proof. unfold slice_get; rewrite Nat.sub_0_r; reflexivity. Qed.

Lemma slice_set_exact {A} (a v : list A) lo hi :
  (lo <= hi)%nat -> (hi <= length a)%nat -> length v = (hi - lo)%nat ->
  slice_set a lo hi v = Some (firstn lo a ++ v ++ skipn hi a).
Proof.
  intros H1 H2 H3. unfold slice_set. rewrite slice_get_length.
  rewrite H3. replace (min (hi - lo) (length a - lo)) with (hi - lo)%nat by lia.
  rewrite Nat.eqb_refl, Nat.max_r by lia. reflexivity.
Qed.

Lemma slice_fill_length {A} (a : list A) lo hi c :
  (lo <= length a)%nat -> length (slice_fill a lo hi c) = length a.
Proof.
  intros H. unfold slice_fill. rewrite !app_length, repeat_length, slice_get_length,
    firstn_length, skipn_length. lia.
Qed.

Lemma slice_set_length {A} (a v r : list A) lo hi :
  (lo <= length a)%nat -> slice_set a lo hi v = Some r -> length r = length a.
Proof.
  intros Hl. unfold slice_set. destruct (Nat.eqb_spec (length v) (length (slice_get a lo hi))).
  - intros E; injection E as <-. rewrite slice_get_length in e.
    rewrite !app_length, firstn_length, skipn_length. lia.
  - destruct v as [|c [|]]; try easy. intros E; injection E as <-.
    apply slice_fill_length; auto.
Qed.

Lemma slice_fill_exact {A} (a : list A) lo hi c :
  (lo <= hi)%nat -> (hi <= length a)%nat ->
  slice_fill a lo hi c = firstn lo a ++ repeat c (hi - lo) ++ skipn hi a.
Proof.
  intros H1 H2. unfold slice_fill. rewrite slice_get_length.
  replace (min (hi - lo) (length a - lo)) with (hi - lo)%nat by lia.
  rewrite Nat.max_r by lia. reflexivity.
Qed.

(* ---------- repeat_each, map2 ---------- *)
Lemma repeat_each_length {A} (a : list A) c :
  length a = length c -> length (repeat_each a c) = nsum c.
Proof.
  revert c; induction a as [|x a IH]; destruct c; simpl; try easy.
  intros H. rewrite app_length, repeat_length, IH; auto.
Qed.

Lemma repeat_each_map {A B} (f : A -> B) a c :
  repeat_each (map f a) c = map f (repeat_each a c).
Proof.
  revert c; induction a as [|x a IH]; destruct c; simpl; auto.
  rewrite map_app, IH. f_equal. induction n; simpl; f_equal; auto.
Qed.

Lemma repeat_each_In {A} (a : list A) c x : In x (repeat_each a c) -> In x a.
Proof.
  revert c; induction a as [|y a IH]; destruct c; simpl; try easy.
  rewrite in_app_iff. intros [H|H]; [left; symmetry; eapply repeat_spec; eauto|right; eauto].
Qed.

Lemma rsum_repeat_each a c :
  length a = length c ->
  rsum (repeat_each a c) = rsum (map2 (fun x n => INR n * x) a c).
Proof.
  revert c; induction a as [|x a IH]; destruct c; simpl; try easy.
  intros H. rewrite rsum_app, rsum_repeat, IH; auto.
Qed.

Lemma map2_length {A B C} (f : A -> B -> C) a b :
  length (map2 f a b) = min (length a) (length b).
Proof. revert b; induction a; destruct b; simpl; auto. Qed.

Lemma map3_length {A B C D} (f : A -> B -> C -> D) a b c :
  length (map3 f a b c) = min (length a) (min (length b) (length c)).
Proof. revert b c; induction a; destruct b, c; simpl; auto. Qed.

Lemma upd_nth_length {A} (a : list A) i f : length (upd_nth a i f) = length a.
Proof. revert i; induction a; destruct i; simpl; auto. Qed.

Lemma upd_nth_rsum a i w :
  (i < length a)%nat -> rsum (upd_nth a i (fun x => x + w)) = rsum a + w.
Proof.
  revert i; induction a as [|x a IH]; destruct i; simpl; intros H; try lia.
  - rewrite !rsum_cons; lra.
  - rewrite !rsum_cons, IH by lia. lra.
Qed.

Lemma for_add_Some a i w :
  (1 <= i <= Z.of_nat (length a))%Z ->
  exists r, for_add a i w = Some r /\ length r = length a /\ rsum r = rsum a + w.
Proof.
  intros H. unfold for_add.
  replace ((1 <=? i) && (i <=? Z.of_nat (length a)))%Z with true
    by (symmetry; apply andb_true_iff; split; apply Z.leb_le; lia).
  eexists; split; [reflexivity|]. split; [apply upd_nth_length|].
  apply upd_nth_rsum; lia.
Qed.

Lemma for_add_length a i w r : for_add a i w = Some r -> length r = length a.
Proof.
  unfold for_add. destruct (_ && _); [|easy]. intros E; injection E as <-; apply upd_nth_length.
Qed.

Lemma draw_length rng k n : length (draw rng k n) = n.
Proof. unfold draw; rewrite map_length, seq_length; reflexivity. Qed.

Lemma firstn_app_exact {A} (a b : list A) n : length a = n -> firstn n (a ++ b) = a.
Proof. intros <-. rewrite firstn_app, Nat.sub_diag, firstn_O, app_nil_r. apply firstn_all. Qed.

Lemma skipn_app_exact {A} (a b : list A) n : length a = n -> skipn n (a ++ b) = b.
Proof. intros <-. rewrite skipn_app, Nat.sub_diag, skipn_all. reflexivity. Qed.

Lemma skipn_add {A} n m (l : list A) : skipn (n + m) l = skipn n (skipn m l).
Proof.
  revert l; induction m as [|m IH]; intros l.
  - rewrite Nat.add_0_r. reflexivity.
  - rewrite Nat.add_succ_r. destruct l; [rewrite !skipn_nil; reflexivity|]. simpl. apply IH.
Qed.

Lemma Forall_skipn {A} (P : A -> Prop) n l : Forall P l -> Forall P (skipn n l).
Proof. intros H; revert n; induction H; intros [|n]; simpl; auto. Qed.

Lemma Forall_firstn {A} (P : A -> Prop) n l : Forall P l -> Forall P (firstn n l).
Proof. intros H; revert n; induction H; intros [|n]; simpl; auto. Qed.

Lemma Rabs_le_inv x a : Rabs x <= a -> - a <= x <= a.
Proof. unfold Rabs. destruct (Rcase_abs x); lra. Qed.

Lemma nth_skipn' {A} n (l : list A) k d : nth k (skipn n l) d = nth (n + k) l d.
Proof. revert l; induction n; intros [|a l]; simpl; auto. destruct k; auto. Qed.

Lemma Forall2_length {A B} {P : A -> B -> Prop} {a b} : Forall2 P a b -> length a = length b.
Proof. induction 1; simpl; congruence. Qed.
