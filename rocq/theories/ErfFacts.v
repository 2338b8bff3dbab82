(** Facts about the complex error function. *)
From Coq Require Import Lra Lia Psatz.
From Verif Require Import Num NumFacts Erf SpecErf.
Local Open Scope R_scope.

Lemma fdiv_some a b : b <> 0 -> fdiv a b = Some (a / b).
Proof. intros H. unfold fdiv. rewrite (proj2 (Reqb_false b 0)) by exact H. reflexivity. Qed.
Lemma sq_pos a b : a <> 0 \/ b <> 0 -> 0 < a * a + b * b.
Proof. intros [H|H]; [pose proof (Rsqr_pos_lt a H)|pose proof (Rsqr_pos_lt b H)]; unfold Rsqr in *; nra. Qed.

Lemma level_is XH YH k r : nonzero (cadd (XH, - YH) (cscale (INR k) r)) ->
  erf_level XH YH (Z.of_nat k) (fst r) (snd r) = Some (cinv (cscale 2 (cadd (XH, - YH) (cscale (INR k) r)))).
Proof.
  intros H. unfold erf_level. rewrite <- INR_IZR_INZ. unfold nonzero, cadd, cscale in H. cbn [fst snd] in H. destruct r as [rx ry]. cbn [fst snd] in *.
  set (TX := XH + INR k * rx) in *. assert (E : - YH + INR k * ry = - (YH - INR k * ry)) by ring. rewrite E in H. set (TY := YH - INR k * ry) in *.
  assert (P : 0 < TX * TX + TY * TY) by (apply sq_pos; destruct H as [H|H]; [left; exact H|right; intros K; apply H; rewrite K; ring]).
  cbv zeta. rewrite !fdiv_some by lra. cbn [bind]. unfold cinv, cscale, cadd, cconj. cbn [fst snd]. fold TX. rewrite E.
  apply f_equal. apply f_equal2; field; split; nra.
Qed.

Lemma cinv_re t : 0 < fst t -> 0 <= fst (cinv (cscale 2 t)).
Proof.
  destruct t as [p q]. cbn. intros P. apply Rmult_le_pos; [left; apply Rinv_0_lt_compat|lra].
  pose proof (Rle_0_sqr q). unfold Rsqr in *. assert (0 < p * p) by nra. lra.
Qed.
(** The real part is never negative when [s] has a positive one, ... *)
Lemma lap_pos n : forall k a b, 0 < a -> laplace_ok n k (a, b) /\ 0 <= fst (laplace n k (a, b)).
Proof.
  induction n as [|n IH]; intros k a b A; [cbn; split; [exact I|lra]|]. cbn [laplace laplace_ok]. destruct (IH (S k) a b A) as [O P].
  assert (Q : 0 < fst (cadd (a, b) (cscale (INR k) (laplace n (S k) (a, b))))).
  { cbn. pose proof (pos_INR k). nra. }
  split; [split; [left; lra|exact O]|]. apply cinv_re. exact Q.
Qed.
(** ... and is zero on the axis, where the fraction has a bounded imaginary part. *)
Lemma lap_axis n : forall k b, (n + k <= 10)%nat -> 5 <= b ->
  laplace_ok n k (0, - b) /\ fst (laplace n k (0, - b)) = 0 /\ 0 <= snd (laplace n k (0, - b)) <= / b.
Proof.
  induction n as [|n IH]; intros k b L B.
  - assert (0 < / b) by (apply Rinv_0_lt_compat; lra). cbn. repeat split; lra.
  - cbn [laplace laplace_ok]. destruct (IH (S k) b ltac:(lia) B) as (O & F & G). set (l := laplace n (S k) (0, - b)) in *.
    assert (K : 0 <= INR k <= 9). { split; [apply pos_INR|]. replace 9 with (INR 9) by (cbn; lra). apply le_INR. lia. }
    assert (I : b * / b = 1) by (apply Rinv_r; lra). assert (J : 0 < / b) by (apply Rinv_0_lt_compat; lra).
    assert (T : b / 2 <= b - INR k * snd l).
    { assert (INR k * snd l <= 9 * / b) by (apply Rmult_le_compat; lra). assert (9 * / b <= b / 2); [|lra].
      apply Rmult_le_reg_l with b; [lra|]. replace (b * (9 * / b)) with 9 by (field; lra). nra. }
    assert (C : cadd (0, - b) (cscale (INR k) l) = (0, - (b - INR k * snd l))).
    { unfold cadd, cscale. cbn [fst snd]. rewrite F. f_equal; ring. }
    rewrite C. set (t := b - INR k * snd l) in *. split; [split; [right; cbn; lra|exact O]|]. unfold cinv, cscale, cconj. cbn [fst snd].
    assert (Y : 2 * b <= 4 * t) by lra.
    split; [ring|]. assert (V : / ((2 * 0) ^ 2 + (2 * - t) ^ 2) * - (2 * - t) = / (2 * t)) by (field; lra). rewrite V. split.
    + left. apply Rinv_0_lt_compat. lra.
    + apply Rinv_le_contravar; lra.
Qed.

Lemma loop30_is X Y n : laplace_ok n 1 (Y, - X) -> erf_loop30 Y X n 0 0 = Some (laplace n 1 (Y, - X)).
Proof.
  intros O. enough (G : forall m j, (m + j = n)%nat -> laplace_ok n 1 (Y, - X) ->
      forall r, r = laplace j (S m) (Y, - X) -> erf_loop30 Y X m (fst r) (snd r) = Some (laplace n 1 (Y, - X))).
  { apply (G n 0%nat ltac:(lia) O (0, 0)). reflexivity. }
  intros m. induction m as [|m IH]; intros j E O' r ->.
  - cbn. assert (j = n) by lia. subst j. rewrite <- surjective_pairing. reflexivity.
  - cbn [erf_loop30]. assert (NZ : laplace_ok (S j) (S m) (Y, - X)).
    { clear - O' E. assert (W : forall a b c, laplace_ok (a + b) c (Y, - X) -> laplace_ok b (a + c) (Y, - X)).
      { induction a as [|a IHa]; intros b c H; [exact H|]. cbn [plus laplace_ok] in H. destruct H as [_ H]. apply IHa in H. rewrite Nat.add_succ_r in H. exact H. }
      replace (S m) with (m + 1)%nat by lia. apply W. replace (m + S j)%nat with n by lia. exact O'. }
    destruct NZ as [NZ _]. rewrite level_is by exact NZ. cbn [bind].
    change (cinv (cscale 2 (cadd (Y, - X) (cscale (INR (S m)) (laplace j (S (S m)) (Y, - X)))))) with (laplace (S j) (S m) (Y, - X)).
    specialize (IH (S j) ltac:(lia) O' _ eq_refl). cbn [fst snd]. destruct (laplace (S j) (S m) (Y, - X)) as [p q]. exact IH.
Qed.

(** Arrays. *)
Lemma nth_first {A} (l : list A) d : forall i j, (j < i)%nat -> nth j (firstn i l) d = nth j l d.
Proof.
  induction l as [|x l IH]; intros i j H; [rewrite firstn_nil; destruct j; reflexivity|].
  destruct i as [|i]; [lia|]. destruct j as [|j]; [reflexivity|]. cbn. apply IH. lia.
Qed.
Lemma awr_some a n v : (1 <= n <= Z.of_nat (length a))%Z -> exists a', awr a n v = Some a' /\ length a' = length a /\ ard a' n = Some v /\
  forall m, m <> n -> ard a' m = ard a m.
Proof.
  intros H. unfold awr. assert (B : in_bounds a n = true) by (unfold in_bounds; apply andb_true_intro; split; apply Z.leb_le; lia). rewrite B.
  set (i := Z.to_nat (n - 1)). assert (Ei : Z.to_nat n = S i) by (unfold i; lia). rewrite Ei. eexists. split; [reflexivity|].
  assert (Li : (i < length a)%nat) by (unfold i; lia). assert (LE : length (firstn i a ++ Some v :: skipn (S i) a) = length a).
  { rewrite app_length, firstn_length. cbn [length]. rewrite skipn_length. lia. }
  split; [exact LE|]. assert (F : length (firstn i a) = i) by (rewrite firstn_length; lia). split.
  - unfold ard. unfold in_bounds in *. rewrite LE, B. fold i. rewrite app_nth2 by lia. rewrite F, Nat.sub_diag. reflexivity.
  - intros m M. unfold ard, in_bounds. rewrite LE. destruct ((1 <=? m) && (m <=? Z.of_nat (length a)))%Z eqn:E; [|reflexivity].
    apply andb_prop in E. destruct E as [E1 E2]. apply Z.leb_le in E1, E2. set (j := Z.to_nat (m - 1)). assert (j <> i) by (unfold i, j; lia).
    destruct (Nat.lt_ge_cases j i) as [J|J].
    + rewrite app_nth1 by lia. apply nth_first. exact J.
    + rewrite app_nth2 by lia. rewrite F. destruct (j - i)%nat as [|d] eqn:D; [lia|]. cbn [nth]. rewrite nth_skipn'. f_equal. lia.
Qed.

(** After the first loop every level is in the arrays. *)
Definition filled (NU m : nat) (s : cpx) (RX RY : arr) : Prop :=
  length RX = 33%nat /\ length RY = 33%nat /\
  forall j, (m < j <= NU + 1)%nat -> ard RX (Z.of_nat j) = Some (fst (laplace (NU + 1 - j) j s)) /\ ard RY (Z.of_nat j) = Some (snd (laplace (NU + 1 - j) j s)).

Lemma laplace_ok_tail s a : forall b c, laplace_ok (a + b) c s -> laplace_ok b (a + c) s.
Proof. induction a as [|a IHa]; intros b c H; [exact H|]. cbn [plus laplace_ok] in H. destruct H as [_ H]. apply IHa in H. rewrite Nat.add_succ_r in H. exact H. Qed.

Lemma loop10_is XH YH NU : (NU <= 32)%nat -> laplace_ok NU 1 (XH, - YH) -> forall m RX RY, (m <= NU)%nat -> filled NU m (XH, - YH) RX RY ->
  exists RX' RY', erf_loop10 XH YH m RX RY = Some (RX', RY') /\ filled NU 0 (XH, - YH) RX' RY'.
Proof.
  intros L O. induction m as [|m IH]; intros RX RY M F; [exists RX, RY; split; [reflexivity|exact F]|].
  destruct F as (F1 & F2 & F3). cbn [erf_loop10]. destruct (F3 (S (S m)) ltac:(lia)) as [G1 G2].
  replace (Z.of_nat (S m) + 1)%Z with (Z.of_nat (S (S m))) by lia. rewrite G1, G2. cbn [bind].
  replace (NU + 1 - S (S m))%nat with (NU - S m)%nat by lia.
  assert (NZ : laplace_ok (S (NU - S m)) (S m) (XH, - YH)).
  { replace (S m) with (m + 1)%nat at 2 by lia. apply laplace_ok_tail. replace (m + S (NU - S m))%nat with NU by lia. exact O. }
  pose proof NZ as [NZ1 _]. rewrite level_is by exact NZ1. cbn [bind].
  change (cinv (cscale 2 (cadd (XH, - YH) (cscale (INR (S m)) (laplace (NU - S m) (S (S m)) (XH, - YH)))))) with (laplace (S (NU - S m)) (S m) (XH, - YH)).
  destruct (laplace (S (NU - S m)) (S m) (XH, - YH)) as [p q] eqn:E.
  destruct (awr_some RX (Z.of_nat (S m)) p ltac:(lia)) as (RX' & A1 & A2 & A3 & A4). destruct (awr_some RY (Z.of_nat (S m)) q ltac:(lia)) as (RY' & B1 & B2 & B3 & B4).
  rewrite A1, B1. cbn [bind]. apply IH; [lia|]. split; [congruence|]. split; [congruence|]. intros j J. destruct (Nat.eq_dec j (S m)) as [->|NE].
  - rewrite A3, B3. replace (NU + 1 - S m)%nat with (S (NU - S m)) by lia. rewrite E. split; reflexivity.
  - rewrite A4, B4 by lia. apply F3. lia.
Qed.

Lemma loop20_is s RX RY NU H : H <> 0 -> filled NU 0 s RX RY -> forall n, (n <= NU)%nat -> forall XL SX SY, (n = 0%nat \/ XL = (/ H) ^ (n - 1)) ->
  erf_loop20 RX RY H n XL SX SY = Some (cadd (series NU n (/ H) s) (cmul (product NU n s) (SX, SY))).
Proof.
  intros HH (F1 & F2 & F3). induction n as [|n IH]; intros L XL SX SY X.
  - cbn. unfold cadd, cmul. cbn. apply f_equal. apply f_equal2; ring.
  - cbn [erf_loop20]. destruct (F3 (S n) ltac:(lia)) as [G1 G2]. rewrite G1, G2. cbn [bind]. replace (NU + 1 - S n)%nat with (NU - n)%nat by lia.
    destruct X as [X|X]; [lia|]. replace (S n - 1)%nat with n in X by lia. subst XL.
    rewrite IH; [|lia|]. 2:{ destruct n as [|n]; [left; reflexivity|right]. replace (S n - 1)%nat with n by lia. cbn [pow]. field. exact HH. }
    apply f_equal. cbn [series product]. destruct (laplace (NU - n) (S n) s) as [p q]. destruct (product NU n s) as [u v]. destruct (series NU n (/ H) s) as [e f].
    unfold cadd, cmul, cscale. cbn [fst snd]. apply f_equal2; ring.
Qed.

Lemma trunc_nat x : 0 <= x -> exists n, rtrunc x = Z.of_nat n /\ INR n <= x < INR n + 1.
Proof.
  intros H. rewrite rtrunc_nonneg by exact H. destruct (rfloor_bounds x) as [A B].
  assert (P : (0 <= rfloor x)%Z) by (apply rfloor_ge; lra).
  exists (Z.to_nat (rfloor x)). rewrite Z2Nat.id by exact P. rewrite INR_IZR_INZ, Z2Nat.id by exact P. split; [reflexivity|lra].
Qed.

Lemma near_is X Y : 0 <= X < erf_XLIM -> 0 <= Y < erf_YLIM ->
  exists Q n c, Q = (1 - Y / erf_YLIM) * sqrt (1 - (X / erf_XLIM) ^ 2) /\ 0 < Q <= 1 /\
    INR n <= 21 * Q < INR n + 1 /\ INR c <= 23 * Q < INR c + 1 /\
    erf_near X Y = Some (cscale erf_CC (series (10 + n) (7 + c) (32 / 10 * Q) (Y + 16 / 10 * Q, - X))).
Proof.
  intros HX HY. assert (XL : 0 < erf_XLIM) by (unfold erf_XLIM; lra). assert (YL : 0 < erf_YLIM) by (unfold erf_YLIM; lra).
  assert (A : 0 <= X / erf_XLIM < 1). { split; [apply Rmult_le_pos; [lra|left; apply Rinv_0_lt_compat; lra]|]. apply Rmult_lt_reg_r with erf_XLIM; [lra|]. unfold Rdiv. rewrite Rmult_assoc, Rinv_l; lra. }
  assert (B : 0 <= Y / erf_YLIM < 1). { split; [apply Rmult_le_pos; [lra|left; apply Rinv_0_lt_compat; lra]|]. apply Rmult_lt_reg_r with erf_YLIM; [lra|]. unfold Rdiv. rewrite Rmult_assoc, Rinv_l; lra. }
  set (u := X / erf_XLIM) in *. set (v := Y / erf_YLIM) in *. assert (D : 0 < 1 - u ^ 2 <= 1) by (clear - A; replace (u ^ 2) with (u * u) by ring; split; nra).
  assert (SQ : 0 < sqrt (1 - u ^ 2) <= 1). { split; [apply sqrt_lt_R0; lra|]. apply Rle_trans with (sqrt 1); [apply sqrt_le_1; lra|rewrite sqrt_1; lra]. }
  set (Q := (1 - v) * sqrt (1 - u ^ 2)). assert (QP : 0 < Q <= 1). { unfold Q. split; [apply Rmult_lt_0_compat; lra|]. nra. }
  destruct (trunc_nat (21 * Q) ltac:(lra)) as (n & N1 & N2). destruct (trunc_nat (23 * Q) ltac:(lra)) as (c & C1 & C2).
  assert (Nn : (n <= 21)%nat). { apply INR_le. replace (INR 21) with 21 by (cbn; lra). lra. }
  assert (Cc : (c < n + 3)%nat). { apply INR_lt. rewrite plus_INR. replace (INR 3) with 3 by (cbn; lra). lra. }
  exists Q, n, c. split; [reflexivity|]. split; [exact QP|]. split; [exact N2|]. split; [exact C2|].
  unfold erf_near. fold u v. unfold fsqrt. rewrite (proj2 (Rltb_false (1 - u ^ 2) 0)) by lra. cbn [bind]. fold Q.
  rewrite fdiv_some by lra. cbn [bind]. cbv zeta. rewrite C1, N1. set (H := 1 / (32 / 10 * Q)).
  assert (HP : 0 < H). { unfold H. apply Rdiv_lt_0_compat; lra. }
  assert (HI : / H = 32 / 10 * Q) by (unfold H; field; lra).
  rewrite fdiv_some by (apply pow_nonzero; lra). cbn [bind]. rewrite fdiv_some by lra. cbn [bind].
  replace (7 + Z.of_nat c - 1)%Z with (Z.of_nat (7 + c - 1)) by lia. replace (7 + Z.of_nat c)%Z with (Z.of_nat (7 + c)) by lia.
  replace (10 + Z.of_nat n + 1)%Z with (Z.of_nat (S (10 + n))) by lia. replace (10 + Z.of_nat n)%Z with (Z.of_nat (10 + n)) by lia. rewrite !Nat2Z.id.
  assert (LA : length arr_new = 33%nat) by reflexivity.
  destruct (awr_some arr_new (Z.of_nat (S (10 + n))) 0 ltac:(lia)) as (RX & A1 & A2 & A3 & _). rewrite A1. cbn [bind].
  assert (EX : Y + 1 / 2 / H = Y + 16 / 10 * Q) by (unfold H; field; lra). rewrite EX. set (XH := Y + 16 / 10 * Q).
  assert (FI : filled (10 + n) (10 + n) (XH, - X) RX RX).
  { split; [congruence|]. split; [congruence|]. intros j J. assert (j = S (10 + n)) by lia. subst j. rewrite A3. replace (10 + n + 1 - S (10 + n))%nat with 0%nat by lia. split; reflexivity. }
  destruct (loop10_is XH X (10 + n) ltac:(lia) (proj1 (lap_pos (10 + n) 1 XH (- X) ltac:(unfold XH; lra))) (10 + n)%nat RX RX (le_n _) FI) as (RX' & RY' & E & F). rewrite E. cbn [bind].
  rewrite (loop20_is (XH, - X) RX' RY' (10 + n) H) ; [|lra|exact F|lia|].
  - rewrite HI. destruct (series (10 + n) (7 + c) (32 / 10 * Q) (XH, - X)) as [p q]. destruct (product (10 + n) (7 + c) (XH, - X)) as [a b].
    unfold cadd, cmul. cbn [fst snd bind]. unfold cscale. cbn [fst snd]. apply f_equal. apply f_equal2; ring.
  - right. rewrite pow_inv. replace (7 + c - 1)%nat with (6 + c)%nat by lia. unfold Rdiv. ring.
Qed.

Lemma far_is X Y : 0 <= X -> 0 <= Y -> erf_XLIM <= X \/ erf_YLIM <= Y ->
  laplace_ok 9 1 (Y, - X) /\ erf_far X Y = Some (cscale erf_CC (laplace 9 1 (Y, - X))).
Proof.
  intros HX HY H. assert (O : laplace_ok 9 1 (Y, - X)).
  { destruct (Rle_lt_or_eq_dec 0 Y HY) as [P|<-]; [apply lap_pos; exact P|]. destruct H as [H|H]; [|unfold erf_YLIM in H; lra].
    apply lap_axis; [lia|unfold erf_XLIM in H; lra]. }
  split; [exact O|]. unfold erf_far. rewrite loop30_is by exact O. destruct (laplace 9 1 (Y, - X)); reflexivity.
Qed.

Lemma erf_body X Y : 0 <= X -> 0 <= Y -> exists w, (if Rltb Y erf_YLIM && Rltb X erf_XLIM then erf_near X Y else erf_far X Y) = Some w.
Proof.
  intros HX HY. destruct (Rltb Y erf_YLIM) eqn:A; [destruct (Rltb X erf_XLIM) eqn:B|]; cbn [andb].
  - apply Rltb_true in A. apply Rltb_true in B. destruct (near_is X Y) as (Q & n & c & _ & _ & _ & _ & E); [lra|lra|]. eexists. exact E.
  - apply Rltb_false in B. eexists. apply far_is; auto.
  - apply Rltb_false in A. eexists. apply far_is; auto.
Qed.

Lemma errf_returns x y : exists w, errf x y = Some w.
Proof.
  unfold errf. destruct (erf_body (Rabs x) (Rabs y) (Rabs_pos x) (Rabs_pos y)) as [[wx wy] E]. rewrite E. cbn [bind].
  destruct (Rltb y 0); eexists; reflexivity.
Qed.

(** On the imaginary axis the function is real. *)
Lemma lap_real n : forall k a, snd (laplace n k (a, - 0)) = 0.
Proof.
  induction n as [|n IH]; intros k a; [reflexivity|]. cbn [laplace]. specialize (IH (S k) a). destruct (laplace n (S k) (a, - 0)) as [p q]. cbn in *. subst q. ring.
Qed.
Lemma prod_real n a k : snd (product n k (a, - 0)) = 0.
Proof.
  induction k as [|k IH]; [reflexivity|]. cbn [product]. pose proof (lap_real (n - k) (S k) a) as L. destruct (laplace (n - k) (S k) (a, - 0)) as [p q]. destruct (product n k (a, - 0)) as [u v].
  cbn in *. subst. ring.
Qed.
Lemma series_real n a g c : snd (series n c g (a, - 0)) = 0.
Proof.
  induction c as [|c IH]; [reflexivity|]. cbn [series]. pose proof (prod_real n a (S c)) as L. destruct (product n (S c) (a, - 0)) as [p q]. destruct (series n c g (a, - 0)) as [u v].
  cbn in *. subst. ring.
Qed.
Lemma body_real Y w : 0 <= Y -> (if Rltb Y erf_YLIM && Rltb 0 erf_XLIM then erf_near 0 Y else erf_far 0 Y) = Some w -> snd w = 0.
Proof.
  intros HY. assert (XL : Rltb 0 erf_XLIM = true) by (apply Rltb_true; unfold erf_XLIM; lra). rewrite XL. destruct (Rltb Y erf_YLIM) eqn:A; cbn [andb]; intros E.
  - apply Rltb_true in A. destruct (near_is 0 Y) as (Q & n & c & _ & _ & _ & _ & N); [split; [lra|apply Rltb_true; exact XL]|lra|]. rewrite N in E.
    apply (f_equal (fun o => match o with Some w => snd w | None => 0 end)) in E. rewrite <- E. unfold cscale. cbn [fst snd]. rewrite series_real. ring.
  - apply Rltb_false in A. destruct (far_is 0 Y) as [_ N]; [lra|lra|auto|]. rewrite N in E.
    apply (f_equal (fun o => match o with Some w => snd w | None => 0 end)) in E. rewrite <- E. unfold cscale. cbn [fst snd]. rewrite lap_real. ring.
Qed.

Lemma errf_conj x y wx wy : errf x y = Some (wx, wy) -> errf (- x) y = Some (wx, - wy).
Proof.
  unfold errf. rewrite Rabs_Ropp. destruct (erf_body (Rabs x) (Rabs y) (Rabs_pos x) (Rabs_pos y)) as [[a b] E].
  destruct (Req_dec x 0) as [->|NX].
  - assert (Z : b = 0). { rewrite Rabs_R0 in E. apply body_real in E; [exact E|apply Rabs_pos]. }
    rewrite E. cbn [bind]. subst b. rewrite Ropp_0, Rabs_R0. replace (2 * 0 * Rabs y) with 0 by ring. rewrite sin_0, cos_0.
    unfold Rgtb. rewrite (proj2 (Rltb_false 0 0)) by lra.
    destruct (Rltb y 0); intros W; injection W as W1 W2; rewrite <- W1, <- W2; apply f_equal; apply f_equal2; try reflexivity; ring.
  - rewrite E. cbn [bind]. destruct (Rlt_dec x 0) as [L|L].
    + unfold Rgtb. rewrite (proj2 (Rltb_true 0 (- x))), (proj2 (Rltb_false 0 x)), (proj2 (Rltb_true x 0)), (proj2 (Rltb_false (- x) 0)) by lra.
      destruct (Rltb y 0); intros W; injection W as W1 W2; rewrite <- W1, <- W2; apply f_equal; apply f_equal2; try reflexivity; ring.
    + unfold Rgtb. rewrite (proj2 (Rltb_false 0 (- x))), (proj2 (Rltb_true 0 x)), (proj2 (Rltb_false x 0)), (proj2 (Rltb_true (- x) 0)) by lra.
      destruct (Rltb y 0); intros W; injection W as W1 W2; rewrite <- W1, <- W2; apply f_equal; apply f_equal2; try reflexivity; ring.
Qed.

Lemma errf_reflect x y wx wy : 0 < y -> errf x y = Some (wx, wy) ->
  errf (- x) (- y) = Some (cadd (cscale 2 (cexp (cscale (-1) (cmul (x, y) (x, y))))) (- wx, - wy)).
Proof.
  intros HY. enough (P : forall x wx wy, 0 <= x -> errf x y = Some (wx, wy) -> errf (- x) (- y) = Some (cadd (cscale 2 (cexp (cscale (-1) (cmul (x, y) (x, y))))) (- wx, - wy))).
  { intros E. destruct (Rle_dec 0 x) as [L|L]; [apply P; auto|]. apply errf_conj in E. apply P in E; [|lra]. apply errf_conj in E. rewrite Ropp_involutive in E. rewrite Ropp_involutive in E || idtac. rewrite E.
    unfold cadd, cscale, cexp, cmul. cbn [fst snd]. replace (-1 * (- x * - x - y * y)) with (-1 * (x * x - y * y)) by ring. replace (-1 * (- x * y + y * - x)) with (- (-1 * (x * y + y * x))) by ring. rewrite cos_neg, sin_neg. apply f_equal. apply f_equal2; ring. }
  clear x wx wy. intros x wx wy HX. unfold errf. rewrite !Rabs_Ropp, (Rabs_right x), (Rabs_right y) by lra. destruct (erf_body x y HX ltac:(lra)) as [[a b] E]. rewrite E. cbn [bind].
  rewrite (proj2 (Reqb_false y 0)), (proj2 (Rltb_false y 0)), (proj2 (Rltb_false x 0)), (proj2 (Rltb_true (- y) 0)) by lra. unfold Rgtb. rewrite (proj2 (Rltb_false 0 (- x))) by lra.
  intros W. injection W as W1 W2. rewrite <- W1, <- W2. unfold cadd, cscale, cexp, cmul. cbn [fst snd].
  replace (-1 * (x * x - y * y)) with (y * y - x * x) by ring. replace (-1 * (x * y + y * x)) with (- (2 * x * y)) by ring. rewrite cos_neg, sin_neg. apply f_equal. apply f_equal2; ring.
Qed.

Lemma errf_axis x : exists wy, errf x 0 = Some (exp (- x ^ 2), wy).
Proof.
  unfold errf. destruct (erf_body (Rabs x) (Rabs 0) (Rabs_pos x) (Rabs_pos 0)) as [[a b] E]. rewrite E. cbn [bind]. rewrite Rabs_R0.
  rewrite (proj2 (Reqb_true 0 0)) by reflexivity. rewrite (proj2 (Rltb_false 0 0)) by lra. rewrite pow2_abs. eexists. reflexivity.
Qed.

Lemma errf_far x y : 0 <= x -> 0 < y -> 533 / 100 <= x \/ 429 / 100 <= y ->
  laplace_ok 9 1 (y, - x) /\ errf x y = Some (cscale erf_CC (laplace 9 1 (y, - x))).
Proof.
  intros HX HY H. destruct (far_is x y) as [O F]; [lra|lra|exact H|]. split; [exact O|]. unfold errf. rewrite (Rabs_right x), (Rabs_right y) by lra.
  assert (B : Rltb y erf_YLIM && Rltb x erf_XLIM = false). { apply andb_false_iff. unfold erf_YLIM, erf_XLIM. destruct H; [right|left]; apply Rltb_false; lra. }
  rewrite B, F. destruct (cscale erf_CC (laplace 9 1 (y, - x))) as [a b]. cbn [bind].
  rewrite (proj2 (Reqb_false y 0)), (proj2 (Rltb_false y 0)), (proj2 (Rltb_false x 0)) by lra. reflexivity.
Qed.

Lemma errf_near x y : 0 <= x < 533 / 100 -> 0 < y < 429 / 100 ->
  exists Q n c, Q = (1 - y / (429 / 100)) * sqrt (1 - (x / (533 / 100)) ^ 2) /\
    INR n <= 21 * Q < INR n + 1 /\ INR c <= 23 * Q < INR c + 1 /\
    laplace_ok (10 + n) 1 (y + 16 / 10 * Q, - x) /\
    errf x y = Some (cscale erf_CC (series (10 + n) (7 + c) (32 / 10 * Q) (y + 16 / 10 * Q, - x))).
Proof.
  intros HX HY. destruct (near_is x y) as (Q & n & c & A & B & C & D & E); [exact HX|unfold erf_YLIM; lra|].
  exists Q, n, c. split; [exact A|]. split; [exact C|]. split; [exact D|]. split; [apply lap_pos; lra|]. unfold errf. rewrite (Rabs_right x), (Rabs_right y) by lra.
  assert (L : Rltb y erf_YLIM && Rltb x erf_XLIM = true). { apply andb_true_intro. unfold erf_YLIM, erf_XLIM. split; apply Rltb_true; lra. }
  rewrite L, E. destruct (cscale erf_CC _) as [a b]. cbn [bind]. rewrite (proj2 (Reqb_false y 0)), (proj2 (Rltb_false y 0)), (proj2 (Rltb_false x 0)) by lra. reflexivity.
Qed.
