(** Symmetry of the analytic beam field and of the map made from it. *)
From Coq Require Import Lra Lia Psatz.
From Verif Require Import Num NumFacts Fort SpecFort FortFacts Erf SpecErf ErfFacts BE SpecBE BEFacts.
Local Open Scope R_scope.

Lemma T_zero n : let '(a, b) := cheb_T2 n (0, 0) in
  snd a = 0 /\ snd b = 0 /\ (Nat.even n = true -> fst b = 0) /\ (Nat.odd n = true -> fst a = 0).
Proof.
  induction n as [|n IH]; [cbn; repeat split; auto; discriminate|]. cbn [cheb_T2]. destruct (cheb_T2 n (0, 0)) as [[a1 a2] [b1 b2]]. destruct IH as (A & B & C & D). cbn [fst snd] in *.
  rewrite Nat.even_succ, Nat.odd_succ. unfold csub, cadd, cscale, cmul. cbn [fst snd]. subst. split; [reflexivity|]. split; [ring|]. split; intros H.
  - rewrite (D H). ring.
  - apply C. exact H.
Qed.
Lemma T_zero' n : snd (cheb_T n (0, 0)) = 0 /\ (Nat.odd n = true -> fst (cheb_T n (0, 0)) = 0).
Proof. unfold cheb_T. pose proof (T_zero n) as H. destruct (cheb_T2 n (0, 0)) as [a b]. cbn [fst]. tauto. Qed.

Lemma U_conj n z : cheb_U2 n (cconj z) = (cconj (fst (cheb_U2 n z)), cconj (snd (cheb_U2 n z))).
Proof.
  induction n as [|n IH].
  - cbn. unfold cconj. cbn [fst snd]. rewrite Ropp_0. reflexivity.
  - cbn [cheb_U2]. rewrite IH. destruct (cheb_U2 n z) as [[a1 a2] [b1 b2]]. destruct z as [p q]. unfold cconj, csub, cadd, cscale, cmul. cbn [fst snd]. apply f_equal2; apply f_equal2; ring.
Qed.
Lemma U_opp n z : fst (cheb_U2 n (cscale (-1) z)) = cscale (if Nat.even n then -1 else 1) (fst (cheb_U2 n z)) /\
                  snd (cheb_U2 n (cscale (-1) z)) = cscale (if Nat.even n then 1 else -1) (snd (cheb_U2 n z)).
Proof.
  induction n as [|n IH].
  - cbn. unfold cscale. cbn [fst snd]. split; apply f_equal2; ring.
  - cbn [cheb_U2]. rewrite Nat.even_succ. rewrite <- Nat.negb_even. destruct (cheb_U2 n (cscale (-1) z)) as [a b]. destruct (cheb_U2 n z) as [[a1 a2] [b1 b2]]. cbn [fst snd] in *. destruct IH as [-> ->]. destruct z as [p q].
    destruct (Nat.even n); cbn [negb]; unfold csub, cadd, cscale, cmul; cbn [fst snd]; split; apply f_equal2; ring.
Qed.

Lemma images_conj mu z n : images mu (0, 0) (cconj z) n = cconj (images mu (0, 0) z n).
Proof.
  induction n as [|n IH]; [cbn; unfold cconj; cbn [fst snd]; apply f_equal2; ring|]. cbn [images]. rewrite IH. unfold cheb_U. rewrite (U_conj _ (cconj z)). cbn [fst].
  destruct (T_zero' (S n)) as [T _]. rewrite T. destruct (fst (cheb_U2 (S n) (cconj z))) as [u v]. destruct (images mu (0, 0) z n) as [e f].
  unfold cconj, cadd, cmul, cscale. cbn [fst snd]. apply f_equal2; unfold Rdiv; ring.
Qed.
Lemma images_opp mu z n : images mu (0, 0) (cscale (-1) z) n = cscale (-1) (images mu (0, 0) z n).
Proof.
  induction n as [|n IH]; [cbn; unfold cscale; cbn [fst snd]; apply f_equal2; ring|]. cbn [images]. rewrite IH.
  assert (C : cconj (cscale (-1) z) = cscale (-1) (cconj z)) by (unfold cconj, cscale; cbn [fst snd]; apply f_equal2; ring). rewrite C. unfold cheb_U. destruct (U_opp (S n) (cconj z)) as [U _]. rewrite U.
  destruct (T_zero' (S n)) as [T O]. rewrite T. destruct (fst (cheb_U2 (S n) (cconj z))) as [u v]. destruct (images mu (0, 0) z n) as [e f].
  destruct (Nat.even (S n)) eqn:V.
  - unfold cadd, cmul, cscale. cbn [fst snd]. apply f_equal2; unfold Rdiv; ring.
  - rewrite O by (rewrite <- Nat.negb_even, V; reflexivity). unfold cadd, cmul, cscale. cbn [fst snd]. apply f_equal2; unfold Rdiv; ring.
Qed.

Lemma image_field_mirror eps0 a b x y n :
  image_field eps0 a b (0, 0) (x, - y) n = cconj (image_field eps0 a b (0, 0) (x, y) n) /\
  image_field eps0 a b (0, 0) (- x, y) n = cscale (-1) (cconj (image_field eps0 a b (0, 0) (x, y) n)).
Proof.
  unfold image_field. cbv zeta. set (g := sqrt _). set (mu := 1/2 * _).
  assert (Z : cscale (/ g) (0, 0) = (0, 0)) by (unfold cscale; cbn [fst snd]; apply f_equal2; ring). rewrite Z.
  assert (A : cscale (/ g) (x, - y) = cconj (cscale (/ g) (x, y))) by (unfold cconj, cscale; cbn [fst snd]; apply f_equal2; ring).
  assert (B : cscale (/ g) (- x, y) = cscale (-1) (cconj (cscale (/ g) (x, y)))) by (unfold cconj, cscale; cbn [fst snd]; apply f_equal2; ring).
  rewrite A, B, images_opp, !images_conj. destruct (images mu (0, 0) (cscale (/ g) (x, y)) n) as [e f]. unfold cconj, cscale. cbn [fst snd]. split; apply f_equal2; ring.
Qed.

Lemma images_mirrored acosh a b n : inverse_cosh acosh -> 0 < a -> 0 < b -> mirrored (fun x y => ImageTerms acosh x y a b 0 0 n).
Proof.
  intros AC A B x y ex ey E. destruct (Rle_dec (Rabs ((a - b) / a)) (1 / 1000)) as [R|R].
  - rewrite images_round in E by assumption. rewrite !images_round by assumption. injection E as E1 E2. rewrite <- E1, <- E2. rewrite Ropp_0. split; reflexivity.
  - destruct (Rlt_dec a b) as [L|L].
    + assert (T : 1 / 1000 < (b - a) / a). { rewrite Rabs_left1 in R; [unfold Rdiv in *; lra|]. unfold Rdiv. assert (0 < / a) by (apply Rinv_0_lt_compat; lra). nra. }
      rewrite images_tall in E by assumption. discriminate.
    + assert (P : 0 <= (a - b) / a). { unfold Rdiv. assert (0 < / a) by (apply Rinv_0_lt_compat; lra). nra. }
      rewrite Rabs_right in R by lra. assert (BA : b < a). { destruct (Req_dec a b) as [->|]; [|lra]. unfold Rdiv in R. rewrite Rminus_diag_eq in R by reflexivity. lra. }
      assert (NF : y <> 0 \/ x ^ 2 <> a ^ 2 - b ^ 2 \/ n = 0%nat).
      { destruct (Req_dec y 0) as [->|]; [|auto]. destruct (Req_dec (x ^ 2) (a ^ 2 - b ^ 2)) as [F|]; [|auto]. destruct n as [|n]; [auto|]. rewrite images_focus in E by (auto; lra). discriminate. }
      destruct (Nat.eq_dec n 0) as [->|NN].
      * clear NF. revert E. unfold ImageTerms. rewrite fdiv_some by lra. cbn [bind]. destruct (Rgtb _ _).
        2:{ rewrite (proj2 (Reqb_true 0 0)) by reflexivity. cbn. intros E. injection E as <- <-. rewrite Ropp_0. split; reflexivity. }
        assert (D : 0 < a * a - b * b) by nra. unfold fsqrt. rewrite (proj2 (Rltb_false _ 0)) by lra. cbn [bind]. pose proof (sqrt_lt_R0 _ D) as G.
        rewrite !zdivr_some by lra. cbn [bind]. destruct (fdiv (a + b) (a - b)) as [t|]; cbn [bind]; [|discriminate]. destruct (flog t) as [l|]; cbn [bind]; [|discriminate]. cbv zeta. cbn [image_loop bind].
        assert (PE : 0 < 4 * PI * be_eps0). { pose proof PI_RGT_0. apply Rmult_lt_0_compat; [lra|exact eps0_pos]. }
        rewrite !zdivr_some by lra. cbn [bind fst snd]. rewrite !zdivr_some by lra. cbn [bind]. unfold zscale. cbn [fst snd]. intros E. injection E as E1 E2. rewrite <- E1, <- E2. split; apply f_equal; apply f_equal2; unfold Rdiv; ring.
      * assert (NF' : y <> 0 \/ x ^ 2 <> a ^ 2 - b ^ 2) by tauto. clear NF.
        rewrite images_is in E by (auto; lra). destruct (image_field_mirror be_eps0 a b x y n) as [M1 M2]. assert (E' : image_field be_eps0 a b (0, 0) (x, y) n = (ex, ey)) by (apply (f_equal (fun o => match o with Some v => v | None => (0, 0) end)) in E; exact E).
        rewrite !images_is; auto; try lra.
        { rewrite M1, M2, E'. unfold cconj, cscale. cbn [fst snd]. split; apply f_equal; apply f_equal2; ring. }
Qed.

Lemma node_mirrored acosh a b sx sy n : inverse_cosh acosh -> 0 < a -> 0 < b -> mirrored (fun x y => be_node acosh a b sx sy x y n).
Proof.
  intros AC A B x y ex ey. unfold be_node. destruct (ImageTerms acosh x y a b 0 0 n) as [[i1 i2]|] eqn:I; cbn [bind]; [|discriminate].
  destruct (BassErsk x y sx sy) as [[b1 b2]|] eqn:J; cbn [bind]; [|discriminate]. intros E. cbn [fst snd] in E. injection E as E1 E2. rewrite <- E1, <- E2.
  destruct (images_mirrored acosh a b n AC A B _ _ _ _ I) as [I1 I2]. destruct (free_mirrored sx sy _ _ _ _ J) as [J1 J2]. rewrite I1, I2, J1, J2. cbn [bind fst snd].
  split; apply f_equal; apply f_equal2; ring.
Qed.

(** The inverse of the hyperbolic cosine exists. *)
Definition an_acosh (w : cpx) : cpx :=
  let '(p, q) := w in
  let m1 := sqrt ((p + 1) ^ 2 + q ^ 2) in
  let m2 := sqrt ((p - 1) ^ 2 + q ^ 2) in
  let A := (m1 + m2) / 2 in
  let B := (m1 - m2) / 2 in
  (ln (A + sqrt (A ^ 2 - 1)), if Rlt_dec q 0 then - acos B else acos B).
Lemma an_acosh_ok : inverse_cosh an_acosh.
Proof.
  intros [p q]. unfold an_acosh. set (m1 := sqrt ((p + 1) ^ 2 + q ^ 2)). set (m2 := sqrt ((p - 1) ^ 2 + q ^ 2)).
  assert (S1 : m1 * m1 = (p + 1) ^ 2 + q ^ 2) by (apply sqrt_sqrt; pose proof (pow2_ge_0 (p + 1)); pose proof (pow2_ge_0 q); lra). assert (S2 : m2 * m2 = (p - 1) ^ 2 + q ^ 2) by (apply sqrt_sqrt; pose proof (pow2_ge_0 (p - 1)); pose proof (pow2_ge_0 q); lra).
  assert (P1 : 0 <= m1) by apply sqrt_pos. assert (P2 : 0 <= m2) by apply sqrt_pos.
  set (A := (m1 + m2) / 2). set (B := (m1 - m2) / 2). cbv zeta.
  assert (AB : A * B = p) by (unfold A, B; nra). assert (Q : A * A + B * B = p * p + q * q + 1) by (unfold A, B; nra).
  assert (A0 : 0 <= A) by (unfold A; lra).
  assert (A1 : 1 <= A).
  { assert (1 <= A * A); [|nra]. destruct (Rle_dec 1 (A * A)) as [|N]; [assumption|exfalso].
    assert ((A * A - 1) * (1 - B * B) = q * q) by (replace (p * p) with (A * A * (B * B)) in Q by (rewrite <- AB; ring); nra).
    assert (1 <= B * B) by nra. assert (B * B <= A * A); [|lra]. unfold A, B. nra. }
  assert (B1 : -1 <= B <= 1).
  { assert (B * B <= 1). { destruct (Rle_dec (B * B) 1) as [|N]; [assumption|exfalso]. assert (E : (A * A - 1) * (1 - B * B) = q * q) by (replace (p * p) with (A * A * (B * B)) in Q by (rewrite <- AB; ring); nra).
      assert (B * B <= A * A) by (unfold A, B; nra). assert (0 < A * A - 1) by lra. nra. } split; nra. }
  assert (E : (A * A - 1) * (1 - B * B) = q * q) by (replace (p * p) with (A * A * (B * B)) in Q by (rewrite <- AB; ring); nra).
  replace (A ^ 2) with (A * A) by ring. set (r := sqrt (A * A - 1)). assert (R0 : 0 <= r) by apply sqrt_pos. assert (RR : r * r = A * A - 1) by (apply sqrt_sqrt; nra).
  assert (T : 0 < A + r) by lra. assert (I : exp (- ln (A + r)) = A - r).
  { rewrite exp_Ropp, exp_ln by exact T. apply Rmult_eq_reg_l with (A + r); [|lra]. rewrite Rinv_r by lra. nra. }
  assert (CH : cosh (ln (A + r)) = A) by (unfold cosh; rewrite I, exp_ln by exact T; lra).
  assert (SH : sinh (ln (A + r)) = r) by (unfold sinh; rewrite I, exp_ln by exact T; lra).
  assert (SA : sin (acos B) = sqrt (1 - B * B)) by (rewrite sin_acos by exact B1; reflexivity).
  assert (RS : r * sqrt (1 - B * B) = Rabs q). { unfold r. rewrite <- sqrt_mult by nra. rewrite E. apply sqrt_Rsqr_abs. }
  unfold ccosh. cbn [fst snd]. rewrite CH, SH. destruct (Rlt_dec q 0) as [L|L].
  - rewrite cos_neg, sin_neg, cos_acos by exact B1. rewrite SA. apply f_equal2; [exact AB|]. replace (r * - sqrt (1 - B * B)) with (- (r * sqrt (1 - B * B))) by ring. rewrite RS, Rabs_left by lra. lra.
  - rewrite cos_acos by exact B1. rewrite SA. apply f_equal2; [exact AB|]. rewrite RS, Rabs_right by lra. reflexivity.
Qed.
