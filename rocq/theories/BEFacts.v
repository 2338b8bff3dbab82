(** Facts about the analytic beam field. *)
From Coq Require Import Lra Lia Psatz.
From Verif Require Import Num NumFacts Fort SpecFort FortFacts Erf SpecErf ErfFacts BE SpecBE.
Local Open Scope R_scope.

Ltac cpx := unfold cadd, csub, cmul, cscale, cconj, zadd, zsub, zmul, zscale, cadd, cscale in *; cbn [fst snd] in *.

(** Gaussian beam in free space. *)
Lemma zdivr_some a k : k <> 0 -> zdivr a k = Some (fst a / k, snd a / k).
Proof. intros H. unfold zdivr. rewrite !fdiv_some by exact H. reflexivity. Qed.

Lemma eps0_pos : 0 < be_eps0.
Proof. unfold be_eps0. apply Rdiv_lt_0_compat; [lra|apply pow_lt; lra]. Qed.

Lemma eps0_is : be_eps0 = vacuum_eps.
Proof. unfold be_eps0, vacuum_eps. simpl. field. Qed.

Lemma be_val_is w s1 s2 x y : (forall z, errf (fst z) (snd z) = Some (w z)) -> 0 < s2 < s1 ->
  be_val s1 s2 x y = Some (wide_field w be_eps0 s1 s2 x y).
Proof.
  intros W [P L]. unfold be_val. assert (D : 0 < 2 * (s1 * s1 - s2 * s2)) by nra. unfold fsqrt. rewrite (proj2 (Rltb_false _ 0)) by lra. cbn [bind].
  pose proof (sqrt_lt_R0 _ D) as Q. pose proof (sqrt_lt_R0 PI PI_RGT_0) as Q2. pose proof eps0_pos as Q3.
  set (d := sqrt (2 * (s1 * s1 - s2 * s2))) in *.
  rewrite fdiv_some by (repeat apply Rmult_integral_contrapositive_currified; lra). cbn [bind].
  rewrite !fdiv_some by (try nra; repeat apply Rmult_integral_contrapositive_currified; lra). cbn [bind]. cbv zeta.
  rewrite !zdivr_some by lra. cbn [bind]. unfold wfun. rewrite !W. cbn [bind fst snd]. unfold wide_field. cbv zeta.
  replace (2 * (s1 ^ 2 - s2 ^ 2)) with (2 * (s1 * s1 - s2 * s2)) by ring. fold d.
  assert (E : - (x * x) / (2 * s1 * s1) - y * y / (2 * s2 * s2) = - (x ^ 2 / (2 * s1 ^ 2)) - y ^ 2 / (2 * s2 ^ 2)) by (field; lra). rewrite E.
  apply f_equal. unfold zscale, zsub, cscale, csub, cadd, cscale. cbn [fst snd]. apply f_equal2; unfold Rdiv; ring.
Qed.

Lemma sign_opp x : np_sign (- x) = - np_sign x.
Proof.
  unfold np_sign. destruct (Rltb x 0) eqn:A; destruct (Rltb 0 x) eqn:B.
  - apply Rltb_true in A. apply Rltb_true in B. lra.
  - apply Rltb_true in A. rewrite (proj2 (Rltb_false (- x) 0)), (proj2 (Rltb_true 0 (- x))) by lra. lra.
  - apply Rltb_true in B. rewrite (proj2 (Rltb_true (- x) 0)) by lra. lra.
  - apply Rltb_false in A. apply Rltb_false in B. rewrite (proj2 (Rltb_false (- x) 0)), (proj2 (Rltb_false 0 (- x))) by lra. lra.
Qed.
Lemma sign_cases x : (0 < x /\ np_sign x = 1) \/ (x < 0 /\ np_sign x = -1) \/ (x = 0 /\ np_sign x = 0).
Proof.
  unfold np_sign. destruct (Rltb x 0) eqn:A; [apply Rltb_true in A; right; left; split; [lra|reflexivity]|]. apply Rltb_false in A.
  destruct (Rltb 0 x) eqn:B; [apply Rltb_true in B; left; split; [lra|reflexivity]|]. apply Rltb_false in B. right; right; split; [lra|reflexivity].
Qed.

Lemma free_is w sx sy x y : (forall z, errf (fst z) (snd z) = Some (w z)) -> 0 < sx -> 0 < sy -> sx <> sy ->
  BassErsk x y sx sy = Some (if Rlt_dec sy sx then let v := wide_field w be_eps0 sx sy (Rabs x) (Rabs y) in (Rabs (snd v) * np_sign x, Rabs (fst v) * np_sign y)
                             else let v := wide_field w be_eps0 sy sx (Rabs y) (Rabs x) in (Rabs (fst v) * np_sign x, Rabs (snd v) * np_sign y)).
Proof.
  intros W A B N. unfold BassErsk, Rgtb. destruct (Rlt_dec sy sx) as [L|L].
  - rewrite (proj2 (Rltb_true sy sx)) by exact L. rewrite (be_val_is w) by (auto; lra). reflexivity.
  - rewrite (proj2 (Rltb_false sy sx)) by lra. rewrite (be_val_is w) by (auto; lra). reflexivity.
Qed.

Lemma free_mirrored sx sy : mirrored (fun x y => BassErsk x y sx sy).
Proof.
  intros x y ex ey. unfold BassErsk. rewrite !Rabs_Ropp, !sign_opp.
  destruct (Rgtb sx sy).
  - destruct (be_val sx sy (Rabs x) (Rabs y)) as [v|]; cbn [bind]; [|discriminate]. intros E. injection E as E1 E2. rewrite <- E1, <- E2. split; apply f_equal; apply f_equal2; ring.
  - destruct (be_val sy sx (Rabs y) (Rabs x)) as [v|]; cbn [bind]; [|discriminate]. intros E. injection E as E1 E2. rewrite <- E1, <- E2. split; apply f_equal; apply f_equal2; ring.
Qed.

Lemma free_turned sx sy x y ex ey : sx <> sy -> BassErsk x y sx sy = Some (ex, ey) -> BassErsk y x sy sx = Some (ey, ex).
Proof.
  intros N. unfold BassErsk, Rgtb. destruct (Rltb sy sx) eqn:A.
  - apply Rltb_true in A. rewrite (proj2 (Rltb_false sx sy)) by lra. destruct (be_val sx sy (Rabs x) (Rabs y)); cbn [bind]; [|discriminate]. intros E. injection E as E1 E2. rewrite <- E1, <- E2. reflexivity.
  - apply Rltb_false in A. rewrite (proj2 (Rltb_true sx sy)) by lra. destruct (be_val sy sx (Rabs y) (Rabs x)); cbn [bind]; [|discriminate]. intros E. injection E as E1 E2. rewrite <- E1, <- E2. reflexivity.
Qed.

Lemma free_outwards sx sy x y ex ey : BassErsk x y sx sy = Some (ex, ey) -> 0 <= ex * x /\ 0 <= ey * y /\ (x = 0 -> ex = 0) /\ (y = 0 -> ey = 0).
Proof.
  assert (P : forall a t, 0 <= Rabs a * np_sign t * t /\ (t = 0 -> Rabs a * np_sign t = 0)).
  { intros a t. pose proof (Rabs_pos a). destruct (sign_cases t) as [[A B]|[[A B]|[A B]]]; rewrite B; split; try lra; nra. }
  unfold BassErsk. destruct (Rgtb sx sy).
  - destruct (be_val sx sy (Rabs x) (Rabs y)) as [v|]; cbn [bind]; [|discriminate]. intros E. injection E as E1 E2. rewrite <- E1, <- E2.
    destruct (P (snd v) x) as [A B]. destruct (P (fst v) y) as [C D]. auto.
  - destruct (be_val sy sx (Rabs y) (Rabs x)) as [v|]; cbn [bind]; [|discriminate]. intros E. injection E as E1 E2. rewrite <- E1, <- E2.
    destruct (P (fst v) x) as [A B]. destruct (P (snd v) y) as [C D]. auto.
Qed.

Lemma free_round x y s : BassErsk x y s s = None.
Proof.
  unfold BassErsk, Rgtb. rewrite (proj2 (Rltb_false s s)) by lra. unfold be_val, fsqrt. replace (2 * (s * s - s * s)) with 0 by ring.
  rewrite (proj2 (Rltb_false 0 0)) by lra. cbn [bind]. rewrite sqrt_0. rewrite Rmult_0_r. unfold fdiv at 1. rewrite (proj2 (Reqb_true 0 0)) by reflexivity. reflexivity.
Qed.

(** Hyperbolic functions and Chebyshev polynomials. *)
Lemma cosh_add a b : cosh (a + b) = cosh a * cosh b + sinh a * sinh b.
Proof. unfold cosh, sinh. rewrite Ropp_plus_distr, !exp_plus. field. Qed.
Lemma sinh_add a b : sinh (a + b) = sinh a * cosh b + cosh a * sinh b.
Proof. unfold cosh, sinh. rewrite Ropp_plus_distr, !exp_plus. field. Qed.
Lemma cosh_opp a : cosh (- a) = cosh a.
Proof. unfold cosh. rewrite Ropp_involutive. field. Qed.
Lemma sinh_opp a : sinh (- a) = - sinh a.
Proof. unfold sinh. rewrite Ropp_involutive. field. Qed.
Lemma cosh_pos a : 0 < cosh a.
Proof. unfold cosh. pose proof (exp_pos a). pose proof (exp_pos (- a)). lra. Qed.
Lemma sinh_pos a : 0 < a -> 0 < sinh a.
Proof. intros H. unfold sinh. assert (exp (- a) < exp a) by (apply exp_increasing; lra). lra. Qed.
Lemma cosh_sinh a : cosh a * cosh a - sinh a * sinh a = 1.
Proof. unfold cosh, sinh. assert (E : exp a * exp (- a) = 1) by (rewrite <- exp_plus, Rplus_opp_r; apply exp_0). nra. Qed.

Lemma T_cosh q n : cheb_T2 n (ccosh q) = (ccosh (cscale (INR n) q), ccosh (cscale (INR (S n)) q)).
Proof.
  induction n as [|n IH].
  - cbn. unfold ccosh, cscale. cbn [fst snd]. rewrite !Rmult_0_l, !Rmult_1_l, cosh_0, sinh_0, cos_0, sin_0. apply f_equal2; [apply f_equal2; ring|reflexivity].
  - cbn [cheb_T2]. rewrite IH. apply f_equal2; [reflexivity|]. destruct q as [a b]. unfold ccosh, csub, cadd, cscale, cmul. cbn [fst snd].
    rewrite (S_INR (S n)), (S_INR n). set (N := INR n).
    replace ((N + 1 + 1) * a) with ((N + 1) * a + a) by ring. replace ((N + 1 + 1) * b) with ((N + 1) * b + b) by ring.
    replace (N * a) with ((N + 1) * a + - a) by ring. replace (N * b) with ((N + 1) * b + - b) by ring.
    rewrite !cosh_add, !sinh_add, !cos_plus, !sin_plus, cosh_opp, sinh_opp, cos_neg, sin_neg. apply f_equal2; ring.
Qed.

Lemma U_sinh q n : let '(u, v) := cheb_U2 n (ccosh q) in
  cmul (zsinh q) u = zsinh (cscale (INR n) q) /\ cmul (zsinh q) v = zsinh (cscale (INR (S n)) q).
Proof.
  induction n as [|n IH].
  - cbn. unfold zsinh, cscale, cmul. cbn [fst snd]. rewrite !Rmult_0_l, !Rmult_1_l, cosh_0, sinh_0, cos_0, sin_0. split; apply f_equal2; ring.
  - cbn [cheb_U2]. destruct (cheb_U2 n (ccosh q)) as [u v]. destruct IH as [A B]. split; [exact B|].
    assert (E : cmul (zsinh q) (csub (cscale 2 (cmul (ccosh q) v)) u) = csub (cscale 2 (cmul (ccosh q) (cmul (zsinh q) v))) (cmul (zsinh q) u)).
    { unfold csub, cadd, cscale, cmul. cbn [fst snd]. apply f_equal2; ring. }
    rewrite E, A, B. clear. destruct q as [a b]. unfold zsinh, ccosh, csub, cadd, cscale, cmul. cbn [fst snd].
    rewrite (S_INR (S n)), (S_INR n). set (N := INR n).
    replace ((N + 1 + 1) * a) with ((N + 1) * a + a) by ring. replace ((N + 1 + 1) * b) with ((N + 1) * b + b) by ring.
    replace (N * a) with ((N + 1) * a + - a) by ring. replace (N * b) with ((N + 1) * b + - b) by ring.
    rewrite !cosh_add, !sinh_add, !cos_plus, !sin_plus, cosh_opp, sinh_opp, cos_neg, sin_neg. apply f_equal2; ring.
Qed.

Lemma ccosh_conj q : ccosh (cconj q) = cconj (ccosh q).
Proof. unfold ccosh, cconj. cbn [fst snd]. rewrite cos_neg, sin_neg. apply f_equal2; ring. Qed.

(** Away from the foci the hyperbolic sine is not zero. *)
Lemma zsinh_nz q p r : ccosh q = (p, r) -> r <> 0 \/ p * p <> 1 -> 0 < fst (zsinh q) * fst (zsinh q) + snd (zsinh q) * snd (zsinh q).
Proof.
  intros E H. unfold zsinh. cbn [fst snd]. unfold ccosh in E. injection E as E1 E2. pose proof (cosh_sinh (fst q)) as C. pose proof (sin2_cos2 (snd q)) as T. unfold Rsqr in T.
  set (ch := cosh (fst q)) in *. set (sh := sinh (fst q)) in *. set (c := cos (snd q)) in *. set (s := sin (snd q)) in *.
  assert (N : sh * c * (sh * c) + ch * s * (ch * s) = sh * sh + s * s) by nra. rewrite N.
  destruct (Req_dec sh 0) as [Z|Z]; [|apply sq_pos; left; exact Z]. destruct (Req_dec s 0) as [Y|Y]; [|apply sq_pos; right; exact Y].
  exfalso. subst p r. rewrite Z, Y in *. destruct H as [H|H]; [apply H; ring|]. apply H. nra.
Qed.

Lemma loop_images mu q0 q w w0 : 0 < mu -> ccosh q = w -> ccosh q0 = w0 ->
  0 < fst (zsinh (cconj q)) * fst (zsinh (cconj q)) + snd (zsinh (cconj q)) * snd (zsinh (cconj q)) ->
  forall n, image_loop mu (fst q0) (snd q0) (cconj q) n = Some (images mu w0 w n).
Proof.
  intros MU EW E0 NZ. induction n as [|n IH]; [reflexivity|]. cbn [image_loop images]. rewrite IH. cbn [bind].
  assert (NP : 0 < INR (S n)) by (apply lt_0_INR; lia).
  pose proof (cosh_pos (INR (S n) * mu)) as CP. pose proof (sinh_pos (INR (S n) * mu) ltac:(apply Rmult_lt_0_compat; lra)) as SP.
  rewrite !fdiv_some by lra. cbn [bind].
  assert (T : cheb_T (S n) w0 = ccosh (cscale (INR (S n)) q0)) by (unfold cheb_T; rewrite <- E0, T_cosh; reflexivity).
  assert (U : zsinh (zscale (INR (S n)) (cconj q)) = cmul (zsinh (cconj q)) (cheb_U (S n) (cconj w))).
  { pose proof (U_sinh (cconj q) (S n)) as X. rewrite ccosh_conj, EW in X. unfold cheb_U. destruct (cheb_U2 (S n) (cconj w)) as [u v]. destruct X as [X _]. symmetry. exact X. }
  rewrite T, U. set (u := cheb_U (S n) (cconj w)). unfold ccosh, cscale. cbn [fst snd]. set (s := zsinh (cconj q)) in *. set (k := exp _).
  unfold zdiv. rewrite zdivr_some by lra. cbn [bind]. apply f_equal. unfold zadd, cadd. destruct (images mu w0 w n) as [e1 e2]. destruct u as [u1 u2]. destruct s as [s1 s2].
  unfold zscale, zmul, cmul. cbn [fst snd] in *. apply f_equal2; field; repeat split; lra.
Qed.

Lemma images_is acosh a b x y x0 y0 n : inverse_cosh acosh -> 0 < b < a -> 1 / 1000 < (a - b) / a -> y <> 0 \/ x ^ 2 <> a ^ 2 - b ^ 2 ->
  ImageTerms acosh x y a b x0 y0 n = Some (image_field be_eps0 a b (x0, y0) (x, y) n).
Proof.
  intros AC AB EC F. unfold ImageTerms. rewrite fdiv_some by lra. cbn [bind]. unfold Rgtb. rewrite Rabs_right by lra. rewrite (proj2 (Rltb_true _ _)) by exact EC.
  assert (D : 0 < a * a - b * b) by nra. unfold fsqrt. rewrite (proj2 (Rltb_false _ 0)) by lra. cbn [bind]. pose proof (sqrt_lt_R0 _ D) as G. pose proof (sqrt_sqrt _ (Rlt_le _ _ D)) as GG.
  unfold image_field. replace (a ^ 2 - b ^ 2) with (a * a - b * b) in * by ring. set (g := sqrt (a * a - b * b)) in *. rewrite !zdivr_some by lra. cbn [bind]. cbv zeta. cbn [fst snd].
  rewrite fdiv_some by lra. cbn [bind]. unfold flog. assert (RT : 1 < (a + b) / (a - b)).
  { apply Rmult_lt_reg_r with (a - b); [lra|]. unfold Rdiv. rewrite Rmult_assoc, Rinv_l; lra. }
  rewrite (proj2 (Rltb_true 0 _)) by lra. cbn [bind]. assert (LN : 0 < ln ((a + b) / (a - b))) by (rewrite <- ln_1; apply ln_increasing; lra).
  change (fst (acosh (x / g, y / g)), - snd (acosh (x / g, y / g))) with (cconj (acosh (x / g, y / g))).
  rewrite (loop_images (1/2 * ln ((a + b) / (a - b))) _ _ (x / g, y / g) (x0 / g, y0 / g)); [|lra|apply AC|apply AC|].
  - cbn [bind]. pose proof PI_RGT_0. pose proof eps0_pos. assert (PE : 0 < 4 * PI * be_eps0) by (apply Rmult_lt_0_compat; [lra|exact eps0_pos]). rewrite zdivr_some by lra. cbn [bind].
    rewrite zdivr_some by lra. cbn [bind]. assert (E : forall p q, cscale (/ g) (p, q) = (p / g, q / g)) by (intros p q; unfold cscale; cbn [fst snd]; apply f_equal2; unfold Rdiv; ring).
    rewrite !E. destruct (images _ _ _ n) as [e1 e2]. apply f_equal. unfold zscale, cscale. cbn [fst snd]. apply f_equal2; field; repeat split; lra.
  - apply (zsinh_nz (cconj (acosh (x / g, y / g))) (x / g) (- (y / g))).
    + rewrite ccosh_conj, AC. reflexivity.
    + assert (IG : 0 < / g) by (apply Rinv_0_lt_compat; lra). destruct F as [F|F].
      * left. intros Z. apply F. assert (y / g = 0) by lra. apply Rmult_integral in H. destruct H; [exact H|lra].
      * right. intros Z. apply F. assert (x * x = g * g) by (apply Rmult_eq_reg_r with (/ g * / g); [|apply Rmult_integral_contrapositive_currified; lra]; unfold Rdiv in Z; replace (g * g * (/ g * / g)) with 1 by (field; lra); transitivity (x * / g * (x * / g)); [ring|exact Z]). lra.
Qed.

(** The other cases of the image terms. *)
Lemma images_round acosh x y a b n : 0 < a -> Rabs ((a - b) / a) <= 1 / 1000 -> ImageTerms acosh x y a b 0 0 n = Some (0, 0).
Proof.
  intros A H. unfold ImageTerms. rewrite fdiv_some by lra. cbn [bind]. unfold Rgtb. rewrite (proj2 (Rltb_false _ _)) by lra.
  rewrite (proj2 (Reqb_true 0 0)) by reflexivity. reflexivity.
Qed.
Lemma images_round_all acosh x y a b x0 y0 n : 0 < a -> Rabs ((a - b) / a) <= 1 / 1000 ->
  (ImageTerms acosh x y a b x0 y0 n = Some (0, 0) /\ x0 = 0 /\ y0 = 0) \/ (ImageTerms acosh x y a b x0 y0 n = None /\ (x0 <> 0 \/ y0 <> 0)).
Proof.
  intros A H. unfold ImageTerms. rewrite fdiv_some by lra. cbn [bind]. unfold Rgtb. rewrite (proj2 (Rltb_false _ _)) by lra.
  destruct (Reqb x0 0) eqn:X; [apply Reqb_true in X|apply Reqb_false in X]; (destruct (Reqb y0 0) eqn:Y; [apply Reqb_true in Y|apply Reqb_false in Y]); cbn [andb]; tauto.
Qed.
Lemma images_tall acosh x y a b x0 y0 n : 0 < a -> 1 / 1000 < (b - a) / a -> ImageTerms acosh x y a b x0 y0 n = None.
Proof.
  intros A H. unfold ImageTerms. rewrite fdiv_some by lra. cbn [bind]. assert (E : Rabs ((a - b) / a) = (b - a) / a).
  { rewrite Rabs_left1; unfold Rdiv in *; nra. }
  unfold Rgtb. rewrite E. rewrite (proj2 (Rltb_true _ _)) by exact H. assert (L : a < b). { assert (0 < (b - a) / a) by lra. apply Rmult_lt_compat_r with (r := a) in H0; [|lra]. unfold Rdiv in H0. rewrite Rmult_assoc, Rinv_l in H0; lra. }
  unfold fsqrt. rewrite (proj2 (Rltb_true (a * a - b * b) 0)) by nra. reflexivity.
Qed.
Lemma images_focus acosh x a b x0 y0 n : inverse_cosh acosh -> 0 < b < a -> 1 / 1000 < (a - b) / a -> x ^ 2 = a ^ 2 - b ^ 2 ->
  ImageTerms acosh x 0 a b x0 y0 (S n) = None.
Proof.
  intros AC AB EC F. unfold ImageTerms. rewrite fdiv_some by lra. cbn [bind]. unfold Rgtb. rewrite Rabs_right by lra. rewrite (proj2 (Rltb_true _ _)) by exact EC.
  assert (D : 0 < a * a - b * b) by nra. unfold fsqrt. rewrite (proj2 (Rltb_false _ 0)) by lra. cbn [bind]. pose proof (sqrt_lt_R0 _ D) as G. pose proof (sqrt_sqrt _ (Rlt_le _ _ D)) as GG.
  set (g := sqrt (a * a - b * b)) in *. rewrite !zdivr_some by lra. cbn [bind]. cbv zeta. cbn [fst snd].
  rewrite fdiv_some by lra. cbn [bind]. unfold flog. assert (RT : 1 < (a + b) / (a - b)).
  { apply Rmult_lt_reg_r with (a - b); [lra|]. unfold Rdiv. rewrite Rmult_assoc, Rinv_l; lra. }
  rewrite (proj2 (Rltb_true 0 _)) by lra. cbn [bind]. assert (LN : 0 < ln ((a + b) / (a - b))) by (rewrite <- ln_1; apply ln_increasing; lra).
  pose proof (AC (x / g, 0 / g)) as W. set (q := acosh (x / g, 0 / g)) in *. set (mu := 1 / 2 * ln ((a + b) / (a - b))) in *.
  assert (Z : zsinh (fst q, - snd q) = (0, 0)).
  { unfold ccosh in W. injection W as W1 W2. pose proof (cosh_sinh (fst q)) as C. pose proof (sin2_cos2 (snd q)) as T. unfold Rsqr in T. unfold zsinh. cbn [fst snd]. rewrite cos_neg, sin_neg.
    set (ch := cosh (fst q)) in *. set (sh := sinh (fst q)) in *. set (c := cos (snd q)) in *. set (s := sin (snd q)) in *.
    assert (XG : x / g * (x / g) = 1). { replace (x / g * (x / g)) with (x ^ 2 / (g * g)) by (field; lra). rewrite GG, F. field. nra. }
    rewrite <- W1 in XG. assert (P0 : sh * s = 0) by (rewrite W2; unfold Rdiv; ring). pose proof (cosh_pos (fst q)) as CP. fold ch in CP.
    destruct (Rmult_integral _ _ P0) as [H0|H0].
    - assert (ch * ch = 1) by nra. assert (c * c = 1) by nra. assert (s = 0) by nra. rewrite H0, H2. apply f_equal2; ring.
    - assert (c * c = 1) by nra. assert (ch * ch = 1) by nra. assert (sh = 0) by nra. rewrite H2, H0. apply f_equal2; ring. }
  cbn [image_loop]. destruct (image_loop mu _ _ _ n); cbn [bind]; [|reflexivity].
  assert (NP : 0 < INR (S n)) by (apply lt_0_INR; lia).
  pose proof (cosh_pos (INR (S n) * mu)) as CP. pose proof (sinh_pos (INR (S n) * mu) ltac:(apply Rmult_lt_0_compat; unfold mu; lra)) as SP.
  rewrite !fdiv_some by lra. cbn [bind]. unfold zdiv. rewrite Z. cbn [fst snd]. replace (0 * 0 + 0 * 0) with 0 by ring.
  unfold zdivr, fdiv. rewrite (proj2 (Reqb_true 0 0)) by reflexivity. reflexivity.
Qed.
