From Coq Require Import Lra Lia Reals Psatz.
From Verif Require Import Num NumFacts Geom SpecGeom.

Lemma ell_q_spec e x y : ellip_ok e -> ell_q e x y = x * x / (e_a e * e_a e) + y * y / (e_b e * e_b e).
Proof. intros [Ha Hb]. unfold ell_q. field. lra. Qed.

Lemma in_ellipse_q e x y : ellip_ok e -> (in_ellipse e x y <-> ell_q e x y < 1).
Proof. intros H. unfold in_ellipse. rewrite ell_q_spec by auto. tauto. Qed.

Lemma sq_pos x : x <> 0 -> 0 < x * x.
Proof. intros H. apply (Rsqr_pos_lt x H). Qed.

Lemma sqrt_1p y x : 0 < x -> sqrt (1 + (y / x)^2) = sqrt (x * x + y * y) / x.
Proof.
  intros Hx. replace (1 + (y / x)^2) with ((x * x + y * y) / (x * x)) by (field; lra).
  rewrite sqrt_div; [|nra|nra]. rewrite sqrt_square by lra. reflexivity.
Qed.

Lemma arctan2_cs y x : 0 < x * x + y * y ->
  cos (arctan2 y x) = x / sqrt (x * x + y * y) /\ sin (arctan2 y x) = y / sqrt (x * x + y * y).
Proof.
  intros Hr. set (r := sqrt (x * x + y * y)). assert (Hrp : 0 < r) by (apply sqrt_lt_R0; auto).
  assert (A : forall u v, 0 < u -> cos (atan (v / u)) = u / sqrt (u * u + v * v) /\ sin (atan (v / u)) = v / sqrt (u * u + v * v)).
  { intros u v Hu. assert (0 < sqrt (u * u + v * v)) by (apply sqrt_lt_R0; nra).
    rewrite cos_atan, sin_atan. unfold Rsqr.
    replace (1 + v / u * (v / u)) with (1 + (v / u)^2) by ring. rewrite sqrt_1p by auto.
    split; field; lra. }
  unfold arctan2. destruct (Rltb 0 x) eqn:E1.
  - apply Rltb_true in E1. apply A; auto.
  - apply Rltb_false in E1. destruct (Rltb x 0) eqn:E2.
    + apply Rltb_true in E2. destruct (A (- x) (- y) ltac:(lra)) as [C S].
      replace (- y / - x) with (y / x) in C, S by (field; lra).
      replace (- x * - x + - y * - y) with (x * x + y * y) in C, S by ring. fold r in C, S.
      destruct (Rltb y 0).
      * replace (atan (y / x) - PI) with (- (PI - atan (y / x))) by ring.
        rewrite cos_neg, sin_neg, cos_minus, sin_minus, cos_PI, sin_PI, C, S. split; field; lra.
      * rewrite neg_cos, neg_sin, C, S. split; field; lra.
    + apply Rltb_false in E2. assert (x = 0) as -> by lra.
      unfold r. replace (0 * 0 + y * y) with (Rsqr y) by (unfold Rsqr; ring). rewrite sqrt_Rsqr_abs.
      destruct (Rltb 0 y) eqn:E3.
      * apply Rltb_true in E3. rewrite Rabs_right by lra. rewrite cos_PI2, sin_PI2. split; field; lra.
      * apply Rltb_false in E3. destruct (Rltb y 0) eqn:E4.
        -- apply Rltb_true in E4. rewrite Rabs_left by lra. rewrite cos_neg, sin_neg, cos_PI2, sin_PI2. split; field; lra.
        -- apply Rltb_false in E4. assert (y = 0) by lra. subst. lra.
Qed.

(** One element of the loop. *)
Fixpoint shrink1 (n : nat) (e : ellip) (k : track) (t : R) : R :=
  match n with
  | O => t
  | S n' => if ell_flag e k t then shrink1 n' e k ((9/10) * t) else t
  end.

Lemma shrink1_stop n e k t : ell_flag e k t = false -> shrink1 n e k t = t.
Proof. intros H; destruct n; simpl; auto. rewrite H; auto. Qed.

Lemma ell_shrink_map n e : forall kt,
  ell_shrink n e kt = map (fun p => (fst p, shrink1 n e (fst p) (snd p))) kt.
Proof.
  induction n as [|n IH]; intros kt; simpl.
  - rewrite <- (map_id kt) at 1. apply map_ext; intros []; auto.
  - destruct (existsb _ kt) eqn:X.
    + rewrite IH, map_map. apply map_ext. intros [k t]; simpl. f_equal.
      destruct (ell_flag e k t) eqn:F; auto. apply shrink1_stop; auto.
    + rewrite <- (map_id kt) at 1. apply map_ext_in. intros [k t] Hin; simpl.
      destruct (ell_flag e k t) eqn:F; auto. exfalso.
      assert (existsb (fun p => ell_flag e (fst p) (snd p)) kt = true).
      { apply existsb_exists. exists (k, t). auto. }
      congruence.
Qed.

Lemma project_inside e p : ellip_ok e ->
  let '(x, y, _) := ell_project e p in in_ellipse e x y.
Proof.
  intros He. destruct p as [[x y] z]. unfold ell_project. destruct (Rgeb (ell_q e x y) 1) eqn:E.
  - apply Rgeb_true in E. apply in_ellipse_q; auto. unfold ell_q in *. destruct He as [Ha Hb].
    set (xp := x / e_a e) in *. set (yp := y / e_b e) in *.
    assert (Hr : 0 < sqrt (xp * xp + yp * yp)) by (apply sqrt_lt_R0; lra).
    assert (Hs : sqrt (xp * xp + yp * yp) * sqrt (xp * xp + yp * yp) = xp * xp + yp * yp) by (apply sqrt_sqrt; lra).
    set (r := sqrt (xp * xp + yp * yp)) in *.
    match goal with |- ?l < 1 => replace l with ((99/100) * (99/100) * (xp * xp + yp * yp) / (r * r)) by (field; lra) end.
    rewrite <- Hs. replace (99 / 100 * (99 / 100) * (r * r) / (r * r)) with (99/100*(99/100)) by (field; lra). lra.
  - apply Rgeb_false in E. apply in_ellipse_q; auto.
Qed.

Lemma normal_spec e p : ellip_ok e ->
  let h := ell_normal e p in
  (h_x h, h_y h, h_z h) = p /\ unit_normal h /\ inward_normal e h.
Proof.
  intros [Ha Hb]. destruct p as [[x y] z]. unfold ell_normal.
  set (a := e_a e) in *. set (b := e_b e) in *.
  set (par := arctan2 (a * y) (b * x)).
  assert (Hn : 0 < b * cos par * (b * cos par) + a * sin par * (a * sin par)).
  { pose proof (sin2_cos2 par) as H. unfold Rsqr in H.
    assert (0 < a * a) by nra. assert (0 < b * b) by nra.
    assert (0 <= cos par * cos par) by nra. assert (0 <= sin par * sin par) by nra.
    replace (b * cos par * (b * cos par) + a * sin par * (a * sin par)) with
      (b * b * (cos par * cos par) + a * a * (sin par * sin par)) by ring.
    destruct (Rle_lt_dec (cos par * cos par) (1/2)); nra. }
  assert (Hle : (- (b * cos par)) * x + (- a * sin par) * y <= 0 /\
     ((x = 0 /\ y = 0) \/ exists c, 0 < c /\ b * cos par = c * (x / (a * a)) /\ a * sin par = c * (y / (b * b)))).
  { destruct (Req_dec x 0) as [->|Hx]; [destruct (Req_dec y 0) as [->|Hy]|].
    - split; [lra|auto].
    - assert (Hr : 0 < b * 0 * (b * 0) + a * y * (a * y)).
      { assert (0 < y * y) by (apply sq_pos; auto).
        assert (0 < a * a) by nra. nra. }
      destruct (arctan2_cs (a * y) (b * 0) Hr) as [C S]. fold par in C, S.
      set (r := sqrt _) in *. assert (0 < r) by (apply sqrt_lt_R0; auto).
      rewrite C, S. split.
      + replace (- (b * (b * 0 / r)) * 0 + - a * (a * y / r) * y) with (- (a * y * (a * y) / r)) by (field; lra).
        assert (0 <= a * y * (a * y) / r); [|lra].
        apply Rmult_le_pos; [nra|]. apply Rlt_le, Rinv_0_lt_compat; auto.
      + right. exists (a * a * b * b / r). split; [|split; field; lra].
        apply Rdiv_lt_0_compat; auto. repeat apply Rmult_lt_0_compat; auto.
    - assert (Hr : 0 < b * x * (b * x) + a * y * (a * y)).
      { assert (0 < x * x) by (apply sq_pos; auto).
        assert (0 < b * b) by nra. assert (0 < b * x * (b * x)) by nra. pose proof (Rle_0_sqr (a * y)) as Q; unfold Rsqr in Q. lra. }
      destruct (arctan2_cs (a * y) (b * x) Hr) as [C S]. fold par in C, S.
      set (r := sqrt _) in *. assert (0 < r) by (apply sqrt_lt_R0; auto).
      rewrite C, S. split.
      + replace (- (b * (b * x / r)) * x + - a * (a * y / r) * y) with (- ((b * x * (b * x) + a * y * (a * y)) / r)) by (field; lra).
        assert (0 <= (b * x * (b * x) + a * y * (a * y)) / r); [|lra].
        apply Rmult_le_pos; [lra|]. apply Rlt_le, Rinv_0_lt_compat; auto.
      + right. exists (a * a * b * b / r). split; [|split; field; lra].
        apply Rdiv_lt_0_compat; auto. repeat apply Rmult_lt_0_compat; auto. }
  destruct Hle as [Hle Hg].
  replace (Rgtb (- (b * cos par) * x + - a * sin par * y) 0) with false by (symmetry; apply Rgtb_false; auto).
  unfold unit_normal, inward_normal. cbn [h_x h_y h_z h_nx h_ny]. fold a b.
  set (nn := - (b * cos par) * - (b * cos par) + - a * sin par * (- a * sin par)).
  assert (Hnn : 0 < nn) by (unfold nn; lra).
  assert (Hs : sqrt nn * sqrt nn = nn) by (apply sqrt_sqrt; lra).
  assert (Hsp : 0 < sqrt nn) by (apply sqrt_lt_R0; auto).
  split; [reflexivity|split].
  - replace (- (b * cos par) / sqrt nn * (- (b * cos par) / sqrt nn) + - a * sin par / sqrt nn * (- a * sin par / sqrt nn))
      with (nn / (sqrt nn * sqrt nn)) by (unfold nn at 1; field; lra).
    rewrite Hs. field. lra.
  - destruct Hg as [Hg|(c & Hc & C & S)]; [left; auto|right].
    exists (c / sqrt nn). split; [apply Rdiv_lt_0_compat; auto|].
    replace (- a * sin par) with (- (a * sin par)) by ring. rewrite C, S. split; field; lra.
Qed.

(** Whatever the input, the call returns one hit per track, strictly inside. *)
Lemma ell_impact_inside e resc ks : ellip_ok e ->
  exists hs, ell_impact e resc ks = Some hs /\
    Forall2 (fun (k : track) h => in_ellipse e (h_x h) (h_y h) /\ unit_normal h /\ inward_normal e h) ks hs.
Proof.
  intros He. unfold ell_impact. rewrite ell_shrink_map, !map_map. cbn [fst snd].
  set (f := fun k : track => ell_project e (on_track k (shrink1 10 e k (ell_t0 e resc k)))).
  match goal with |- context [existsb ?g ?l] => replace (existsb g l) with false end.
  2: { symmetry. apply Bool.not_true_iff_false. intros X. apply existsb_exists in X.
       destruct X as (p & Hin & Hp). apply in_map_iff in Hin. destruct Hin as (k & <- & _).
       pose proof (project_inside e (on_track k (shrink1 10 e k (ell_t0 e resc k))) He) as Q.
       fold (f k) in Q. destruct (f k) as [[x y] z]. apply in_ellipse_q in Q; auto.
       apply Rgeb_true in Hp. lra. }
  eexists; split; [reflexivity|].
  induction ks as [|k ks IH]; cbn [map]; constructor; auto.
  pose proof (project_inside e (on_track k (shrink1 10 e k (ell_t0 e resc k))) He) as Q.
  fold (f k) in *. destruct (normal_spec e (f k) He) as (P & U & I).
  destruct (f k) as [[x y] z]. split; [exact Q|split; assumption].
Qed.

(** Start inside, end outside. *)
Section Root.
Variables (e : ellip) (k : track).
Hypothesis He : ellip_ok e.
Hypothesis Hin : in_ellipse e (t_xin k) (t_yin k).
Hypothesis Hout : ~ in_ellipse e (t_xout k) (t_yout k).

Let a := e_a e. Let b := e_b e.
Let xi := t_xin k. Let yi := t_yin k. Let dx := t_xout k - t_xin k. Let dy := t_yout k - t_yin k.
Let A := a * a * (dy * dy) + b * b * (dx * dx).
Let B := a * a * (yi * dy) + b * b * (xi * dx).
Let C := a * a * (yi * yi) + b * b * (xi * xi) - a * a * (b * b).

Lemma q_poly t : let '(x, y, _) := on_track k t in
  ell_q e x y - 1 = (A * (t * t) + 2 * B * t + C) / (a * a * (b * b)).
Proof.
  unfold on_track, ell_q, A, B, C, dx, dy, xi, yi, a, b. destruct He. field. lra.
Qed.

Lemma ab_pos : 0 < a * a * (b * b).
Proof. unfold a, b; destruct He. repeat apply Rmult_lt_0_compat; auto. Qed.

Lemma C_neg : C < 0.
Proof.
  pose proof (q_poly 0) as Q. unfold on_track in Q.
  replace (0 * t_xout k + (1 - 0) * t_xin k) with (t_xin k) in Q by ring.
  replace (0 * t_yout k + (1 - 0) * t_yin k) with (t_yin k) in Q by ring.
  apply (in_ellipse_q e _ _ He) in Hin. pose proof ab_pos.
  replace (A * (0 * 0) + 2 * B * 0 + C) with C in Q by ring.
  assert (C = (ell_q e (t_xin k) (t_yin k) - 1) * (a * a * (b * b))) by (rewrite Q; unfold Rdiv; rewrite Rmult_assoc, Rinv_l; lra).
  nra.
Qed.

Lemma f1_nonneg : 0 <= A + 2 * B + C.
Proof.
  pose proof (q_poly 1) as Q. unfold on_track in Q.
  replace (1 * t_xout k + (1 - 1) * t_xin k) with (t_xout k) in Q by ring.
  replace (1 * t_yout k + (1 - 1) * t_yin k) with (t_yout k) in Q by ring.
  pose proof ab_pos.
  assert (1 <= ell_q e (t_xout k) (t_yout k)).
  { apply Rnot_lt_le. intros H1. apply Hout. apply in_ellipse_q; auto. }
  replace (A * (1 * 1) + 2 * B * 1 + C) with (A + 2 * B + C) in Q by ring.
  assert (A + 2 * B + C = (ell_q e (t_xout k) (t_yout k) - 1) * (a * a * (b * b))) by (rewrite Q; unfold Rdiv; rewrite Rmult_assoc, Rinv_l; lra).
  nra.
Qed.

Lemma A_pos : 0 < A.
Proof.
  pose proof C_neg. pose proof f1_nonneg.
  assert (0 <= A) by (unfold A; nra).
  destruct (Req_dec A 0) as [E|E]; [|lra]. exfalso.
  unfold A in E. destruct He as [Ha Hb]. fold a in Ha. fold b in Hb.
  assert (dx * dx = 0 /\ dy * dy = 0).
  { assert (0 < a * a) by nra. assert (0 < b * b) by nra.
    assert (0 <= dx * dx) by nra. assert (0 <= dy * dy) by nra.
    assert (0 <= a * a * (dy * dy)) by nra. assert (0 <= b * b * (dx * dx)) by nra.
    split; nra. }
  assert (dx = 0) by nra. assert (dy = 0) by nra.
  assert (B = 0) by (unfold B; rewrite H3, H4; ring). assert (A = 0) by (unfold A; auto). lra.
Qed.

Lemma ell_root_spec :
  let t := ell_root e k in
  0 < t <= 1 /\ A * (t * t) + 2 * B * t + C = 0.
Proof.
  intros t. pose proof C_neg as HC. pose proof f1_nonneg as H1. pose proof A_pos as HA.
  assert (E : t = (- B + sqrt (B * B - A * C)) / A).
  { unfold t, ell_root. fold a b.
    match goal with |- context [Rltb ?d 0] =>
      assert (Ed : d = B * B - A * C) by (unfold A, B, C, dx, dy, xi, yi; ring) end.
    rewrite Ed.
    match goal with |- context [Reqb ?d 0] =>
      assert (Ea : d = A) by (unfold A, dx, dy, xi, yi; ring) end.
    rewrite Ea.
    replace (Rltb (B * B - A * C) 0) with false by (symmetry; apply Rltb_false; nra).
    replace (Reqb A 0) with false by (symmetry; apply Reqb_false; lra).
    unfold Rdiv. f_equal. unfold B, dx, dy, xi, yi. ring. }
  set (s := sqrt (B * B - A * C)) in *.
  assert (Hs : s * s = B * B - A * C) by (apply sqrt_sqrt; nra).
  assert (Hs0 : 0 <= s) by apply sqrt_pos.
  assert (Hsb : Rabs B < s).
  { apply Rsqr_incrst_0; [|apply Rabs_pos|auto]. unfold Rsqr. rewrite <- Rabs_mult, Rabs_right by nra. nra. }
  assert (B < s /\ - B < s) by (unfold Rabs in Hsb; destruct (Rcase_abs B); lra).
  assert (Hsq : A * t = - B + s) by (rewrite E; field; lra).
  split; [split|].
  - rewrite E. apply Rdiv_lt_0_compat; lra.
  - assert (s <= A + B).
    { destruct (Rle_lt_dec 0 (A + B)).
      - apply Rsqr_incr_0; auto. unfold Rsqr. nra.
      - exfalso. nra. }
    nra.
  - assert (A * (A * (t * t) + 2 * B * t + C) = 0).
    { replace (A * (A * (t * t) + 2 * B * t + C)) with ((A * t) * (A * t) + 2 * B * (A * t) + A * C) by ring.
      rewrite Hsq. nra. }
    nra.
Qed.

Lemma before_root_inside t : 0 <= t < ell_root e k ->
  let '(x, y, _) := on_track k t in ell_q e x y < 1.
Proof.
  intros [H0 H1]. pose proof (q_poly t) as Q. destruct (on_track k t) as [[x y] z].
  destruct ell_root_spec as [[R0 R1] R]. set (u := ell_root e k) in *. pose proof C_neg. pose proof A_pos. pose proof ab_pos.
  assert (A * (t * t) + 2 * B * t + C < 0).
  { assert (u * (A * (t * t) + 2 * B * t + C) < 0); [|nra].
    replace (u * (A * (t * t) + 2 * B * t + C)) with
      (t * (A * (u * u) + 2 * B * u + C) + (u - t) * (C - A * (u * t))) by ring.
    rewrite R. assert (0 <= A * (u * t)) by (apply Rmult_le_pos; nra). nra. }
  assert ((A * (t * t) + 2 * B * t + C) / (a * a * (b * b)) < 0).
  { apply Ropp_lt_cancel. rewrite Ropp_0. rewrite <- Ropp_div. apply Rdiv_lt_0_compat; lra. }
  lra.
Qed.

Lemma ell_t0_range resc : 0 < resc < 1 -> 0 <= ell_t0 e resc k < ell_root e k.
Proof.
  intros Hr. destruct ell_root_spec as [[R0 R1] _]. unfold ell_t0.
  set (t0 := if Rltb (resc * ell_root e k) (1 / 100) then 0 else resc * ell_root e k).
  assert (0 <= t0 < ell_root e k).
  { unfold t0. destruct (Rltb (resc * ell_root e k) (1/100)); nra. }
  destruct (Reqb _ 0); auto. destruct (Rltb _ (1 / 10^8)); auto. lra.
Qed.

Lemma ell_point resc : 0 < resc < 1 ->
  ell_project e (on_track k (shrink1 10 e k (ell_t0 e resc k))) = on_track k (ell_t0 e resc k).
Proof.
  intros Hr. pose proof (before_root_inside _ (ell_t0_range resc Hr)) as Q.
  rewrite shrink1_stop.
  - unfold ell_project. destruct (on_track k (ell_t0 e resc k)) as [[x y] z].
    replace (Rgeb (ell_q e x y) 1) with false by (symmetry; apply Rgeb_false; auto). reflexivity.
  - unfold ell_flag. destruct (on_track k (ell_t0 e resc k)) as [[x y] z].
    apply Rgtb_false. lra.
Qed.
End Root.

Lemma ell_root_on_wall e k :
  ellip_ok e -> in_ellipse e (t_xin k) (t_yin k) -> ~ in_ellipse e (t_xout k) (t_yout k) ->
  let '(x, y, _) := on_track k (ell_root e k) in
  0 < ell_root e k <= 1 /\ x * x / (e_a e * e_a e) + y * y / (e_b e * e_b e) = 1.
Proof.
  intros He Hi Ho. pose proof (q_poly e k He (ell_root e k)) as Q. pose proof (ell_root_spec e k He Hi Ho) as [R1 R2].
  destruct (on_track k (ell_root e k)) as [[x y] z]. split; auto.
  rewrite <- ell_q_spec by auto. rewrite R2 in Q. unfold Rdiv in Q. lra.
Qed.

(** Tracks from inside to outside: the hit is on the track, and it is the
    crossing point scaled by [resc_fac], or the start point. *)
Lemma ell_impact_track e resc ks : ellip_ok e -> 0 < resc < 1 ->
  Forall (fun k => in_ellipse e (t_xin k) (t_yin k) /\ ~ in_ellipse e (t_xout k) (t_yout k)) ks ->
  exists hs, ell_impact e resc ks = Some hs /\
    Forall2 (fun k h => hit_on_track k h /\
      ((1 / 100 <= resc * ell_root e k /\ ~ short_step k /\ (h_x h, h_y h, h_z h) = on_track k (resc * ell_root e k)) \/
       ((resc * ell_root e k < 1 / 100 \/ short_step k) /\ (h_x h, h_y h, h_z h) = (t_xin k, t_yin k, t_zin k))) ) ks hs.
Proof.
  intros He Hr HF. destruct (ell_impact_inside e resc ks He) as (hs & E & _). exists hs; split; auto.
  unfold ell_impact in E. rewrite ell_shrink_map, !map_map in E. cbn [fst snd] in E.
  destruct (existsb _ _); [discriminate|].
  match type of E with Some ?l = Some hs => assert (Eh : hs = l) by congruence end.
  subst hs. clear E.
  induction HF as [|k ks [Hi Ho] HF IH]; cbn [map]; constructor; auto.
  rewrite (ell_point e k He Hi Ho resc Hr).
  destruct (normal_spec e (on_track k (ell_t0 e resc k)) He) as (P & _ & _).
  rewrite P. pose proof (ell_t0_range e k He Hi Ho resc Hr) as T.
  pose proof (ell_root_spec e k He Hi Ho) as [R _].
  split.
  - exists (ell_t0 e resc k). split; [lra|]. unfold ell_normal, on_track; cbn [h_x h_y h_z]. repeat split; ring.
  - assert (Z : on_track k 0 = (t_xin k, t_yin k, t_zin k)).
    { unfold on_track. f_equal; [f_equal|]; ring. }
    assert (R2 : 0 < t_xout k * t_xout k + t_yout k * t_yout k).
    { destruct (Rle_lt_dec (t_xout k * t_xout k + t_yout k * t_yout k) 0) as [Q|Q]; [|exact Q]. exfalso. apply Ho.
      assert (t_xout k = 0) as -> by nra. assert (t_yout k = 0) as -> by nra. apply in_ellipse_q; [exact He|]. unfold ell_q, Rdiv. rewrite !Rmult_0_l, ?Rmult_0_r. lra. }
    assert (Sh : Rltb (((t_xin k - t_xout k) * (t_xin k - t_xout k) + (t_yin k - t_yout k) * (t_yin k - t_yout k)) / (t_xout k * t_xout k + t_yout k * t_yout k)) (1 / 10^8) = true <-> short_step k).
    { rewrite Rltb_true. unfold short_step. set (r := t_xout k * t_xout k + t_yout k * t_yout k) in *.
      replace ((t_xin k - t_xout k) * (t_xin k - t_xout k) + (t_yin k - t_yout k) * (t_yin k - t_yout k)) with ((t_xout k - t_xin k) * (t_xout k - t_xin k) + (t_yout k - t_yin k) * (t_yout k - t_yin k)) by ring.
      set (d := (t_xout k - t_xin k) * (t_xout k - t_xin k) + (t_yout k - t_yin k) * (t_yout k - t_yin k)). split; intros X.
      - apply (Rmult_lt_compat_r r) in X; [|exact R2]. replace (d / r * r) with d in X by (field; lra). exact X.
      - apply (Rmult_lt_reg_r r); [exact R2|]. replace (d / r * r) with d by (field; lra). exact X. }
    unfold ell_t0. rewrite (proj2 (Reqb_false _ _)) by lra.
    destruct (Rltb _ (1 / 10^8)) eqn:S1; [right; split; [right; apply Sh; reflexivity|exact Z]|].
    assert (N : ~ short_step k) by (intros X; apply Sh in X; discriminate).
    destruct (Rltb (resc * ell_root e k) (1/100)) eqn:S2; [apply Rltb_true in S2; right; split; [left; exact S2|exact Z]|].
    apply Rltb_false in S2. left. auto.
Qed.

Lemma ell_outside_spec e x y : ellip_ok e -> (ell_outside e x y = false <-> in_ellipse e x y).
Proof. intros He. unfold ell_outside. rewrite Rgeb_false, in_ellipse_q by auto. tauto. Qed.
