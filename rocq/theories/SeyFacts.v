(** Facts about the yield curves and emission kinematics. *)
From Coq Require Import Lra Lia Reals Psatz.
From Verif Require Import Num NumFacts Sey SpecSey.

Lemma pw_nonneg x s : 0 <= pw x s.
Proof. unfold pw. destruct (Reqb x 0); [lra|]. unfold Rpower. left. apply exp_pos. Qed.

Lemma pw_pos x s : 0 < x -> pw x s = Rpower x s /\ 0 < pw x s.
Proof.
  intros H. unfold pw. rewrite (proj2 (Reqb_false _ _)) by lra. split; auto. apply exp_pos.
Qed.
Lemma pw_1 s : pw 1 s = 1.
Proof.
  unfold pw. rewrite (proj2 (Reqb_false _ _)) by lra. unfold Rpower. rewrite ln_1, Rmult_0_r. apply exp_0.
Qed.

Lemma exp_ge x : 1 + x <= exp x.
Proof.
  destruct (Req_dec x 0) as [->|H]; [rewrite exp_0; lra|]. left. apply exp_ineq1; auto.
Qed.

Lemma ln_ge x : 0 < x -> 1 - 1 / x <= ln x.
Proof.
  intros H. assert (L : ln (/ x) = - ln x) by (apply ln_Rinv; auto).
  pose proof (exp_ge (- ln x)) as E. rewrite <- L in E at 2. rewrite exp_ln in E by (apply Rinv_0_lt_compat; auto).
  unfold Rdiv. lra.
Qed.

(** Bernoulli's inequality for real exponents. *)
Lemma bernoulli x s : 0 <= x -> 1 <= s -> s * x <= s - 1 + pw x s.
Proof.
  intros Hx Hs. destruct (Req_dec x 0) as [->|Hne]; [pose proof (pw_nonneg 0 s); lra|].
  assert (Hp : 0 < x) by lra. destruct (pw_pos x s Hp) as [-> _].
  assert (E : Rpower x s = x * exp ((s - 1) * ln x)).
  { replace s with (1 + (s - 1)) at 1 by ring. rewrite Rpower_plus, Rpower_1 by auto. reflexivity. }
  rewrite E. pose proof (exp_ge ((s - 1) * ln x)) as G. pose proof (ln_ge x Hp) as L.
  assert ((s - 1) * (1 - 1 / x) <= (s - 1) * ln x) by (apply Rmult_le_compat_l; lra).
  assert (x * (1 + (s - 1) * (1 - 1 / x)) <= x * exp ((s - 1) * ln x)) by (apply Rmult_le_compat_l; lra).
  replace (x * (1 + (s - 1) * (1 - 1 / x))) with (x + (s - 1) * (x - 1)) in H0 by (field; lra). lra.
Qed.

Section Yield.
Variables (Emax dm s : R) (sc sh : bool) (E ct : R).
Hypotheses (HE : 0 <= E) (Hct : 0 <= ct <= 1) (HEm : 0 < Emax) (Hdm : 0 <= dm) (Hs : 1 < s).

Let dm_tilde : R := SpecSey.dm_tilde dm sc ct.
Definition Em_tilde : R := if sh then Emax * (1 + (7/10) * (1 - ct)) else Emax.

Lemma Em_pos : 0 < Em_tilde.
Proof. unfold Em_tilde. destruct sh; auto. apply Rmult_lt_0_compat; lra. Qed.
Lemma dm_nonneg : 0 <= dm_tilde.
Proof. unfold dm_tilde, SpecSey.dm_tilde. destruct sc; auto. apply Rmult_le_pos; auto. left. apply exp_pos. Qed.

Lemma true_sec_range : 0 <= true_sec Emax dm s sc sh E ct <= dm_tilde.
Proof.
  unfold true_sec. fold (SpecSey.dm_tilde dm sc ct); fold dm_tilde Em_tilde. pose proof Em_pos. pose proof dm_nonneg.
  set (x := E / Em_tilde). assert (Hx : 0 <= x) by (unfold x, Rdiv; apply Rmult_le_pos; [lra|left; apply Rinv_0_lt_compat; auto]).
  pose proof (bernoulli x s Hx ltac:(lra)) as B. pose proof (pw_nonneg x s) as P.
  set (d := s - 1 + pw x s) in *. assert (Hd : 0 < d) by (unfold d; lra).
  assert (0 <= s * x) by (apply Rmult_le_pos; lra). split.
  - unfold Rdiv. apply Rmult_le_pos; [apply Rmult_le_pos; auto|left; apply Rinv_0_lt_compat; auto].
  - apply (Rmult_le_reg_r d); auto. unfold Rdiv. rewrite Rmult_assoc, Rinv_l, Rmult_1_r by lra.
    apply Rmult_le_compat_l; auto.
Qed.

Lemma true_sec_peak : E = Em_tilde -> true_sec Emax dm s sc sh E ct = dm_tilde.
Proof.
  intros HEE. unfold true_sec. fold (SpecSey.dm_tilde dm sc ct); fold dm_tilde Em_tilde. pose proof Em_pos.
  replace (E / Em_tilde) with 1 by (rewrite HEE; field; lra). rewrite pw_1. field. lra.
Qed.
End Yield.

Lemma reflected_range R0 E0 E : 0 <= R0 -> 0 < E0 -> 0 <= E -> 0 <= reflected R0 E0 E <= R0.
Proof.
  intros HR HE0 HE. unfold reflected. set (a := sqrt E). set (b := sqrt (E + E0)).
  assert (Ha : 0 <= a) by apply sqrt_pos. assert (Hab : a < b) by (apply sqrt_lt_1_alt; lra).
  set (q := (a - b) / (a + b)).
  assert (Hq : -1 <= q <= 0).
  { assert (E1 : q * (a + b) = a - b) by (unfold q; field; lra). split; nra. }
  split.
  - apply Rmult_le_pos; auto. apply pow2_ge_0.
  - rewrite <- (Rmult_1_r R0) at 2. apply Rmult_le_compat_l; auto. nra.
Qed.

Lemma reflected_zero R0 E0 : 0 < E0 -> reflected R0 E0 0 = R0.
Proof.
  intros H. unfold reflected. rewrite Rplus_0_l, sqrt_0. assert (0 < sqrt E0) by (apply sqrt_lt_R0; auto). field. lra.
Qed.

Lemma total_frac_ok t r : 0 <= t -> 0 <= r ->
  0 <= fst (total_frac t r) /\ 0 <= snd (total_frac t r) <= 1 /\ fst (total_frac t r) = t + r /\
  snd (total_frac t r) * fst (total_frac t r) = r.
Proof.
  intros Ht Hr. unfold total_frac. cbn [fst snd]. destruct (Rgtb (t + r) 0) eqn:G.
  - apply Rgtb_true in G.
    assert (E : r / (t + r) * (t + r) = r) by (field; lra).
    repeat split; try lra.
    + unfold Rdiv. apply Rmult_le_pos; auto. left. apply Rinv_0_lt_compat. lra.
    + apply (Rmult_le_reg_r (t + r)); lra.
  - apply Rgtb_false in G. repeat split; lra.
Qed.

(** C31 for the ECLOUD curve. *)
Lemma yield_ECLOUD_ok Emax dm R0 E0 s sc sh E ct :
  0 <= E -> 0 <= ct <= 1 -> 0 < Emax -> 0 <= dm -> 0 <= R0 -> 0 < E0 -> 1 < s ->
  let '(d, f) := yield_ECLOUD Emax dm R0 E0 s sc sh E ct in
  0 <= f <= 1 /\ d = true_sec Emax dm s sc sh E ct + reflected R0 E0 E /\ f * d = reflected R0 E0 E /\
  0 <= d <= dm_tilde dm sc ct + R0.
Proof.
  intros. unfold yield_ECLOUD.
  pose proof (true_sec_range Emax dm s sc sh E ct) as T. pose proof (reflected_range R0 E0 E) as Rr.
  specialize (T ltac:(auto) ltac:(auto) ltac:(auto) ltac:(auto) ltac:(auto)). specialize (Rr ltac:(auto) ltac:(auto) ltac:(auto)).
  destruct (total_frac_ok (true_sec Emax dm s sc sh E ct) (reflected R0 E0 E) ltac:(lra) ltac:(lra)) as (A & B & C & D).
  destruct (total_frac _ _) as [d f]. cbn [fst snd] in *. repeat split; try lra.
Qed.

(** Accurate low energy model: the mean emitted charge is the yield. *)
Lemma yield_acc_ok Emax dm R0 E0 E ct :
  0 <= E -> 0 <= ct <= 1 -> 0 < Emax -> 0 <= dm -> 0 <= R0 < 1 -> 0 < E0 ->
  let '(t, r) := yield_acc Emax dm R0 E0 E ct in
  0 <= r < 1 /\ 0 <= t / (1 - r) /\ r * 1 + (1 - r) * (t / (1 - r)) = t + r.
Proof.
  intros. unfold yield_acc. assert (1 < s135) by (unfold s135; lra).
  pose proof (true_sec_range Emax dm s135 true true E ct ltac:(auto) ltac:(auto) ltac:(auto) ltac:(auto) ltac:(auto)) as T.
  pose proof (reflected_range R0 E0 E ltac:(lra) ltac:(auto) ltac:(auto)) as Rr.
  set (t := true_sec _ _ _ _ _ _ _) in *. set (r := reflected _ _ _) in *.
  repeat split; try lra.
  - unfold Rdiv. apply Rmult_le_pos; [lra|]. left. apply Rinv_0_lt_compat. lra.
  - field. lra.
Qed.

Lemma yield_cos_ok Emax dm R0 E0 E ct :
  0 <= E -> 0 <= ct <= 1 -> 0 < Emax -> 0 <= dm -> 0 <= R0 -> 0 < E0 ->
  let '(d, f) := yield_cos Emax dm R0 E0 E ct in
  0 <= d /\ match f with
            | Some f => 0 <= f <= 1 /\ f * d = d - true_sec Emax dm s135 true true E ct
            | None => d = 0 end.
Proof.
  intros. unfold yield_cos. assert (1 < s135) by (unfold s135; lra).
  pose proof (true_sec_range Emax dm s135 true true E ct ltac:(auto) ltac:(auto) ltac:(auto) ltac:(auto) ltac:(auto)) as T.
  set (t := true_sec _ _ _ _ _ _ _) in *.
  set (r := if Rltb E E0 then R0 * cos (1 / 2 * PI * E / E0) ^ 2 else 0).
  assert (Hr : 0 <= r).
  { unfold r. destruct (Rltb E E0); [|lra]. apply Rmult_le_pos; auto. apply pow2_ge_0. }
  split; [lra|]. unfold frac. destruct (Reqb (t + r) 0) eqn:Q.
  - apply Reqb_true in Q. auto.
  - apply Reqb_false in Q. assert (E1 : r / (t + r) * (t + r) = r) by (field; auto). repeat split; try lra.
    + unfold Rdiv. apply Rmult_le_pos; auto. left. apply Rinv_0_lt_compat. lra.
    + apply (Rmult_le_reg_r (t + r)); lra.
Qed.

(** Flat model: what the code returns. *)
Lemma yield_flat_code Emax dm R0 E ct :
  let t := true_sec Emax dm s135 true true E ct in
  fst (yield_flat Emax dm R0 E ct) = (if Rltb t R0 && Rltb E Emax then R0 else t) /\
  (snd (yield_flat Emax dm R0 E ct) = Some 0 \/ snd (yield_flat Emax dm R0 E ct) = None).
Proof.
  intros t. unfold yield_flat. fold t. cbn [fst snd]. split; auto. unfold frac.
  destruct (Reqb _ 0) eqn:Q; auto. left. apply Reqb_false in Q. f_equal. unfold Rdiv. rewrite Rminus_diag_eq by auto. apply Rmult_0_l.
Qed.

Lemma yield_flat_ok Emax dm R0 E ct :
  0 <= E -> 0 <= ct <= 1 -> 0 < Emax -> 0 <= dm -> 0 <= R0 ->
  let '(d, f) := yield_flat Emax dm R0 E ct in
  0 <= d /\ match f with Some f => 0 <= f <= 1 | None => d = 0 end.
Proof.
  intros. pose proof (yield_flat_code Emax dm R0 E ct) as Y. cbv zeta in Y.
  pose proof (true_sec_range Emax dm s135 true true E ct ltac:(auto) ltac:(auto) ltac:(auto) ltac:(auto) ltac:(unfold s135; lra)) as T.
  unfold yield_flat in *. cbn [fst snd] in *. destruct Y as [Y1 Y2].
  set (t := true_sec _ _ _ _ _ _ _) in *. set (a := if Rltb t R0 && Rltb E Emax then R0 else t) in *.
  assert (Ha : 0 <= a) by (unfold a; destruct (Rltb t R0 && Rltb E Emax); lra).
  split; auto. destruct Y2 as [->|Y2].
  - lra.
  - rewrite Y2. unfold frac in Y2. destruct (Reqb a 0) eqn:Q; [apply Reqb_true in Q; auto|discriminate].
Qed.

(** On the plateau the intended reflected fraction is positive, the code
    gives zero. *)
Lemma flat_witness : exists Emax dm R0 E ct,
  0 < E < Emax /\ 0 <= ct <= 1 /\ 0 < R0 /\ 0 <= dm /\
  let t := true_sec Emax dm s135 true true E ct in
  t < R0 /\ fst (yield_flat Emax dm R0 E ct) = R0 /\
  snd (yield_flat Emax dm R0 E ct) = Some 0 /\ 0 < (R0 - t) / R0.
Proof.
  exists 300, 0, 1, 1, 1. split; [lra|]. split; [lra|]. split; [lra|]. split; [lra|].
  assert (T : true_sec 300 0 s135 true true 1 1 = 0) by (unfold true_sec, Rdiv; rewrite !Rmult_0_l; auto).
  cbv zeta. unfold yield_flat. rewrite T. rewrite !(proj2 (Rltb_true _ _)) by lra. cbn [andb fst snd].
  unfold frac. rewrite (proj2 (Reqb_false _ _)) by lra. repeat split; try lra. f_equal. field.
Qed.

(** * Kinematics *)
Lemma specular_ok vx vy vz nx ny : nx * nx + ny * ny = 1 ->
  let vn := vx * nx + vy * ny in
  let '(vx', vy') := specular_velocity vx vy nx ny vn in
  vx' * vx' + vy' * vy' + vz * vz = vx * vx + vy * vy + vz * vz /\
  normal_comp nx ny vx' vy' = - normal_comp nx ny vx vy /\
  normal_comp (- ny) nx vx' vy' = normal_comp (- ny) nx vx vy.
Proof.
  intros Hn vn. unfold specular_velocity, normal_comp. 
  assert (E : (vx - 2 * vn * nx) * (vx - 2 * vn * nx) + (vy - 2 * vn * ny) * (vy - 2 * vn * ny) =
    vx * vx + vy * vy - 4 * vn * (vx * nx + vy * ny) + 4 * vn * vn * (nx * nx + ny * ny)) by ring.
  repeat split.
  - rewrite E, Hn. unfold vn. ring.
  - replace ((vx - 2 * vn * nx) * nx + (vy - 2 * vn * ny) * ny) with (vx * nx + vy * ny - 2 * vn * (nx * nx + ny * ny)) by ring.
    rewrite Hn. unfold vn. ring.
  - ring.
Qed.

Lemma vmod_sq qe mass en : 0 < qe -> 0 < mass -> 0 <= en ->
  sqrt (2 * qe / mass * en) * sqrt (2 * qe / mass * en) = 2 * qe / mass * en.
Proof.
  intros Hq Hm He. apply sqrt_sqrt. apply Rmult_le_pos; auto. unfold Rdiv. apply Rmult_le_pos; [lra|]. left.
  apply Rinv_0_lt_compat; auto.
Qed.

Lemma vel_angle_ok qe mass en nx ny st phi :
  0 < qe -> 0 < mass -> 0 <= en -> nx * nx + ny * ny = 1 -> 0 <= st <= 1 ->
  let '(vx, vy, vz) := vel_angle qe mass en nx ny st phi in
  kin_eV qe mass vx vy vz = en /\ 0 <= normal_comp nx ny vx vy.
Proof.
  intros Hq Hm He Hn Hs. unfold vel_angle, kin_eV, normal_comp.
  set (v := sqrt (2 * qe / mass * en)). assert (Hv : v * v = 2 * qe / mass * en) by (apply vmod_sq; auto).
  set (c := sqrt (1 - st ^ 2)).
  assert (Hc : c * c = 1 - st ^ 2) by (apply sqrt_sqrt; nra).
  assert (Hc0 : 0 <= c) by apply sqrt_pos. assert (Hv0 : 0 <= v) by apply sqrt_pos.
  pose proof (sin2_cos2 phi) as SC. unfold Rsqr in SC.
  set (sp := sin phi) in *. set (cp := cos phi) in *. clearbody v c sp cp. split.
  - replace (v * (c * nx + st * sp * ny) * (v * (c * nx + st * sp * ny)) + v * (c * ny - st * sp * nx) * (v * (c * ny - st * sp * nx)) + v * (st * cp) * (v * (st * cp)))
      with ((v * v) * ((c * c) * (nx * nx + ny * ny) + st * st * (sp * sp * (nx * nx + ny * ny) + cp * cp))) by ring.
    rewrite Hn, Hv, Hc, !Rmult_1_r, SC. field. lra.
  - replace (v * (c * nx + st * sp * ny) * nx + v * (c * ny - st * sp * nx) * ny) with (v * c * (nx * nx + ny * ny)) by ring.
    rewrite Hn, Rmult_1_r. apply Rmult_le_pos; auto.
Qed.

Lemma vel_normal_ok qe mass en nx ny :
  0 < qe -> 0 < mass -> 0 <= en -> nx * nx + ny * ny = 1 ->
  let '(vx, vy, vz) := vel_normal qe mass en nx ny in
  kin_eV qe mass vx vy vz = en /\ 0 <= normal_comp nx ny vx vy.
Proof.
  intros Hq Hm He Hn. unfold vel_normal, kin_eV, normal_comp.
  set (v := sqrt (2 * qe / mass * en)). assert (Hv : v * v = 2 * qe / mass * en) by (apply vmod_sq; auto).
  assert (Hv0 : 0 <= v) by apply sqrt_pos. clearbody v. split.
  - replace (v * nx * (v * nx) + v * ny * (v * ny) + 0 * 0) with ((v * v) * (nx * nx + ny * ny)) by ring.
    rewrite Hn, Hv, Rmult_1_r. field. lra.
  - replace (v * nx * nx + v * ny * ny) with (v * (nx * nx + ny * ny)) by ring. rewrite Hn. lra.
Qed.
