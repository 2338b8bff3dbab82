(** The error function itself, as the integral it stands for. *)
From Coquelicot Require Import Coquelicot.
From Coq Require Import Reals Lra Lia Psatz.
Local Open Scope R_scope.

Definition gau (t : R) : R := exp (- t ^ 2).
Definition gint (x : R) : R := RInt gau 0 x.
Definition ker (x t : R) : R := exp (- x ^ 2 * (1 + t ^ 2)) / (1 + t ^ 2).
Definition kint (x : R) : R := RInt (ker x) 0 1.

Lemma gau_cont x : continuous gau x.
Proof. apply (ex_derive_continuous (K := R_AbsRing) (V := R_NormedModule)). unfold gau. auto_derive. exact I. Qed.
Lemma gint_derive x : is_derive gint x (gau x).
Proof.
  unfold gint. apply (is_derive_RInt gau (fun x => RInt gau 0 x) 0 x); [|apply gau_cont].
  apply filter_forall. intros y. apply (RInt_correct (V := R_CompleteNormedModule)). apply (ex_RInt_continuous (V := R_CompleteNormedModule)). intros z _. apply gau_cont.
Qed.
Lemma ker_pos t : 0 < 1 + t ^ 2.
Proof. pose proof (pow2_ge_0 t). lra. Qed.
Lemma ker_derive t x : is_derive (fun x => ker x t) x (- 2 * x * exp (- x ^ 2 * (1 + t ^ 2))).
Proof.
  unfold ker. pose proof (ker_pos t). auto_derive; [lra|].
  match goal with |- context [exp ?z] => replace z with (- x ^ 2 * (1 + t ^ 2)) by ring end. set (e := exp (- x ^ 2 * (1 + t ^ 2))). clearbody e. field. lra.
Qed.
Lemma ker_cont x t : continuous (ker x) t.
Proof. apply (ex_derive_continuous (K := R_AbsRing) (V := R_NormedModule)). unfold ker. pose proof (ker_pos t). auto_derive. lra. Qed.
Lemma kint_derive x : is_derive kint x (RInt (fun t => - 2 * x * exp (- x ^ 2 * (1 + t ^ 2))) 0 1).
Proof.
  unfold kint. replace (RInt (fun t => - 2 * x * exp (- x ^ 2 * (1 + t ^ 2))) 0 1) with (RInt (fun t => Derive (fun u => ker u t) x) 0 1).
  2: { apply RInt_ext. intros t _. apply is_derive_unique. apply ker_derive. }
  apply (is_derive_RInt_param ker 0 1 x).
  - apply filter_forall. intros y t _. eexists. apply ker_derive.
  - intros t _. apply (continuity_2d_pt_ext (fun u v => - 2 * u * exp (- u ^ 2 * (1 + v ^ 2)))).
    { intros u v. symmetry. apply is_derive_unique. apply ker_derive. }
    apply continuity_2d_pt_mult.
    + apply continuity_2d_pt_mult; [apply continuity_2d_pt_const|apply continuity_2d_pt_id1].
    + apply (continuity_1d_2d_pt_comp exp (fun u v => - u ^ 2 * (1 + v ^ 2))); [apply derivable_continuous_pt, derivable_pt_exp|].
      apply (continuity_2d_pt_ext (fun u v => (-1 * (u * u)) * (1 + v * v))); [intros u v; ring|].
      apply continuity_2d_pt_mult.
      * apply continuity_2d_pt_mult; [apply continuity_2d_pt_const|]. apply continuity_2d_pt_mult; apply continuity_2d_pt_id1.
      * apply continuity_2d_pt_plus; [apply continuity_2d_pt_const|]. apply continuity_2d_pt_mult; apply continuity_2d_pt_id2.
  - apply filter_forall. intros y. apply (ex_RInt_continuous (V := R_CompleteNormedModule)). intros t _. apply ker_cont.
Qed.
Lemma kint_derive' x : is_derive kint x (- 2 * gau x * gint x).
Proof.
  replace (- 2 * gau x * gint x) with (RInt (fun t => - 2 * x * exp (- x ^ 2 * (1 + t ^ 2))) 0 1); [apply kint_derive|].
  assert (E1 : RInt (fun t => - 2 * x * exp (- x ^ 2 * (1 + t ^ 2))) 0 1 = RInt (fun t => scal (- 2 * gau x) (scal x (gau (x * t + 0)))) 0 1).
  { apply RInt_ext. intros t _. change (scal (- 2 * gau x) (scal x (gau (x * t + 0)))) with (- 2 * gau x * (x * gau (x * t + 0))). unfold gau.
    replace (- x ^ 2 * (1 + t ^ 2)) with (- x ^ 2 + - (x * t + 0) ^ 2) by ring. rewrite exp_plus. match goal with |- @eq _ ?a ?b => change (@eq R a b) end. ring. }
  rewrite E1. assert (EX : ex_RInt gau (x * 0 + 0) (x * 1 + 0)).
  { apply (ex_RInt_continuous (V := R_CompleteNormedModule)). intros z _. apply gau_cont. }
  pose proof (RInt_comp_lin (V := R_CompleteNormedModule) gau x 0 0 1 EX) as E2.
  pose proof (RInt_scal (V := R_CompleteNormedModule) (fun t => scal x (gau (x * t + 0))) 0 1 (- 2 * gau x)
    (ex_RInt_comp_lin (V := R_NormedModule) gau x 0 0 1 EX)) as E3.
  etransitivity; [exact E3|].
  assert (A0 : x * 0 + 0 = 0) by ring. assert (A1 : x * 1 + 0 = x) by ring. rewrite A0, A1 in E2.
  exact (f_equal (fun z => - 2 * gau x * z) E2).
Qed.
Lemma kint_0 : kint 0 = PI / 4.
Proof.
  unfold kint. assert (E : RInt (ker 0) 0 1 = RInt (fun t => / (1 + t ^ 2)) 0 1).
  { apply RInt_ext. intros t _. unfold ker. replace (- 0 ^ 2 * (1 + t ^ 2)) with 0 by ring. rewrite exp_0. exact (Rmult_1_l (/ (1 + t ^ 2))). }
  rewrite E. assert (K : is_RInt (fun t => / (1 + t ^ 2)) 0 1 (minus (atan 1) (atan 0))).
  { apply (is_RInt_derive (V := R_CompleteNormedModule) atan).
    - intros t _. apply is_derive_Reals. apply derivable_pt_lim_atan.
    - intros t _. apply (ex_derive_continuous (K := R_AbsRing) (V := R_NormedModule)). pose proof (ker_pos t). auto_derive. lra. }
  pose proof (is_RInt_unique (V := R_CompleteNormedModule) _ _ _ _ K) as U. transitivity (atan 1 - atan 0); [exact U|]. rewrite atan_1, atan_0. ring.
Qed.
Lemma sum_const x : gint x ^ 2 + kint x = PI / 4.
Proof.
  assert (Z : gint 0 = 0) by (unfold gint; apply (RInt_point (V := R_CompleteNormedModule))).
  assert (D : forall y, is_derive (fun y => gint y ^ 2 + kint y) y 0).
  { intros y. replace 0 with ((INR 2 * (gau y) * gint y ^ 1) + (- 2 * gau y * gint y)) by (cbn; ring).
    apply (is_derive_plus (K := R_AbsRing) (V := R_NormedModule)); [|apply kint_derive'].
    pose proof (is_derive_pow gint 2 y (gau y) (gint_derive y)) as P. exact P. }
  transitivity (gint 0 ^ 2 + kint 0); [|rewrite Z, kint_0; ring].
  assert (M : forall a b, a < b -> gint a ^ 2 + kint a = gint b ^ 2 + kint b).
  { intros a b L. destruct (MVT_gen (fun y => gint y ^ 2 + kint y) a b (fun _ => 0)) as (c & _ & E).
    - intros y _. apply D.
    - intros y _. apply derivable_continuous_pt. exists 0. apply is_derive_Reals. exact (D y).
    - lra. }
  destruct (Rtotal_order x 0) as [L|[->|L]]; [exact (M _ _ L)|reflexivity|symmetry; exact (M _ _ L)].
Qed.
Lemma kint_pos x : 0 < kint x.
Proof.
  unfold kint. apply RInt_gt_0; [lra| |].
  - intros t _. unfold ker. apply Rdiv_lt_0_compat; [apply exp_pos|apply ker_pos].
  - intros t _. apply ker_cont.
Qed.
Lemma kint_small x : kint x <= exp (- x ^ 2).
Proof.
  unfold kint. replace (exp (- x ^ 2)) with (RInt (fun _ => exp (- x ^ 2)) 0 1).
  2: { rewrite RInt_const. unfold scal; cbn; unfold mult; cbn. ring. }
  apply RInt_le; [lra| | |].
  - apply (ex_RInt_continuous (V := R_CompleteNormedModule)). intros t _. apply ker_cont.
  - apply (ex_RInt_const (V := R_CompleteNormedModule)).
  - intros t _. unfold ker. pose proof (ker_pos t) as P. pose proof (pow2_ge_0 t). pose proof (pow2_ge_0 x).
    apply (Rmult_le_reg_r (1 + t ^ 2)); [exact P|]. replace (exp (- x ^ 2 * (1 + t ^ 2)) / (1 + t ^ 2) * (1 + t ^ 2)) with (exp (- x ^ 2 * (1 + t ^ 2))) by (field; lra).
    assert (exp (- x ^ 2 * (1 + t ^ 2)) <= exp (- x ^ 2)).
    { assert (Q : - x ^ 2 * (1 + t ^ 2) <= - x ^ 2) by nra. destruct Q as [Q|Q]; [left; apply exp_increasing; exact Q|rewrite Q; lra]. }
    pose proof (exp_pos (- x ^ 2)). nra.
Qed.
Lemma gint_inc x y : x < y -> gint x < gint y.
Proof.
  intros L. destruct (MVT_gen gint x y gau) as (c & _ & E).
  - intros z _. apply gint_derive.
  - intros z _. apply continuity_pt_filterlim. apply (ex_derive_continuous (K := R_AbsRing) (V := R_NormedModule)). exists (gau z). apply gint_derive.
  - unfold gau in E. pose proof (exp_pos (- c ^ 2)). nra.
Qed.
Lemma gint_odd x : gint (- x) = - gint x.
Proof.
  assert (Z : gint 0 = 0) by (unfold gint; apply (RInt_point (V := R_CompleteNormedModule))).
  assert (D : forall y, is_derive (fun y => gint (- y) + gint y) y 0).
  { intros y. replace 0 with (scal (-1) (gau (- y)) + gau y).
    - apply (is_derive_plus (K := R_AbsRing) (V := R_NormedModule)); [|apply gint_derive].
      apply (is_derive_comp (K := R_AbsRing) (V := R_NormedModule) gint Ropp y); [apply gint_derive|]. auto_derive; [exact I|ring].
    - change (scal (-1) (gau (- y))) with (-1 * gau (- y)). unfold gau. replace ((- y) ^ 2) with (y ^ 2) by ring. ring. }
  assert (M : forall a b, a < b -> gint (- a) + gint a = gint (- b) + gint b).
  { intros a b L. destruct (MVT_gen (fun y => gint (- y) + gint y) a b (fun _ => 0)) as (c & _ & E).
    - intros y _. apply D.
    - intros y _. apply derivable_continuous_pt. exists 0. apply is_derive_Reals. exact (D y).
    - lra. }
  assert (K : gint (- x) + gint x = gint (- 0) + gint 0) by (destruct (Rtotal_order x 0) as [L|[->|L]]; [exact (M _ _ L)|reflexivity|symmetry; exact (M _ _ L)]).
  rewrite Ropp_0, Z in K. lra.
Qed.

Definition erf_r (x : R) : R := 2 / sqrt PI * gint x.
Lemma sqrtpi : 0 < sqrt PI.
Proof. apply sqrt_lt_R0, PI_RGT_0. Qed.
Lemma erf_r_0 : erf_r 0 = 0.
Proof. unfold erf_r, gint. rewrite (RInt_point (V := R_CompleteNormedModule)). unfold zero; cbn. ring. Qed.
Lemma erf_r_derive x : derivable_pt_lim erf_r x (2 / sqrt PI * exp (- x ^ 2)).
Proof. apply is_derive_Reals. unfold erf_r. apply (is_derive_scal gint x (2 / sqrt PI) (gau x)). apply gint_derive. Qed.
Lemma erf_r_odd x : erf_r (- x) = - erf_r x.
Proof. unfold erf_r. rewrite gint_odd. ring. Qed.
Lemma erf_r_inc x y : x < y -> erf_r x < erf_r y.
Proof. intros L. unfold erf_r. apply Rmult_lt_compat_l; [apply Rdiv_lt_0_compat; [lra|apply sqrtpi]|apply gint_inc; exact L]. Qed.
Lemma erf_r_sq x : erf_r x ^ 2 = 1 - 4 / PI * kint x.
Proof.
  unfold erf_r. replace ((2 / sqrt PI * gint x) ^ 2) with (4 / (sqrt PI * sqrt PI) * gint x ^ 2) by (field; pose proof sqrtpi; lra).
  rewrite sqrt_sqrt by (left; apply PI_RGT_0). pose proof (sum_const x) as S. replace (gint x ^ 2) with (PI / 4 - kint x) by lra. field. pose proof PI_RGT_0; lra.
Qed.
Lemma erf_r_range x : -1 < erf_r x < 1.
Proof.
  pose proof (erf_r_sq x) as S. pose proof (kint_pos x) as K. assert (0 < 4 / PI * kint x) by (apply Rmult_lt_0_compat; [apply Rdiv_lt_0_compat; [lra|apply PI_RGT_0]|exact K]).
  split; nra.
Qed.
Lemma erf_r_cont : continuity erf_r.
Proof. intros x. apply derivable_continuous_pt. exists (2 / sqrt PI * exp (- x ^ 2)). apply erf_r_derive. Qed.
Definition far (y : R) : R := 1 + / ((1 - y ^ 2) * PI / 4).
Lemma erf_r_big y : 0 <= y < 1 -> 0 < far y /\ y < erf_r (far y).
Proof.
  intros Y. assert (Q : 0 < 1 - y ^ 2) by nra. set (d := (1 - y ^ 2) * PI / 4). pose proof PI_RGT_0 as P.
  assert (D : 0 < d) by (unfold d; apply Rdiv_lt_0_compat; [apply Rmult_lt_0_compat|]; lra).
  set (x := 1 + / d). assert (ID : 0 < / d) by (apply Rinv_0_lt_compat; exact D). change (far y) with x. split; [unfold x; lra|].
  assert (X1 : / d < x ^ 2) by (unfold x; nra).
  assert (K : kint x < d).
  { apply (Rle_lt_trans _ _ _ (kint_small x)). rewrite exp_Ropp. pose proof (exp_ineq1 (x ^ 2) ltac:(unfold x; nra)) as EI.
    rewrite <- (Rinv_inv d). apply Rinv_lt_contravar; [|lra]. apply Rmult_lt_0_compat; [exact ID|apply exp_pos]. }
  pose proof (erf_r_sq x) as S. assert (B : y ^ 2 < erf_r x ^ 2).
  { rewrite S. assert (U : 4 / PI * kint x < 1 - y ^ 2).
    { replace (1 - y ^ 2) with (4 / PI * d) by (unfold d; field; lra). apply Rmult_lt_compat_l; [apply Rdiv_lt_0_compat; lra|exact K]. }
    lra. }
  assert (X0 : 0 < x) by (unfold x; lra). pose proof (erf_r_inc 0 x X0) as I. rewrite erf_r_0 in I. nra.
Qed.

Lemma erf_r_onto y : -1 < y < 1 -> { x | erf_r x = y }.
Proof.
  intros Y. assert (A : 0 <= Rabs y < 1) by (split; [apply Rabs_pos|apply Rabs_def1; lra]).
  destruct (erf_r_big _ A) as (M0 & L). set (M := far (Rabs y)) in *. apply Rabs_def2 in L.
  destruct (IVT (fun x => erf_r x - y) (- M) M) as (z & _ & E).
  - intros x. apply continuity_pt_minus; [apply erf_r_cont|apply continuity_pt_const; intros a b; reflexivity].
  - lra.
  - rewrite erf_r_odd. lra.
  - lra.
  - exists z. lra.
Qed.
Lemma in_range_dec y : { -1 < y < 1 } + { ~ -1 < y < 1 }.
Proof. destruct (Rlt_dec (-1) y) as [A|A]; [destruct (Rlt_dec y 1) as [B|B]|]; [left; split; assumption|right; lra|right; lra]. Qed.
Definition erfinv_r (y : R) : R := match in_range_dec y with left H => proj1_sig (erf_r_onto y H) | right _ => 0 end.
Lemma erfinv_r_ok y : -1 < y < 1 -> erf_r (erfinv_r y) = y.
Proof. intros H. unfold erfinv_r. destruct (in_range_dec y) as [K|K]; [exact (proj2_sig (erf_r_onto y K))|exfalso; exact (K H)]. Qed.
