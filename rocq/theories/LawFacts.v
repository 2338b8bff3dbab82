(** The laws of the energies and directions that are drawn. *)
From Coq Require Import Reals List Lra Lia Psatz.
From Verif Require Import Num NumFacts Sey SpecSey SeyFacts Furman SpecFurman FurmanFacts FpDist SpecLaw.
Local Open Scope R_scope.

Lemma le_div a x y : 0 < a -> (x <= y / a <-> x * a <= y).
Proof.
  intros A. split; intros H.
  - apply (Rmult_le_compat_r a) in H; [|lra]. replace (y / a * a) with y in H by (field; lra). exact H.
  - apply (Rmult_le_reg_r a); [exact A|]. replace (y / a * a) with y by (field; lra). exact H.
Qed.
Lemma div_le a x y : 0 < a -> (y / a <= x <-> y <= x * a).
Proof.
  intros A. split; intros H.
  - apply (Rmult_le_compat_r a) in H; [|lra]. replace (y / a * a) with y in H by (field; lra). exact H.
  - apply (Rmult_le_reg_r a); [exact A|]. replace (y / a * a) with y by (field; lra). exact H.
Qed.

(** * Backscattered electrons *)
Section Back.
Context (sp : spfun) (OK : sp_ok sp).

Lemma erf_iff x y : erf sp x <= erf sp y <-> x <= y.
Proof. split; [apply erf_le; exact OK|apply erf_mono; exact OK]. Qed.
Lemma erf_at_0 : erf sp 0 = 0.
Proof. exact (erf_0 sp OK). Qed.
Lemma erf_gt_0 x : 0 < x -> 0 < erf sp x.
Proof. intros H. rewrite <- erf_at_0. exact (so_inc _ OK _ _ H). Qed.

Context (f : fpar) (E : R) (HE : 0 < E) (SA : fp_energy_sane f).

Lemma sigma_pos : 0 < sigma_e f E.
Proof. pose proof (fs_sig f SA) as S. unfold sigma_e. destruct (f_modsig f); [|exact S]. pose proof (tanh_gt (1 / 100 * (E - 150))). lra. Qed.

Definition back_F (s e : R) : R := 1 - erf sp ((E - e) / (sqrt 2 * s)) / erf sp (E / (sqrt 2 * s)).

Lemma law_back : law (en_back sp f E) (between 0 E) (back_F (sigma_e f E)).
Proof.
  assert (Q : 0 < sqrt 2) by (apply sqrt_lt_R0; lra). pose proof sigma_pos as G.
  set (s := sqrt 2 * sigma_e f E). assert (S : 0 < s) by (apply Rmult_lt_0_compat; assumption).
  assert (P : 0 < erf sp (E / s)) by (apply erf_gt_0; apply Rdiv_lt_0_compat; assumption).
  split; [|split].
  - intros u H. apply (en_back_ok sp OK f E u SA); lra.
  - intros e (A & B). unfold back_F. fold s.
    assert (U : 0 <= erf sp ((E - e) / s) <= erf sp (E / s)).
    { split.
      - rewrite <- erf_at_0. apply erf_iff. apply le_div; [exact S|]. lra.
      - apply erf_iff. apply Rmult_le_compat_r; [left; apply Rinv_0_lt_compat; exact S|lra]. }
    assert (V : 0 <= erf sp ((E - e) / s) / erf sp (E / s) <= 1) by (split; [apply le_div; lra|apply div_le; lra]). lra.
  - intros u e H _. change (en_back sp f E u) with (E + s * erfinv sp ((u - 1) * erf sp (E / s))). unfold back_F. fold s.
    assert (R : -1 < (u - 1) * erf sp (E / s) < 1) by (pose proof (so_range _ OK (E / s)); nra).
    transitivity (erfinv sp ((u - 1) * erf sp (E / s)) <= (e - E) / s); [rewrite (le_div s _ _ S); split; lra|].
    rewrite <- erf_iff, (so_inv _ OK _ R). replace ((e - E) / s) with (- ((E - e) / s)) by (field; lra). rewrite (so_odd _ OK).
    transitivity (erf sp ((E - e) / s) / erf sp (E / s) <= 1 - u); [rewrite (div_le _ _ _ P)|]; split; lra.
Qed.

Lemma density_back : erf_exact sp -> density (back_F (sigma_e f E)) (gauss_density sp (sigma_e f E) E) 0 E.
Proof.
  intros (_ & D) e He. assert (Q : 0 < sqrt 2) by (apply sqrt_lt_R0; lra). pose proof sigma_pos as G.
  set (g := sigma_e f E) in *. set (s := sqrt 2 * g). assert (S : 0 < s) by (apply Rmult_lt_0_compat; assumption).
  assert (P : 0 < erf sp (E / s)) by (apply erf_gt_0; apply Rdiv_lt_0_compat; assumption).
  unfold back_F, gauss_density. fold s.
  assert (L : derivable_pt_lim (fun e => (E - e) / s) e (- 1 / s)).
  { replace (- 1 / s) with (/ s * (0 - 1)) by (field; lra).
    apply (derivable_pt_lim_ext (fun x => / s * (E - x))); [intros x; field; lra|].
    apply derivable_pt_lim_scal. apply derivable_pt_lim_minus; [apply derivable_pt_lim_const|apply derivable_pt_lim_id]. }
  pose proof (derivable_pt_lim_comp _ _ _ _ _ L (D ((E - e) / s))) as C.
  apply (derivable_pt_lim_scal _ (- / erf sp (E / s))) in C.
  pose proof (derivable_pt_lim_plus _ _ _ _ _ (derivable_pt_lim_const 1 e) C) as K.
  apply (derivable_pt_lim_ext _ (fun e => 1 - erf sp ((E - e) / s) / erf sp (E / s))) in K.
  - match goal with |- derivable_pt_lim _ _ ?v => match type of K with derivable_pt_lim _ _ ?w => replace v with w; [exact K|] end end.
    replace (- (e - E) ^ 2 / (2 * g ^ 2)) with (- ((E - e) / s) ^ 2).
    2: { unfold s. replace ((- (((E - e) / (sqrt 2 * g)) ^ 2))) with (- (E - e) ^ 2 / ((sqrt 2 * sqrt 2) * g ^ 2)) by (field; split; lra).
         rewrite sqrt_sqrt by lra. field. lra. }
    replace (sqrt (2 * PI)) with (sqrt 2 * sqrt PI) by (rewrite sqrt_mult; [reflexivity|lra|left; exact PI_RGT_0]).
    assert (Z : 0 < sqrt PI) by (apply sqrt_lt_R0; exact PI_RGT_0). unfold s. unfold s in P. field. repeat split; lra.
  - intros x. unfold plus_fct, mult_real_fct, fct_cte, comp. field. lra.
Qed.
End Back.

(** * Rediffused electrons *)
Section Redif.
Lemma pw_pos x s : 0 < x -> pw x s = Rpower x s.
Proof. intros H. unfold pw. replace (Reqb x 0) with false; [reflexivity|]. symmetry. apply Reqb_false. lra. Qed.
Lemma pw_0 s : pw 0 s = 0.
Proof. unfold pw. replace (Reqb 0 0) with true; [reflexivity|]. symmetry. apply Reqb_true. reflexivity. Qed.
Lemma pw_le_iff x y s : 0 < s -> 0 <= x -> 0 <= y -> (pw x s <= pw y s <-> x <= y).
Proof.
  intros S [X|<-] Y.
  - rewrite (pw_pos x s X). destruct Y as [Y|<-].
    + rewrite (pw_pos y s Y). split; intros H.
      * apply Rnot_lt_le. intros L. pose proof (Rlt_Rpower_l _ _ _ S (conj Y L)). lra.
      * destruct H as [H|H]; [left; apply Rlt_Rpower_l; lra|subst; lra].
    + rewrite pw_0. pose proof (exp_pos (s * ln x)) as P. change (exp (s * ln x)) with (Rpower x s) in P. split; lra.
  - rewrite pw_0. split; [auto|intros _; apply pw_nonneg].
Qed.
Lemma pw_inv x s : 0 < s -> 0 <= x -> pw (pw x (1 / s)) s = x.
Proof.
  intros S [X|<-]; [|rewrite !pw_0; reflexivity].
  rewrite (pw_pos x _ X), (pw_pos (Rpower x (1 / s)) s) by apply exp_pos.
  rewrite Rpower_mult. replace (1 / s * s) with 1 by (field; lra). apply Rpower_1. exact X.
Qed.
Lemma pw_div x y s : 0 <= x -> 0 < y -> pw (x / y) s = pw x s / pw y s.
Proof.
  intros [X|<-] Y.
  - assert (Z : 0 < x / y) by (apply Rdiv_lt_0_compat; assumption). rewrite !pw_pos by assumption. unfold Rpower.
    unfold Rdiv. rewrite ln_mult, ln_Rinv by (try assumption; apply Rinv_0_lt_compat; assumption).
    replace (s * (ln x + - ln y)) with (s * ln x + - (s * ln y)) by ring. rewrite exp_plus, exp_Ropp. reflexivity.
  - replace (0 / y) with 0 by (field; lra). rewrite pw_0. unfold Rdiv. ring.
Qed.

Context (f : fpar) (E : R) (HE : 0 < E) (SA : fp_energy_sane f).

Definition redif_F (q e : R) : R := pw e (q + 1) / pw E (q + 1).

Lemma law_redif : law (en_rediff f E) (between 0 E) (redif_F (f_q f)).
Proof.
  pose proof (fs_q f SA) as Q. set (s := f_q f + 1). assert (S : 0 < s) by (unfold s; lra).
  assert (P : 0 < pw E s) by (rewrite pw_pos by exact HE; apply exp_pos).
  split; [|split].
  - intros u H. apply (en_rediff_ok f E u SA); lra.
  - intros e (A & B). unfold redif_F. fold s. split; [apply le_div; [exact P|]; rewrite Rmult_0_l; apply pw_nonneg|].
    apply div_le; [exact P|]. rewrite Rmult_1_l. apply pw_le_iff; lra.
  - intros u e H (A & B). unfold en_rediff, redif_F. fold s. rewrite <- pw_div by lra.
    rewrite <- (le_div E _ e HE).
    rewrite <- (pw_le_iff _ _ s S (pw_nonneg u (1 / s))), (pw_inv u s S) by (try lra; apply le_div; lra). reflexivity.
Qed.

Lemma density_redif : density (redif_F (f_q f)) (power_density (f_q f) E) 0 E.
Proof.
  intros e He. pose proof (fs_q f SA) as Q.
  assert (P : 0 < Rpower E (f_q f + 1)) by apply exp_pos.
  pose proof (derivable_pt_lim_power e (f_q f + 1) (proj1 He)) as D.
  apply (derivable_pt_lim_scal _ (/ Rpower E (f_q f + 1))) in D.
  unfold redif_F, power_density.
  replace (f_q f + 1 - 1) with (f_q f) in D by ring.
  match goal with |- derivable_pt_lim _ _ ?v => match type of D with derivable_pt_lim _ _ ?w => replace v with w by (field; lra) end end.
  refine (derivable_pt_lim_locally_ext _ _ e 0 E _ He _ D).
  intros x Hx. unfold mult_real_fct. rewrite !pw_pos by lra. field. lra.
Qed.
End Redif.

(** * True secondaries *)
Section True.
Context (sp : spfun) (OK : sp_ok sp) (p : R) (Hp : 0 < p).

Lemma ginc_iff x y : 0 <= x -> 0 <= y -> (ginc sp p x <= ginc sp p y <-> x <= y).
Proof.
  intros X Y. split; intros H.
  - apply Rnot_lt_le. intros L. pose proof (so_ginc _ OK p y x Hp (conj Y L)). lra.
  - destruct H as [H|H]; [left; apply (so_ginc _ OK p _ _ Hp); lra|subst; lra].
Qed.

Context (eps E : R) (Heps : 0 < eps) (HE : 0 < E).
Definition true_F (e : R) : R := ginc sp p (e / eps) / ginc sp p (E / eps).

Lemma law_true f n u x e : fp_energy_sane f -> (1 <= n)%nat -> nth_error (f_eps f) (n - 1) = Some eps -> nth_error (f_pn f) (n - 1) = Some p ->
  0 <= u < 1 -> en_true1 sp f n E u = Some x -> between 0 E e -> 1 / 10 ^ 12 <= ginc sp p (e / eps) ->
  (x <= e <-> u <= true_F e).
Proof.
  intros SA N1 A1 A2 U EQ (B1 & B2) T. unfold en_true1 in EQ. rewrite A1, A2 in EQ. cbn [bind] in EQ. cbv zeta in EQ.
  assert (Z : 0 < E / eps) by (apply Rdiv_lt_0_compat; assumption).
  assert (P : 0 < ginc sp p (E / eps)) by (rewrite <- (so_g0 _ OK p Hp); apply (so_ginc _ OK p _ _ Hp); lra).
  pose proof (so_grange _ OK p (E / eps) Hp ltac:(lra)) as P1.
  set (a := ginc sp p (E / eps)) in *. assert (NZ : Reqb a 0 = false) by (apply Reqb_false; lra). rewrite NZ in EQ.
  replace (u / (1 / a)) with (u * a) in EQ by (field; lra). unfold true_F. fold a. rewrite (le_div a _ _ P).
  assert (W : 0 <= e / eps) by (apply le_div; lra).
  destruct (Rltb (u * a) (1 / 10 ^ 12)) eqn:TH.
  - apply Rltb_true in TH. injection EQ as <-.
    destruct (so_ginv _ OK p 0 Hp ltac:(lra)) as (Y1 & Y2). rewrite <- (so_g0 _ OK p Hp) in Y2 at 2.
    assert (Y3 : gincinv sp p 0 <= 0) by (apply ginc_iff; lra).
    assert (Y : gincinv sp p 0 = 0) by lra. rewrite Y. split; intros; lra.
  - injection EQ as <-. assert (B : 0 <= u * a < 1) by nra. destruct (so_ginv _ OK p (u * a) Hp B) as (Y1 & Y2).
    rewrite <- Y2 at 2. rewrite (ginc_iff _ _ Y1 W), (le_div eps _ _ Heps). rewrite (Rmult_comm eps). reflexivity.
Qed.

Lemma true_F_ends : true_F 0 = 0 /\ true_F E = 1.
Proof.
  assert (Z : 0 < E / eps) by (apply Rdiv_lt_0_compat; assumption).
  assert (P : 0 < ginc sp p (E / eps)) by (rewrite <- (so_g0 _ OK p Hp); apply (so_ginc _ OK p _ _ Hp); lra).
  unfold true_F. replace (0 / eps) with 0 by (field; lra). rewrite (so_g0 _ OK p Hp). split; field; lra.
Qed.

Lemma density_true G : ginc_exact sp p G -> exists c, 0 < c /\ density true_F (fun e => c * gamma_shape p eps e) 0 E.
Proof.
  intros (HG & _ & D). assert (Z : 0 < E / eps) by (apply Rdiv_lt_0_compat; assumption).
  assert (P : 0 < ginc sp p (E / eps)) by (rewrite <- (so_g0 _ OK p Hp); apply (so_ginc _ OK p _ _ Hp); lra).
  set (a := ginc sp p (E / eps)) in *.
  assert (K : 0 < Rpower eps p) by apply exp_pos.
  exists (/ (a * G * Rpower eps p)). split; [apply Rinv_0_lt_compat; repeat apply Rmult_lt_0_compat; assumption|].
  intros e He. assert (W : 0 < e / eps) by (apply Rdiv_lt_0_compat; lra).
  assert (L : derivable_pt_lim (fun e => e / eps) e (/ eps)).
  { replace (/ eps) with (/ eps * 1) by ring. apply (derivable_pt_lim_ext (fun x => / eps * x)); [intros x; field; lra|].
    apply derivable_pt_lim_scal. apply derivable_pt_lim_id. }
  pose proof (derivable_pt_lim_comp _ _ _ _ _ L (D (e / eps) W)) as C.
  apply (derivable_pt_lim_scal _ (/ a)) in C.
  apply (derivable_pt_lim_ext _ true_F) in C; [|intros x; unfold mult_real_fct, comp, true_F; fold a; field; lra].
  match goal with |- derivable_pt_lim _ _ ?v => match type of C with derivable_pt_lim _ _ ?w => replace v with w; [exact C|] end end.
  unfold gamma_shape. replace (- e / eps) with (- (e / eps)) by (field; lra).
  assert (X : Rpower e (p - 1) = Rpower (e / eps) (p - 1) * Rpower eps (p - 1)).
  { rewrite Rpower_mult_distr by assumption. f_equal. field. lra. }
  assert (Y : Rpower eps p = Rpower eps (p - 1) * eps).
  { replace p with (p - 1 + 1) at 1 by ring. rewrite Rpower_plus, Rpower_1 by exact Heps. reflexivity. }
  assert (Y0 : 0 < Rpower eps (p - 1)) by apply exp_pos.
  rewrite X, Y. field. repeat split; lra.
Qed.
End True.
