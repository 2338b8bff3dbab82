(** Low secondary energies, photoelectron energies, and the distributions
    offered to users. *)
From Coq Require Import Reals List Lra Lia Psatz String.
From Verif Require Import Num NumFacts Sey SpecSey SeyFacts Source SpecSource Furman SpecFurman FurmanFacts FpDist SpecLaw LawFacts LawFacts2.
Local Open Scope R_scope.

(** * Energies below the threshold *)
Lemma law_low E : 0 < E -> law (fun u => E * sqrt u) (between 0 E) (fun e => e ^ 2 / E ^ 2).
Proof.
  intros H. assert (P : 0 < E ^ 2) by (apply pow_lt; exact H). split; [|split].
  - intros u U. pose proof (sqrt_dom u U). split; nra.
  - intros e (A & B). split; [apply le_div; nra|apply div_le; nra].
  - intros u e U (A & B). rewrite (le_div (E ^ 2) u _ P). pose proof (sqrt_sqrt u ltac:(lra)) as Q. pose proof (sqrt_pos u) as Z.
    split; intros G.
    + rewrite <- Q. replace (sqrt u * sqrt u * E ^ 2) with ((E * sqrt u) ^ 2) by ring. apply pow_incr. split; [nra|exact G].
    + apply Rnot_lt_le. intros L. assert (e ^ 2 < (E * sqrt u) ^ 2) by nra.
      replace ((E * sqrt u) ^ 2) with (sqrt u * sqrt u * E ^ 2) in H0 by ring. rewrite Q in H0. lra.
Qed.
Lemma density_low E : 0 < E -> density (fun e => e ^ 2 / E ^ 2) (fun e => 2 * e / E ^ 2) 0 E.
Proof.
  intros H e _. assert (P : 0 < E ^ 2) by (apply pow_lt; exact H).
  pose proof (derivable_pt_lim_scal _ (/ E ^ 2) _ _ (derivable_pt_lim_pow e 2)) as D.
  apply (derivable_pt_lim_ext _ (fun e => e ^ 2 / E ^ 2)) in D; [|intros x; unfold mult_real_fct; field; lra].
  replace (2 * e / E ^ 2) with (/ E ^ 2 * (INR 2 * e ^ Nat.pred 2)); [exact D|]. cbn [Nat.pred]. replace (INR 2) with 2 by (cbn; lra). field. lra.
Qed.

(** * Photoelectrons *)
Lemma law_rect mx sig : 0 < sig -> law (fun u => mx + (u - 1 / 2) * sig) (between (mx - sig / 2) (mx + sig / 2)) (fun e => (e - (mx - sig / 2)) / sig).
Proof.
  intros S. split; [|split].
  - intros u U. split; nra.
  - intros e (A & B). split; [apply le_div; lra|apply div_le; lra].
  - intros u e U _. rewrite (le_div sig _ _ S). split; lra.
Qed.
Lemma density_rect mx sig : 0 < sig -> density (fun e => (e - (mx - sig / 2)) / sig) (fun _ => 1 / sig) (mx - sig / 2) (mx + sig / 2).
Proof.
  intros S e _. replace (1 / sig) with (/ sig * (1 - 0)) by (field; lra).
  apply (derivable_pt_lim_ext (fun x => / sig * (x - (mx - sig / 2)))); [intros x; field; lra|].
  apply derivable_pt_lim_scal. apply derivable_pt_lim_minus; [apply derivable_pt_lim_id|apply derivable_pt_lim_const].
Qed.

Lemma atan_le x y : atan x <= atan y <-> x <= y.
Proof.
  split; intros H.
  - apply Rnot_lt_le. intros L. pose proof (atan_increasing _ _ L). lra.
  - destruct H as [H|H]; [left; apply atan_increasing; exact H|subst; lra].
Qed.
Section Lorentz.
Context (mx sig : R) (S : 0 < sig).
Let L (e : R) := lorentz_cdf sig mx e.
Definition lor_F (e : R) : R := (L e - L 0) / (1 - L 0).
Definition lor_X (u : R) : R := let xm := cauchy_cdf 0 mx sig in cauchy_ppf (u * (1 - xm) + xm) mx sig.

Lemma L_range e : 0 < L e < 1.
Proof.
  unfold L, lorentz_cdf. pose proof (atan_bound ((e - mx) / sig)) as (A & B). pose proof PI_RGT_0 as P.
  assert (- (1 / 2) < atan ((e - mx) / sig) / PI < 1 / 2); [|lra].
  split; apply (Rmult_lt_reg_r PI); try exact P; replace (atan ((e - mx) / sig) / PI * PI) with (atan ((e - mx) / sig)) by (field; lra); lra.
Qed.
Lemma L_le x y : L x <= L y <-> x <= y.
Proof.
  unfold L, lorentz_cdf. pose proof PI_RGT_0 as P.
  transitivity (atan ((x - mx) / sig) <= atan ((y - mx) / sig)).
  - split; intros H.
    + assert (H0 : atan ((x - mx) / sig) / PI <= atan ((y - mx) / sig) / PI) by lra. apply (div_le PI _ _ P) in H0.
      replace (atan ((y - mx) / sig) / PI * PI) with (atan ((y - mx) / sig)) in H0 by (field; lra). exact H0.
    + apply Rplus_le_compat_l. apply Rmult_le_compat_r; [left; apply Rinv_0_lt_compat; exact P|exact H].
  - rewrite atan_le, (div_le sig _ _ S). replace ((y - mx) / sig * sig) with (y - mx) by (field; lra). split; lra.
Qed.
Lemma ppf_cdf w : 0 < w < 1 -> L (cauchy_ppf w mx sig) = w.
Proof.
  intros W. pose proof PI_RGT_0 as P. unfold L, lorentz_cdf, cauchy_ppf.
  replace ((mx + sig * tan (PI * (w - 1 / 2)) - mx) / sig) with (tan (PI * (w - 1 / 2))) by (field; lra).
  rewrite atan_tan by (split; nra). field. lra.
Qed.
Lemma law_lorentz : law lor_X (fun e => 0 <= e) lor_F.
Proof.
  pose proof (L_range 0) as L0. assert (K : cauchy_cdf 0 mx sig = L 0) by reflexivity.
  assert (Q : forall u, 0 <= u < 1 -> L (lor_X u) = u * (1 - L 0) + L 0).
  { intros u U. unfold lor_X. rewrite K. cbv zeta. apply ppf_cdf. nra. }
  split; [|split].
  - intros u U. apply L_le. rewrite (Q u U). nra.
  - intros e E. apply L_le in E. pose proof (L_range e). unfold lor_F. split; [apply le_div; lra|apply div_le; lra].
  - intros u e U E. rewrite <- L_le, (Q u U). unfold lor_F. rewrite le_div by lra. split; lra.
Qed.
Lemma density_lorentz e : derivable_pt_lim lor_F e (lorentz_density sig mx e / (1 - lorentz_cdf sig mx 0)).
Proof.
  pose proof (L_range 0) as L0. pose proof PI_RGT_0 as P.
  assert (D : derivable_pt_lim (fun e => (e - mx) / sig) e (/ sig)).
  { replace (/ sig) with (/ sig * (1 - 0)) by ring. apply (derivable_pt_lim_ext (fun x => / sig * (x - mx))); [intros x; field; lra|].
    apply derivable_pt_lim_scal. apply derivable_pt_lim_minus; [apply derivable_pt_lim_id|apply derivable_pt_lim_const]. }
  pose proof (derivable_pt_lim_comp _ _ _ _ _ D (derivable_pt_lim_atan ((e - mx) / sig))) as C.
  apply (derivable_pt_lim_scal _ (/ PI / (1 - L 0))) in C.
  pose proof (derivable_pt_lim_plus _ _ _ _ _ C (derivable_pt_lim_const ((1 / 2 - L 0) / (1 - L 0)) e)) as G.
  apply (derivable_pt_lim_ext _ lor_F) in G.
  - match goal with |- derivable_pt_lim _ _ ?v => match type of G with derivable_pt_lim _ _ ?w => replace v with w; [exact G|] end end.
    unfold lorentz_density. change (lorentz_cdf sig mx 0) with (L 0).
    clear G C D. pose proof (pow_lt sig 2 S) as G1. pose proof (pow2_ge_0 (e - mx)) as G2. unfold Rsqr. field. repeat split; first [lra|nra|idtac].
  - intros x. unfold plus_fct, mult_real_fct, comp, fct_cte, lor_F. change (L x) with (1 / 2 + atan ((x - mx) / sig) / PI). field. split; lra.
Qed.
End Lorentz.

Lemma draws_map g h k n i : (i < n)%nat -> nth i (map h (draw g k n)) 0 = h (g (k + i)%nat).
Proof.
  intros I. rewrite (nth_indep _ 0 (h 0)) by (rewrite map_length, draw_len; exact I). rewrite map_nth, draw_nth by exact I. reflexivity.
Qed.
