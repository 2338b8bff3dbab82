(** The error function, and surfaces whose energies follow the laws. *)
From Coq Require Import Reals List Lra Lia.
From Verif Require Import Num NumFacts Sey SpecSey SeyFacts Furman SpecFurman FurmanFacts FpDist SpecLaw LawFacts ErfReal ExFurman.
Local Open Scope R_scope.

(** [erf] and [erfinv] as they are; the incomplete gamma function of order 1
    stands in for the others. *)
Definition qSp : spfun := mkSp erf_r erfinv_r (ginc exSp) (gincinv exSp).
Lemma qSp_ok : sp_ok qSp.
Proof.
  pose proof exSp_ok as K. constructor; cbn [erf erfinv ginc gincinv qSp].
  - exact erf_r_odd.
  - exact erf_r_inc.
  - exact erf_r_range.
  - exact erfinv_r_ok.
  - exact (so_g0 _ K).
  - exact (so_ginc _ K).
  - exact (so_grange _ K).
  - exact (so_ginv _ K).
Qed.
Lemma qSp_erf : erf_exact qSp.
Proof. split; [exact erf_r_0|exact erf_r_derive]. Qed.
Lemma qSp_ginc : ginc_exact qSp 1 1.
Proof.
  split; [lra|]. split; [cbn; rewrite Ropp_0, exp_0; ring|]. intros x Hx. cbn [ginc qSp exSp].
  replace (1 - 1) with 0 by ring. rewrite Rpower_O by exact Hx.
  pose proof (derivable_pt_lim_comp Ropp exp x _ _ (derivable_pt_lim_opp _ _ _ (derivable_pt_lim_id x)) (derivable_pt_lim_exp (- x))) as D.
  pose proof (derivable_pt_lim_minus _ _ _ _ _ (derivable_pt_lim_const 1 x) D) as G.
  apply (derivable_pt_lim_ext _ (fun x => 1 - exp (- x))) in G; [|intros z; reflexivity].
  replace (1 * exp (- x) / 1) with (0 - exp (- x) * -1) by field. exact G.
Qed.
Definition qF : fpar := exF false 100.
Lemma qF_width E : peak_width qF E = 1.
Proof. reflexivity. Qed.

(** A rule for integrals: sums. *)
Definition qSimps (v e : list R) : R := rsum v.
Lemma qSimps_ok : homogeneous qSimps.
Proof.
  intros c v e. unfold qSimps, rsum. induction v as [|x v IH]; cbn [map fold_right]; [unfold Rdiv; ring|]. rewrite IH. unfold Rdiv. ring.
Qed.
Lemma shape_pos p eps e : 0 < e -> 0 < gamma_shape p eps e.
Proof. intros H. unfold gamma_shape. apply Rmult_lt_0_compat; apply exp_pos. Qed.
Lemma qArea p eps : qSimps (map (gamma_shape p eps) (1 :: 2 :: nil)) (1 :: 2 :: nil) <> 0.
Proof.
  unfold qSimps, rsum. cbn [map fold_right]. pose proof (shape_pos p eps 1 ltac:(lra)). pose proof (shape_pos p eps 2 ltac:(lra)). lra.
Qed.
Definition simps_ok (simps : list R -> list R -> R) (f : fpar) (energy : list R) : Prop :=
  Forall (fun e => 0 < e) energy /\
  forall n, (1 <= n <= f_Mcut f)%nat -> simps (map (fun e => gamma_shape (nth (n - 1) (f_pn f) 0) (nth (n - 1) (f_eps f) 0) e) energy) energy <> 0.
Lemma qDensity : homogeneous qSimps /\ f_Mcut qF = 10%nat /\ simps_ok qSimps qF (1 :: 2 :: nil).
Proof.
  split; [exact qSimps_ok|]. split; [reflexivity|]. split; [repeat constructor; lra|]. intros n _. apply qArea.
Qed.
(** Two electrons at most. *)
Definition q2 : fpar :=
  mkFpar exC false false false false false false 2 (1 :: 1 :: nil) (1 :: 1 :: nil) false
    0 0 0 1 1 0 1 1 0   0 1 1 1 0 1 0   1 100 2 0 1 0 1.
Lemma rsum_gt l : l <> nil -> Forall (fun x => 0 < x) l -> 0 < rsum l.
Proof.
  intros N H. destruct H as [|x l X H]; [congruence|]. unfold rsum. cbn [fold_right]. assert (0 <= fold_right Rplus 0 l).
  { clear N X. induction H; cbn [fold_right]; lra. } lra.
Qed.
Lemma map_gt {A} (g : A -> R) l : (forall x, In x l -> 0 < g x) -> Forall (fun x => 0 < x) (map g l).
Proof. intros H. apply Forall_forall. intros y Y. apply in_map_iff in Y. destruct Y as (x & <- & I). exact (H x I). Qed.
Lemma poisson_gt n : 0 < poisson 1 n.
Proof.
  unfold poisson. rewrite pow1. apply Rmult_lt_0_compat; [|apply Rinv_0_lt_compat, INR_fact_lt_0]. pose proof (exp_pos (- (1))). lra.
Qed.
Lemma given_gt M n : 0 < given_at_most M (poisson 1) n.
Proof.
  unfold given_at_most. apply Rmult_lt_0_compat; [apply poisson_gt|]. apply Rinv_0_lt_compat, rsum_gt.
  - rewrite Nat.add_1_r. discriminate.
  - apply map_gt. intros k _. apply poisson_gt.
Qed.
Lemma qAverage : let shape n e := gamma_shape (nth (n - 1) (f_pn qF) 0) (nth (n - 1) (f_eps qF) 0) e in
  let W e := rsum (map (fun n => shape n e / qSimps (map (shape n) (1 :: 2 :: nil)) (1 :: 2 :: nil) * given_at_most (f_Mcut qF) (poisson 1) n * INR n) (seq 1 (f_Mcut qF))) in
  qSimps (map W (1 :: 2 :: nil)) (1 :: 2 :: nil) <> 0.
Proof.
  intros shape W. assert (A : forall n, 0 < qSimps (map (shape n) (1 :: 2 :: nil)) (1 :: 2 :: nil)).
  { intros n. unfold qSimps. apply rsum_gt; [discriminate|]. apply map_gt. intros e I. apply shape_pos. destruct I as [<-|[<-|[]]]; lra. }
  assert (P : forall e, 0 < e -> 0 < W e).
  { intros e E. unfold W. apply rsum_gt; [discriminate|]. apply map_gt. intros n I. apply in_seq in I.
    apply Rmult_lt_0_compat; [|apply lt_0_INR; lia]. apply Rmult_lt_0_compat; [|apply given_gt].
    apply Rmult_lt_0_compat; [apply shape_pos, E|apply Rinv_0_lt_compat, A]. }
  unfold qSimps. apply Rgt_not_eq, rsum_gt; [discriminate|]. apply map_gt. intros e I. apply P. destruct I as [<-|[<-|[]]]; lra.
Qed.
