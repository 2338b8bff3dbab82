(** Mean charge of the secondary electrons of the ECLOUD-type models, for C101. *)
From Coquelicot Require Import Coquelicot.
From Coq Require Import Reals List Lra Lia Bool ZArith.
From Verif Require Import Num NumFacts Sey SpecSey SeyFacts SeyFacts2 SeyFacts3 SeyFacts4 SpecMean MeanFacts MeanRegen.
Import ListNotations.
Local Open Scope R_scope.

Lemma averages_map {A} (F : A -> R -> R) (M : A -> R) (l : list A) (c : R) : Forall (fun a => average (F a) (M a)) l ->
  averages (length l) (fun us => c + rsum (map2 F l us)) (c + rsum (map M l)).
Proof.
  intros H. revert c. induction H as [|a l Ha H IH]; intros c; cbn [length averages]; [reflexivity|].
  exists (fun u => F a u + (c + rsum (map M l))). split.
  - intros u U. pose proof (IH (c + F a u)) as B. replace (F a u + (c + rsum (map M l))) with (c + F a u + rsum (map M l)) by ring.
    apply (averages_ext _ _ _ _) with (2 := B). intros us L I. cbn [map2]. rewrite rsum_cons. ring.
  - cbn [map]. rewrite rsum_cons. replace (c + (M a + rsum (map M l))) with (M a + (c + rsum (map M l))) by ring.
    apply average_shift, Ha.
Qed.
Definition sey_charge (m : seymod) (p : imp) (u : R) : R := match sey_one m u p with Some (q, _) => q | None => 0 end.
Lemma sey_average m p t r : sey_params_ok m -> fair p -> law m p = Some (t, r) -> average (sey_charge m p) (i_nel p * (t + r)).
Proof.
  intros P F L. destruct (mean_yield m p t r P F L) as (pr & qr & qt & I & _ & _ & S & A & B).
  replace (i_nel p * (t + r)) with (pr * qr + (1 - pr) * qt) by (rewrite A, B; ring).
  apply average_step; [exact I| |]; intros u U; unfold sey_charge; rewrite S by lra.
  - replace (Rltb u pr) with true by (symmetry; apply Rltb_true; lra). reflexivity.
  - replace (Rltb u pr) with false by (symmetry; apply Rltb_false; lra). reflexivity.
Qed.
Lemma with_unis_ok sr k us : src_ok sr -> Forall in01 us -> src_ok (with_unis sr k us).
Proof. intros H F. destruct H. constructor; cbn; try assumption. apply with_list_ok; assumption. Qed.
Lemma with_list_at rng k us i : (i < length us)%nat -> with_list rng k us (k + i) = nth i us 0.
Proof.
  intros I. unfold with_list. rewrite (proj2 (Nat.leb_le _ _)), (proj2 (Nat.ltb_lt _ _)) by lia. cbn [andb]. f_equal. lia.
Qed.
Lemma surface_average m c th fs sr k ps : sey_params_ok m ->
  0 < th -> src_ok sr -> 0 < c_qe c -> 0 < c_mass c ->
  Forall unit_n ps -> Forall (fun p => 0 <= i_E p) ps -> Forall (fun p => fair p /\ law m p <> None) ps ->
  (forall us, Forall (fun u => 0 <= u < 1) us -> impacts_on_surface m c th fs (with_unis sr k us) k ps <> None) ->
  averages (length ps) (fun us => leaving (impacts_on_surface m c th fs (with_unis sr k us) k ps))
    (rsum (map (fun p => i_nel p * total_yield m p) ps)).
Proof.
  intros P T S Q M U E L R.
  assert (A : Forall (fun p => average (sey_charge m p) (i_nel p * total_yield m p)) ps).
  { rewrite Forall_forall in *. intros p I. destruct (L p I) as (F & N). unfold total_yield. destruct (law m p) as [(t, r)|] eqn:Lw; [|congruence].
    exact (sey_average m p t r P F Lw). }
  pose proof (averages_map (sey_charge m) (fun p => i_nel p * total_yield m p) ps 0 A) as B. rewrite Rplus_0_l in B.
  apply (averages_ext _ _ _ _) with (2 := B). intros us Lu Fu. rewrite Rplus_0_l.
  pose proof (R us Fu) as Ru. destruct (impacts_on_surface m c th fs (with_unis sr k us) k ps) as [(e, k')|] eqn:Ee; [|congruence]. clear Ru. cbn [leaving].
  destruct (impacts_spec m c th fs (with_unis sr k us) k ps e k' T (with_unis_ok _ _ _ S Fu) Q M U E Ee) as ((cn & Sp & _) & Z & O).
  destruct Z as (Z1 & _ & Z3 & _). rewrite (split_total th ps cn e Sp Z1 Z3). f_equal.
  apply (nth_ext _ _ 0 0); [rewrite map2_length; lia|]. intros i I. rewrite map2_length in I. assert (I' : (i < length ps)%nat) by lia.
  destruct (O i I') as (el & X & _). cbn [with_unis s_uni] in X. rewrite with_list_at in X by lia.
  assert (G : nth i (map2 (sey_charge m) ps us) 0 = sey_charge m (impat ps i) (nth i us 0)).
  { clear - I' Lu. unfold impat. revert us i I' Lu. induction ps as [|p ps IH]; intros [|u us] [|i] I' L; cbn in *; try lia; [reflexivity|]. rewrite (IH us i) by lia. reflexivity. }
  rewrite G. unfold sey_charge. rewrite X. reflexivity.
Qed.
