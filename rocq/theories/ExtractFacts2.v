(** Lemmas about the extracted spectra, other emission models and cross
    sections. *)
From Coq Require Import Lra Lia Reals Psatz String.
From Verif Require Import Num NumFacts MP SpecMP MPFacts Fort SpecFort FortFacts CrossIon Sey SpecSey SeyFacts SeyFacts2 SeyFacts3 Impact SpecImpact Extract SpecExtract ExtractFacts.
Local Open Scope list_scope.
Local Open Scope R_scope.

Lemma speed_kin qe mass v : speed_eV qe mass v = kin_eV qe mass (fst3 v) (snd3 v) (thd3 v).
Proof.
  destruct v as [[vx vy] vz]. unfold speed_eV, kin_eV, fst3, snd3, thd3. cbn [fst snd].
  replace (1/2 * mass / qe * sqrt (vx ^ 2 + vy ^ 2 + vz ^ 2) * sqrt (vx ^ 2 + vy ^ 2 + vz ^ 2)) with (1/2 * mass / qe * (sqrt (vx ^ 2 + vy ^ 2 + vz ^ 2) * sqrt (vx ^ 2 + vy ^ 2 + vz ^ 2))) by ring.
  rewrite sqrt_def by nra. unfold Rdiv. ring.
Qed.

(** Energy of a mirrored test electron. *)
Lemma test_energy qe mass E ct : 0 < qe -> 0 < mass -> 0 <= E -> 0 <= ct <= 1 ->
  let p := test_imp qe mass E ct in kin_eV qe mass (i_vx p - 2 * i_vn p * i_nx p) (i_vy p - 2 * i_vn p * i_ny p) (i_vz p) = E.
Proof.
  intros Hq Hm HE Hc p. unfold p, test_imp, kin_eV. cbn [i_vx i_vy i_vz i_vn i_nx i_ny].
  set (v := sqrt (2 * E * qe / mass)). assert (V : v * v = 2 * E * qe / mass). { apply sqrt_def. apply Rmult_le_pos; [|left; apply Rinv_0_lt_compat; lra]. apply Rmult_le_pos; lra. }
  set (s := sqrt (1 - ct * ct)). assert (W : s * s = 1 - ct * ct). { apply sqrt_def. nra. }
  replace ((v * ct - 2 * (v * ct) * 1) * (v * ct - 2 * (v * ct) * 1) + (v * s - 2 * (v * ct) * 0) * (v * s - 2 * (v * ct) * 0) + 1 * 0 * (1 * 0)) with (v * v * (ct * ct + s * s)) by ring.
  rewrite W, V. field. lra.
Qed.

Lemma hist_of En D N : 0 < D -> (0 < N)%nat -> Forall (fun x => 0 <= x) En -> exists h,
  (if Nat.eqb (length En) 0 then Some (repeat 0 N) else compute_hist (map (fun x => (x, 1)) En) 0 D (repeat 0 N)) = Some h /\
  length h = N /\ rsum h = INR (length En) /\ forall k, (k < N)%nat -> nth k h 0 = rsum (map (fun x => bin_share 0 D N k (x, 1)) En).
Proof.
  intros HD HN HF. destruct (compute_hist_main 0 D (map (fun x => (x, 1)) En) (repeat 0 N) HD) as (h & H & L & S1 & B).
  - destruct N; [lia|discriminate].
  - intros xw Hx. apply in_map_iff in Hx. destruct Hx as (x & <- & Hx). rewrite Forall_forall in HF. exact (HF x Hx).
  - exists h. rewrite repeat_length in *. assert (Z : (if Nat.eqb (length En) 0 then Some (repeat 0 N) else compute_hist (map (fun x => (x, 1)) En) 0 D (repeat 0 N)) = Some h).
    { destruct En as [|x En]; [cbn in H; injection H as <-; reflexivity|exact H]. }
    split; [exact Z|]. split; [exact L|]. split.
    + rewrite S1, rsum_repeat, map_map. cbn [snd]. rewrite Rmult_0_r, Rplus_0_l. clear. induction En as [|x l IH]; [reflexivity|]. cbn [map length]. rewrite rsum_cons, IH, S_INR. ring.
    + intros k Hk. rewrite (B k Hk), nth_repeat_lt by exact Hk. rewrite Rplus_0_l, map_map. reflexivity.
Qed.

Lemma mask_by_type {A} (ty : list nat) (l : list A) d t : length ty = length l ->
  mask_get (map (fun x => Nat.eqb x t) ty) l = map (fun i => nth i l d) (filter (fun i => Nat.eqb (nth i ty 9%nat) t) (seq 0 (length ty))).
Proof.
  revert l. induction ty as [|a ty IH]; intros [|b l] L; try discriminate; [reflexivity|]. injection L as L. cbn [map mask_get length seq filter nth]. rewrite (IH l L).
  assert (Q : map (fun i => nth i l d) (filter (fun i => Nat.eqb (nth i ty 9%nat) t) (seq 0 (length ty))) = map (fun i => nth i (b :: l) d) (filter (fun i => Nat.eqb (nth i (a :: ty) 9%nat) t) (seq 1 (length ty)))).
  { clear. rewrite <- seq_shift. induction (seq 0 (length ty)) as [|i s IHs]; [reflexivity|]. cbn [map filter]. change (nth (S i) (a :: ty) 9%nat) with (nth i ty 9%nat). destruct (Nat.eqb (nth i ty 9%nat) t); [cbn [map]; rewrite IHs; reflexivity|exact IHs]. }
  rewrite Q. destruct (Nat.eqb a t); reflexivity.
Qed.

Section Std.
Variables (m : seymod) (c : ecfg) (sr : src).
Hypotheses (Hs : src_ok sr) (Hq : 0 < c_qe c) (Hm : 0 < c_mass c).

(** Energies of the electrons of each type. *)
Lemma std_energies n ct E k e k' : 0 <= E -> 0 <= ct <= 1 ->
  impacts_on_surface m c 1 true sr k (repeat (test_imp (c_qe c) (c_mass c) E ct) n) = Some (e, k') ->
  exists (a b : nat) ens, (a + b = n)%nat /\ (b <= length ens)%nat /\ Forall (energy_ok c E) ens /\
    mask_get (map (fun x => Nat.eqb x 0) (o_ext e)) (energies (c_qe c) (c_mass c) e) = repeat E a /\
    mask_get (map (fun x => Nat.eqb x 1) (o_ext e)) (energies (c_qe c) (c_mass c) e) = ens.
Proof.
  intros HE Hc I. set (p := test_imp _ _ _ _) in *.
  apply impacts_spec in I; auto; [|lra|apply test_all; apply test_unit|apply test_all; exact HE]. rewrite repeat_length in I.
  destruct I as ((counts & SP & V1 & V2) & Z & O).
  destruct Z as (Z1 & Z2 & Z3 & Z4 & Z5 & Z6 & Z7 & Z8 & Z9 & Z10 & Y1 & Y2 & Y3 & Y4 & Y5 & Y6 & Y7 & Y8).
  destruct SP as (SL & SN & SX & SY & SZ & OX & OY & OZ & OS & OE & SI). rewrite repeat_length in SL.
  set (W := combine (combine (o_vx e) (o_vy e)) (o_vz e)) in *. assert (LW : length W = n) by (unfold W; rewrite !combine_length; lia).
  assert (WN : forall i, (i < n)%nat -> nth i W (0, 0, 0) = (nth i (o_vx e) 0, nth i (o_vy e) 0, nth i (o_vz e) 0)).
  { intros i Hi. unfold W. rewrite combine_nth by (rewrite combine_length; lia). rewrite combine_nth by lia. reflexivity. }
  assert (TY : forall i, (i < n)%nat -> nth i (o_type e) 9%nat = 0%nat \/ nth i (o_type e) 9%nat = 1%nat) by (intros i Hi; destruct (O i Hi) as (el & _ & ->); destruct el; auto).
  unfold energies. fold W. set (U := combine (combine (n_vx e) (n_vy e)) (n_vz e)) in *.
  assert (LU : length U = length (repeat_each (o_type e) counts)) by (apply Forall2_length in V2; rewrite <- V2; rewrite OE, app_length in Y8; unfold split_spec in *; apply f_equal with (f := @length _) in SX; rewrite map_length in SX; rewrite <- SX; lia).
  assert (TYP : forall x, In x (o_type e) -> x = 0%nat \/ x = 1%nat). { intros x Hx. apply (In_nth _ _ 9%nat) in Hx. destruct Hx as (i & Hi & <-). apply TY. lia. }
  (* the clones are all true secondaries *)
  assert (CL : repeat_each (o_type e) counts = repeat 1%nat (length U)).
  { rewrite LU. assert (Q : forall x, In x (repeat_each (o_type e) counts) -> x = 1%nat).
    { assert (G : forall i, (i < length (o_type e))%nat -> nth i (o_type e) 9%nat = 0%nat -> nth i counts 0%nat = 0%nat) by (intros i Hi T; apply (SI i); [rewrite repeat_length; lia|exact T]).
      assert (LL : length counts = length (o_type e)) by lia.
      revert G LL TYP. clear. revert counts. induction (o_type e) as [|a l IH]; intros [|d counts] G LL TYP x Hx; try discriminate; [contradiction|].
      cbn [repeat_each] in Hx. apply in_app_or in Hx. destruct Hx as [Hx|Hx].
      - apply repeat_spec in Hx as Hx'. subst x. destruct (TYP a (or_introl eq_refl)) as [->| ->]; [|reflexivity]. specialize (G 0%nat ltac:(cbn; lia) eq_refl). cbn in G. subst d. contradiction.
      - apply (IH counts) with (x := x); auto. + intros i Hi T. apply (G (S i)); [cbn; lia|exact T]. + intros y Hy. apply TYP. right. exact Hy. }
    clear - Q. revert Q. induction (repeat_each (o_type e) counts) as [|a l IH]; intros Q; [reflexivity|]. cbn. f_equal; [apply Q; left; reflexivity|apply IH; intros x Hx; apply Q; right; exact Hx]. }
  rewrite OE, CL, !map_app.
  assert (LT : length (map (fun x => Nat.eqb x 0) (o_type e)) = length (map (speed_eV (c_qe c) (c_mass c)) W)) by (rewrite !map_length; lia).
  assert (LT1 : length (map (fun x => Nat.eqb x 1) (o_type e)) = length (map (speed_eV (c_qe c) (c_mass c)) W)) by (rewrite !map_length; lia).
  rewrite !mask_get_app by assumption.
  rewrite !(mask_by_type (o_type e) (map (speed_eV (c_qe c) (c_mass c)) W) 0) by (rewrite map_length; lia).
  rewrite Z2.
  set (A := filter (fun i => Nat.eqb (nth i (o_type e) 9%nat) 0) (seq 0 n)). set (B := filter (fun i => Nat.eqb (nth i (o_type e) 9%nat) 1) (seq 0 n)).
  assert (NS : forall i, (i < n)%nat -> nth i (map (speed_eV (c_qe c) (c_mass c)) W) 0 = kin_eV (c_qe c) (c_mass c) (nth i (o_vx e) 0) (nth i (o_vy e) 0) (nth i (o_vz e) 0)).
  { intros i Hi. rewrite (nth_indep _ 0 (speed_eV (c_qe c) (c_mass c) (0, 0, 0))) by (rewrite map_length; lia). rewrite map_nth, WN by exact Hi. rewrite speed_kin. reflexivity. }
  exists (length A), (length B), (map (fun i => nth i (map (speed_eV (c_qe c) (c_mass c)) W) 0) B ++ map (speed_eV (c_qe c) (c_mass c)) U).
  split; [|split; [|split; [|split]]].
  - assert (Q : forall l, (forall i, In i l -> (i < n)%nat) -> (length (filter (fun i => Nat.eqb (nth i (o_type e) 9%nat) 0) l) + length (filter (fun i => Nat.eqb (nth i (o_type e) 9%nat) 1) l) = length l)%nat).
    { induction l as [|i l IH]; intros Hl; [reflexivity|]. specialize (IH (fun x Hx => Hl x (or_intror Hx))). cbn. destruct (TY i (Hl i (or_introl eq_refl))) as [->| ->]; cbn; lia. }
    unfold A, B. rewrite Q, seq_length; [reflexivity|]. intros i Hi. apply in_seq in Hi. lia.
  - rewrite app_length, map_length. lia.
  - apply Forall_app. split.
    + apply Forall_forall. intros x Hx. apply in_map_iff in Hx. destruct Hx as (i & <- & Hi). apply filter_In in Hi. destruct Hi as [Hi T]. apply in_seq in Hi. apply Nat.eqb_eq in T. rewrite NS by lia.
      destruct (V1 i ltac:(rewrite repeat_length; lia)) as [_ Q]. rewrite (test_nth p n i ltac:(lia)) in Q. destruct (Q T) as [Q1 _]. exact Q1.
    + rewrite Forall_map. clear - V2 Hs. assert (Q : forall q, In q (repeat_each (repeat p n) counts) -> q = p).
      { clear. revert counts. induction n as [|n IH]; intros [|d counts] q Hx; cbn in Hx; try contradiction. apply in_app_or in Hx. destruct Hx as [Hx|Hx]; [apply repeat_spec in Hx; exact Hx|exact (IH _ _ Hx)]. }
      revert Q. induction V2 as [|q v l l' R1 V2 IH]; intros Q; constructor; [|apply IH; intros q' Hx'; apply Q; right; exact Hx'].
      rewrite (Q q (or_introl eq_refl)) in R1. destruct v as [[vx vy] vz]. destruct R1 as [R1 _]. rewrite speed_kin. exact R1.
  - assert (Q : mask_get (map (fun x => Nat.eqb x 0) (repeat 1%nat (length U))) (map (speed_eV (c_qe c) (c_mass c)) U) = []).
    { clear. induction U as [|u U IH]; [reflexivity|exact IH]. }
    rewrite Q, app_nil_r. assert (Q2 : forall i, In i A -> nth i (map (speed_eV (c_qe c) (c_mass c)) W) 0 = E).
    { intros i Hi. apply filter_In in Hi. destruct Hi as [Hi T]. apply in_seq in Hi. apply Nat.eqb_eq in T. rewrite NS by lia.
      destruct (V1 i ltac:(rewrite repeat_length; lia)) as [Q1 _]. rewrite (test_nth p n i ltac:(lia)) in Q1. specialize (Q1 T). injection Q1 as -> -> ->. apply (test_energy (c_qe c) (c_mass c) E ct Hq Hm HE Hc). }
    revert Q2. induction A as [|i l IH]; intros Q2; [reflexivity|]. cbn [map repeat length]. rewrite (Q2 i (or_introl eq_refl)). f_equal. apply IH. intros j Hj. apply Q2. right. exact Hj.
  - f_equal. clear. induction U as [|u U IH]; [reflexivity|]. cbn. f_equal. exact IH.
Qed.

Lemma spectra n E cts Nbin factor k H k' : 0 < E -> 0 < factor -> (forall ct, In ct cts -> 0 <= ct <= 1) ->
  extract_energy_distributions (std_emitter m c sr) types_ecloud (c_qe c) (c_mass c) n E cts Nbin factor k = Some (H, k') ->
  let D := E * factor / (INR Nbin - 1) in
  (2 <= Nbin)%nat /\ 0 < D /\ forall i, (i < length cts)%nat -> exists refl true_ (a b : nat) ens,
    nth_error H i = Some [refl; true_] /\ length refl = Nbin /\ length true_ = Nbin /\ (a + b = n)%nat /\ (b <= length ens)%nat /\ Forall (energy_ok c E) ens /\
    rsum refl = INR a /\ rsum true_ = INR (length ens) /\
    forall j, (j < Nbin)%nat -> nth j refl 0 = INR a * bin_share 0 D Nbin j (E, 1) /\ nth j true_ 0 = rsum (map (fun x => bin_share 0 D Nbin j (x, 1)) ens).
Proof.
  intros HE HF Hc Q D. unfold extract_energy_distributions, bin_width in Q. destruct (Nbin <=? 1)%nat eqn:NB; [discriminate|]. apply Nat.leb_gt in NB. cbn [bind] in Q. fold D in Q.
  assert (I2 : 2 <= INR Nbin) by (apply (le_INR 2); lia).
  assert (HD : 0 < D) by (unfold D; apply Rdiv_lt_0_compat; [apply Rmult_lt_0_compat; assumption|lra]).
  split; [lia|]. split; [exact HD|]. intros i Hi. apply loopO_spec in Q. destruct Q as (L & sts & _ & _ & SI).
  destruct (nth_error cts i) as [ct|] eqn:Qc; [|apply nth_error_None in Qc; lia]. destruct (SI i ct Qc) as (hs & F & G). unfold spectrum_at, std_emitter in F.
  destruct (impacts_on_surface _ _ _ _ _ _ _) as [[e k1]|] eqn:I; [|discriminate]. cbn [bind] in F.
  apply std_energies in I; [|lra|apply Hc; eapply nth_error_In; eauto]. destruct I as (a & b & ens & AB & BE & EO & M0 & M1).
  unfold types_ecloud, mapO, spectrum in F. rewrite M0, M1 in F.
  destruct (hist_of (repeat E a) D Nbin HD ltac:(lia)) as (h0 & H0 & L0 & S0 & B0). { apply Forall_forall. intros x Hx. apply repeat_spec in Hx. subst. lra. }
  destruct (hist_of ens D Nbin HD ltac:(lia)) as (h1 & H1 & L1 & S1 & B1). { eapply Forall_impl; [|exact EO]. intros x [X _]. exact X. }
  rewrite H0, H1 in F. cbn [bind] in F. injection F as <- _. exists h0, h1, a, b, ens. rewrite repeat_length in S0.
  do 8 (split; [assumption|]). intros j Hj. split; [|exact (B1 j Hj)]. rewrite (B0 j Hj). clear. induction a as [|a IH]; [unfold rsum; cbn; ring|]. cbn [repeat map]. rewrite rsum_cons, IH, S_INR. ring.
Qed.
End Std.
