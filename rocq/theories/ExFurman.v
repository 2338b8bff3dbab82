(** Concrete impacts on a Furman-Pivi surface. *)
From Coq Require Import Lra Lia Reals Psatz.
From Verif Require Import Num NumFacts Sey SpecSey SeyFacts SeyFacts2 SeyFacts3 Furman SpecFurman FurmanFacts FurmanFacts2 FurmanFacts3 FurmanFacts4.
Local Arguments Nat.ltb : simpl never.

(** * Special functions that satisfy what is asked of them *)
Definition ex_erf (x : R) : R := x / (1 + Rabs x).
Definition ex_erfinv (y : R) : R := y / (1 - Rabs y).
Definition exSp : spfun := mkSp ex_erf ex_erfinv (fun _ x => 1 - exp (- x)) (fun _ y => - ln (1 - y)).

Lemma exSp_ok : sp_ok exSp.
Proof.
  constructor; cbn.
  - intros x. unfold ex_erf. rewrite Rabs_Ropp. field. pose proof (Rabs_pos x). lra.
  - intros x y H. unfold ex_erf.
    assert (P : forall a b c d, 0 < b -> 0 < d -> a * d < c * b -> a / b < c / d).
    { intros a b c d Hb Hd HH. apply (Rmult_lt_reg_r (b * d)); [nra|]. replace (a / b * (b * d)) with (a * d) by (field; lra).
      replace (c / d * (b * d)) with (c * b) by (field; lra). auto. }
    apply P; [pose proof (Rabs_pos x); lra|pose proof (Rabs_pos y); lra|].
    unfold Rabs. destruct (Rcase_abs x), (Rcase_abs y); nra.
  - intros x. unfold ex_erf. assert (B : 0 < 1 + Rabs x) by (pose proof (Rabs_pos x); lra).
    assert (Q : x / (1 + Rabs x) * (1 + Rabs x) = x) by (field; lra).
    split; apply (Rmult_lt_reg_r (1 + Rabs x)); auto; rewrite Q; unfold Rabs; destruct (Rcase_abs x); lra.
  - intros y H. unfold ex_erf, ex_erfinv. assert (A : Rabs y < 1) by (apply Rabs_def1; lra).
    assert (Q : Rabs (y / (1 - Rabs y)) = Rabs y / (1 - Rabs y)).
    { unfold Rdiv. rewrite Rabs_mult. f_equal. apply Rabs_pos_eq. left. apply Rinv_0_lt_compat. lra. }
    rewrite Q. field. lra.
  - intros p _. rewrite Ropp_0, exp_0. lra.
  - intros p x y _ H. pose proof (exp_increasing (- y) (- x) ltac:(lra)). lra.
  - intros p x _ H. pose proof (exp_pos (- x)). pose proof (exp_le_1 (- x) ltac:(lra)). lra.
  - intros p y _ H. split.
    + assert (ln (1 - y) <= 0); [|lra]. rewrite <- ln_1. destruct (proj1 H) as [G|<-]; [left; apply ln_increasing; lra|].
      replace (1 - 0) with 1 by lra. lra.
    + rewrite Ropp_involutive, exp_ln by lra. lra.
Qed.

(** * Surfaces *)
Definition exC : ecfg := mkEcfg 0 35 20 (Some NormalEmission) 1 2 0.
(** True secondaries only: every impact with energy [E] emits with mean 1. *)
Definition exF (cons : bool) (E : R) : fpar :=
  mkFpar exC false false false false false cons 10 (repeat 1 10) (repeat 1 10) false
    0 0 0 1 1 0 1 1 0   0 1 1 1 0 1 0   1 E 2 0 1 0 1.
Definition exI (E : R) : imp := mkImp 5 3 4 1 (-1) 0 0 1 0 0 (-1) E 1.
Definition exRng (n : nat) (u : R) : fsrc := mkFsrc (mkSrc (fun _ => u) (fun _ => 0) (fun _ => 0)) (fun _ _ => n).

Lemma exF_sane cons E : fp_energy_sane (exF cons E).
Proof. constructor; cbn; try lra; repeat constructor; lra. Qed.
Lemma exF_ysane cons E : 0 < E -> fp_yield_sane (exF cons E).
Proof. intros H. constructor; cbn; repeat split; lra. Qed.
Lemma exI_ok E : 0 <= E -> imp_ok (exI E).
Proof. intros H. unfold imp_ok, unit_n. cbn. repeat split; lra. Qed.
Lemma exRng_ok n u : 0 <= u < 1 -> src_ok (f_src (exRng n u)).
Proof. intros H. split; cbn; intros; lra. Qed.

Lemma ex_de cons E x ct : delta_e (exF cons E) x ct = 0.
Proof. unfold delta_e. cbn. lra. Qed.
Lemma ex_dr cons E x ct : delta_r (exF cons E) x ct = 0.
Proof. unfold delta_r. cbn. lra. Qed.
Lemma ex_ts cons E ct : 0 < E -> delta_ts (exF cons E) E ct = 1.
Proof.
  intros H. unfold delta_ts, fp_D. cbn. replace (E / E) with 1 by (field; lra). rewrite pw_1. lra.
Qed.

(** Energy of every secondary of an impact with energy [E] when all uniform
    numbers are [u]. *)
Definition ex_e (sp : spfun) (E u : R) : R := gincinv sp 1 (u * ginc sp 1 E).

Section Ex.
Context (sp : spfun) (E u : R) (HE : 0 < E) (Hu : 0 < u < 1) (HG : 1 / 10 ^ 12 <= u * ginc sp 1 E).

Lemma ex_true1 cons n : (1 <= n <= 10)%nat -> en_true1 sp (exF cons E) n E u = Some (ex_e sp E u).
Proof using HE HG.
  intros Hn. unfold en_true1. cbn [f_eps f_pn exF].
  replace (nth_error (repeat 1 10) (n - 1)) with (Some 1) by (symmetry; apply nth_error_repeat; lia).
  cbn [bind]. replace (E / 1) with E by lra. set (a := ginc sp 1 E) in *.
  assert (A0 : a <> 0).
  { intros A. rewrite A in HG. assert (0 < 1 / 10 ^ 12) by (unfold Rdiv; rewrite Rmult_1_l; apply Rinv_0_lt_compat; apply pow_lt; lra). lra. }
  rewrite (proj2 (Reqb_false a 0) A0). replace (u / (1 / a)) with (u * a) by (field; auto).
  rewrite (proj2 (Rltb_false (u * a) (1 / 10 ^ 12)) HG). unfold ex_e. fold a. f_equal. apply Rmult_1_l.
Qed.

Definition ex_v : R * R * R := vel_normal 1 2 (ex_e sp E u) 1 0.

Let p := exI E.
Let v0 : R * R * R := (-1, 0, 0).

Lemma ex_yields cons : fp_yields (exF cons E) [p] = Some [(0, 0, 1)].
Proof using HE.
  unfold fp_yields, p. cbn [map]. cbn [i_E i_ct exI]. rewrite ex_de, ex_dr, ex_ts by auto.
  cbn [existsb]. unfold fst3, snd3. cbn [fst snd]. rewrite (proj2 (Rgeb_false (0 + 0) 1)) by lra. auto.
Qed.
Lemma ex_flags : fp_flags false (0, 0, 1) u = (false, false, true).
Proof using Hu.
  unfold fp_flags, fst3, snd3. cbn [fst snd]. rewrite (proj2 (Rgtb_true u (0 + 0))) by lra.
  auto.
Qed.
Lemma ex_back cons sr vel k : fp_back sp (exF cons E) sr [p] [false] vel k = Some (vel, k).
Proof. unfold fp_back. cbn. destruct vel; rewrite Nat.add_0_r; auto. Qed.
Lemma ex_redi cons sr vel k : fp_redi (exF cons E) sr [p] [false] vel k = Some (vel, k).
Proof. unfold fp_redi. cbn. destruct vel; rewrite Nat.add_0_r; auto. Qed.
Lemma ex_numbers cons n k : (n <= 10)%nat ->
  fp_numbers (exF cons E) (exRng n u) [(0, 0, 1)] [true] k = Some ([n], (k + 1)%nat).
Proof.
  intros Hn. unfold fp_numbers, poisson. cbn [mask_get map existsb f_excl exF]. unfold thd3, fst3, snd3. cbn [fst snd].
  rewrite (proj2 (Rltb_false (1 / (1 - 0 - 0)) 0)) by lra.
  cbn [orb bind length seq map2 f_poi exRng cut_rounds f_Mcut exF map].
  rewrite (proj2 (Nat.ltb_ge 10 n)) by lia. auto.
Qed.

(** One impact that emits one electron: it keeps the velocity of the impact. *)
Lemma ex_one cons : fp_impacts 0 sp (exF cons E) (exRng 1 u) 1 false [p] 0 =
  Some (mkEmis [5 * 1] [1%nat] [1%nat] [5] [3] [4] [1] [-1] [0] [0] [0%nat] [] [] [] [] [] [] [] [], 3%nat).
Proof using HE HG Hu.
  unfold fp_impacts. rewrite ex_yields. cbn [bind length draw seq map map2]. change (s_uni (f_src (exRng 1 u)) 0) with u.
  change (f_excl (exF cons E)) with false. rewrite ex_flags. unfold fst3 at 1, snd3 at 1, thd3 at 1. cbn [fst snd].
  rewrite ex_back. cbn [bind]. unfold snd3 at 1. cbn [fst snd]. rewrite ex_redi. cbn [bind].
  change (count_true [thd3 (false, false, true)] =? 0)%nat with false. cbv iota. change (thd3 (false, false, true)) with true.
  rewrite ex_numbers by lia. cbn [bind mask_put].
  assert (T : fp_true 0 sp (exF cons E) (f_src (exRng 1 u)) [p] [true] [1%nat] [1%nat] [v0] 2 = Some ([v0], [], 3%nat)).
  { unfold fp_true. cbn [map map2 andb mask_get]. change (Nat.ltb 0 1) with true. cbn [andb mask_get].
    unfold en_true. cbn [f_ecl_energy exF length Nat.eqb combine draw seq map mapM2 fst snd s_uni f_src exRng i_E p exI].
    change (i_E p) with E. rewrite ex_true1 by lia. auto. }
  cbn [Nat.add]. change (i_vx p, i_vy p, i_vz p) with v0. rewrite T. auto.
Qed.

(** One impact that emits three electrons of equal energy; any two of them
    have no more energy than the impact. *)
Lemma ex_three cons : 2 * ex_e sp E u <= E -> fp_impacts 0 sp (exF cons E) (exRng 3 u) 1 false [p] 0 =
  Some (mkEmis [5 * INR 3] [1%nat] [1; 1; 1]%nat [5] [3] [4] [1] [fst3 ex_v] [snd3 ex_v] [thd3 ex_v] [0%nat]
    [5; 5] [3; 3] [4; 4] [1; 1] [fst3 ex_v; fst3 ex_v] [snd3 ex_v; snd3 ex_v] [thd3 ex_v; thd3 ex_v] [], 5%nat).
Proof using HE HG Hu.
  intros H2.
  unfold fp_impacts. rewrite ex_yields. cbn [bind length draw seq map map2]. change (s_uni (f_src (exRng 3 u)) 0) with u.
  change (f_excl (exF cons E)) with false. rewrite ex_flags. unfold fst3 at 1, snd3 at 1, thd3 at 1. cbn [fst snd].
  rewrite ex_back. cbn [bind]. unfold snd3 at 1. cbn [fst snd]. rewrite ex_redi. cbn [bind].
  change (count_true [thd3 (false, false, true)] =? 0)%nat with false. cbv iota. change (thd3 (false, false, true)) with true.
  rewrite ex_numbers by lia. cbn [bind mask_put].
  assert (T : fp_true 0 sp (exF cons E) (f_src (exRng 3 u)) [p] [true] [3%nat] [3%nat] [v0] 2 = Some ([ex_v], [ex_v; ex_v], 5%nat)).
  { unfold fp_true. cbn [map map2 andb mask_get]. change (Nat.ltb 0 3) with true. cbn [andb mask_get].
    unfold en_true. cbn [f_ecl_energy exF length Nat.eqb combine draw seq map mapM2 fst snd s_uni f_src exRng i_E p exI].
    change (i_E p) with E. rewrite ex_true1 by lia. cbn [bind Nat.sub map nsum fold_right Nat.add Nat.eqb repeat_each repeat app length combine draw seq mapM2 fst snd].
    rewrite !ex_true1 by lia. cbn [bind].
    assert (C : conserve 0 sp (exF cons E) (f_src (exRng 3 u)) 5 [2%nat] [3%nat] [E] [ex_e sp E u] [ex_e sp E u; ex_e sp E u]
      = Some ([ex_e sp E u], [ex_e sp E u; ex_e sp E u], 5%nat)).
    { unfold conserve, viol. cbn [repeat_each repeat app map2]. rewrite !(proj2 (Rgtb_false (ex_e sp E u + ex_e sp E u) E)) by lra. auto. }
    change (f_conserve (exF cons E)) with cons. cbn [Nat.add f_src exRng] in *. fold p.
    destruct cons; [rewrite C|]; auto. }
  cbn [Nat.add]. change (i_vx p, i_vy p, i_vz p) with v0. rewrite T. auto.
Qed.
End Ex.

(** An impact energy for which three secondaries of 0.4 times the impact
    energy each are drawn. *)
Lemma energy_broken sp : sp_ok sp -> exists E u e k',
  0 < E /\ 0 < u < 1 /\ fp_impacts 0 sp (exF true E) (exRng 3 u) 1 false [exI E] 0 = Some (e, k') /\
  type_at e 0 = 1%nat /\ o_tot e = [5 * INR 3] /\ event_energy (exF true E) [3%nat] e 0 = (6 / 5) * E.
Proof.
  intros SP. destruct (so_ginv sp SP 1 (1/2)) as (X0 & GX); [lra|lra|]. set (x0 := gincinv sp 1 (1/2)) in *.
  assert (XP : 0 < x0).
  { destruct X0 as [X|X]; auto. exfalso. rewrite <- X in GX. rewrite (so_g0 sp SP) in GX by lra. lra. }
  set (E := (5/2) * x0). assert (EP : 0 < E) by (unfold E; lra).
  pose proof (so_ginc sp SP 1 x0 E) as GE. pose proof (so_grange sp SP 1 E) as GR.
  assert (A : 1/2 < ginc sp 1 E) by (rewrite <- GX; apply GE; unfold E; lra). assert (B : ginc sp 1 E < 1) by (apply GR; lra).
  set (u := (1/2) / ginc sp 1 E).
  assert (UG : u * ginc sp 1 E = 1/2) by (unfold u; field; lra).
  assert (U : 0 < u < 1) by (split; apply (Rmult_lt_reg_r (ginc sp 1 E)); try rewrite UG; lra).
  assert (HG : 1 / 10 ^ 12 <= u * ginc sp 1 E).
  { rewrite UG. assert (P : 2 <= 10 ^ 12) by lra. unfold Rdiv. rewrite !Rmult_1_l. apply Rinv_le_contravar; lra. }
  assert (EE : ex_e sp E u = x0) by (unfold ex_e; rewrite UG; auto).
  assert (K : kin3 (exF true E) (ex_v sp E u) = x0).
  { unfold ex_v, kin3. rewrite EE. pose proof (vel_normal_ok 1 2 x0 1 0 ltac:(lra) ltac:(lra) ltac:(lra) ltac:(lra)) as K1. revert K1.
    unfold kin3, fst3, snd3, thd3. destruct (vel_normal 1 2 x0 1 0) as [[vx vy] vz]. cbn. intros [K1 _]. auto. }
  eexists E, u, _, _. split; auto. split; auto. split; [apply ex_three; auto; rewrite EE; unfold E; lra|]. split; [reflexivity|]. split; [reflexivity|].
  unfold event_energy, clones, vel_at, nvels. cbn [o_vx o_vy o_vz n_vx n_vy n_vz nth map pred nsum fold_right firstn skipn combine].
  assert (EV : (fst3 (ex_v sp E u), snd3 (ex_v sp E u), thd3 (ex_v sp E u)) = ex_v sp E u) by (destruct (ex_v sp E u) as [[? ?] ?]; auto).
  rewrite EV. cbn [rsum map fold_right]. rewrite K. unfold rsum. cbn. unfold E. lra.
Qed.

(** With one secondary per impact the macroparticle keeps its velocity and
    flies on into the wall. *)
Lemma velocity_kept sp : sp_ok sp -> exists E u e k',
  0 < E /\ 0 < u < 1 /\ fp_impacts 0 sp (exF false E) (exRng 1 u) 1 false [exI E] 0 = Some (e, k') /\
  type_at e 0 = 1%nat /\ vel_at e 0 = vimp (exI E) /\
  normal_comp (i_nx (exI E)) (i_ny (exI E)) (fst3 (vel_at e 0)) (snd3 (vel_at e 0)) < 0.
Proof.
  intros SP. destruct (so_ginv sp SP 1 (1/2)) as (X0 & GX); [lra|lra|]. set (x0 := gincinv sp 1 (1/2)) in *.
  assert (XP : 0 < x0).
  { destruct X0 as [X|X]; auto. exfalso. rewrite <- X in GX. rewrite (so_g0 sp SP) in GX by lra. lra. }
  exists x0, (1/2). eexists _, _. split; auto. split; [lra|]. split; [apply ex_one; auto; [lra|]|].
  - rewrite GX. assert (P : 4 <= 10 ^ 12) by lra. replace (1/2 * (1/2)) with (/ 4) by lra. unfold Rdiv. rewrite Rmult_1_l. apply Rinv_le_contravar; lra.
  - split; [reflexivity|]. split; [reflexivity|]. unfold vel_at, normal_comp, fst3, snd3. cbn. lra.
Qed.
