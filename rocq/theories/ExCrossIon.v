(** A concrete case: electrons that ionise a gas. *)
From Coq Require Import Lra Lia String Psatz.
From Verif Require Import Num NumFacts MP SpecMP MPFacts RegenFacts CrossIon SpecCrossIon CrossIonFacts CrossIonFacts2 CrossIonFacts3 CrossIonFacts4.
Local Open Scope list_scope.
Local Open Scope R_scope.

Definition xE : list R := [0; 10; 20].
Definition xS : list R := [10 ^ 4; 10 ^ 4; 10 ^ 4].

Lemma xE_grid : uniform_grid xE 0 10.
Proof.
  split; [|split; [lra|exists 1000000000%Z; lra]]. intros i Hi. cbn in Hi.
  destruct i as [|[|[|i]]]; cbn; try lra; lia.
Qed.

Definition xT : xtab := mkXtab 0 20 xS (xdiff xS ++ [0]) 10 0 false.

Lemma xT_built : xtab_ctor xE xS = Some xT.
Proof.
  destruct (table_linear xE xS 0 10 1 xE_grid eq_refl eq_refl) as (t & E & _). rewrite E.
  unfold xtab_ctor in E.
  assert (M1 : rmin_list 0 [10; 20] = 0) by (apply rmin_list_least; intros x [<-|[<-|[]]]; lra).
  assert (M2 : rmax_list 0 [10; 20] = 20) by (apply rmax_list_is; [cbn; auto|intros x [<-|[<-|[<-|[]]]]; lra]).
  assert (ST : map round8 (xdiff xE) = repeat 10 2).
  { destruct xE_grid as (G & H & z & Hz). apply (steps_equal xE 0 10 z 1); auto. }
  unfold xE in *. rewrite M1, M2, ST in E. change (repeat 10 2) with (10 :: repeat 10 1) in E. cbv beta iota in E.
  change (10 :: repeat 10 1) with (repeat 10 2) in E. rewrite no_diff in E. injection E as <-. reflexivity.
Qed.

Lemma xT_at1 : get_sigma xT 1 = Some 1.
Proof.
  destruct (table_linear xE xS 0 10 1 xE_grid eq_refl eq_refl) as (t & E & _ & I). rewrite xT_built in E. injection E as <-.
  specialize (I 0%nat (1/10) ltac:(lia) ltac:(lra) ltac:(discriminate)). replace (0 + (INR 0 + 1/10) * 10) with 1 in I by (cbn; lra).
  rewrite I. f_equal. unfold between, xS. cbn [nth]. field.
Qed.

Lemma xT_ok : forall E s, get_sigma xT E = Some s -> 0 <= s.
Proof.
  intros E s H. destruct (table_linear_nonneg xE xS 0 10 1 xT xE_grid eq_refl eq_refl xT_built) with (E := E) as (s' & H' & P).
  - unfold xS. assert (0 <= 10 ^ 4) by (apply pow_le; lra). auto.
  - rewrite H in H'. injection H' as ->. auto.
Qed.

(** One electron of charge 1 and speed 1 at (1/2, 1/4), no ions. *)
Definition xe : mpsys := mkSys [1/2; 0; 0] [1/4; 0; 0] [0; 0; 0] [1; 0; 0] [0; 0; 0] [0; 0; 0] [1; 0; 0] [-1; -1; -1] 1 false 1 2 0 1 2 0.
Definition xi : mpsys := mkSys [0; 0; 0] [0; 0; 0] [0; 0; 0] [0; 0; 0] [0; 0; 0] [0; 0; 0] [0; 0; 0] [-1; -1; -1] 0 false 1 2 0 1 2 0.
Definition xcl : list xcloud := [mkXcloud "e" 2 xe; mkXcloud "i" 3 xi].
Definition xP (dens area : R) : xproc := mkXproc xT dens area (dens * area) 0 false ["i"%string].
Definition xX (dens area : R) : xion :=
  mkXion [("e"%string, [xP dens area])] ["i"%string] (mkCnt (fun _ => 0) (fun _ => 0%Z) (fun _ => 0)).

Lemma xX_built dens area : xion_ctor [("e"%string, [xP dens area])] xcl = Some (xX dens area).
Proof. reflexivity. Qed.

Lemma xcl_ok : clouds_ok xcl.
Proof.
  split.
  - cbn. repeat constructor; cbn; intuition discriminate.
  - repeat constructor; cbn; lra || lia || auto.
Qed.

Lemma sqrt_speed : sqrt (1 * 1 + 0 * 0 + 0 * 0) = 1.
Proof. replace (1 * 1 + 0 * 0 + 0 * 0) with 1 by ring. apply sqrt_1. Qed.

Lemma xDN dens area : xmapM (DN_one 1 (xP dens area) 1 2) (projectiles xe) = Some [dens].
Proof.
  unfold projectiles. cbn [N_mp xe seq map xmapM]. unfold proj_at. cbn [vx_mp vy_mp vz_mp nel_mp x_mp y_mp z_mp xe nth].
  rewrite sqrt_speed. unfold DN_one. cbn [j_v j_nel x_tab xP x_dens]. replace (1/2 * 2/1 * 1 * 1) with 1 by field. rewrite xT_at1. cbn [bind].
  do 2 f_equal. ring.
Qed.

Definition half : nat -> R := fun _ => 1/2.

Lemma stoch_int z u : 0 <= u -> stoch_round (IZR z / 1) u = z.
Proof.
  intros Hu. replace (IZR z / 1) with (IZR z) by field. unfold stoch_round.
  assert (F : rfloor (IZR z) = z) by (apply rfloor_unique; lra). rewrite F.
  unfold Rltb. destruct (Rlt_dec u (IZR z - IZR z)); [lra|auto].
Qed.

(** Two ions per call. *)
Definition ion2 : xinfo := mkXinfo 2 [1; 1] [1/2; 1/2] [1/4; 1/4] [0; 0] [0; 0] [0; 0] [0; 0].

Lemma v0_zero : sqrt (2 * (0 / 3) * 1 / 3) = 0.
Proof. replace (2 * (0 / 3) * 1 / 3) with 0 by field. apply sqrt_0. Qed.

Lemma xgen2 area k : process_generate 1 (xP 2 area) 1 xcl 2 (projectiles xe) half k
  = Some (deplete (xP 2 area) 2, [("i"%string, ion2)], 2, (k + 7)%nat).
Proof.
  unfold process_generate. rewrite xDN. cbn [bind x_equal xP x_prods products_loop].
  change (find_cloud "i" xcl) with (Some (mkXcloud "i" 3 xi)). cbn [bind xc_mp xc_mass nel_mp_ref xi].
  unfold counts_of. cbn [List.length draw seq map map2].
  unfold half at 1. rewrite (stoch_int 2) by lra.
  unfold product_info. cbn [x_E xP]. rewrite v0_zero.
  cbn [zsum fold_right]. change (0 <? 2 + 0)%Z with true. cbv iota.
  change (rsum [2]) with (2 + 0). replace (2 + 0) with 2 by ring.
  cbn - [Nat.add Rmult Rminus Rdiv IZR]. replace (1 * 1) with 1 by ring. unfold half.
  change (Pos.to_nat 2) with 2%nat. cbn [seq map repeat app]. replace (0 * (1/2 - 1/2)) with 0 by ring.
  replace (k + 1 + 2 + 2 + 2)%nat with (k + 7)%nat by lia. reflexivity.
Qed.

Definition xi2 : mpsys := mkSys [1/2; 1/2; 0] [1/4; 1/4; 0] [0; 0; 0] [0; 0; 0] [0; 0; 0] [0; 0; 0] [1; 1; 0] [-1; -1; -1] 2 false 1 2 0 1 2 0.

Lemma xgen area k : exists x' , cross_generate 1 1 (xX 2 area) xcl half k = Some (x', [mkXcloud "e" 2 xe; mkXcloud "i" 3 xi2], (k + 7)%nat) /\
  c_nel (xi_cnt x') "i" = 2 /\ c_N (xi_cnt x') "i" = 2%Z /\ c_DN (xi_cnt x') "i" = 2 /\ procs_of x' = [deplete (xP 2 area) 2].
Proof.
  unfold cross_generate. cbn [xi_procs xX proj_loop].
  change (find_cloud "e" xcl) with (Some (mkXcloud "e" 2 xe)). cbn [bind xc_mp xc_mass].
  change (Nat.ltb 0 (N_mp xe)) with true. cbv iota. cbn [procs_loop]. rewrite xgen2. cbn [bind].
  cbn - [Nat.add Rplus deplete xP projectiles]. eexists. split; [reflexivity|].
  cbn - [Rplus deplete xP]. unfold bump. cbn - [Rplus deplete xP].
  change (rsum [1; 1]) with (1 + (1 + 0)). split; [ring|]. split; [auto|]. split; [ring|reflexivity].
Qed.

(** Negative density: what happens after the target is exhausted. *)
Definition xinfo_neg : xinfo := mkXinfo (-2) [] [] [] [] [] [] [].
Lemma xgen_neg p k : x_tab p = xT -> x_dens p = -2 -> x_equal p = false -> x_prods p = ["i"%string] ->
  process_generate 1 p 1 xcl 2 (projectiles xe) half k
  = Some (deplete p (-2), [("i"%string, xinfo_neg)], -2, (k + 1)%nat).
Proof.
  intros H1 H2 H3 H4. unfold process_generate.
  assert (E : xmapM (DN_one 1 p 1 2) (projectiles xe) = Some [-2]).
  { rewrite <- (xDN (-2) 1). unfold DN_one. rewrite H1, H2. reflexivity. }
  rewrite E. cbn [bind]. rewrite H3, H4. cbn [products_loop].
  change (find_cloud "i" xcl) with (Some (mkXcloud "i" 3 xi)). cbn [bind xc_mp xc_mass nel_mp_ref xi].
  unfold counts_of. cbn [List.length draw seq map map2].
  unfold half at 1. rewrite (stoch_int (-2)) by lra. unfold product_info. cbn [zsum fold_right].
  change (0 <? -2 + 0)%Z with false. cbv iota. cbn [bind].
  change (rsum [-2]) with (-2 + 0). replace (-2 + 0) with (-2) by ring. reflexivity.
Qed.

Lemma xgen_neg_all x k p : xi_procs x = [("e"%string, [p])] -> xi_prods x = ["i"%string] ->
  x_tab p = xT -> x_dens p = -2 -> x_equal p = false -> x_prods p = ["i"%string] ->
  exists x', cross_generate 1 1 x xcl half k = Some (x', xcl, (k + 1)%nat) /\
  c_N (xi_cnt x') "i" = (c_N (xi_cnt x) "i" - 2)%Z.
Proof.
  intros P1 P2 H1 H2 H3 H4. unfold cross_generate. rewrite P1, P2. cbn [proj_loop].
  change (find_cloud "e" xcl) with (Some (mkXcloud "e" 2 xe)). cbn [bind xc_mp xc_mass].
  change (Nat.ltb 0 (N_mp xe)) with true. cbv iota. cbn [procs_loop]. rewrite xgen_neg by auto. cbn [bind]. rewrite H4.
  cbn - [Nat.add Rplus deplete Z.add]. eexists. split; [reflexivity|].
  cbn - [Rplus deplete Z.add]. unfold bump. cbn - [Rplus deplete Z.add]. lia.
Qed.

Lemma round3_int z : round3 (IZR z) = IZR z.
Proof. unfold round3. rewrite <- mult_IZR, raround_IZR, mult_IZR. field. Qed.

(** A roomy target: two of six are ionised. *)
Lemma xX_targets area : 0 < area -> targets_ok (xX 2 area) /\ tables_ok (xX 2 area) /\ prods_ok (xX 2 area).
Proof.
  intros H. unfold targets_ok, tables_ok, prods_ok, procs_of. cbn [xX xi_procs flat_map snd app].
  split; [|split]; constructor; auto; cbn; [lra|apply xT_ok|]. repeat constructor. auto.
Qed.

Lemma xX_full : Forall target_full (procs_of (xX 2 3)).
Proof. constructor; auto. unfold target_full. cbn. split; [lra|]. split; [field|lra]. Qed.

Lemma xX_gentle : gentle 1 1 (xX 2 3) xcl.
Proof.
  intros name ps c p areas [E|[]] Hp Hc Hn F. injection E as <- <-. destruct Hp as [<-|[]].
  destruct Hc as [<-|[<-|[]]]; [|discriminate]. cbn [xc_mp xc_mass] in F.
  inversion F as [|q a l l' Hq F']; subst. inversion F'; subst. destruct Hq as (sg & S1 & ->).
  assert (SP : speed (mp_at xe 0) = 1) by (unfold speed; cbn; apply sqrt_speed).
  cbn [xP x_tab] in S1. rewrite SP in S1. replace (1/2 * 2/1 * (1 * 1)) with 1 in S1 by field. rewrite xT_at1 in S1. injection S1 as <-.
  rewrite SP. change (1 * (1 * 1) * 1 + 0 <= 3). lra.
Qed.

(** The target of a small volume is exhausted by one call. *)
Lemma x_exhausted : exists x' cl' k', cross_generate 1 1 (xX 2 (1/2)) xcl half 0 = Some (x', cl', k') /\
  Forall (fun p => 0 <= x_N p) (procs_of (xX 2 (1/2))) /\ Exists (fun p => x_N p < 0) (procs_of x').
Proof.
  destruct (xgen (1/2) 0) as (x' & E & _ & _ & _ & P). eexists _, _, _. split; [exact E|]. split.
  - constructor; auto. cbn. lra.
  - rewrite P. constructor. cbn [x_N deplete xP]. replace (2 * (1/2) - 2) with (IZR (-1)) by lra. rewrite round3_int. lra.
Qed.

(** In the next call with the same clouds the number of macroparticles
    recorded falls although the clouds are unchanged. *)
Lemma x_negative_count : exists x1 cl1 k1 x2 k2,
  cross_generate 1 1 (xX 2 (1/2)) xcl half 0 = Some (x1, cl1, k1) /\
  cross_generate 1 1 x1 xcl half k1 = Some (x2, xcl, k2) /\
  (c_N (xi_cnt x2) "i" < c_N (xi_cnt x1) "i")%Z.
Proof.
  destruct (xgen (1/2) 0) as (x' & E & E1 & E2 & E3 & P).
  assert (Q : xi_procs x' = [("e"%string, [deplete (xP 2 (1/2)) 2])] /\ xi_prods x' = ["i"%string]).
  { assert (TO := xX_targets (1/2) ltac:(lra)). destruct TO as (T1 & T2 & T3).
    assert (G := generate_main _ _ _ _ _ _ _ _ _ Rle_0_1 T1 T2 T3 xcl_ok E). destruct G as (_ & _ & G1 & G2 & _).
    split; auto. unfold procs_of in P. destruct (xi_procs x') as [|[n1 p1] [|q2 l2]]; cbn in G2; try discriminate.
    injection G2 as ->. cbn in P. rewrite app_nil_r in P. subst. reflexivity. }
  destruct Q as [Q1 Q2].
  assert (D : x_dens (deplete (xP 2 (1/2)) 2) = -2).
  { cbn [x_dens deplete xP x_N x_area]. replace (2 * (1/2) - 2) with (IZR (-1)) by lra. rewrite round3_int. lra. }
  destruct (xgen_neg_all x' 7 _ Q1 Q2 eq_refl D eq_refl eq_refl) as (x2 & F & F2).
  exists x'. eexists _, _, x2, _. split; [exact E|]. split; [exact F|]. lia.
Qed.

(** Logarithmic table: one, ten and a hundred electronvolt. *)
Definition lE : list R := [1; 10; 100].
Lemma lE_grid : log_grid lE 0 1.
Proof.
  assert (L := ln10_pos). split; [|split; [lra|split]].
  - intros i Hi. cbn in Hi. destruct i as [|[|[|i]]]; cbn [nth lE]; try lia.
    + split; [lra|]. rewrite ln_1. cbn. field. lra.
    + split; [lra|]. cbn. field. lra.
    + split; [lra|]. replace 100 with (10 * 10) by ring. rewrite ln_mult by lra. cbn. field. lra.
  - exists 100000000%Z. lra.
  - exists 0%nat. split; [cbn; lia|]. cbn [nth lE].
    rewrite (round8_exact (100 - 10) 9000000000) by lra. rewrite (round8_exact (10 - 1) 900000000) by lra. lra.
Qed.

Lemma history_case : exists x' cl' L, hrun 1 (xX 2 3, xcl, mkLed (fun _ => 0) (fun _ => 0%Z) (fun _ => 0) (fun _ => 0%Z)) (x', cl', L) /\
  added L "i" = 2 /\ read L "i" = 2.
Proof.
  destruct (xX_targets 3 ltac:(lra)) as (A & B & C). destruct (xgen 3 0) as (x' & E & E1 & E2 & _).
  destruct (save_cross_ion_data x' "i") as [[[a n] d] x2] eqn:SV.
  eexists _, _, _. split.
  - eapply R_cons; [eapply H_gen with (rng := half); [|unfold half; intros; lra|exact A|exact B|exact C|exact xcl_ok|exact E]; lra|].
    eapply R_cons; [eapply H_read; [|exact SV]; cbn; auto|]. apply R_nil.
  - cbn [added read]. unfold save_cross_ion_data in SV. injection SV as <- _ _ _. unfold bump. rewrite String.eqb_refl, E1.
    split; [|ring]. change (0 + ((0 + ((1 + (1 + 0)) + 0)) - (0 + (0 + 0))) = 2). ring.
Qed.

Lemma exhausted_refuted : exists qe Dt x0 cl rng x1 cl1 k1 x2 k2,
  targets_ok x0 /\ tables_ok x0 /\ clouds_ok cl /\
  cross_generate qe Dt x0 cl rng 0 = Some (x1, cl1, k1) /\
  cross_generate qe Dt x1 cl rng k1 = Some (x2, cl, k2) /\
  (c_N (xi_cnt x2) "i" < c_N (xi_cnt x1) "i")%Z.
Proof.
  destruct (xX_targets (1/2) ltac:(lra)) as (A & B & _). destruct x_negative_count as (x1 & cl1 & k1 & x2 & k2 & E1 & E2 & E3).
  exists 1, 1, (xX 2 (1/2)), xcl, half, x1, cl1, k1, x2, k2. auto 10 using xcl_ok.
Qed.
