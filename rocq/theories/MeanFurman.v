(** Mean emission of the Furman-Pivi model, for C101. *)
From Coquelicot Require Import Coquelicot.
From Coq Require Import Reals List Lra Lia Bool.
From Verif Require Import Num NumFacts Sey SpecSey Furman SpecFurman FurmanFacts FurmanFacts4 FurmanFacts5 FurmanFacts6 SpecMean MeanFacts MeanPoisson.
Import ListNotations.
Local Open Scope R_scope.

Lemma back_none sp f sr p vel k r : fp_back sp f sr [p] [false] [vel] k = Some r -> r = ([vel], k).
Proof.
  unfold fp_back. destruct (f_ecl_energy f).
  - cbn. intros E. injection E as <-. reflexivity.
  - unfold ang. cbn [count_true mask_get map]. destruct (c_angle (f_e f)) as [a|]; [|discriminate].
    cbn. rewrite Nat.add_0_r. destruct a; cbn; rewrite ?Nat.add_0_r; intros E; injection E as <-; reflexivity.
Qed.
Lemma redi_none f sr p vel k r : fp_redi f sr [p] [false] [vel] k = Some r -> r = ([vel], k).
Proof.
  unfold fp_redi. destruct (f_excl f); [intros E; injection E as <-; reflexivity|].
  unfold ang. cbn [count_true mask_get map]. destruct (c_angle (f_e f)) as [a|]; [|discriminate].
  cbn. rewrite Nat.add_0_r. destruct a; cbn; rewrite ?Nat.add_0_r; intros E; injection E as <-; reflexivity.
Qed.
Lemma skipn_tl {A} i (l : list A) : skipn (S i) l = tl (skipn i l).
Proof. revert l. induction i as [|i IH]; intros [|a l]; try reflexivity. exact (IH l). Qed.
Lemma rounds_one sr k0 M lam l : 0 <= lam -> forall j n k i, k = (k0 + i)%nat -> (j <= 12)%nat -> (j = 0%nat -> (n <= M)%nat) ->
  length l = (i + j)%nat ->
  exists k', cut_rounds j (given_draws sr k0 l) k M [lam] (12 - j) [n] = Some ([redrawn M n (skipn i l)], k').
Proof.
  intros L0. induction j as [|j IH]; intros n k i K J B L.
  - rewrite skipn_all2 by lia. specialize (B eq_refl). cbn [cut_rounds map redrawn]. rewrite (proj2 (Nat.ltb_ge _ _) B). cbn. eauto.
  - destruct (skipn i l) as [|m r] eqn:Sk.
    { exfalso. assert (length (skipn i l) = 0%nat) by (rewrite Sk; reflexivity). rewrite skipn_length in H. lia. }
    assert (Nm : nth i l 0%nat = m).
    { rewrite <- (firstn_skipn i l), Sk, app_nth2; rewrite firstn_length; [|lia]. replace (i - Nat.min i (length l))%nat with 0%nat by lia. reflexivity. }
    assert (Sr : skipn (S i) l = r).
    { rewrite skipn_tl, Sk. reflexivity. }
    cbn [cut_rounds map]. cbn [redrawn]. destruct (Nat.leb_spec n M) as [N|N].
    + rewrite (proj2 (Nat.ltb_ge _ _) N). cbn. eauto.
    + rewrite (proj2 (Nat.ltb_lt _ _) N). change (count_true [true]) with 1%nat. cbn [Nat.eqb mask_get].
      assert (Pn : poisson (given_draws sr k0 l) k [lam] = Some [m]).
      { unfold poisson. cbn [existsb]. replace (Rltb lam 0) with false by (symmetry; apply Rltb_false; lra). cbn. rewrite K. replace (k0 + i - k0)%nat with i by lia. rewrite Nm. reflexivity. }
      rewrite Pn. cbn [bind]. cbn [mask_put].
      replace (S (12 - S j)) with (12 - j)%nat by lia.
      assert (Lr : length r = j) by (rewrite <- Sr, skipn_length; lia).
      destruct (Nat.ltb_spec 10 (12 - S j)) as [C|C].
      * assert (J0 : j = 0%nat) by lia. subst j. destruct r as [|? ?]; [|discriminate]. cbn [map mask_put].
        destruct (IH (Nat.min m M) (k + 1)%nat (S i) ltac:(lia) ltac:(lia) ltac:(lia) ltac:(lia)) as (k' & E). rewrite E, Sr. cbn [redrawn]. eauto.
      * destruct (IH m (k + 1)%nat (S i) ltac:(lia) ltac:(lia) ltac:(lia) ltac:(lia)) as (k' & E). rewrite E, Sr.
        destruct r as [|? ?]; [cbn in Lr; lia|]. eauto.
Qed.

(** One impact. *)
Section One.
Variables (cfuel : nat) (sp : spfun) (f : fpar) (th : R) (seg : bool) (p : imp) (k : nat).
Let de := de_of f p.
Let dr := dr_of f p.
Let dts := delta_ts f (i_E p) (i_ct p).
Let lam := dts / (1 - de - dr).

Lemma one_numbers fs ts k2 : fp_numbers f fs [(delta_e f (i_E p) (i_ct p), delta_r f (i_E p) (i_ct p), dts)] [true] k2 = Some ts ->
  exists n, poisson fs k2 [lam] = Some [n] /\ cut_rounds 12 fs (k2 + 1) (f_Mcut f) [lam] 0 [n] = Some ts.
Proof.
  unfold fp_numbers. cbn [mask_get map]. cbn [fst3 snd3 thd3].
  match goal with |- context [[?x / ?y]] => change (x / y) with lam end.
  intros E. destruct (poisson fs k2 [lam]) as [ns|] eqn:P in E; [|discriminate E]. cbn [bind length] in E.
  pose proof P as P'. unfold poisson in P'. destruct (existsb _ _) in P'; [discriminate P'|]. cbn [length seq map2] in P'. injection P' as <-.
  eexists. split; [exact P|exact E].
Qed.
Lemma one_true fs e k' : fp_impacts cfuel sp f fs th seg [p] k = Some (e, k') -> de + dr < s_uni (f_src fs) k ->
  exists n k2, fp_numbers f fs [(delta_e f (i_E p) (i_ct p), delta_r f (i_E p) (i_ct p), dts)] [true] (k + 1) = Some (n, k2) /\
    o_tot e = map (fun n => i_nel p * INR n) (mask_put [true] [0%nat] n).
Proof.
  intros E U. unfold fp_impacts in E. destruct (fp_yields f [p]) as [dl|] eqn:Y in E; [|discriminate E]. cbn [bind] in E.
  assert (D : dl = [(delta_e f (i_E p) (i_ct p), delta_r f (i_E p) (i_ct p), dts)]).
  { unfold fp_yields in Y. destruct (existsb _ _) in Y; [discriminate Y|]. injection Y as <-. reflexivity. }
  subst dl.
  assert (F : map2 (fp_flags (f_excl f)) [(delta_e f (i_E p) (i_ct p), delta_r f (i_E p) (i_ct p), dts)] (draw (s_uni (f_src fs)) k (length [p])) = [(false, false, true)]).
  { change (draw (s_uni (f_src fs)) k (length [p])) with [s_uni (f_src fs) k]. cbn [map2]. unfold fp_flags, fst3, snd3. cbn [fst snd].
    unfold de, dr, de_of, dr_of in U. destruct (f_excl f).
    - replace (Rgtb (s_uni (f_src fs) k) (delta_e f (i_E p) (i_ct p))) with true by (symmetry; apply Rgtb_true; lra). reflexivity.
    - replace (Rgtb (s_uni (f_src fs) k) (delta_e f (i_E p) (i_ct p) + delta_r f (i_E p) (i_ct p))) with true by (symmetry; apply Rgtb_true; lra). reflexivity. }
  rewrite F in E. cbn [map] in E. change (fst3 (false, false, true)) with false in E. change (snd3 (false, false, true)) with false in E. change (thd3 (false, false, true)) with true in E.
  change (length [p]) with 1%nat in E.
  destruct (fp_back sp f (f_src fs) [p] [false] [(i_vx p, i_vy p, i_vz p)] (k + 1)) as [b|] eqn:B in E; [|discriminate E].
  apply back_none in B. subst b. cbn [bind] in E.
  destruct (fp_redi f (f_src fs) [p] [false] [(i_vx p, i_vy p, i_vz p)] (k + 1)) as [b|] eqn:B in E; [|discriminate E].
  apply redi_none in B. subst b. cbn [bind] in E. change (count_true [true]) with 1%nat in E. cbn [Nat.eqb] in E.
  destruct (fp_numbers f fs _ [true] (k + 1)) as [(n, k2)|] eqn:N in E; [|discriminate E]. cbn [bind] in E.
  destruct (fp_true cfuel sp f (f_src fs) [p] [true] (mask_put [true] [0%nat] n) n [(i_vx p, i_vy p, i_vz p)] k2) as [((v, w), k3)|] in E; [|discriminate E].
  cbn [bind] in E. injection E as <- <-. exists n, k2. split; [exact N|]. cbn [o_tot]. destruct n as [|n r]; cbn; destruct (f_excl f); reflexivity.
Qed.

Hypothesis HE : sp_ok sp.
Hypothesis HF : fp_energy_sane f.
Hypothesis HP : imp_ok p.
Hypothesis HS : 0 <= de /\ 0 <= dr /\ de + dr < 1.
Hypothesis HD : 0 < dts.
Hypothesis HN : 0 < i_nel p.
Variable sr : src.
Hypothesis HR : src_ok sr.
Let call (u : R) (l : list nat) := fp_impacts cfuel sp f (given_draws (with_uni sr k u) (S k) l) th seg [p] k.
Hypothesis ret : forall u l, 0 <= u < 1 -> length l = 13%nat -> call u l <> None.

Lemma lam_pos : 0 < lam.
Proof. unfold lam. apply Rdiv_lt_0_compat; lra. Qed.
Lemma emitted_is u l : 0 <= u < 1 -> length l = 13%nat ->
  leaving (call u l) = if Rltb (de + dr) u then i_nel p * INR (match l with [] => 0 | n :: l => redrawn (f_Mcut f) n l end) else i_nel p.
Proof.
  intros U L. pose proof (ret u l U L) as Rt. unfold call in *. set (fs := given_draws (with_uni sr k u) (S k) l) in *.
  assert (Uk : s_uni (f_src fs) k = u) by (unfold fs; cbn; apply with_at_here).
  destruct (fp_impacts cfuel sp f fs th seg [p] k) as [(e, k')|] eqn:E; [|congruence]. clear Rt. cbn [leaving].
  rewrite (proj1 (fp_charge cfuel sp f fs th seg [p] k e k' HE HF (with_uni_ok _ _ _ HR U) ltac:(constructor; [exact HP|constructor]) E)).
  destruct (Rltb (de + dr) u) eqn:C.
  - apply Rltb_true in C. destruct (one_true fs e k' E ltac:(rewrite Uk; exact C)) as (ns & k2 & N & T). rewrite T. clear E T.
    destruct (one_numbers fs _ _ N) as (n & P & Q). destruct l as [|n0 l]; [discriminate|].
    assert (n = n0).
    { unfold poisson in P. destruct (existsb _ _) in P; [discriminate P|]. cbn [length seq map2] in P. injection P as <-. unfold fs. cbn [given_draws f_poi].
      replace (k + 1 - S k)%nat with 0%nat by lia. reflexivity. }
    subst n. cbn [length] in L.
    destruct (rounds_one (with_uni sr k u) (S k) (f_Mcut f) lam (n0 :: l) ltac:(pose proof lam_pos; lra) 12 n0 (k + 1 + 1)%nat 1 ltac:(lia) ltac:(lia) ltac:(lia) ltac:(cbn [length]; lia)) as (k3 & Z).
    change (12 - 12)%nat with 0%nat in Z. fold fs in Z. rewrite Z in Q. injection Q as <- _. cbn [skipn mask_put map]. unfold rsum. cbn [fold_right]. ring.
  - assert (C' : u <= de + dr) by (apply Rltb_false in C; lra).
    destruct (fp_all f sp fs cfuel th seg [p] k e k' HE HF (with_uni_ok _ _ _ HR U) ltac:(constructor; [exact HP|constructor]) E) as (ns & S & _).
    pose proof (fb_tot _ _ _ _ _ _ _ S 0 ltac:(cbn; lia)) as T. pose proof (fb_out _ _ _ _ _ _ _ S 0 ltac:(cbn; lia)) as O. rewrite Nat.add_0_r, Uk in O.
    change (impat [p] 0) with p in *.
    assert (One : nth 0 ns 0%nat = 1%nat).
    { inversion O; auto; unfold de, dr in *; lra. }
    rewrite One in T. pose proof (fb_sized _ _ _ _ _ _ _ S) as Z. 
    assert (Lt : length (o_tot e) = 1%nat) by (apply Z).
    destruct (o_tot e) as [|t [|? ?]]; try discriminate. cbn [nth] in T. rewrite T. unfold rsum. cbn [fold_right INR]. ring.
Qed.
Lemma mean_exact : exists h, (forall u, 0 <= u < 1 -> poisson_averages lam 13 (fun l => leaving (call u l)) (h u)) /\
  average h (i_nel p * (de + dr + (1 - de - dr) * cut_mean lam (f_Mcut f) 13)).
Proof.
  pose (a := again lam (f_Mcut f) 13).
  rewrite <- (again_closed lam lam_pos). fold a.
  replace (i_nel p * (de + dr + (1 - de - dr) * a)) with ((de + dr) * i_nel p + (1 - (de + dr)) * (i_nel p * a)) by ring.
  exists (fun u => if Rltb (de + dr) u then i_nel p * a else i_nel p). split.
    + intros u U. destruct (Rltb (de + dr) u) eqn:C.
      * apply (averages_ext lam 13 (fun l => i_nel p * match l with [] => 0 | n :: l => INR (redrawn (f_Mcut f) n l) end)).
        { intros l L. rewrite (emitted_is u l U L), C. destruct l; [discriminate|reflexivity]. }
        apply averages_scal. exact (number_mean lam (f_Mcut f) 11).
      * apply (averages_ext lam 13 (fun _ => i_nel p)); [|apply averages_const].
        intros l L. rewrite (emitted_is u l U L), C. reflexivity.
    + unfold average.
      pose proof (average_const 0 (de + dr) (i_nel p) (fun u => if Rltb (de + dr) u then i_nel p * a else i_nel p) ltac:(lra)) as P1.
      pose proof (average_const (de + dr) 1 (i_nel p * a) (fun u => if Rltb (de + dr) u then i_nel p * a else i_nel p) ltac:(lra)) as P2.
      assert (Q1 : is_RInt (fun u => if Rltb (de + dr) u then i_nel p * a else i_nel p) 0 (de + dr) ((de + dr - 0) * i_nel p)).
      { apply P1. intros u I. replace (Rltb (de + dr) u) with false by (symmetry; apply Rltb_false; lra). reflexivity. }
      assert (Q2 : is_RInt (fun u => if Rltb (de + dr) u then i_nel p * a else i_nel p) (de + dr) 1 ((1 - (de + dr)) * (i_nel p * a))).
      { apply P2. intros u I. replace (Rltb (de + dr) u) with true by (symmetry; apply Rltb_true; lra). reflexivity. }
      pose proof (is_RInt_Chasles (V := R_NormedModule) _ _ _ _ _ _ Q1 Q2) as T.
      replace ((de + dr) * i_nel p + (1 - (de + dr)) * (i_nel p * a)) with (plus ((de + dr - 0) * i_nel p) ((1 - (de + dr)) * (i_nel p * a))); [exact T|].
      change ((de + dr - 0) * i_nel p + (1 - (de + dr)) * (i_nel p * a) = (de + dr) * i_nel p + (1 - (de + dr)) * (i_nel p * a)). ring.
Qed.
Lemma mean_bounds : let m := i_nel p * (de + dr + (1 - de - dr) * cut_mean lam (f_Mcut f) 13) in
  m < i_nel p * (de + dr + dts) /\ i_nel p * (de + dr + dts * poisson_below lam (f_Mcut f)) <= m.
Proof.
  cbv zeta. rewrite <- (again_closed lam lam_pos). pose (a := again lam (f_Mcut f) 13). pose proof (number_less lam lam_pos (f_Mcut f) 12) as NL. fold a in NL |- *.
  assert (LD : lam * (1 - (de + dr)) = dts) by (unfold lam; field; lra).
  split.
  - assert (X : (1 - (de + dr)) * a < dts) by (rewrite <- LD; rewrite (Rmult_comm lam); apply Rmult_lt_compat_l; lra).
    apply Rmult_lt_compat_l; lra.
  - unfold poisson_below. set (S := rsum _) in *. assert (X : dts * S <= (1 - (de + dr)) * a).
    { rewrite <- LD. replace (lam * (1 - (de + dr)) * S) with ((1 - (de + dr)) * (lam * S)) by ring. apply Rmult_le_compat_l; [lra|]. exact (proj1 NL). }
    apply Rmult_le_compat_l; lra.
Qed.
End One.

(** Averages are unique. *)
Lemma poisson_averages_unique d r g m m' : poisson_averages d r g m -> poisson_averages d r g m' -> m = m'.
Proof.
  revert g m m'. induction r as [|r IH]; intros g m m'; cbn [poisson_averages]; [congruence|].
  intros (h & H & A) (h' & H' & A'). unfold poisson_average in *.
  apply is_series_unique in A, A'. rewrite <- A, <- A'. apply Series_ext. intros n. f_equal. exact (IH _ _ _ (H n) (H' n)).
Qed.
Lemma average_unique g m m' : average g m -> average g m' -> m = m'.
Proof. intros A A'. unfold average in *. rewrite <- (is_RInt_unique (V := R_CompleteNormedModule) g 0 1 m A). exact (is_RInt_unique (V := R_CompleteNormedModule) g 0 1 m' A'). Qed.
Lemma two_averages d r (g : R -> list nat -> R) h h' m m' :
  (forall u, 0 <= u < 1 -> poisson_averages d r (g u) (h u)) -> average h m ->
  (forall u, 0 <= u < 1 -> poisson_averages d r (g u) (h' u)) -> average h' m' -> m = m'.
Proof.
  intros H A H' A'. apply (average_unique h); [exact A|]. apply (average_ext h'); [|exact A'].
  intros u U. exact (poisson_averages_unique _ _ _ _ _ (H' u U) (H u U)).
Qed.
