(** Facts about the yields, energies and loops of the Furman-Pivi model. *)
From Coq Require Import Lra Lia Reals Psatz.
From Verif Require Import Num NumFacts Sey SpecSey SeyFacts SeyFacts2 SeyFacts3 Furman SpecFurman.

Local Arguments Nat.ltb : simpl never.

(** * Special functions *)
Section Sp.
Context (sp : spfun) (SP : sp_ok sp).

Lemma erf_0 : erf sp 0 = 0.
Proof. pose proof (so_odd sp SP 0) as H. rewrite Ropp_0 in H. lra. Qed.

Lemma erf_le x y : erf sp x <= erf sp y -> x <= y.
Proof. intros H. destruct (Rle_dec x y); auto. pose proof (so_inc sp SP y x ltac:(lra)). lra. Qed.

Lemma erf_mono x y : x <= y -> erf sp x <= erf sp y.
Proof. intros [H|<-]; [left; apply (so_inc sp SP); auto|lra]. Qed.

Lemma ginc_le p x y : 0 < p -> 0 <= y -> ginc sp p x <= ginc sp p y -> x <= y.
Proof. intros P H G. destruct (Rle_dec x y); auto. pose proof (so_ginc sp SP p y x P ltac:(lra)). lra. Qed.

Lemma gincinv_ginc p x : 0 < p -> 0 <= x -> gincinv sp p (ginc sp p x) = x.
Proof.
  intros P H. destruct (so_ginv sp SP p (ginc sp p x) P (so_grange sp SP p x P H)) as [A B].
  apply Rle_antisym; apply (ginc_le p); auto; rewrite B; lra.
Qed.

Lemma gincinv_0 p : 0 < p -> gincinv sp p 0 = 0.
Proof. intros P. rewrite <- (so_g0 sp SP p P) at 1. apply gincinv_ginc; auto; lra. Qed.

Lemma sample_back a E u : 0 < a -> 0 <= E -> 0 <= u < 1 -> 0 <= E + a * erfinv sp ((u - 1) * erf sp (E / a)) <= E.
Proof.
  intros Ha HE Hu. assert (X0 : 0 <= E / a) by (unfold Rdiv; apply Rmult_le_pos; [auto|left; apply Rinv_0_lt_compat; auto]).
  assert (E0 : 0 <= erf sp (E / a)) by (rewrite <- erf_0; apply erf_mono; auto).
  pose proof (so_range sp SP (E / a)) as R.
  set (y := (u - 1) * erf sp (E / a)). assert (Y : - erf sp (E / a) <= y <= 0) by (unfold y; split; nra).
  pose proof (so_inv sp SP y ltac:(lra)) as I.
  assert (Z1 : erfinv sp y <= 0) by (apply erf_le; rewrite I, erf_0; lra).
  assert (Z2 : - (E / a) <= erfinv sp y) by (apply erf_le; rewrite (so_odd sp SP), I; lra).
  assert (EQ : a * (E / a) = E) by (field; lra). split; [|nra]. 
  assert (a * - (E / a) <= a * erfinv sp y) by (apply Rmult_le_compat_l; lra). lra.
Qed.

Lemma tanh_gt x : -1 < tanh x.
Proof.
  unfold tanh. assert (C : 0 < cosh x) by (unfold cosh; pose proof (exp_pos x); pose proof (exp_pos (-x)); lra).
  apply (Rmult_lt_reg_r (cosh x)); auto. unfold Rdiv. rewrite Rmult_assoc, Rinv_l by lra.
  unfold cosh, sinh. pose proof (exp_pos x). lra.
Qed.

Lemma en_back_ok f E u : fp_energy_sane f -> 0 <= E -> 0 <= u < 1 -> 0 <= en_back sp f E u <= E.
Proof.
  intros F HE Hu. unfold en_back. cbv zeta. apply sample_back; auto.
  apply Rmult_lt_0_compat; [apply sqrt_lt_R0; lra|]. pose proof (fs_sig f F) as S.
  destruct (f_modsig f); auto. pose proof (tanh_gt (1 / 100 * (E - 150))). lra.
Qed.

Lemma pw_le_1 x s : 0 <= x <= 1 -> 0 <= s -> pw x s <= 1.
Proof.
  intros [H0 H1] S. unfold pw. destruct (Reqb x 0) eqn:Q; [lra|]. apply Reqb_false in Q.
  unfold Rpower. rewrite <- exp_0. assert (L : ln x <= 0).
  { destruct H1 as [H1| ->]; [|rewrite ln_1; lra]. left. rewrite <- ln_1. apply ln_increasing; lra. }
  assert (s * ln x <= 0) by nra. destruct H as [H|H]; [left; apply exp_increasing; auto|rewrite H; lra].
Qed.

Lemma en_rediff_ok f E u : fp_energy_sane f -> 0 <= E -> 0 <= u < 1 -> 0 <= en_rediff f E u <= E.
Proof.
  intros F HE Hu. unfold en_rediff. pose proof (fs_q f F) as Q.
  assert (S : 0 <= 1 / (f_q f + 1)) by (unfold Rdiv; apply Rmult_le_pos; [lra|left; apply Rinv_0_lt_compat; lra]).
  pose proof (pw_nonneg u (1 / (f_q f + 1))) as A. pose proof (pw_le_1 u (1 / (f_q f + 1)) ltac:(lra) S). split; nra.
Qed.

Lemma en_true1_ok f n E u e : fp_energy_sane f -> 0 <= E -> 0 <= u < 1 ->
  en_true1 sp f n E u = Some e -> 0 <= e <= E.
Proof.
  intros F HE Hu H. unfold en_true1, bind in H.
  destruct (nth_error (f_eps f) (n - 1)) as [eps|] eqn:N1; [|discriminate].
  destruct (nth_error (f_pn f) (n - 1)) as [pn|] eqn:N2; [|discriminate].
  assert (P1 : 0 < eps) by (apply (proj1 (Forall_forall _ _) (fs_eps f F)); eapply nth_error_In; eauto).
  assert (P2 : 0 < pn) by (apply (proj1 (Forall_forall _ _) (fs_pn f F)); eapply nth_error_In; eauto).
  cbv zeta in H. match type of H with Some ?a = Some ?b => assert (HH : a = b) by congruence end. rewrite <- HH. clear H HH.
  set (area := ginc sp pn (E / eps)).
  assert (X0 : 0 <= E / eps) by (unfold Rdiv; apply Rmult_le_pos; [auto|left; apply Rinv_0_lt_compat; auto]).
  pose proof (so_grange sp SP pn (E / eps) P2 X0) as A. fold area in A.
  set (x1 := if Reqb area 0 then 0 else u / (1 / area)).
  assert (B : 0 <= x1 <= area).
  { unfold x1. destruct (Reqb area 0) eqn:Q; [lra|]. apply Reqb_false in Q.
    replace (u / (1 / area)) with (u * area) by (field; auto). split; nra. }
  set (x2 := if Rltb x1 (1 / 10 ^ 12) then 0 else x1).
  assert (B2 : 0 <= x2 <= area) by (unfold x2; destruct (Rltb _ _); lra).
  destruct (so_ginv sp SP pn x2 P2 ltac:(lra)) as [C D].
  assert (G : gincinv sp pn x2 <= E / eps) by (apply (ginc_le pn); auto; rewrite D; apply B2).
  split; [apply Rmult_le_pos; lra|]. assert (EQ : eps * (E / eps) = E) by (field; lra).
  rewrite <- EQ. apply Rmult_le_compat_l; lra.
Qed.

Lemma en_true1_some f n E u : (1 <= n)%nat -> (n <= length (f_eps f))%nat -> (n <= length (f_pn f))%nat ->
  exists e, en_true1 sp f n E u = Some e.
Proof.
  intros H A B. unfold en_true1, bind.
  destruct (nth_error (f_eps f) (n - 1)) eqn:N1; [|apply nth_error_None in N1; lia].
  destruct (nth_error (f_pn f) (n - 1)) eqn:N2; [|apply nth_error_None in N2; lia]. eauto.
Qed.

(** Allowed energy of a true secondary. *)
Definition ts_ok (f : fpar) (E e : R) : Prop := if f_ecl_energy f then energy_ok (f_e f) E e else 0 <= e <= E.

Lemma ts_ok_nonneg f E e : ts_ok f E e -> 0 <= e.
Proof. unfold ts_ok. destruct (f_ecl_energy f); [intros [H _]; auto|intros; lra]. Qed.

Lemma en_true_ok {X} f sr k (nn : X -> nat) (fE : X -> R) (Q : list X) l k' :
  fp_energy_sane f -> src_ok sr -> (forall x, In x Q -> 0 <= fE x) ->
  en_true sp f sr k (map nn Q) (map fE Q) = Some (l, k') ->
  Forall2 (fun x e => ts_ok f (fE x) e) Q l.
Proof.
  intros F Hs HE H. unfold en_true in H. unfold ts_ok. destruct (f_ecl_energy f).
  - apply (energies_ok _ _ _ _ _ _ _ _ _ _ (f_e f)) in H; auto.
    + clear -H. remember (map fE Q) as es eqn:EQ. revert Q EQ. induction H; intros [|q Q] EQ; cbn in EQ; try discriminate; constructor.
      * injection EQ as -> _. auto.
      * apply IHForall2. congruence.
    + rewrite Forall_map. apply Forall_forall. auto.
  - destruct (Nat.eqb (length (map fE Q)) 0) eqn:Z.
    + injection H as <- <-. apply Nat.eqb_eq in Z. destruct Q; [constructor|discriminate].
    + unfold bind in H. destruct (mapM2 _ _ _) as [l1|] eqn:M; [|discriminate]. injection H as <- <-. clear Z.
      assert (U : Forall (fun u => 0 <= u < 1) (draw (s_uni sr) k (length (map fE Q)))) by (apply draw_Forall; apply Hs).
      assert (L : length (draw (s_uni sr) k (length (map fE Q))) = length Q) by (rewrite draw_length, map_length; auto).
      revert U L M. generalize (draw (s_uni sr) k (length (map fE Q))). intros us U L M.
      revert us U L l1 M. induction Q as [|q Q IH]; intros [|u us] U L l1 M; cbn in L; try discriminate.
      * cbn in M. injection M as <-. constructor.
      * cbn in M. unfold bind in M. destruct (en_true1 _ _ _ _ _) as [e|] eqn:E1; [|discriminate].
        destruct (mapM2 _ _ us) as [l2|] eqn:M2; [|discriminate]. injection M as <-. inversion U; subst. constructor.
        -- eapply en_true1_ok; eauto. apply HE. left. auto.
        -- eapply IH; eauto. intros. apply HE. right. auto.
Qed.

Lemma en_true_some {X} f sr k (nn : X -> nat) (fE : X -> R) (Q : list X) :
  f_ecl_energy f = false ->
  (forall x, In x Q -> (1 <= nn x)%nat /\ (nn x <= length (f_eps f))%nat /\ (nn x <= length (f_pn f))%nat) ->
  exists l k', en_true sp f sr k (map nn Q) (map fE Q) = Some (l, k').
Proof.
  intros F H. unfold en_true. rewrite F. destruct (Nat.eqb _ _); [eauto|]. unfold bind.
  assert (M : exists l, mapM2 (fun nE u => en_true1 sp f (fst nE) (snd nE) u) (combine (map nn Q) (map fE Q))
     (draw (s_uni sr) k (length (map fE Q))) = Some l); [|destruct M as [l ->]; eauto].
  generalize (draw (s_uni sr) k (length (map fE Q))). induction Q as [|q Q IH]; intros us; cbn; [eauto|].
  destruct us as [|u us]; [eauto|]. unfold bind. destruct (H q (or_introl eq_refl)) as (A & B & C).
  destruct (en_true1_some f (nn q) (fE q) u A B C) as [e ->].
  destruct (IH (fun x Hx => H x (or_intror Hx)) us) as [l ->]. eauto.
Qed.
End Sp.

(** * Yields *)
Lemma clip_range x lo : 0 <= lo <= 1 -> 0 <= clip x lo 1 <= 1.
Proof. intros H. unfold clip, Rmin, Rmax. destruct (Rle_dec x lo); destruct (Rle_dec _ _); lra. Qed.

Lemma exp_le_1 x : x <= 0 -> 0 < exp x <= 1.
Proof. intros H. split; [apply exp_pos|]. rewrite <- exp_0. destruct H as [H|H]; [left; apply exp_increasing; auto|rewrite H; lra]. Qed.

Lemma delta_e_nonneg f E ct : fp_yield_sane f -> 0 <= delta_e f E ct.
Proof.
  intros Y. destruct (ys_e f Y) as (A & B & C & D & G & H & I). unfold delta_e. cbv zeta.
  assert (X : 0 < exp (- pw (Rabs (E - f_eEHat f) / f_w f) (f_p f) / f_p f) <= 1).
  { apply exp_le_1. pose proof (pw_nonneg (Rabs (E - f_eEHat f) / f_w f) (f_p f)). unfold Rdiv at 1.
    pose proof (Rinv_0_lt_compat _ D). nra. }
  assert (Z : 0 <= f_p1EInf f + (f_p1Ehat f - f_p1EInf f) * exp (- pw (Rabs (E - f_eEHat f) / f_w f) (f_p f) / f_p f)).
  { set (x := exp _) in *. nra. }
  apply Rmult_le_pos; auto. destruct (f_scale f); [|lra]. destruct (f_ecl_theta f); [lra|].
  pose proof (pw_le_1 (clip ct (f_ce f) 1) (f_e2 f) (clip_range ct _ I) H).
  pose proof (pw_nonneg (clip ct (f_ce f) 1) (f_e2 f)). nra.
Qed.

Lemma delta_r_nonneg f E ct : fp_yield_sane f -> 0 <= delta_r f E ct.
Proof.
  intros Y. destruct (ys_r f Y) as (A & B & C & D & G). unfold delta_r. cbv zeta.
  assert (X : 0 < exp (- pw (E / f_eR f) (f_r f)) <= 1) by (apply exp_le_1; pose proof (pw_nonneg (E / f_eR f) (f_r f)); lra).
  apply Rmult_le_pos; [apply Rmult_le_pos; lra|]. destruct (f_scale f); [|lra].
  pose proof (pw_le_1 (clip ct (f_cr f) 1) (f_r2 f) (clip_range ct _ G) D).
  pose proof (pw_nonneg (clip ct (f_cr f) 1) (f_r2 f)). nra.
Qed.

Lemma fp_D_range s x : 1 < s -> 0 <= x -> 0 <= fp_D s x <= 1.
Proof.
  intros S X. unfold fp_D. pose proof (pw_nonneg x s). pose proof (bernoulli x s X ltac:(lra)).
  pose proof (Rinv_0_lt_compat (s - 1 + pw x s) ltac:(lra)) as I. unfold Rdiv. split.
  - apply Rmult_le_pos; [nra|lra].
  - apply (Rmult_le_reg_r (s - 1 + pw x s)); [lra|]. rewrite Rmult_assoc, Rinv_l by lra. lra.
Qed.

Lemma ts_ang_pos f ct : fp_yield_sane f -> 0 <= ct <= 1 -> 0 < ts_ang f ct.
Proof.
  intros Y C. destruct (ys_t f Y) as (A & B & S & T1 & T2 & T3 & T4). unfold ts_ang. destruct (f_scale f); [|lra].
  destruct (f_ecl_theta f); [apply exp_pos|]. pose proof (pw_le_1 ct (f_t2 f) C T2). nra.
Qed.

Lemma delta_ts_range f E ct : fp_yield_sane f -> 0 <= E -> 0 <= ct <= 1 ->
  0 <= delta_ts f E ct <= f_dTS f * ts_ang f ct.
Proof.
  intros Y HE C. pose proof (ts_ang_pos f ct Y C) as P. destruct (ys_t f Y) as (A & B & S & T1 & T2 & T3 & T4). unfold delta_ts. cbv zeta.
  fold (ts_ang f ct). set (eh := if f_shift f then _ else _).
  assert (H : 0 < eh).
  { unfold eh. destruct (f_shift f); auto. pose proof (pw_le_1 ct (f_t4 f) C T4). pose proof (pw_nonneg ct (f_t4 f)).
    apply Rmult_lt_0_compat; auto. nra. }
  assert (X0 : 0 <= E / eh) by (unfold Rdiv; apply Rmult_le_pos; [auto|left; apply Rinv_0_lt_compat; auto]).
  pose proof (fp_D_range (f_s f) (E / eh) S X0) as D. split; [apply Rmult_le_pos; [apply Rmult_le_pos; lra|lra]|].
  apply Rmult_le_compat_r; [lra|]. nra.
Qed.

(** * The loop that limits the number of secondaries *)
Lemma poisson_some fs k lams : Forall (fun l => 0 <= l) lams ->
  poisson fs k lams = Some (map2 (f_poi fs) (seq k (length lams)) lams).
Proof.
  intros H. unfold poisson. replace (existsb _ _) with false; auto. symmetry. 
  induction H as [|l ls H0 H IH]; auto. cbn. rewrite IH, orb_false_r. apply Rltb_false. auto.
Qed.

Lemma poisson_len fs k lams l : poisson fs k lams = Some l -> length l = length lams.
Proof. unfold poisson. destruct (existsb _ _); [discriminate|]. intros H. injection H as <-. rewrite map2_length, seq_length. lia. Qed.

Lemma none_above M ns : count_true (map (fun n => Nat.ltb M n) ns) = 0%nat -> Forall (fun n => (n <= M)%nat) ns.
Proof.
  induction ns as [|n ns IH]; intros Z; constructor; cbn [map] in Z; unfold count_true in *; cbn [fold_right] in Z; revert Z; destruct (Nat.ltb M n) eqn:B; intros; try discriminate; auto.
  apply Nat.ltb_ge in B. auto.
Qed.

Lemma cut_rounds_ok fuel fs k M lams a ns ns' k' : length lams = length ns ->
  cut_rounds fuel fs k M lams a ns = Some (ns', k') -> length ns' = length ns /\ Forall (fun n => (n <= M)%nat) ns'.
Proof.
  revert k a ns. induction fuel as [|fu IH]; intros k a ns L H; cbn in H.
  - destruct (Nat.eqb _ 0) eqn:Z; [|discriminate]. injection H as <- <-. split; auto. apply none_above. apply Nat.eqb_eq. auto.
  - destruct (Nat.eqb _ 0) eqn:Z.
    + injection H as <- <-. split; auto. apply none_above. apply Nat.eqb_eq. auto.
    + unfold bind in H. destruct (poisson _ _ _) as [new|] eqn:P; [|discriminate].
      apply IH in H; rewrite mask_put_length in *; auto.
Qed.

Lemma clip_round M (ns new : list nat) : length new = count_true (map (fun n => Nat.ltb M n) ns) ->
  count_true (map (fun n => Nat.ltb M n) (mask_put (map (fun n => Nat.ltb M n) ns) ns (map (fun n => Nat.min n M) new))) = 0%nat.
Proof.
  unfold count_true. revert new. induction ns as [|n ns IH]; intros new L; auto. 
  cbn [map fold_right mask_put] in L |- *. destruct (Nat.ltb M n) eqn:B.
  - destruct new as [|x new]; [discriminate|]. cbn [map fold_right mask_put].
    replace (Nat.ltb M (Nat.min x M)) with false; [apply IH; injection L as L; exact L|].
    symmetry. apply Nat.ltb_ge. lia.
  - cbn [map fold_right]. rewrite B. apply IH; auto.
Qed.

Lemma cut_rounds_some fuel fs k M lams a ns : length lams = length ns -> Forall (fun l => 0 <= l) lams ->
  (12 <= fuel + a)%nat -> (1 <= fuel)%nat -> exists r, cut_rounds fuel fs k M lams a ns = Some r.
Proof.
  intros L F. revert k a ns L. induction fuel as [|fu IH]; intros k a ns L HA HF; [lia|]. cbn [cut_rounds].
  destruct (Nat.eqb _ 0) eqn:Z; [eauto|]. unfold bind. rewrite poisson_some.
  2:{ apply Forall_forall. intros x Hx. apply mask_get_In in Hx. revert x Hx. apply Forall_forall. auto. }
  destruct (Nat.ltb 10 a) eqn:A.
  - set (new := map2 _ _ _). set (ns' := mask_put _ _ _).
    assert (Z' : count_true (map (fun n => Nat.ltb M n) ns') = 0%nat).
    { apply clip_round. unfold new. rewrite map2_length, seq_length, !mask_get_length; [lia|rewrite map_length; lia]. }
    destruct fu; cbn [cut_rounds]; rewrite Z'; cbn [Nat.eqb]; eauto.
  - apply Nat.ltb_ge in A. apply IH; [rewrite mask_put_length; auto|lia|lia].
Qed.
