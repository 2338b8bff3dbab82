(** The laws of the directions, of the low secondary energies and of the
    photoelectrons. *)
From Coq Require Import Reals List Lra Lia Psatz.
From Verif Require Import Num NumFacts Sey SpecSey SeyFacts Source SpecSource Furman FpDist SpecLaw LawFacts.
Local Open Scope R_scope.

(** * Directions *)
Lemma sin_le_iff x y : between 0 (PI / 2) x -> between 0 (PI / 2) y -> (sin x <= sin y <-> x <= y).
Proof.
  intros (A & B) (C & D). pose proof PI_RGT_0. split; intros H0.
  - apply Rnot_lt_le. intros L. pose proof (sin_increasing_1 y x ltac:(lra) ltac:(lra) ltac:(lra) ltac:(lra) L). lra.
  - apply sin_incr_1; lra.
Qed.
Lemma asin_dom u : 0 <= u < 1 -> between 0 (PI / 2) (asin u).
Proof.
  intros H. pose proof (asin_bound u) as B. split; [|lra]. apply Rnot_lt_le. intros L.
  pose proof (sin_lt_0_var (asin u)) as Q. rewrite sin_asin in Q by lra. pose proof PI_RGT_0. specialize (Q ltac:(lra) L). lra.
Qed.

Lemma law_2D : law asin right_angle sin.
Proof.
  split; [exact asin_dom|]. split.
  - intros e (A & B). pose proof PI_RGT_0. split; [apply sin_ge_0; lra|pose proof (SIN_bound e); lra].
  - intros u e H D. rewrite <- (sin_le_iff _ _ (asin_dom u H) D), sin_asin by lra. reflexivity.
Qed.
Lemma sqrt_dom u : 0 <= u < 1 -> 0 <= sqrt u < 1.
Proof. intros H. split; [apply sqrt_pos|]. rewrite <- sqrt_1. apply sqrt_lt_1; lra. Qed.
Lemma law_3D : law (fun u => asin (sqrt u)) right_angle (fun t => sin t ^ 2).
Proof.
  split; [intros u H; apply asin_dom, sqrt_dom, H|]. split.
  - intros e (A & B). pose proof PI_RGT_0. pose proof (sin_ge_0 e ltac:(lra) ltac:(lra)). pose proof (SIN_bound e). nra.
  - intros u e H D. pose proof (sqrt_dom u H) as S. rewrite <- (sin_le_iff _ _ (asin_dom _ S) D), sin_asin by lra.
    destruct D as (D1 & D2). pose proof PI_RGT_0. pose proof (sin_ge_0 e ltac:(lra) ltac:(lra)) as P. pose proof (sqrt_sqrt u ltac:(lra)) as Q.
    split; intros G; [nra|]. apply Rnot_lt_le. intros L. nra.
Qed.
Lemma density_2D : density sin cos 0 (PI / 2).
Proof. intros e _. apply derivable_pt_lim_sin. Qed.
Lemma density_3D : density (fun t => sin t ^ 2) (fun t => 2 * sin t * cos t) 0 (PI / 2).
Proof.
  intros e _. apply (derivable_pt_lim_ext (sin * sin)%F); [intros x; unfold mult_fct; ring|].
  replace (2 * sin e * cos e) with (cos e * sin e + sin e * cos e) by ring.
  apply derivable_pt_lim_mult; apply derivable_pt_lim_sin.
Qed.

Lemma vel_leaves qe mass e a b s phi : a * a + b * b = 1 -> 0 <= s < 1 ->
  leaves (vel_angle qe mass e a b s phi) (sqrt (2 * qe / mass * e)) (asin s) phi a b.
Proof.
  intros N S. unfold leaves, vel_angle. cbn [fst snd]. rewrite sin_asin, cos_asin by lra. unfold Rsqr.
  replace (s ^ 2) with (s * s) by ring. set (v := sqrt (2 * qe / mass * e)). set (c := sqrt (1 - s * s)).
  split; [|split; [|ring]].
  - transitivity (v * c * (a * a + b * b)); [ring|]. rewrite N. ring.
  - transitivity (v * s * sin phi * (a * a + b * b)); [ring|]. rewrite N. ring.
Qed.

Lemma combine_nth3 (A B C : list R) i : length B = length A -> length C = length A ->
  nth i (combine A (combine B C)) (0, (0, 0)) = (nth i A 0, (nth i B 0, nth i C 0)).
Proof. intros L1 L2. rewrite combine_nth by (rewrite combine_length; lia). rewrite combine_nth by lia. reflexivity. Qed.

Lemma map2_nth {A B C} (g : A -> B -> C) a b c : forall la lb i, (i < length la)%nat -> length lb = length la ->
  nth i (map2 g la lb) c = g (nth i la a) (nth i lb b).
Proof.
  induction la as [|x la IH]; intros [|y lb] i H L; cbn in *; try lia. destruct i as [|i]; [reflexivity|]. apply IH; lia.
Qed.
Lemma draw_nth g k n i : (i < n)%nat -> nth i (draw g k n) 0 = g (k + i)%nat.
Proof. intros H. unfold draw. rewrite (nth_indep _ _ (g 0%nat)) by (rewrite map_length, seq_length; exact H). rewrite map_nth, seq_nth by exact H. reflexivity. Qed.
Lemma draw_len g k n : length (draw g k n) = n.
Proof. unfold draw. rewrite map_length, seq_length. reflexivity. Qed.

Lemma directions d qe mass sr k En nx ny v k' : d <> NormalEmission -> (forall j, 0 <= s_uni sr j < 1) -> unit_normals nx ny -> length nx = length En ->
  angle_dist_func d qe mass sr k (length En) En nx ny = (v, k') ->
  length v = length En /\ k' = (k + 2 * length En)%nat /\
  forall i, (i < length En)%nat ->
    leaves (nth i v (0, 0, 0)) (sqrt (2 * qe / mass * nth i En 0)) ((match d with Cos3D => fun u => asin (sqrt u) | _ => asin end) (s_uni sr (k + i)))
      (2 * PI * s_uni sr (k + length En + i)) (nth i nx 0) (nth i ny 0).
Proof.
  intros D U N L EQ. pose proof (Forall2_length N) as L2. set (n := length En) in *.
  set (ss := match d with Cos3D => map sqrt (draw (s_uni sr) k n) | _ => draw (s_uni sr) k n end).
  set (ph := map (fun u => u * 2 * PI) (draw (s_uni sr) (k + n) n)).
  assert (LS : length ss = n) by (unfold ss; destruct d; rewrite ?map_length; apply draw_len).
  assert (LP : length ph = n) by (unfold ph; rewrite map_length; apply draw_len).
  assert (EV : v = map2 (fun '(e, (a, b)) '(s, p) => vel_angle qe mass e a b s p) (combine En (combine nx ny)) (combine ss ph) /\ k' = (k + n + n)%nat).
  { unfold angle_dist_func in EQ. destruct d; [| |exfalso; exact (D eq_refl)]; injection EQ as <- <-; split; reflexivity. }
  destruct EV as (-> & ->). assert (LE : length (combine En (combine nx ny)) = n) by (rewrite !combine_length; unfold n in *; lia).
  assert (LC : length (combine ss ph) = n) by (rewrite combine_length; lia).
  split; [rewrite map2_length; lia|]. split; [lia|]. intros i I.
  rewrite (map2_nth _ (0, (0, 0)) (0, 0)) by lia.
  rewrite combine_nth3 by (unfold n in *; lia). rewrite combine_nth by lia.
  assert (NI : nth i nx 0 * nth i nx 0 + nth i ny 0 * nth i ny 0 = 1).
  { clear - N I L. assert (I2 : (i < length nx)%nat) by (unfold n in I; lia). clear I L. revert i I2. induction N as [|a b la lb Q N IH]; intros i I; [cbn in I; lia|].
    destruct i as [|i]; [exact Q|]. cbn [nth]. apply IH. cbn in I. lia. }
  assert (PH : nth i ph 0 = 2 * PI * s_uni sr (k + n + i)).
  { unfold ph. rewrite (nth_indep _ 0 (0 * 2 * PI)) by (rewrite map_length, draw_len; exact I).
    rewrite (map_nth (fun u => u * 2 * PI)), draw_nth by exact I. ring. }
  rewrite PH.
  assert (SI : nth i ss 0 = match d with Cos3D => sqrt (s_uni sr (k + i)) | _ => s_uni sr (k + i) end).
  { unfold ss. destruct d.
    - rewrite (nth_indep _ 0 (sqrt 0)) by (rewrite map_length, draw_len; exact I). rewrite map_nth, draw_nth by exact I. reflexivity.
    - apply draw_nth; exact I.
    - apply draw_nth; exact I. }
  rewrite SI. destruct d.
  - apply vel_leaves; [exact NI|apply sqrt_dom, U].
  - apply vel_leaves; [exact NI|apply U].
  - exfalso. exact (D eq_refl).
Qed.

(** * Low energies of the ECLOUD model *)
Lemma mask_put_true {A} (m : list bool) : forall (a v : list A) i d, nth_error m i = Some true -> length a = length m ->
  length v = count_true m -> nth i (mask_put m a v) d = nth (count_true (firstn i m)) v d.
Proof.
  induction m as [|b m IH]; intros a v i d H LA LV; [destruct i; discriminate|].
  destruct a as [|x a]; [cbn in LA; lia|]. destruct i as [|i].
  - cbn in H. injection H as ->. destruct v as [|w v]; [cbn in LV; lia|]. reflexivity.
  - cbn [nth_error] in H. destruct b; cbn [firstn].
    + destruct v as [|w v]; [cbn in LV; lia|]. cbn [mask_put count_true fold_right nth]. apply IH; [exact H|cbn in LA; lia|exact (eq_add_S _ _ LV)].
    + cbn [mask_put count_true fold_right nth]. apply IH; [exact H|cbn in LA; lia|exact LV].
Qed.
Lemma redraw_up fuel sr lim : forall k en en' k', redraw fuel sr k lim en = Some (en', k') -> (k <= k')%nat.
Proof.
  induction fuel as [|f IH]; cbn; intros k en en' k' H; destruct (Nat.eqb _ 0); try (injection H; lia); try discriminate. apply IH in H. lia.
Qed.
Lemma redraw_len fuel sr lim : forall k en en' k', redraw fuel sr k lim en = Some (en', k') -> length en' = length en.
Proof.
  induction fuel as [|fu IH]; intros k en en' k' H; cbn [redraw] in H; destruct (Nat.eqb _ 0); try discriminate; try (injection H as <- _; reflexivity).
  apply IH in H. rewrite H. apply mask_put_length.
Qed.
Lemma mask_get_nth {A} (m : list bool) : forall (a : list A) i d, nth_error m i = Some true -> length a = length m ->
  nth (count_true (firstn i m)) (mask_get m a) d = nth i a d.
Proof.
  induction m as [|b m IH]; intros a i d H LA; [destruct i; discriminate|].
  destruct a as [|x a]; [cbn in LA; lia|]. destruct i as [|i]; [cbn in H; injection H as ->; reflexivity|].
  cbn [nth_error] in H. destruct b; cbn [firstn mask_get count_true fold_right nth]; apply IH; try exact H; cbn in LA; lia.
Qed.

Lemma count_cons (b : bool) m : count_true (b :: m) = if b then S (count_true m) else count_true m.
Proof. reflexivity. Qed.
Lemma count_before : forall m i, nth_error m i = Some true -> (count_true (firstn i m) < count_true m)%nat.
Proof.
  induction m as [|b m IH]; intros i M; [destruct i; discriminate|]. destruct i as [|i].
  - cbn in M. injection M as ->. rewrite count_cons. cbn [firstn]. apply Nat.lt_0_succ.
  - cbn [nth_error] in M. specialize (IH i M). cbn [firstn]. rewrite !count_cons. destruct b; lia.
Qed.

Lemma low_energies fuel sr k E_th En thr en k' :
  sec_energy_hilleret_model2 2 fuel sr k (length En) E_th En thr = Some (en, k') ->
  exists k1, (k <= k1)%nat /\ forall i, (i < length En)%nat -> nth i En 0 < thr ->
    nth i en 0 = nth i En 0 * sqrt (s_uni sr (k1 + count_true (firstn i (map (fun E => Rltb E thr) En)))%nat).
Proof.
  unfold sec_energy_hilleret_model2. change ((2 =? 0)%Z) with false. change ((2 =? 2)%Z) with true. cbv iota. cbv zeta.
  set (low := map (fun E => Rltb E thr) En). destruct (redraw _ _ _ _ _) as [[e0 k1]|] eqn:RD; cbn [bind]; [|discriminate].
  intros H. injection H as <- <-. exists k1. split; [pose proof (redraw_up _ _ _ _ _ _ _ RD); lia|].
  intros i I T. assert (M : nth_error low i = Some true).
  { unfold low. rewrite nth_error_map. rewrite (nth_error_nth' En 0 I). cbn. f_equal. apply Rltb_true. exact T. }
  assert (LL : length low = length En) by (unfold low; apply map_length).
  assert (LG : length (mask_get low En) = count_true low) by (apply mask_get_length; lia).
  rewrite mask_put_true; [| exact M| |].
  - assert (C : (count_true (firstn i low) < count_true low)%nat).
    { exact (count_before low i M). }
    rewrite (map2_nth _ 0 0) by (rewrite ?draw_len; lia). rewrite draw_nth by exact C. rewrite mask_get_nth by (try exact M; lia). reflexivity.
  - rewrite (redraw_len _ _ _ _ _ _ _ RD), draw_len. lia.
  - rewrite map2_length, draw_len. lia.
Qed.
