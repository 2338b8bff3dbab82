(** Lemmas about the primary sources. *)
From Coq Require Import Lra Lia.
From Verif Require Import Num NumFacts MP SpecMP MPFacts RegenFacts Geom Poly Sey SpecSey SeyFacts SeyFacts2 Impact SpecImpact Source SpecSource.

(** * Numbers of macroparticles *)
Lemma floor_nat q : 0 <= q -> exists m : nat, rfloor q = Z.of_nat m /\ INR m <= q < INR m + 1.
Proof.
  intros H. assert (0 <= rfloor q)%Z by (apply rfloor_ge; lra).
  exists (Z.to_nat (rfloor q)). rewrite Z2Nat.id by auto. split; auto.
  rewrite INR_IZR_INZ, Z2Nat.id by auto. apply rfloor_bounds.
Qed.

Lemma stoch_round_rounded q u : 0 <= q -> exists n, stoch_round q u = Z.of_nat n /\ rounded q u n.
Proof.
  intros H. destruct (floor_nat q H) as (m & E & B). unfold stoch_round. rewrite E.
  rewrite <- INR_IZR_INZ. unfold Rltb.
  exists (if Rlt_dec u (q - INR m) then S m else m). split.
  - destruct (Rlt_dec u (q - INR m)); lia.
  - exists m. auto.
Qed.

Lemma photo_number_stoch q u : 0 <= q -> photo_number q u = stoch_round q u.
Proof. intros H. unfold photo_number, stoch_round. rewrite rtrunc_nonneg by auto. reflexivity. Qed.

Lemma rounded_close q u n : 0 <= u -> rounded q u n -> Rabs (INR n - q) < 1.
Proof.
  intros Hu (m & B & ->). destruct (Rlt_dec u (q - INR m)).
  - rewrite S_INR. apply Rabs_def1; lra.
  - apply Rabs_def1; lra.
Qed.

Lemma rounded_exact q u n (m : nat) : 0 <= u -> rounded q u n -> q = INR m -> n = m.
Proof.
  intros Hu (j & B & ->) ->. assert (j = m).
  { destruct B as [B1 B2]. apply INR_le in B1. rewrite <- S_INR in B2. apply INR_lt in B2. lia. }
  subst. destruct (Rlt_dec u (INR m - INR m)); [lra|auto].
Qed.

(** * Writing new macroparticles *)
Lemma slice_set_one {A} (a : list A) lo hi c : slice_set a lo hi [c] = Some (slice_fill a lo hi c).
Proof.
  unfold slice_set, slice_fill. destruct (Nat.eqb_spec (length [c]) (length (slice_get a lo hi))) as [E|E]; auto.
  rewrite <- E. reflexivity.
Qed.

Lemma slice_set_repeat {A} (a : list A) lo n c : (lo + n <= length a)%nat ->
  slice_set a lo (lo + n) (repeat c n) = Some (slice_fill a lo (lo + n) c).
Proof.
  intros H. rewrite slice_set_exact by (rewrite ?repeat_length; lia).
  rewrite slice_fill_exact by lia. do 4 f_equal. f_equal. lia.
Qed.

Definition full_batch (n : nat) (ref : R) (xs ys : list R) (vx vy vz : list R) : batch :=
  mkBatch (repeat ref n) xs ys (repeat 0 n) vx vy vz (repeat (-1) n).

Lemma add_new_scalars n ref xs ys vx vy vz s : wf s -> (N_mp s + n <= capacity s)%nat ->
  add_new_MPs n (mkBatch [ref] xs ys [0] vx vy vz [-1]) s = add_new_MPs n (full_batch n ref xs ys vx vy vz) s.
Proof.
  intros W F. destruct W. unfold add_new_MPs, full_batch. cbn [b_x b_y b_z b_vx b_vy b_vz b_nel b_t].
  rewrite !slice_set_one, !slice_set_repeat by lia. reflexivity.
Qed.

Lemma write_uniform_add n xs ys a b c t s : wf s -> (N_mp s + n <= capacity s)%nat ->
  t = (if flag_lifetime_hist s then slice_fill (t_last_impact s) (N_mp s) (N_mp s + n) (-1) else t_last_impact s) ->
  write_uniform s n xs ys a b c t
  = add_new_MPs n (full_batch n (nel_mp_ref s) xs ys (repeat a n) (repeat b n) (repeat c n)) s.
Proof.
  intros W F ->. destruct W. unfold write_uniform, add_new_MPs, full_batch.
  cbn [b_x b_y b_z b_vx b_vy b_vz b_nel b_t]. rewrite !slice_set_repeat by lia.
  destruct (slice_set (x_mp s) _ _ _); cbn [bind]; auto.
  destruct (slice_set (y_mp s) _ _ _); cbn [bind]; auto.
  destruct (flag_lifetime_hist s); reflexivity.
Qed.

Lemma slice_overflow (a v : list R) N n r : (N < length a)%nat -> length v = n ->
  slice_set a N (N + n) v = Some r -> (N + n <= length a)%nat.
Proof.
  intros H L E. destruct (le_lt_dec (N + n) (length a)); auto.
  destruct (Nat.eq_dec n 1); [lia|]. rewrite slice_set_overflow in E by (auto; lia). discriminate.
Qed.

Lemma Forall2_cols {A} (P : A -> R -> Prop) (l : list A) v : Forall2 P l v ->
  forall i a, nth_error l i = Some a -> P a (nth i v 0).
Proof.
  induction 1; intros [|i] b H1; cbn in *; try discriminate; [injection H1 as <-; auto|eauto].
Qed.

Lemma full_batch_added out n xs ys vx vy vz s s' :
  wf s -> (N_mp s < capacity s)%nat ->
  length xs = n -> length ys = n -> length vx = n -> length vy = n -> length vz = n ->
  Forall2 (fun x y => out x y = false) xs ys ->
  (N_mp s + n <= capacity s)%nat ->
  add_new_MPs n (full_batch n (nel_mp_ref s) xs ys vx vy vz) s = Some s' ->
  exists new, generated out s s' new /\ never_hit new /\ length new = n /\
    new = map (batch_mp (flag_lifetime_hist s) (full_batch n (nel_mp_ref s) xs ys vx vy vz)) (seq 0 n) /\
    charge s' = charge s + INR n * nel_mp_ref s.
Proof.
  intros W Free L1 L2 L3 L4 L5 IN F E.
  set (b := full_batch n (nel_mp_ref s) xs ys vx vy vz) in *.
  assert (B : batch_ok n b) by (unfold batch_ok, b, full_batch; cbn; rewrite !repeat_length; auto 10).
  destruct (add_new_spec n b s W B F) as (s1 & E1 & LV & CH & W1 & T1 & C1 & R1 & R2 & R3).
  rewrite E in E1. injection E1 as <-.
  exists (map (batch_mp (flag_lifetime_hist s) b) (seq 0 n)).
  assert (IDX : forall P : mp -> Prop, (forall i, (i < n)%nat -> P (batch_mp (flag_lifetime_hist s) b i)) ->
    Forall P (map (batch_mp (flag_lifetime_hist s) b) (seq 0 n))).
  { intros P HP. apply Forall_map, Forall_forall. intros i Hi. apply in_seq in Hi. apply HP. lia. }
  split.
  - constructor; auto.
    + apply IDX. intros i Hi. cbn. apply nth_repeat_lt; auto.
    + apply IDX. intros i Hi. cbn. apply nth_repeat_lt; auto.
    + apply IDX. intros i Hi. cbn. destruct (nth_error xs i) as [x|] eqn:Ex.
      * pose proof (Forall2_cols _ _ _ IN i x Ex) as K. apply nth_error_nth with (d := 0) in Ex. rewrite Ex. exact K.
      * apply nth_error_None in Ex. lia.
  - split; [apply IDX; intros i Hi; cbn; destruct (flag_lifetime_hist s); auto; apply nth_repeat_lt; auto|].
    split; [rewrite map_length, seq_length; auto|]. split; [auto|].
    rewrite CH. unfold b, full_batch. cbn [b_nel]. rewrite rsum_repeat. reflexivity.
Qed.

(** * Redraw loops *)
Lemma gas_coord_length sg pos ap sr k unif : length (fst (gas_coord sg pos ap sr k unif)) = length unif.
Proof. unfold gas_coord. cbn [fst]. rewrite map3_length, !draw_length. lia. Qed.

Lemma no_flag_inside (out : R -> R -> bool) xt yt : length xt = length yt ->
  count_true (map2 out xt yt) = 0%nat -> Forall2 (fun x y => out x y = false) xt yt.
Proof. intros L H. apply map2_false_Forall2; auto. apply count_true_0; auto. Qed.

Lemma redraw_gas_ok fuel c sx sy xb yb sr : forall k unif xt yt xt' yt' k',
  length xt = length unif -> length yt = length unif ->
  redraw_gas fuel c sx sy xb yb sr k unif xt yt = Some (xt', yt', k') ->
  length xt' = length unif /\ length yt' = length unif /\ Forall2 (fun x y => outside c x y = false) xt' yt'.
Proof.
  induction fuel as [|fuel IH]; intros k unif xt yt xt' yt' k' L1 L2 E; cbn [redraw_gas] in E.
  - destruct (Nat.eqb_spec (count_true (map2 (outside c) xt yt)) 0); [|discriminate].
    injection E as <- <- <-. split; [auto|]. split; [auto|]. apply no_flag_inside; auto. lia.
  - destruct (Nat.eqb_spec (count_true (map2 (outside c) xt yt)) 0).
    + injection E as <- <- <-. split; [auto|]. split; [auto|]. apply no_flag_inside; auto. lia.
    + destruct (gas_coord sx xb _ sr k _) as [xs k1]. destruct (gas_coord sy yb _ sr k1 _) as [ys k2].
      apply IH in E; auto; rewrite mask_put_length; auto.
Qed.

Lemma redraw_uniform_ok fuel c a b d e rng : forall k xt yt xt' yt' k',
  length xt = length yt ->
  redraw_uniform fuel c a b d e rng k xt yt = Some (xt', yt', k') ->
  length xt' = length xt /\ length yt' = length xt /\ Forall2 (fun x y => outside c x y = false) xt' yt'.
Proof.
  induction fuel as [|fuel IH]; intros k xt yt xt' yt' k' L E; cbn [redraw_uniform] in E.
  - destruct (Nat.eqb_spec (count_true (map2 (outside c) xt yt)) 0); [|discriminate].
    injection E as <- <- <-. split; [auto|]. split; [auto|]. apply no_flag_inside; auto.
  - destruct (Nat.eqb_spec (count_true (map2 (outside c) xt yt)) 0).
    + injection E as <- <- <-. split; [auto|]. split; [auto|]. apply no_flag_inside; auto.
    + apply IH in E; [|rewrite !mask_put_length; auto]. rewrite mask_put_length in E. auto.
Qed.

Lemma write_fits s n xt yt a b c t s' : wf s -> (N_mp s < capacity s)%nat -> length xt = n ->
  write_uniform s n xt yt a b c t = Some s' -> (N_mp s + n <= capacity s)%nat.
Proof.
  intros W F L E. unfold write_uniform in E. destruct (slice_set (x_mp s) _ _ _) eqn:X; [|discriminate].
  apply slice_overflow in X; auto.
Qed.

Lemma add_fits n b s s' : wf s -> (N_mp s < capacity s)%nat -> length (b_x b) = n ->
  add_new_MPs n b s = Some s' -> (N_mp s + n <= capacity s)%nat.
Proof.
  intros W F L E. unfold add_new_MPs in E. destruct (slice_set (x_mp s) _ _ _) eqn:X; [|discriminate].
  apply slice_overflow in X; auto.
Qed.

Lemma generated_none out s : wf s -> generated out s s [].
Proof.
  intros W. constructor; auto.
  - rewrite app_nil_r. auto.
  - unfold same_cfg. auto 10.
Qed.

Lemma close_rounded req u n s s' : 0 <= u -> 0 < nel_mp_ref s -> rounded (req / nel_mp_ref s) u n ->
  charge s' = charge s + INR n * nel_mp_ref s -> close_charge req s s'.
Proof.
  intros Hu Hr Hn C. unfold close_charge. rewrite C. apply rounded_close in Hn; auto.
  replace (charge s + INR n * nel_mp_ref s - charge s - req) with ((INR n - req / nel_mp_ref s) * nel_mp_ref s)
    by (field; lra).
  rewrite Rabs_mult, (Rabs_right (nel_mp_ref s)) by lra.
  pose proof (Rmult_lt_compat_r (nel_mp_ref s) _ _ Hr Hn). lra.
Qed.

Lemma rounded0 req u s n : rounded (req / nel_mp_ref s) u n -> n = 0%nat -> charge s = charge s + INR n * nel_mp_ref s.
Proof. intros _ ->. cbn. lra. Qed.

Lemma gas_DNel_nonneg kc g lam Dt : 0 < kB kc -> 0 <= c_light kc -> 0 <= gs_P g -> 0 <= gs_sigma g -> 0 < gs_T g ->
  0 <= lam -> 0 <= Dt -> 0 <= gas_DNel kc g lam Dt.
Proof.
  intros. unfold gas_DNel. apply Rmult_le_pos; auto. apply Rmult_le_pos; auto. apply Rmult_le_pos; auto.
  apply Rmult_le_pos; [|apply Rmult_le_pos; lra].
  unfold Rdiv at 1. apply Rmult_le_pos.
  - apply Rmult_le_pos; lra.
  - left. apply Rinv_0_lt_compat. apply Rmult_lt_0_compat; auto.
Qed.

Lemma gas_main fuel kc g c mass lam Dt sx sy xb yb sr k s s' k' :
  wf s -> (N_mp s < capacity s)%nat -> 0 < nel_mp_ref s -> (forall j, 0 <= s_uni sr j < 1) ->
  gs_life g = flag_lifetime_hist s -> 0 <= gas_DNel kc g lam Dt ->
  gas_generate fuel kc g c mass lam Dt sx sy xb yb sr k s = Some (s', k') ->
  exists new, generated (outside c) s s' new /\ never_hit new /\
    rounded (gas_DNel kc g lam Dt / nel_mp_ref s) (s_uni sr k) (length new) /\
    close_charge (gas_DNel kc g lam Dt) s s'.
Proof.
  intros W F Hr HU HL HD E. unfold gas_generate in E.
  set (q := gas_DNel kc g lam Dt / nel_mp_ref s) in *.
  assert (Hq : 0 <= q) by (unfold q, Rdiv; apply Rmult_le_pos; auto; left; apply Rinv_0_lt_compat; auto).
  destruct (stoch_round_rounded q (s_uni sr k) Hq) as (n & En & Rn). rewrite En in E.
  destruct (Z.ltb_spec 0 (Z.of_nat n)) as [Hn|Hn].
  - rewrite Nat2Z.id in E. set (unif := map _ (draw (s_uni sr) _ n)) in *.
    assert (LU : length unif = n) by (unfold unif; rewrite map_length, draw_length; auto).
    pose proof (gas_coord_length sx xb (x_aper c) sr (S k + n) unif) as LX. 
    destruct (gas_coord sx xb (x_aper c) sr (S k + n) unif) as [xt k1]. cbn [fst] in LX.
    pose proof (gas_coord_length sy yb (y_aper c) sr k1 unif) as LY. 
    destruct (gas_coord sy yb (y_aper c) sr k1 unif) as [yt k2]. cbn [fst] in LY.
    destruct (redraw_gas fuel c sx sy xb yb sr k2 unif xt yt) as [[[xt' yt'] k3]|] eqn:RD; [|discriminate].
    apply redraw_gas_ok in RD; auto. destruct RD as (LX' & LY' & IN). cbn [bind] in E.
    rewrite HL in E.
    match type of E with context[bind ?o _] => 
      replace o with (Some (if flag_lifetime_hist s then slice_fill (t_last_impact s) (N_mp s) (N_mp s + n) (-1) else t_last_impact s)) in E
       by (destruct (flag_lifetime_hist s); reflexivity) end.
    cbn [bind] in E.
    match type of E with context[write_uniform s n xt' yt' ?a ?b ?d ?t] =>
      destruct (write_uniform s n xt' yt' a b d t) as [s1|] eqn:WU; [|discriminate] end.
    cbn [bind] in E. injection E as <- <-.
    assert (Fit : (N_mp s + n <= capacity s)%nat) by (eapply write_fits; eauto; lia).
    rewrite write_uniform_add in WU by auto.
    destruct (full_batch_added (outside c) _ _ _ _ _ _ _ _ W F (eq_trans LX' LU) (eq_trans LY' LU)
      (repeat_length _ _) (repeat_length _ _) (repeat_length _ _) IN Fit WU) as (new & G & NH & LN & _ & CH).
    exists new. split; [auto|]. split; [auto|]. rewrite LN. split; [auto|].
    apply (close_rounded _ (s_uni sr k) n); auto. apply HU.
  - injection E as <- <-. assert (n = 0%nat) by lia. subst n. exists []. split; [apply generated_none; auto|].
    split; [constructor|]. split; [auto|]. apply (close_rounded _ (s_uni sr k) 0); auto; [apply HU|]. cbn. lra.
Qed.
