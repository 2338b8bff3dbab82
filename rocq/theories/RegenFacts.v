From Verif Require Import Num NumFacts Fort FortFacts MP SpecMP SpecRegen MPFacts MPFacts2.

(* ---------- cell numbering ---------- *)
Lemma div_mul_add q d r : (0 <= r < d)%Z -> ((q * d + r) / d = q)%Z.
Proof. intros H. rewrite Z.add_comm, Z_div_plus by lia. rewrite Z.div_small; lia. Qed.

Lemma digit_bound a b n m : (0 <= a < n -> 0 <= b < m -> 0 <= a * m + b < n * m)%Z.
Proof. intros. nia. Qed.

Lemma unflatten_flat cfg ix iy ivx ivy ivz :
  cell_ok cfg ix iy ivx ivy ivz ->
  unflatten cfg (flat_index cfg ix iy ivx ivy ivz) = (ix, iy, ivx, ivy, ivz).
Proof.
  intros (Hx & Hy & Hvx & Hvy & Hvz). unfold unflatten, flat_index.
  set (Ny := Ny_reg cfg) in *. set (Nvx := Nvx_reg cfg) in *.
  set (Nvy := Nvy_reg cfg) in *. set (Nvz := Nvz_reg cfg) in *.
  set (a := (ix - 1)%Z). set (b := (iy - 1)%Z). set (c := (ivx - 1)%Z).
  set (d := (ivy - 1)%Z). set (e := (ivz - 1)%Z).
  replace (a * Ny * Nvx * Nvy * Nvz + b * Nvx * Nvy * Nvz + c * Nvy * Nvz + d * Nvz + ivz - 1)%Z
    with (a * (Ny * Nvx * Nvy * Nvz) + (b * (Nvx * Nvy * Nvz) + (c * (Nvy * Nvz) + (d * Nvz + e))))%Z
    by (subst e; ring).
  assert (B1 : (0 <= d * Nvz + e < Nvy * Nvz)%Z) by (apply digit_bound; subst d e; lia).
  assert (B2 : (0 <= c * (Nvy * Nvz) + (d * Nvz + e) < Nvx * (Nvy * Nvz))%Z)
    by (apply digit_bound; subst c; lia).
  assert (B3 : (0 <= b * (Nvx * Nvy * Nvz) + (c * (Nvy * Nvz) + (d * Nvz + e)) < Ny * Nvx * Nvy * Nvz)%Z).
  { replace (Nvx * Nvy * Nvz)%Z with (Nvx * (Nvy * Nvz))%Z by ring.
    replace (Ny * Nvx * Nvy * Nvz)%Z with (Ny * (Nvx * (Nvy * Nvz)))%Z by ring.
    apply digit_bound; subst b; lia. }
  rewrite (div_mul_add a) by lia.
  replace (a * (Ny * Nvx * Nvy * Nvz) + (b * (Nvx * Nvy * Nvz) + (c * (Nvy * Nvz) + (d * Nvz + e))) - a * (Ny * Nvx * Nvy * Nvz))%Z
    with (b * (Nvx * Nvy * Nvz) + (c * (Nvy * Nvz) + (d * Nvz + e)))%Z by ring.
  rewrite (div_mul_add b) by lia.
  replace (b * (Nvx * Nvy * Nvz) + (c * (Nvy * Nvz) + (d * Nvz + e)) - b * (Nvx * Nvy * Nvz))%Z
    with (c * (Nvy * Nvz) + (d * Nvz + e))%Z by ring.
  rewrite (div_mul_add c) by lia.
  replace (c * (Nvy * Nvz) + (d * Nvz + e) - c * (Nvy * Nvz))%Z with (d * Nvz + e)%Z by ring.
  rewrite (div_mul_add d) by (subst e; lia).
  replace (d * Nvz + e - d * Nvz)%Z with e by ring.
  subst a b c d e. repeat f_equal; lia.
Qed.

Lemma flat_index_bounds cfg ix iy ivx ivy ivz :
  cell_ok cfg ix iy ivx ivy ivz ->
  (0 <= flat_index cfg ix iy ivx ivy ivz
     < Nx_reg cfg * Ny_reg cfg * Nvx_reg cfg * Nvy_reg cfg * Nvz_reg cfg)%Z.
Proof.
  intros (Hx & Hy & Hvx & Hvy & Hvz). unfold flat_index.
  set (Nx := Nx_reg cfg) in *.
  set (Ny := Ny_reg cfg) in *. set (Nvx := Nvx_reg cfg) in *.
  set (Nvy := Nvy_reg cfg) in *. set (Nvz := Nvz_reg cfg) in *.
  set (a := (ix - 1)%Z). set (b := (iy - 1)%Z). set (c := (ivx - 1)%Z).
  set (d := (ivy - 1)%Z). set (e := (ivz - 1)%Z).
  replace (a * Ny * Nvx * Nvy * Nvz + b * Nvx * Nvy * Nvz + c * Nvy * Nvz + d * Nvz + ivz - 1)%Z
    with ((((a * Ny + b) * Nvx + c) * Nvy + d) * Nvz + e)%Z by (subst e; ring).
  repeat apply digit_bound; subst a b c d e; lia.
Qed.

Lemma flat_index_inj cfg ix iy ivx ivy ivz jx jy jvx jvy jvz :
  cell_ok cfg ix iy ivx ivy ivz -> cell_ok cfg jx jy jvx jvy jvz ->
  flat_index cfg ix iy ivx ivy ivz = flat_index cfg jx jy jvx jvy jvz ->
  (ix, iy, ivx, ivy, ivz) = (jx, jy, jvx, jvy, jvz).
Proof.
  intros H1 H2 E. rewrite <- (unflatten_flat cfg ix iy ivx ivy ivz H1), E.
  apply unflatten_flat; auto.
Qed.

(* ---------- the index of a coordinate ---------- *)
Lemma reg_bias_odd k : reg_bias (2 * k + 1) = (k + 1)%Z.
Proof.
  unfold reg_bias. apply rceil_unique. rewrite !plus_IZR, mult_IZR. lra.
Qed.
Lemma reg_bias_even k : reg_bias (2 * k) = k.
Proof. unfold reg_bias. apply rceil_unique. rewrite mult_IZR. lra. Qed.

Lemma raround_le x n : x <= IZR n -> (raround x <= n)%Z.
Proof.
  intros H. pose proof (raround_err x) as E. apply Rabs_le_inv in E.
  destruct (Z_le_gt_dec (raround x) n) as [|G]; auto. exfalso.
  assert (n + 1 <= raround x)%Z by lia. apply IZR_le in H0. rewrite plus_IZR in H0.
  (* then x >= raround x - 1/2 >= n + 1/2 > n *) lra.
Qed.
Lemma raround_ge x n : IZR n <= x -> (n <= raround x)%Z.
Proof.
  intros H. pose proof (raround_err x) as E. apply Rabs_le_inv in E.
  destruct (Z_le_gt_dec n (raround x)) as [|G]; auto. exfalso.
  assert (raround x + 1 <= n)%Z by lia. apply IZR_le in H0. rewrite plus_IZR in H0. lra.
Qed.

Lemma raround_half_le x n : x <= IZR n - 1/2 -> (raround x <= n)%Z.
Proof. intros. apply raround_le. lra. Qed.

Lemma raround_lt_half x n : IZR n - 1/2 < x -> (n <= raround x)%Z.
Proof.
  intros H. pose proof (raround_err x) as E. apply Rabs_le_inv in E.
  destruct (Z_le_gt_dec n (raround x)) as [|G]; auto. exfalso.
  assert (raround x + 1 <= n)%Z by lia. apply IZR_le in H0. rewrite plus_IZR in H0. lra.
Qed.

Lemma raround_neg_half n : Z.even n = true -> raround (IZR n - 1/2) = n.
Proof.
  intros He. unfold raround.
  assert (E : Int_part (IZR n - 1/2) = (n - 1)%Z).
  { apply (rfloor_unique _ (n-1)). rewrite minus_IZR. lra. }
  rewrite E, minus_IZR. destruct (Rlt_dec _ _); [lra|]. destruct (Rlt_dec _ _); [lra|].
  rewrite Z.even_sub, He. simpl. lia.
Qed.

Lemma raround_neg_half_odd n : Z.even n = false -> raround (IZR n - 1/2) = (n - 1)%Z.
Proof.
  intros He. unfold raround.
  assert (E : Int_part (IZR n - 1/2) = (n - 1)%Z).
  { apply (rfloor_unique _ (n-1)). rewrite minus_IZR. lra. }
  rewrite E, minus_IZR. destruct (Rlt_dec _ _); [lra|]. destruct (Rlt_dec _ _); [lra|].
  rewrite Z.even_sub, He. simpl. reflexivity.
Qed.

Lemma scaled_range v h N :
  0 < h -> (2 <= N)%Z -> Rabs v <= h ->
  - (IZR (N - 1) / 2) <= v / reg_step h N <= IZR (N - 1) / 2.
Proof.
  intros Hh HN Hv. unfold reg_step. apply Rabs_le_inv in Hv.
  assert (HP : 0 < IZR (N - 1)) by (apply (IZR_lt 0); lia).
  replace (v / (2 * h / IZR (N - 1))) with (v * / h * (IZR (N - 1) / 2)) by (field; lra).
  assert (-1 <= v * / h <= 1).
  { assert (0 < / h) by (apply Rinv_0_lt_compat; auto).
    split.
    - apply Rmult_le_reg_r with h; auto. rewrite Rmult_assoc, Rinv_l by lra. lra.
    - apply Rmult_le_reg_r with h; auto. rewrite Rmult_assoc, Rinv_l by lra. lra. }
  nra.
Qed.

(** In range for odd sizes and for sizes that are 2 modulo 4. *)
Lemma reg_index_range v h N :
  0 < h -> (2 <= N)%Z -> (N mod 4 <> 0)%Z -> Rabs v <= h ->
  (1 <= reg_index v (reg_step h N) N <= N)%Z.
Proof.
  intros Hh HN Hmod Hv. pose proof (scaled_range v h N Hh HN Hv) as [H1 H2].
  unfold reg_index. set (u := v / reg_step h N) in *.
  destruct (Z.Even_or_Odd N) as [[k ->]|[k ->]].
  - rewrite reg_bias_even. rewrite minus_IZR, mult_IZR in *.
    assert (Hk : Z.even k = false).
    { destruct (Z.even k) eqn:E; auto. apply Z.even_spec in E as [j ->].
      exfalso. apply Hmod. replace (2 * (2 * j))%Z with (j * 4)%Z by ring. apply Z_mod_mult. }
    split.
    + destruct (Rlt_dec (IZR (1 - k) - 1/2) u) as [G|G].
      * pose proof (raround_lt_half u (1 - k) G). lia.
      * assert (u = IZR (1 - k) - 1/2) as -> by (rewrite minus_IZR in *; lra).
        rewrite raround_neg_half; [lia|].
        rewrite Z.even_sub, Hk. reflexivity.
    + assert (raround u <= k)%Z by (apply raround_half_le; lra). lia.
  - rewrite reg_bias_odd. rewrite minus_IZR, plus_IZR, mult_IZR in *.
    assert (raround u <= k)%Z by (apply raround_le; lra).
    assert (- k <= raround u)%Z by (apply raround_ge; rewrite opp_IZR; lra). lia.
Qed.

(** In range for every size when the coordinate is not the extreme one. *)
Lemma reg_index_range_strict v h N :
  0 < h -> (2 <= N)%Z -> Rabs v < h ->
  (1 <= reg_index v (reg_step h N) N <= N)%Z.
Proof.
  intros Hh HN Hv.
  assert (HP : 0 < IZR (N - 1)) by (apply (IZR_lt 0); lia).
  assert (H1 : - (IZR (N - 1) / 2) < v / reg_step h N < IZR (N - 1) / 2).
  { unfold reg_step. apply Rabs_def2 in Hv.
    replace (v / (2 * h / IZR (N - 1))) with (v * / h * (IZR (N - 1) / 2)) by (field; lra).
    assert (-1 < v * / h < 1).
    { assert (0 < / h) by (apply Rinv_0_lt_compat; auto). split.
      - apply Rmult_lt_reg_r with h; auto. rewrite Rmult_assoc, Rinv_l by lra. lra.
      - apply Rmult_lt_reg_r with h; auto. rewrite Rmult_assoc, Rinv_l by lra. lra. }
    nra. }
  unfold reg_index. set (u := v / reg_step h N) in *.
  destruct (Z.Even_or_Odd N) as [[k ->]|[k ->]].
  - rewrite reg_bias_even. rewrite minus_IZR, mult_IZR in *.
    assert (raround u <= k)%Z by (apply raround_half_le; lra).
    assert (1 - k <= raround u)%Z by (apply raround_lt_half; rewrite minus_IZR; lra). lia.
  - rewrite reg_bias_odd. rewrite minus_IZR, plus_IZR, mult_IZR in *.
    assert (raround u <= k)%Z by (apply raround_le; lra).
    assert (- k <= raround u)%Z by (apply raround_ge; rewrite opp_IZR; lra). lia.
Qed.

Lemma reg_index_zero h k :
  0 < h -> (1 <= k)%Z -> Z.even k = true -> reg_index (- h) (reg_step h (2 * k)) (2 * k) = 0%Z.
Proof.
  intros Hh Hk He. unfold reg_index. rewrite reg_bias_even.
  assert (0 < IZR (2 * k - 1)) by (apply (IZR_lt 0); lia).
  replace (- h / reg_step h (2 * k)) with (IZR (1 - k) - 1/2).
  - rewrite raround_neg_half_odd; [lia|]. rewrite Z.even_sub, He. reflexivity.
  - unfold reg_step. rewrite !minus_IZR, mult_IZR in *. field. lra.
Qed.

(** Distance between a coordinate and the centre of its cell. *)
Lemma reg_index_near v D N :
  D <> 0 -> Rabs (v - IZR (reg_index v D N - reg_bias N) * D) <= Rabs D / 2.
Proof.
  intros HD. unfold reg_index.
  replace (raround (v / D) + reg_bias N - reg_bias N)%Z with (raround (v / D)) by ring.
  pose proof (raround_err (v / D)) as E.
  replace (v - IZR (raround (v / D)) * D) with ((v / D - IZR (raround (v / D))) * D) by (field; auto).
  rewrite Rabs_mult. pose proof (Rabs_pos D). nra.
Qed.

(* ---------- sorted set ---------- *)
Lemma insert_uniq_In z l c : In c (insert_uniq z l) <-> c = z \/ In c l.
Proof.
  induction l as [|a l IH]; simpl; [intuition|].
  destruct (z <? a)%Z; simpl; [intuition|]. destruct (Z.eqb_spec z a); simpl; [subst; intuition|].
  rewrite IH. intuition.
Qed.

Inductive sortedZ : list Z -> Prop :=
| so_nil : sortedZ []
| so_cons a l : (forall b, In b l -> (a < b)%Z) -> sortedZ l -> sortedZ (a :: l).

Lemma insert_uniq_sorted z l : sortedZ l -> sortedZ (insert_uniq z l).
Proof.
  induction 1 as [|a l Ha Hl IH]; simpl.
  - constructor; [easy|constructor].
  - destruct (Z.ltb_spec z a).
    + constructor; [|constructor; auto]. intros b [<-|Hb]; auto. specialize (Ha b Hb); lia.
    + destruct (Z.eqb_spec z a); [constructor; auto|].
      constructor; auto. intros b Hb. apply insert_uniq_In in Hb as [->|Hb]; [lia|auto].
Qed.

Lemma sorted_NoDup l : sortedZ l -> NoDup l.
Proof.
  induction 1 as [|a l Ha Hl IH]; constructor; auto. intros Hin. specialize (Ha a Hin); lia.
Qed.

Lemma sorted_set_spec l : NoDup (sorted_set l) /\ forall c, In c (sorted_set l) <-> In c l.
Proof.
  split.
  - apply sorted_NoDup. induction l; simpl; [constructor|]. apply insert_uniq_sorted; auto.
  - intros c. induction l as [|a l IH]; simpl; [tauto|]. rewrite insert_uniq_In, IH. intuition.
Qed.

(* ---------- charge per cell ---------- *)
Lemma cell_charge_sum idx nel c :
  cell_charge idx nel c
  = rsum (map snd (filter (fun p => (fst p =? c)%Z) (combine idx nel))).
Proof.
  unfold cell_charge.
  assert (G : forall l acc, fold_left (fun acc p => if (fst p =? c)%Z then acc + snd p else acc) l acc
    = acc + rsum (map (@snd Z R) (filter (fun p => (fst p =? c)%Z) l))).
  { induction l as [|p l IH]; intros acc; simpl; [unfold rsum; simpl; lra|].
    rewrite IH. destruct (fst p =? c)%Z; simpl; rewrite ?rsum_cons; lra. }
  rewrite G. lra.
Qed.

Lemma cells_total (f : Z * R -> R) l cells :
  NoDup cells -> (forall p, In p l -> In (fst p) cells) ->
  rsum (map (fun c => rsum (map f (filter (fun p => (fst p =? c)%Z) l))) cells) = rsum (map f l).
Proof.
  intros HN. induction l as [|p l IH]; intros Hin; simpl.
  - rewrite (rsum_ext _ (fun _ => 0)); [apply rsum_zero|]. intros; reflexivity.
  - rewrite rsum_cons, <- IH by (intros; apply Hin; right; auto).
    rewrite <- (rsum_single cells (fst p) (fun _ => f p) HN) by (apply Hin; left; auto).
    rewrite <- rsum_map_plus. apply rsum_ext. intros c Hc.
    rewrite Z.eqb_sym. destruct (c =? fst p)%Z; simpl; rewrite ?rsum_cons; lra.
Qed.

Lemma rsum_cell_charge idx nel cells :
  NoDup cells -> (forall c, In c idx -> In c cells) -> length idx = length nel ->
  rsum (map (cell_charge idx nel) cells) = rsum nel.
Proof.
  intros HN Hin HL.
  rewrite (rsum_ext _ (fun c => rsum (map snd (filter (fun p => (fst p =? c)%Z) (combine idx nel)))))
    by (intros; apply cell_charge_sum).
  rewrite cells_total; auto.
  - rewrite <- (map_id nel) at 2. f_equal.
    revert nel HL. clear. induction idx; intros [|q nel] H; simpl in *; try easy. f_equal; auto.
  - intros [a b] Hp. apply in_combine_l in Hp. apply Hin; auto.
Qed.

(* ---------- stochastic rounding ---------- *)
Lemma stoch_round_cases q u :
  stoch_round q u = rfloor q \/ stoch_round q u = (rfloor q + 1)%Z.
Proof. unfold stoch_round. destruct (Rltb _ _); auto. Qed.

Lemma stoch_round_err q u : 0 <= u -> Rabs (IZR (stoch_round q u) - q) < 1.
Proof.
  intros Hu. unfold stoch_round. pose proof (rfloor_bounds q).
  destruct (Rltb u (q - IZR (rfloor q))) eqn:E.
  - apply Rltb_true in E. rewrite plus_IZR. apply Rabs_def1; lra.
  - apply Rabs_def1; lra.
Qed.

Lemma stoch_round_nonneg q u : 0 <= q -> (0 <= stoch_round q u)%Z.
Proof.
  intros H. assert (0 <= rfloor q)%Z by (apply rfloor_ge; lra).
  destruct (stoch_round_cases q u) as [->| ->]; lia.
Qed.

(* ---------- generation loop ---------- *)
Definition near (D c x : R) : Prop := Rabs (x - c) <= Rabs D / 2.

Lemma jitter_near cs D us :
  length us = length cs -> Forall (fun u => 0 <= u < 1) us -> Forall2 (near D) cs (jitter cs D us).
Proof.
  unfold jitter. revert us; induction cs as [|c cs IH]; intros [|u us] HL HF; simpl in *; try easy; auto.
  inversion HF; subst. constructor; [|apply IH; auto].
  unfold near. replace (c + D * (u - 1/2) - c) with (D * (u - 1/2)) by ring.
  rewrite Rabs_mult. assert (Rabs (u - 1/2) <= 1/2) by (apply Rabs_le; lra).
  pose proof (Rabs_pos D). nra.
Qed.

Lemma jitter_length cs D us : length us = length cs -> length (jitter cs D us) = length cs.
Proof. intros H. unfold jitter. rewrite map2_length. lia. Qed.

Lemma draw_unit rng k n : unit_rng rng -> Forall (fun u => 0 <= u < 1) (draw rng k n).
Proof. intros H. unfold draw. apply Forall_map, Forall_forall. intros; apply H. Qed.

Lemma Forall2_mask_get {A B} (P : A -> B -> Prop) m a b :
  Forall2 P a b -> Forall2 P (mask_get m a) (mask_get m b).
Proof.
  intros H; revert m; induction H; intros [|c m]; simpl; auto. destruct c; auto.
Qed.

Lemma Forall2_mask_put {A B} (P : A -> B -> Prop) m cs a v :
  length m = length a -> Forall2 P cs a -> Forall2 P (mask_get m cs) v -> Forall2 P cs (mask_put m a v).
Proof.
  intros HL H; revert m v HL; induction H as [|c x cs a HP H IH]; intros [|b m] v HL HV; simpl in *; try easy; auto.
  injection HL as HL. destruct b.
  - inversion HV; subst. constructor; auto.
  - constructor; auto.
Qed.

Lemma count_true_0 m : count_true m = 0%nat -> Forall (fun b => b = false) m.
Proof.
  induction m as [|b m IH]; simpl; auto. destruct b; [discriminate|]. auto.
Qed.

Lemma map2_false_Forall2 {A B} (f : A -> B -> bool) a b :
  length a = length b -> Forall (fun c => c = false) (map2 f a b) -> Forall2 (fun x y => f x y = false) a b.
Proof.
  revert b; induction a as [|x a IH]; intros [|y b] HL HF; simpl in *; try easy; auto.
  inversion HF; subst. constructor; auto.
Qed.

Lemma redraw_cells_spec fuel c Dx Dy cxs cys rng : forall k xt yt xt' yt' k',
  unit_rng rng -> length cxs = length cys ->
  Forall2 (near Dx) cxs xt -> Forall2 (near Dy) cys yt ->
  redraw_cells fuel c Dx Dy cxs cys rng k xt yt = Some (xt', yt', k') ->
  Forall2 (near Dx) cxs xt' /\ Forall2 (near Dy) cys yt' /\
  Forall2 (fun x y => outside c x y = false) xt' yt'.
Proof.
  induction fuel as [|fuel IH]; intros k xt yt xt' yt' k' HU HL HX HY E.
  - simpl in E. destruct (Nat.eqb_spec (count_true (map2 (outside c) xt yt)) 0); [|discriminate].
    injection E as <- <- <-. split; [auto|]. split; [auto|].
    apply map2_false_Forall2; [|apply count_true_0; auto].
    apply Forall2_length in HX, HY. lia.
  - cbn [redraw_cells] in E.
    destruct (Nat.eqb_spec (count_true (map2 (outside c) xt yt)) 0).
    + injection E as <- <- <-. split; [auto|]. split; [auto|].
      apply map2_false_Forall2; [|apply count_true_0; auto].
      apply Forall2_length in HX, HY. lia.
    + assert (L1 := Forall2_length HX). assert (L2 := Forall2_length HY).
      set (flag := map2 (outside c) xt yt) in *.
      assert (LF : length flag = length xt) by (subst flag; rewrite map2_length; lia).
      eapply IH; [| | | |exact E]; auto.
      * apply Forall2_mask_put; auto. apply jitter_near; [|apply draw_unit; auto].
        rewrite draw_length, mask_get_length; lia.
      * apply Forall2_mask_put; [lia|auto|]. apply jitter_near; [|apply draw_unit; auto].
        rewrite draw_length, mask_get_length; lia.
Qed.

(** What is known of slot [i] filled for cell centre [c]. *)
Definition slot_ok (ch : chamber) (d : steps) (c : centre) (x y vx vy vz : R) : Prop :=
  near (sx d) (cx c) x /\ near (sy d) (cy c) y /\ near (svx d) (cvx c) vx /\
  near (svy d) (cvy c) vy /\ near (svz d) (cvz c) vz /\ outside ch x y = false.

Record fill_inv (ch : chamber) (d : steps) (cap : nat) (cen : Z -> centre)
  (st : fillst) (own : list Z) : Prop := mkInv {
  i_x : length (f_x st) = cap; i_y : length (f_y st) = cap;
  i_vx : length (f_vx st) = cap; i_vy : length (f_vy st) = cap; i_vz : length (f_vz st) = cap;
  i_N : f_N st = length own;
  i_fit : (f_N st <= cap)%nat;
  i_slot : forall i c, nth_error own i = Some c ->
     slot_ok ch d (cen c) (nth i (f_x st) 0) (nth i (f_y st) 0) (nth i (f_vx st) 0)
       (nth i (f_vy st) 0) (nth i (f_vz st) 0) }.

Lemma ins_nth_old (a v : list R) N n i :
  (i < N)%nat -> (N <= length a)%nat ->
  nth i (firstn N a ++ v ++ skipn (N + n) a) 0 = nth i a 0.
Proof.
  intros Hi Hl. rewrite app_nth1 by (rewrite firstn_length; lia). apply nth_firstn; auto.
Qed.

Lemma ins_nth_new (a v : list R) N n i :
  (N <= length a)%nat -> (i < length v)%nat ->
  nth (N + i) (firstn N a ++ v ++ skipn (N + n) a) 0 = nth i v 0.
Proof.
  intros Hl Hi. rewrite app_nth2 by (rewrite firstn_length; lia).
  rewrite firstn_length, Nat.min_l by lia.
  replace (N + i - N)%nat with i by lia. apply app_nth1; auto.
Qed.

Lemma Forall2_nth {A} (P : A -> R -> Prop) a b i c :
  Forall2 P a b -> nth_error a i = Some c -> P c (nth i b 0).
Proof.
  intros H; revert i; induction H; intros [|i] E; simpl in *; try discriminate; auto.
  injection E as <-; auto.
Qed.

Lemma Forall2_map_l {A} (P : R -> R -> Prop) (f : A -> R) (l : list A) (b : list R) i c :
  Forall2 P (map f l) b -> nth_error l i = Some c -> P (f c) (nth i b 0).
Proof. intros H E. eapply Forall2_nth; [exact H|]. apply map_nth_error; auto. Qed.

Definition dec_num (flag : list bool) (num : list Z) : list Z :=
  map2 (fun (b : bool) n => if b then (n - 1)%Z else n) flag num.

Lemma dec_num_length num : length (dec_num (map (fun n => (0 <? n)%Z) num) num) = length num.
Proof. unfold dec_num. rewrite map2_length, map_length. lia. Qed.

Lemma dec_num_sum num :
  nsum (map Z.to_nat num)
  = (count_true (map (fun n => (0 <? n)%Z) num)
     + nsum (map Z.to_nat (dec_num (map (fun n => (0 <? n)%Z) num) num)))%nat.
Proof.
  induction num as [|z num IH]; simpl; auto. unfold dec_num in *.
  destruct (Z.ltb_spec 0 z); simpl; fold (nsum (map Z.to_nat num)) in *; lia.
Qed.

Lemma dec_num_count (cells : list Z) num c :
  length cells = length num -> NoDup cells ->
  forall j z, nth_error cells j = Some c -> nth_error num j = Some z ->
  exists z', nth_error (dec_num (map (fun n => (0 <? n)%Z) num) num) j = Some z' /\
    (count_occ Z.eq_dec (mask_get (map (fun n => (0 <? n)%Z) num) cells) c + Z.to_nat z')%nat
    = Z.to_nat z.
Proof.
  revert num; induction cells as [|a cells IH]; intros [|w num] HL HN j z Hc Hz; simpl in *; try discriminate.
  - destruct j; discriminate.
  - inversion HN as [|? ? Hni HN']; subst.
    assert (Hnot : forall m, ~ In a (mask_get m cells)) by (intros m Hm; apply Hni; eapply mask_get_In; eauto).
    destruct j as [|j]; simpl in *.
    + injection Hc as ->. injection Hz as ->.
      destruct (Z.ltb_spec 0 z).
      * eexists; split; [reflexivity|]. cbn [count_occ]. destruct (Z.eq_dec c c); [|easy].
        rewrite (proj1 (count_occ_not_In Z.eq_dec _ c) (Hnot _)). lia.
      * eexists; split; [reflexivity|]. rewrite (proj1 (count_occ_not_In Z.eq_dec _ c) (Hnot _)). lia.
    + destruct (IH num ltac:(lia) HN' j z Hc Hz) as (z' & E & C). exists z'. split; [exact E|].
      destruct (0 <? w)%Z; auto. cbn [count_occ]. destruct (Z.eq_dec a c); auto.
      subst. exfalso. apply Hni. eapply nth_error_In; eauto.
Qed.

Lemma fill_loop_spec fuel fuel_in ch d cap cen cells rng : forall num st own st',
  unit_rng rng -> NoDup cells -> length cells = length num ->
  fill_inv ch d cap cen st own ->
  (length own + nsum (map Z.to_nat num) <= cap)%nat ->
  fill_loop fuel fuel_in ch d (map cen cells) num rng st = Some st' ->
  exists own', fill_inv ch d cap cen st' (own ++ own') /\
    (forall c, In c own' -> In c cells) /\
    (forall j c z, nth_error cells j = Some c -> nth_error num j = Some z ->
       count_occ Z.eq_dec own' c = Z.to_nat z) /\
    length own' = nsum (map Z.to_nat num).
Proof.
  assert (Base : forall num, count_true (map (fun n => (0 <? n)%Z) num) = 0%nat ->
     Forall (fun z => Z.to_nat z = 0%nat) num).
  { induction num as [|z num IH]; simpl; auto. destruct (Z.ltb_spec 0 z); [discriminate|].
    intros. constructor; auto. lia. }
  assert (BaseS : forall num, Forall (fun z => Z.to_nat z = 0%nat) num -> nsum (map Z.to_nat num) = 0%nat).
  { induction 1 as [|z num Hz HF IH]; simpl; auto. unfold nsum in *. simpl. lia. }
  induction fuel as [|fuel IH]; intros num st own st' HU HN HL HI Hfit E.
  - cbn [fill_loop] in E. destruct (Nat.eqb_spec (count_true (map (fun n => (0 <? n)%Z) num)) 0) as [E0|]; [|discriminate].
    injection E as <-. exists []. rewrite app_nil_r. specialize (Base num E0).
    split; [auto|]. split; [easy|]. split.
    + intros j c z _ Hz. rewrite Forall_forall in Base. symmetry. apply Base. eapply nth_error_In; eauto.
    + symmetry. apply BaseS; auto.
  - cbn [fill_loop] in E.
    set (flag := map (fun n => (0 <? n)%Z) num) in *.
    destruct (Nat.eqb_spec (count_true flag) 0) as [E0|Hn0].
    { injection E as <-. exists []. rewrite app_nil_r. specialize (Base num E0).
      split; [auto|]. split; [easy|]. split.
      + intros j c z _ Hz. rewrite Forall_forall in Base. symmetry. apply Base. eapply nth_error_In; eauto.
      + symmetry. apply BaseS; auto. }
    set (n := count_true flag) in *. rewrite mask_get_map in E.
    set (sel := mask_get flag cells) in *.
    assert (Lsel : length sel = n).
    { subst sel n flag. apply mask_get_length. rewrite map_length. lia. }
    match type of E with bind (redraw_cells _ _ _ _ ?cx_ ?cy_ _ ?k0 ?xt0 ?yt0) _ = _ =>
      destruct (redraw_cells fuel_in ch (sx d) (sy d) cx_ cy_ rng k0 xt0 yt0) as [[[xt yt] k1]|] eqn:ER;
      [|discriminate] end.
    cbn [bind] in E.
    assert (JN : forall (g : centre -> R) D k0, Forall2 (near D) (map g (map cen sel))
        (jitter (map g (map cen sel)) D (draw rng k0 n))).
    { intros g D k0. apply jitter_near; [|apply draw_unit; auto]. rewrite draw_length, !map_length; auto. }
    apply redraw_cells_spec in ER; [|exact HU|rewrite !map_length; reflexivity|apply JN|apply JN].
    destruct ER as (RX & RY & RO).
    pose proof (dec_num_sum num) as DS. fold flag in DS. fold n in DS.
    destruct HI as [Ix Iy Ivx Ivy Ivz IN If Is].
    assert (LX : length xt = n) by (apply Forall2_length in RX; rewrite !map_length in RX; lia).
    assert (LY : length yt = n) by (apply Forall2_length in RY; rewrite !map_length in RY; lia).
    assert (HS : forall a v : list R, length a = cap -> length v = n ->
      slice_set a (f_N st) (f_N st + n) v = Some (firstn (f_N st) a ++ v ++ skipn (f_N st + n) a)).
    { intros a v Ha Hv. apply slice_set_exact; lia. }
    assert (LJ : forall (g : centre -> R) D k0, length (jitter (map g (map cen sel)) D (draw rng k0 n)) = n).
    { intros. rewrite jitter_length; rewrite ?draw_length, ?map_length; auto. }
    rewrite !HS in E by auto. cbn [bind] in E.
    assert (HI' : fill_inv ch d cap cen
      (mkFill (firstn (f_N st) (f_x st) ++ xt ++ skipn (f_N st + n) (f_x st))
              (firstn (f_N st) (f_y st) ++ yt ++ skipn (f_N st + n) (f_y st))
              (firstn (f_N st) (f_vx st) ++ jitter (map cvx (map cen sel)) (svx d) (draw rng (f_k st + 2 * n) n) ++ skipn (f_N st + n) (f_vx st))
              (firstn (f_N st) (f_vy st) ++ jitter (map cvy (map cen sel)) (svy d) (draw rng (f_k st + 3 * n) n) ++ skipn (f_N st + n) (f_vy st))
              (firstn (f_N st) (f_vz st) ++ jitter (map cvz (map cen sel)) (svz d) (draw rng (f_k st + 4 * n) n) ++ skipn (f_N st + n) (f_vz st))
              (f_N st + n) k1) (own ++ sel)).
    { constructor; simpl.
      - apply ins_length; auto; lia.
      - apply ins_length; auto; lia.
      - apply ins_length; auto; lia.
      - apply ins_length; auto; lia.
      - apply ins_length; auto; lia.
      - rewrite app_length. lia.
      - lia.
      - intros i c Hc. destruct (Nat.lt_ge_cases i (length own)) as [Hi|Hi].
        + rewrite nth_error_app1 in Hc by auto. rewrite !ins_nth_old by lia. apply Is; auto.
        + rewrite nth_error_app2 in Hc by auto.
          assert (Hi2 : (i - length own < n)%nat).
          { rewrite <- Lsel. apply nth_error_Some. congruence. }
          replace i with (f_N st + (i - length own))%nat by lia.
          rewrite !ins_nth_new by (rewrite ?LJ; lia).
          assert (Hc' : nth_error (map cen sel) (i - length own) = Some (cen c)) by (apply map_nth_error; auto).
          set (i' := (i - length own)%nat) in *.
          unfold slot_ok.
          split; [exact (Forall2_map_l _ cx _ _ _ _ RX Hc')|].
          split; [exact (Forall2_map_l _ cy _ _ _ _ RY Hc')|].
          split; [exact (Forall2_map_l _ cvx _ _ _ _ (JN cvx (svx d) _) Hc')|].
          split; [exact (Forall2_map_l _ cvy _ _ _ _ (JN cvy (svy d) _) Hc')|].
          split; [exact (Forall2_map_l _ cvz _ _ _ _ (JN cvz (svz d) _) Hc')|].
          assert (Hx : nth_error xt i' = Some (nth i' xt 0)) by (apply nth_error_nth'; lia).
          apply (Forall2_nth _ _ _ _ _ RO Hx). }
    assert (HLd : length cells = length (dec_num flag num)) by (unfold flag; rewrite dec_num_length; auto).
    assert (Hfd : (length (own ++ sel) + nsum (map Z.to_nat (dec_num flag num)) <= cap)%nat)
      by (rewrite app_length; lia).
    destruct (IH (dec_num flag num) _ (own ++ sel) st' HU HN HLd HI' Hfd E) as (own' & H1 & H2 & H3 & H4).
    exists (sel ++ own'). rewrite app_assoc. split; [auto|]. split; [|split].
    + intros c Hc. apply in_app_iff in Hc as [Hc|Hc]; auto. subst sel. eapply mask_get_In; eauto.
    + intros j c z Hc Hz. rewrite count_occ_app.
        destruct (dec_num_count cells num c HL HN j z Hc Hz) as (z' & Ez & Cz).
        rewrite (H3 j c z' Hc Ez). exact Cz.
    + rewrite app_length. lia.
Qed.
