(** The cross section table, the targets and histories. *)
From Coq Require Import Lra Lia String Psatz.
From Verif Require Import Num NumFacts MP SpecMP MPFacts RegenFacts SourceFacts CrossIon SpecCrossIon CrossIonFacts CrossIonFacts2.
Local Open Scope list_scope.
Local Open Scope R_scope.

(** * The table *)
Lemma xdiff_length l : List.length (xdiff l) = pred (List.length l).
Proof. induction l as [|a [|b l] IH]; auto. cbn [xdiff List.length pred] in *. rewrite IH. auto. Qed.

Lemma xdiff_nth l : forall i, (S i < List.length l)%nat -> nth i (xdiff l) 0 = nth (S i) l 0 - nth i l 0.
Proof.
  induction l as [|a [|b l] IH]; intros i H; cbn [List.length] in H; try lia.
  destruct i; [reflexivity|]. change (nth i (xdiff (b :: l)) 0 = nth (S i) (b :: l) 0 - nth i (b :: l) 0). apply IH. cbn. lia.
Qed.

Lemma rmin_list_least l : forall d, (forall x, In x l -> d <= x) -> rmin_list d l = d.
Proof.
  induction l as [|a l IH]; intros d H; cbn; auto. rewrite Rmin_left by (apply H; cbn; auto). apply IH. intros; apply H; cbn; auto.
Qed.

Lemma rmax_list_ge l : forall d, d <= rmax_list d l /\ forall x, In x l -> x <= rmax_list d l.
Proof.
  induction l as [|a l IH]; intros d; cbn; [split; [lra|tauto]|]. destruct (IH (Rmax d a)) as [A B].
  pose proof (Rmax_l d a). pose proof (Rmax_r d a). split; [lra|]. intros x [->|Hx]; [lra|auto].
Qed.

Lemma rmax_list_In l : forall d, In (rmax_list d l) (d :: l).
Proof.
  induction l as [|a l IH]; intros d; cbn [rmax_list]; [cbn; auto|]. destruct (IH (Rmax d a)) as [A|A].
  - rewrite <- A. unfold Rmax. destruct (Rle_dec d a); cbn; auto.
  - cbn. auto.
Qed.

Lemma rmax_list_is l d M : In M (d :: l) -> (forall x, In x (d :: l) -> x <= M) -> rmax_list d l = M.
Proof.
  intros H1 H2. apply Rle_antisym; [apply H2, rmax_list_In|]. destruct (rmax_list_ge l d) as [A B].
  destruct H1 as [<-|H1]; auto.
Qed.

Lemma all_equal_repeat (l : list R) h n : List.length l = n -> (forall i, (i < n)%nat -> nth i l 0 = h) -> l = repeat h n.
Proof.
  revert n; induction l as [|a l IH]; intros n L H; cbn in L; subst; auto. cbn. f_equal; [apply (H 0%nat); lia|].
  apply IH; auto. intros i Hi. apply (H (S i)). lia.
Qed.

Lemma steps_equal (l : list R) g0 h z n : List.length l = S (S n) ->
  (forall i, (i < List.length l)%nat -> nth i l 0 = g0 + INR i * h) -> h * 10 ^ 8 = IZR z ->
  map round8 (xdiff l) = repeat h (S n).
Proof.
  intros L G Z. apply all_equal_repeat; [rewrite map_length, xdiff_length, L; auto|]. intros i Hi.
  rewrite (nth_indep _ 0 (round8 0)) by (rewrite map_length, xdiff_length, L; cbn; lia).
  rewrite map_nth, xdiff_nth by lia. rewrite !G by lia. rewrite S_INR.
  replace (g0 + (INR i + 1) * h - (g0 + INR i * h)) with h by ring. eapply round8_exact; eauto.
Qed.

Lemma no_diff h n : existsb (fun d => negb (Reqb d h)) (repeat h n) = false.
Proof. induction n; cbn; auto. rewrite IHn. unfold Reqb. destruct (Req_EM_T h h); [auto|congruence]. Qed.

Lemma interp_at t sigma x i r : t_sigma t = sigma -> t_dsigma t = xdiff sigma ++ [0] -> 0 < t_dx t ->
  (i < List.length sigma)%nat -> 0 <= r < 1 -> (S i = List.length sigma -> r = 0) ->
  x = t_xmin t + (INR i + r) * t_dx t -> xinterp t x = Some (nth i sigma 0 + r * (nth (S i) sigma 0 - nth i sigma 0)).
Proof.
  intros S1 S2 Hd Hi Hr Hl ->. unfold xinterp. unfold Reqb. destruct (Req_EM_T (t_dx t) 0); [lra|].
  replace ((t_xmin t + (INR i + r) * t_dx t - t_xmin t) / t_dx t) with (INR i + r) by (field; lra).
  assert (T : rtrunc (INR i + r) = Z.of_nat i).
  { rewrite rtrunc_nonneg by (pose proof (pos_INR i); lra). apply rfloor_unique. rewrite <- INR_IZR_INZ. lra. }
  rewrite T, <- INR_IZR_INZ, S1, S2. cbn zeta.
  assert (PN : forall (l : list R) (H : (i < List.length l)%nat), py_nth l (Z.of_nat i) = Some (nth i l 0)).
  { intros l H. unfold py_nth. destruct (Z.leb_spec 0 (Z.of_nat i)); [|lia].
    rewrite Nat2Z.id. apply nth_error_nth'. auto. }
  rewrite PN by auto. cbn [bind]. rewrite PN by (rewrite app_length, xdiff_length; cbn; lia). cbn [bind]. do 2 f_equal.
  replace (INR i + r - INR i) with r by ring. destruct (Nat.eq_dec (S i) (List.length sigma)) as [E|E].
  - rewrite (Hl E). ring.
  - f_equal. rewrite app_nth1 by (rewrite xdiff_length; lia). apply xdiff_nth. lia.
Qed.

Lemma grid_bounds energy (e0 h : R) n : List.length energy = S n ->
  (forall i, (i < List.length energy)%nat -> nth i energy 0 = e0 + INR i * h) -> 0 < h ->
  exists es, energy = e0 :: es /\ rmin_list e0 es = e0 /\ rmax_list e0 es = e0 + INR n * h.
Proof.
  intros L G Hh. destruct energy as [|a es]; [discriminate|].
  assert (a = e0) by (specialize (G 0%nat ltac:(cbn; lia)); cbn in G; lra). subst. exists es. split; auto.
  assert (K : forall x, In x (e0 :: es) -> e0 <= x <= e0 + INR n * h).
  { intros x Hx. apply (In_nth _ _ 0) in Hx. destruct Hx as (i & Hi & <-). rewrite G by auto. pose proof (pos_INR i).
    assert (INR i <= INR n) by (apply le_INR; lia). nra. }
  split.
  - apply rmin_list_least. intros x Hx. apply K. cbn. auto.
  - apply rmax_list_is; [|intros x Hx; apply K; auto]. rewrite <- (G n) by lia. apply nth_In. lia.
Qed.

Lemma mul_unit x : x * (1 / 10 ^ 4) = x / 10 ^ 4.
Proof. unfold Rdiv. ring. Qed.

Lemma table_linear energy sigma e0 h n : uniform_grid energy e0 h -> List.length energy = S (S n) -> List.length sigma = S (S n) ->
  exists t, xtab_ctor energy sigma = Some t /\
    (forall E, E < e0 \/ e0 + INR (S n) * h < E -> get_sigma t E = Some 0) /\
    (forall i r, (i <= S n)%nat -> 0 <= r < 1 -> (i = S n -> r = 0) ->
       get_sigma t (e0 + (INR i + r) * h) = Some (between sigma i r)).
Proof.
  intros (G & Hh & z & Hz) LE LS. destruct (grid_bounds energy e0 h (S n) LE G Hh) as (es & EE & MI & MA).
  assert (ST := steps_equal energy e0 h z n LE G Hz).
  exists (mkXtab e0 (e0 + INR (S n) * h) sigma (xdiff sigma ++ [0]) h e0 false). split; [|split].
  - unfold xtab_ctor. rewrite EE in *. rewrite MI, MA, ST.
    change (repeat h (S n)) with (h :: repeat h n). cbv beta iota.
    change (h :: repeat h n) with (repeat h (S n)). rewrite no_diff. reflexivity.
  - intros E HE. unfold get_sigma. cbn [t_emin t_emax t_log]. unfold Rltb.
    destruct (Rlt_dec E e0); [f_equal; ring|]. destruct (Rlt_dec (e0 + INR (S n) * h) E); [f_equal; ring|]. exfalso. destruct HE; contradiction.
  - intros i r Hi Hr Hl. assert (0 <= INR i) by apply pos_INR. assert (INR i + r <= INR (S n)).
    { destruct (Nat.eq_dec i (S n)) as [->|]; [rewrite (Hl eq_refl); lra|]. assert (INR (S i) <= INR (S n)) by (apply le_INR; lia).
      rewrite (S_INR i) in *. lra. }
    assert (0 <= (INR i + r) * h) by (apply Rmult_le_pos; lra).
    assert ((INR i + r) * h <= INR (S n) * h) by (apply Rmult_le_compat_r; lra).
    unfold get_sigma. cbn [t_emin t_emax t_log]. unfold Rltb.
    destruct (Rlt_dec _ e0); [lra|]. destruct (Rlt_dec (e0 + INR (S n) * h) _); [lra|].
    rewrite (interp_at _ sigma _ i r); cbn [t_sigma t_dsigma t_dx t_xmin]; auto; [|lia|].
    + cbn [bind]. f_equal. unfold between. apply mul_unit.
    + intros K. apply Hl. lia.
Qed.

(** Every energy of the range is at some fraction of some step. *)
Lemma locate e0 h n E : 0 < h -> e0 <= E <= e0 + INR n * h ->
  exists i r, (i <= n)%nat /\ 0 <= r < 1 /\ (i = n -> r = 0) /\ E = e0 + (INR i + r) * h.
Proof.
  intros Hh HE. set (q := (E - e0) / h).
  assert (Hq : E = e0 + q * h) by (unfold q; field; lra).
  assert (Q0 : 0 <= q) by (unfold q, Rdiv; apply Rmult_le_pos; [lra|left; apply Rinv_0_lt_compat; auto]).
  assert (Qn : q <= INR n) by (apply (Rmult_le_reg_r h); lra).
  pose proof (rfloor_bounds q) as FB.
  assert (F0 : (0 <= rfloor q)%Z) by (apply rfloor_ge; lra).
  exists (Z.to_nat (rfloor q)), (q - IZR (rfloor q)).
  rewrite INR_IZR_INZ, Z2Nat.id by auto. split; [|split; [lra|split; [|rewrite Hq at 1; f_equal; ring]]].
  - rewrite INR_IZR_INZ in Qn. assert (IZR (rfloor q) <= IZR (Z.of_nat n)) by lra. apply le_IZR in H. lia.
  - intros En. assert (rfloor q = Z.of_nat n) by lia. rewrite H in *. rewrite <- INR_IZR_INZ in *. lra.
Qed.

Lemma between_nonneg sigma i r n : Forall (fun v => 0 <= v) sigma -> List.length sigma = S n -> (i <= n)%nat -> 0 <= r < 1 -> (i = n -> r = 0) ->
  0 <= between sigma i r.
Proof.
  intros F L Hi Hr Hl. unfold between. apply Rmult_le_pos; [|left; apply Rinv_0_lt_compat; apply pow_lt; lra].
  rewrite Forall_forall in F. assert (0 <= nth i sigma 0) by (apply F, nth_In; lia).
  destruct (Nat.eq_dec i n) as [E|E]; [rewrite (Hl E); lra|].
  assert (0 <= nth (S i) sigma 0) by (apply F, nth_In; lia). nra.
Qed.

Lemma table_linear_nonneg energy sigma e0 h n t : uniform_grid energy e0 h -> List.length energy = S (S n) -> List.length sigma = S (S n) ->
  xtab_ctor energy sigma = Some t -> Forall (fun v => 0 <= v) sigma -> forall E, exists s, get_sigma t E = Some s /\ 0 <= s.
Proof.
  intros G LE LS C F E. destruct (table_linear energy sigma e0 h n G LE LS) as (t' & C' & O & I).
  rewrite C in C'. injection C' as <-. destruct G as (_ & Hh & _).
  destruct (Rlt_dec E e0) as [H|H]; [exists 0; split; [apply O; auto|lra]|].
  destruct (Rlt_dec (e0 + INR (S n) * h) E) as [K|K]; [exists 0; split; [apply O; auto|lra]|].
  destruct (locate e0 h (S n) E Hh ltac:(lra)) as (i & r & Hi & Hr & Hl & ->).
  eexists. split; [apply I; auto|]. eapply between_nonneg; eauto.
Qed.

(** Logarithmic tables. *)
Lemma ln10_pos : 0 < ln 10.
Proof. rewrite <- ln_1. apply ln_increasing; lra. Qed.

Lemma rlog10_lt a b : 0 < a -> a < b -> rlog10 a < rlog10 b.
Proof. intros. unfold rlog10, Rdiv. apply Rmult_lt_compat_r; [apply Rinv_0_lt_compat, ln10_pos|]. apply ln_increasing; auto. Qed.

Lemma rlog10_le a b : 0 < a -> a <= b -> rlog10 a <= rlog10 b.
Proof. intros H [K| ->]; [left; apply rlog10_lt; auto|lra]. Qed.

Lemma rlog10_inv_le a b : 0 < a -> 0 < b -> rlog10 a <= rlog10 b -> a <= b.
Proof. intros A B H. destruct (Rle_dec a b); auto. assert (rlog10 b < rlog10 a) by (apply rlog10_lt; lra). lra. Qed.

Lemma table_log energy sigma l0 h n : log_grid energy l0 h -> List.length energy = S (S n) -> List.length sigma = S (S n) ->
  exists t, xtab_ctor energy sigma = Some t /\
    (forall E, 0 < E -> rlog10 E < l0 \/ l0 + INR (S n) * h < rlog10 E -> get_sigma t E = Some 0) /\
    (forall E, E <= 0 -> get_sigma t E = Some 0) /\
    (forall E i r, 0 < E -> (i <= S n)%nat -> 0 <= r < 1 -> (i = S n -> r = 0) ->
       rlog10 E = l0 + (INR i + r) * h -> get_sigma t E = Some (between sigma i r)).
Proof.
  intros (G & Hh & (z & Hz) & (u & Hu & HU)) LE LS.
  assert (GP : forall x, In x energy -> 0 < x).
  { intros x Hx. apply (In_nth _ _ 0) in Hx. destruct Hx as (i & Hi & <-). apply G. auto. }
  assert (GL : forall i, (i < List.length (map rlog10 energy))%nat -> nth i (map rlog10 energy) 0 = l0 + INR i * h).
  { intros i Hi. rewrite map_length in Hi. rewrite (nth_indep _ 0 (rlog10 0)) by (rewrite map_length; auto). rewrite map_nth.
    apply G. auto. }
  assert (LM : List.length (map rlog10 energy) = S (S n)) by (rewrite map_length; auto).
  assert (ST := steps_equal _ l0 h z n LM GL Hz).
  destruct energy as [|a es]; [discriminate|].
  assert (La : rlog10 a = l0) by (specialize (GL 0%nat ltac:(cbn; lia)); cbn in GL; lra).
  set (M := nth (S n) (a :: es) 0).
  assert (LMx : rlog10 M = l0 + INR (S n) * h) by (apply G; lia).
  assert (MP : 0 < M) by (apply G; lia).
  assert (AP : 0 < a) by (apply GP; cbn; auto).
  assert (K : forall x, In x (a :: es) -> a <= x <= M).
  { intros x Hx. assert (PX := GP _ Hx). apply (In_nth _ _ 0) in Hx. destruct Hx as (i & Hi & <-).
    assert (E : rlog10 (nth i (a :: es) 0) = l0 + INR i * h) by (apply G; auto).
    pose proof (pos_INR i). assert (INR i <= INR (S n)) by (apply le_INR; lia).
    split; apply rlog10_inv_le; auto; rewrite ?E, ?La, ?LMx; nra. }
  assert (MI : rmin_list a es = a) by (apply rmin_list_least; intros; apply K; cbn; auto).
  assert (MA : rmax_list a es = M) by (apply rmax_list_is; [apply nth_In; lia|intros; apply K; auto]).
  exists (mkXtab a M sigma (xdiff sigma ++ [0]) h (rlog10 a) true). split; [|split; [|split]].
  - unfold xtab_ctor. rewrite MI, MA. rewrite ST. change (repeat h (S n)) with (h :: repeat h n). cbv beta iota.
    destruct (map round8 (xdiff (a :: es))) as [|d0 ds] eqn:DE.
    { apply (f_equal (@List.length R)) in DE. rewrite map_length, xdiff_length in DE. cbn in *. lia. }
    assert (N0 : forall i, (S i < List.length (a :: es))%nat -> nth i (d0 :: ds) 0 = round8 (nth (S i) (a :: es) 0 - nth i (a :: es) 0)).
    { intros i Hi. rewrite <- DE, (nth_indep _ 0 (round8 0)) by (rewrite map_length, xdiff_length; lia).
      rewrite map_nth, xdiff_nth by auto. auto. }
    assert (X1 : existsb (fun d => negb (Reqb d d0)) (d0 :: ds) = true).
    { apply existsb_exists. exists (nth (S u) (d0 :: ds) 0). split.
      - apply nth_In. rewrite <- DE, map_length, xdiff_length. lia.
      - rewrite N0 by auto. assert (d0 = nth 0 (d0 :: ds) 0) by auto. rewrite H, N0 by lia.
        unfold Reqb. destruct (Req_EM_T _ _); [contradiction|auto]. }
    rewrite X1.
    assert (X2 : existsb (fun e => Rleb e 0) (a :: es) = false).
    { apply Bool.not_true_iff_false. intros X. apply existsb_exists in X. destruct X as (e & He & Le). apply GP in He.
      unfold Rleb in Le. destruct (Rle_dec e 0); [lra|discriminate]. }
    rewrite X2. change (h :: repeat h n) with (repeat h (S n)). rewrite no_diff. reflexivity.
  - intros E PE HE. unfold get_sigma. cbn [t_emin t_emax t_log]. unfold Rltb.
    destruct (Rlt_dec E a); [f_equal; ring|]. destruct (Rlt_dec M E); [f_equal; ring|]. exfalso.
    assert (rlog10 a <= rlog10 E) by (apply rlog10_le; lra). assert (rlog10 E <= rlog10 M) by (apply rlog10_le; lra). lra.
  - intros E HE. unfold get_sigma. cbn [t_emin]. unfold Rltb. destruct (Rlt_dec E a); [f_equal; ring|lra].
  - intros E i r PE Hi Hr Hl HL. assert (0 <= INR i) by apply pos_INR. assert (INR i + r <= INR (S n)).
    { destruct (Nat.eq_dec i (S n)) as [->|]; [rewrite (Hl eq_refl); lra|]. assert (INR (S i) <= INR (S n)) by (apply le_INR; lia).
      rewrite (S_INR i) in *. lra. }
    assert (0 <= (INR i + r) * h) by (apply Rmult_le_pos; lra).
    assert ((INR i + r) * h <= INR (S n) * h) by (apply Rmult_le_compat_r; lra).
    unfold get_sigma. cbn [t_emin t_emax t_log]. unfold Rltb.
    destruct (Rlt_dec E a) as [X|X]; [apply rlog10_lt in X; auto; lra|]. destruct (Rlt_dec M E) as [Y|Y]; [apply rlog10_lt in Y; auto; lra|].
    rewrite (interp_at _ sigma _ i r); cbn [t_sigma t_dsigma t_dx t_xmin]; auto; [|lia| |rewrite HL, La; auto].
    + cbn [bind]. f_equal. unfold between. apply mul_unit.
    + intros Q. apply Hl. lia.
Qed.

(** * One call *)
Lemma generate_main qe Dt x cl rng k x' cl' k' : 0 <= Dt ->
  targets_ok x -> tables_ok x -> prods_ok x -> clouds_ok cl ->
  cross_generate qe Dt x cl rng k = Some (x', cl', k') ->
  Forall2 (grown (is_projectile x cl) (xi_cnt x) (xi_cnt x')) cl cl' /\
  fired (c_DN (xi_cnt x)) (procs_of x) (procs_of x') (c_DN (xi_cnt x')) /\
  xi_prods x' = xi_prods x /\ map fst (xi_procs x') = map fst (xi_procs x) /\
  forall c, In c cl -> ~ In (xc_name c) (xi_prods x) -> In c cl'.
Proof.
  intros Ht TO TA PR CO E. unfold cross_generate in E.
  destruct (proj_loop _ _ _ _ _ _ _ _) as [[[[procs d] cnt] k1]|] eqn:PL; [|discriminate]. cbn [bind] in E.
  destruct (add_loop _ _ _ _) as [[cl1 cnt1]|] eqn:AL; [|discriminate]. cbn [bind] in E. injection E as <- <- <-.
  apply (proj_loop_ok (from_clouds cl (map fst (xi_procs x)))) in PL; auto using init_dict_pts.
  destruct PL as (A1 & A2 & A3 & A4 & A5).
  destruct (add_loop_ok _ (is_projectile x cl) (xi_prods x) d A1) with (cl := cl) (cnt := cnt) (cl' := cl1) (cnt' := cnt1) as (B1 & B2 & B3 & B4); auto.
  - intros p j (c & C1 & C2 & C3) X Y Z. exists (xc_name c), c. do 3 (split; [auto|]).
    unfold projectiles in C3. apply in_map_iff in C3. destruct C3 as (i & <- & Hi). exists (mp_at (xc_mp c) i).
    split; [unfold live; apply in_map; auto|]. cbn in *. auto.
  - cbn [xi_cnt xi_prods xi_procs procs_of]. split; [|split; [|auto]].
    + revert B1. apply Forall2_impl_In. intros a b _ H. unfold grown in *. rewrite A2, A3 in H. exact H.
    + rewrite B2. exact A5.
Qed.

(** * Histories *)
Lemma charge_of_absent cl m : ~ In m (map xc_name cl) -> charge_of cl m = 0.
Proof.
  unfold charge_of. induction cl as [|c cl IH]; cbn [map]; intros H; [reflexivity|]. cbn [rsum fold_right]. fold rsum.
  destruct (String.eqb_spec (xc_name c) m) as [E|E]; [exfalso; apply H; cbn; auto|].
  change (0 + rsum (map (fun c => if String.eqb (xc_name c) m then charge (xc_mp c) else 0) cl) = 0). rewrite IH; [lra|cbn in H; tauto].
Qed.

Lemma grown_totals P cnt cnt' cl cl' m : Forall2 (grown P cnt cnt') cl cl' -> NoDup (map xc_name cl) -> In m (map xc_name cl) ->
  charge_of cl' m - charge_of cl m = c_nel cnt' m - c_nel cnt m /\
  (number_of cl' m - number_of cl m = c_N cnt' m - c_N cnt m)%Z.
Proof.
  assert (AB : forall cl cl', Forall2 (grown P cnt cnt') cl cl' -> ~ In m (map xc_name cl) ->
     charge_of cl' m - charge_of cl m = 0 /\ (number_of cl' m - number_of cl m = 0)%Z).
  { clear. intros cl cl' F. induction F as [|c c' cl cl' G F IH]; intros H.
    - unfold charge_of, number_of. cbn. split; [lra|lia].
    - destruct (IH ltac:(cbn in H; tauto)) as [IH1 IH2]. destruct G as (Nm & _).
      unfold charge_of, number_of in *. cbn [map rsum fold_right]. fold rsum. rewrite Nm.
      destruct (String.eqb_spec (xc_name c) m) as [E|E]; [exfalso; apply H; cbn; auto|].
      change (0 + rsum (map (fun c => if String.eqb (xc_name c) m then charge (xc_mp c) else 0) cl')
        - (0 + rsum (map (fun c => if String.eqb (xc_name c) m then charge (xc_mp c) else 0) cl)) = 0 /\
        (0 + fold_right Z.add 0 (map (fun c => if String.eqb (xc_name c) m then Z.of_nat (N_mp (xc_mp c)) else 0) cl')
        - (0 + fold_right Z.add 0 (map (fun c => if String.eqb (xc_name c) m then Z.of_nat (N_mp (xc_mp c)) else 0) cl)) = 0)%Z).
      split; [lra|lia]. }
  intros F. induction F as [|c c' cl cl' G F IH]; intros ND Hin; [destruct Hin|].
  inversion ND as [|? ? Nin ND']; subst. destruct G as (Nm & _ & W & _ & _ & new & L & _ & Q1 & Q2).
  unfold charge_of, number_of in *. cbn [map rsum fold_right]. fold rsum. rewrite Nm.
  match goal with |- ?f - ?g = _ /\ _ => change f with ((if String.eqb (xc_name c) m then charge (xc_mp c') else 0) + rsum (map (fun c => if String.eqb (xc_name c) m then charge (xc_mp c) else 0) cl'));
    change g with ((if String.eqb (xc_name c) m then charge (xc_mp c) else 0) + rsum (map (fun c => if String.eqb (xc_name c) m then charge (xc_mp c) else 0) cl)) end.
  destruct (String.eqb_spec (xc_name c) m) as [E|E].
  - subst m. destruct (AB _ _ F Nin) as [A1 A2].
    assert (charge (xc_mp c') = charge (xc_mp c) + rsum (map m_nel new)) by (unfold charge; rewrite L, map_app, rsum_app; auto).
    assert (N_mp (xc_mp c') = (N_mp (xc_mp c) + List.length new)%nat).
    { apply (f_equal (@List.length mp)) in L. unfold live in L. rewrite app_length, !map_length, !seq_length in L. auto. }
    split; [lra|lia].
  - destruct Hin as [?|Hin]; [contradiction|]. destruct (IH ND' Hin) as [I1 I2]. split; [lra|lia].
Qed.

(** What is in the counters and what has been read is what has been added. *)
Definition books (x : xion) (cl : list xcloud) (L : ledger) (r0 : string -> R) (n0 : string -> Z) : Prop :=
  forall m, In m (map xc_name cl) -> c_nel (xi_cnt x) m + read L m = added L m + r0 m /\ (c_N (xi_cnt x) m + readN L m = addedN L m + n0 m)%Z.

Lemma grown_names P cnt cnt' cl cl' : Forall2 (grown P cnt cnt') cl cl' -> map xc_name cl' = map xc_name cl.
Proof. induction 1 as [|c c' cl cl' G F IH]; cbn; auto. destruct G as (-> & _). rewrite IH. auto. Qed.

Lemma hstep_books qe x cl L x' cl' L' r0 n0 : books x cl L r0 n0 -> hstep qe (x, cl, L) (x', cl', L') ->
  books x' cl' L' r0 n0 /\ map xc_name cl' = map xc_name cl.
Proof.
  intros B H. inversion H; subst.
  - match goal with E : cross_generate _ _ _ _ _ _ = Some _ |- _ => apply generate_main in E; auto; destruct E as (G & _) end.
    assert (NM := grown_names _ _ _ _ _ G). split; auto. intros m Hm. rewrite NM in Hm. cbn [added addedN read readN].
    destruct (B m Hm) as [B1 B2].
    match goal with C : clouds_ok _ |- _ => destruct (grown_totals _ _ _ _ _ m G (proj1 C) Hm) as [T1 T2] end.
    split; [lra|lia].
  - split; auto. intros m Hm. destruct (B m Hm) as [B1 B2].
    match goal with E : save_cross_ion_data _ _ = _ |- _ => unfold save_cross_ion_data in E; injection E as <- <- <- <- end.
    cbn [xi_cnt c_nel c_N added addedN read readN]. unfold bump. destruct (String.eqb_spec m name) as [->|N]; [split; [lra|lia]|auto].
  - split; auto. intros m Hm. match goal with E : map xc_name _ = _ |- _ => rewrite E in Hm end. apply B. auto.
Qed.

Lemma hrun_books qe s s' r0 n0 : hrun qe s s' ->
  books (fst (fst s)) (snd (fst s)) (snd s) r0 n0 -> books (fst (fst s')) (snd (fst s')) (snd s') r0 n0.
Proof.
  induction 1 as [s|[[x cl] L] [[x2 cl2] L2] s3 H R IH]; intros B; auto. apply IH. cbn in *. eapply hstep_books in H; eauto. tauto.
Qed.

(** * The targets *)
Lemma fired_targets c ps ps' c' : fired c ps ps' c' ->
  Forall2 (fun p p' => exists dn, 0 <= dn /\ depleted p p' dn /\ x_prods p' = x_prods p /\ x_tab p' = x_tab p /\ x_area p' = x_area p) ps ps'.
Proof.
  induction 1 as [|p p' dn ps ps' c1 c2 H D F IH E]; constructor; auto. exists dn. split; [auto|]. split; [auto|].
  destruct D as [[-> _]|(_ & _ & ? & ? & ? & _)]; auto.
Qed.

(** One process: the target stays above zero as long as it holds what is
    ionised. *)
Lemma deplete_nonneg p D : D <= x_N p -> 0 < x_area p -> 0 <= x_N (deplete p D) /\ 0 <= x_dens (deplete p D).
Proof.
  intros H A. assert (0 <= round3 (x_N p - D)) by (apply round3_nonneg; lra). cbn. split; auto.
  unfold Rdiv. apply Rmult_le_pos; auto. left. apply Rinv_0_lt_compat. auto.
Qed.
