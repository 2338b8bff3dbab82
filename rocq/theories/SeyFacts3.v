(** Splitting, tables and charging surfaces. *)
From Coq Require Import Lra Lia Reals Psatz.
From Verif Require Import Num NumFacts Sey SpecSey SeyFacts SeyFacts2.

(** * Splitting *)
Lemma n_clones_ok q th : 0 < th ->
  q / (INR (n_clones q th) + 1) <= th /\ (n_clones q th <> 0%nat -> INR (n_clones q th) * th < q).
Proof.
  intros Hth. unfold n_clones. pose proof (rceil_bounds (q / th)) as B.
  set (z := rceil (q / th)) in *. set (n := Z.to_nat (z - 1)).
  pose proof (pos_INR n) as Hn. assert (Q : q = q / th * th) by (field; lra). split.
  - assert (IZR z <= INR n + 1).
    { destruct (Z_le_gt_dec z 1) as [L|L]; [apply IZR_le in L; lra|].
      unfold n. rewrite INR_IZR_INZ, Z2Nat.id, minus_IZR by lia. lra. }
    apply (Rmult_le_reg_r (INR n + 1)); [lra|]. unfold Rdiv at 1. rewrite Rmult_assoc, Rinv_l, Rmult_1_r by lra.
    rewrite Q. rewrite (Rmult_comm th). apply Rmult_le_compat_r; lra.
  - intros NZ. assert (1 < z)%Z by (unfold n in NZ; lia).
    assert (E : INR n = IZR z - 1) by (unfold n; rewrite INR_IZR_INZ, Z2Nat.id, minus_IZR by lia; auto).
    rewrite E, Q. apply Rmult_lt_compat_r; lra.
Qed.

Lemma combine_fst {A B} (a : list A) (b : list B) : length a = length b -> map fst (combine a b) = a.
Proof. revert b. induction a as [|x a IH]; intros [|y b] H; try discriminate; cbn; f_equal; auto. Qed.
Lemma combine_snd {A B} (a : list A) (b : list B) : length a = length b -> map snd (combine a b) = b.
Proof. revert b. induction a as [|x a IH]; intros [|y b] H; try discriminate; cbn; f_equal; auto. Qed.

Lemma Forall2_at {A B} (P : A -> B -> Prop) a b i da db : Forall2 P a b -> (i < length a)%nat -> P (nth i a da) (nth i b db).
Proof. intros F. revert i. induction F; intros [|i] H'; cbn in *; try lia; auto. apply IHF. lia. Qed.

Lemma combine_map3 (V : list (R * R * R)) : combine (combine (map fst3 V) (map snd3 V)) (map thd3 V) = V.
Proof. induction V as [|[[a b] c] V IH]; cbn; f_equal; auto. Qed.

Definition x0 : imp * (R * bool) := (imp0, (0, false)).

(** What one call does, for any outcome [pr] of the emission process. *)
Lemma emit_spec c th fs sr k ps pr e k' :
  0 < th -> src_ok sr -> 0 < c_qe c -> 0 < c_mass c -> length pr = length ps ->
  Forall unit_n ps -> Forall (fun p => 0 <= i_E p) ps ->
  emit_surface c th fs sr k ps pr = Some (e, k') ->
  (exists counts, split_spec th ps counts e /\ vel_spec c ps counts e) /\
  o_tot e = map fst pr /\ emis_sized (length ps) fs e /\
  (forall i, (i < length ps)%nat -> nth i (o_type e) 9%nat = (if nth i (map snd pr) false then 0%nat else 1%nat)).
Proof.
  intros Hth Hs Hq Hm HL Hu HE H. set (l := combine ps pr).
  assert (L1 : map fst l = ps) by (apply combine_fst; lia). assert (L2 : map snd l = pr) by (apply combine_snd; lia).
  assert (LL : length l = length ps) by (rewrite <- L1, map_length; auto).
  rewrite <- L1, <- L2 in H. apply emit_view in H; auto.
  2:{ intros x Hx. rewrite Forall_forall in Hu. apply Hu. rewrite <- L1. apply in_map. auto. }
  2:{ intros x Hx. rewrite Forall_forall in HE. apply HE. rewrite <- L1. apply in_map. auto. }
  cbv zeta in H. rewrite L1 in H.
  destruct H as (T & TY & EX & NE & X & Y & Z & SG & NN & NX & NY & NZ & NS & (W & W1 & W2 & W3 & WF) & (V & V1 & V2 & V3 & VF)).
  set (cs := map (ncl th) l) in *.
  assert (LC : length cs = length ps) by (unfold cs; rewrite map_length; auto).
  assert (TYN : forall i, (i < length ps)%nat -> nth i (o_type e) 9%nat = typ (nth i l x0)).
  { intros i Hi. rewrite TY. rewrite (nth_indep _ 9%nat (typ x0)) by (rewrite map_length; lia). apply map_nth. }
  split; [exists cs; split|split; [|split]].
  - unfold split_spec. do 10 (split; [auto|]).
    intros i Hi. rewrite T, NE. unfold cs. rewrite (TYN i Hi).
    rewrite (nth_indep (map (fun x => fst (snd x)) l) 0 (fst (snd x0))) by (rewrite map_length; lia).
    rewrite (map_nth (fun x => fst (snd x)) l x0 i).
    rewrite (nth_indep (map (nelr th) l) 0 (nelr th x0)) by (rewrite map_length; lia).
    rewrite (map_nth (nelr th) l x0 i).
    rewrite (nth_indep (map (ncl th) l) 0%nat (ncl th x0)) by (rewrite map_length; lia).
    rewrite (map_nth (ncl th) l x0 i).
    destruct (nth i l x0) as [p [q b]]. unfold nelr, ncl, typ. cbn [fst snd]. destruct b.
    + cbn. repeat split; auto; try lra; intros; discriminate.
    + destruct (n_clones_ok q th Hth) as [A B]. pose proof (pos_INR (n_clones q th)).
      repeat split; auto; try (intros; discriminate). field. lra.
  - split.
    + intros i Hi. rewrite (TYN i Hi). unfold impat.
      pose proof (Forall2_at _ _ _ i x0 (0,0,0) WF ltac:(lia)) as WI. cbv beta in WI.
      assert (PI : nth i ps imp0 = fst (nth i l x0)).
      { rewrite <- L1 at 1. rewrite (nth_indep (map fst l) imp0 (fst x0)) by (rewrite map_length; lia). apply map_nth. }
      rewrite PI.
      assert (LW : length W = length ps) by (apply Forall2_length in WF; lia).
      assert (VV : (nth i (o_vx e) 0, nth i (o_vy e) 0, nth i (o_vz e) 0) = nth i W (0,0,0)).
      { rewrite W1, W2, W3.
        pose proof (map_nth fst3 W (0,0,0) i) as Q1. pose proof (map_nth snd3 W (0,0,0) i) as Q2.
        pose proof (map_nth thd3 W (0,0,0) i) as Q3. cbn [fst3 snd3 thd3 fst snd] in Q1, Q2, Q3.
        change (fst3 (0,0,0)) with 0 in Q1. change (snd3 (0,0,0)) with 0 in Q2. change (thd3 (0,0,0)) with 0 in Q3.
        rewrite Q1, Q2, Q3. destruct (nth i W (0,0,0)) as [[? ?] ?]. reflexivity. }
      rewrite VV. unfold typ. destruct (nth i l x0) as [p [q b]]. cbn [fst snd] in *. destruct b; cbn in WI.
      * split; intros D; try discriminate. exact WI.
      * split; intros D; try discriminate. exact WI.
    + rewrite V1, V2, V3, combine_map3. auto.
  - rewrite T, <- L2, map_map. auto.
  - unfold emis_sized. cbv zeta.
    assert (LN : length (n_nel e) = nsum cs) by (rewrite NN, repeat_each_length; [auto|rewrite NE, map_length; lia]).
    assert (LP : length (repeat_each ps cs) = nsum cs) by (apply repeat_each_length; lia).
    assert (LW : length W = length ps) by (apply Forall2_length in WF; lia).
    assert (LV : length V = nsum cs) by (apply Forall2_length in VF; lia).
    rewrite LN, T, TY, NE, X, Y, Z, SG, NX, NY, NZ, W1, W2, W3, V1, V2, V3, !map_length.
    repeat (split; [lia|]). split; [intros Hf; rewrite (NS Hf), map_length; lia|].
    rewrite EX, app_length, repeat_each_length, TY, map_length; [lia|rewrite TY, map_length; unfold cs; rewrite map_length; auto].
  - intros i Hi. rewrite (TYN i Hi), <- L2, map_map.
    rewrite (nth_indep (map _ l) false (snd (snd x0))) by (rewrite map_length; lia).
    rewrite (map_nth (fun x => snd (snd x)) l x0 i). reflexivity.
Qed.

(** The part that needs nothing about energies and normals. *)
Lemma emit_shape c th fs sr k ps pr e k' :
  0 < th -> length pr = length ps ->
  emit_surface c th fs sr k ps pr = Some (e, k') ->
  (exists counts, split_spec th ps counts e /\ (fs = true -> n_seg e = map i_seg (repeat_each ps counts))) /\
  o_tot e = map fst pr /\ emis_sized (length ps) fs e.
Proof.
  intros Hth HL H. set (l := combine ps pr).
  assert (L1 : map fst l = ps) by (apply combine_fst; lia). assert (L2 : map snd l = pr) by (apply combine_snd; lia).
  assert (LL : length l = length ps) by (rewrite <- L1, map_length; auto).
  rewrite <- L1, <- L2 in H. apply (emit_view_gen _ _ _ _ _ _ _ _ (fun _ _ => True)) in H.
  2:{ intros k0 l' vel k1 _ G. apply gen_vel_length in G; [|apply map_length..].
      symmetry in G. clear - G. revert vel G. induction l' as [|a l' IH]; intros [|v vel] G; try discriminate; constructor; auto. }
  cbv zeta in H. rewrite L1 in H.
  destruct H as (T & TY & EX & NE & X & Y & Z & SG & NN & NX & NY & NZ & NS & (W & W1 & W2 & W3 & WF) & (V & V1 & V2 & V3 & VF)).
  set (cs := map (ncl th) l) in *.
  assert (LC : length cs = length ps) by (unfold cs; rewrite map_length; auto).
  assert (TYN : forall i, (i < length ps)%nat -> nth i (o_type e) 9%nat = typ (nth i l x0)).
  { intros i Hi. rewrite TY. rewrite (nth_indep _ 9%nat (typ x0)) by (rewrite map_length; lia). apply map_nth. }
  split; [exists cs; split; [|auto]|split].
  - unfold split_spec. do 10 (split; [auto|]).
    intros i Hi. rewrite T, NE. unfold cs. rewrite (TYN i Hi).
    rewrite (nth_indep (map (fun x => fst (snd x)) l) 0 (fst (snd x0))) by (rewrite map_length; lia).
    rewrite (map_nth (fun x => fst (snd x)) l x0 i).
    rewrite (nth_indep (map (nelr th) l) 0 (nelr th x0)) by (rewrite map_length; lia).
    rewrite (map_nth (nelr th) l x0 i).
    rewrite (nth_indep (map (ncl th) l) 0%nat (ncl th x0)) by (rewrite map_length; lia).
    rewrite (map_nth (ncl th) l x0 i).
    destruct (nth i l x0) as [p [q b]]. unfold nelr, ncl, typ. cbn [fst snd]. destruct b.
    + cbn. repeat split; auto; try lra; intros; discriminate.
    + destruct (n_clones_ok q th Hth) as [A B]. pose proof (pos_INR (n_clones q th)).
      repeat split; auto; try (intros; discriminate). field. lra.
  - rewrite T, <- L2, map_map. auto.
  - unfold emis_sized. cbv zeta.
    assert (LN : length (n_nel e) = nsum cs) by (rewrite NN, repeat_each_length; [auto|rewrite NE, map_length; lia]).
    assert (LP : length (repeat_each ps cs) = nsum cs) by (apply repeat_each_length; lia).
    assert (LW : length W = length ps) by (apply Forall2_length in WF; lia).
    assert (LV : length V = nsum cs) by (apply Forall2_length in VF; lia).
    rewrite LN, T, TY, NE, X, Y, Z, SG, NX, NY, NZ, W1, W2, W3, V1, V2, V3, !map_length.
    repeat (split; [lia|]). split; [intros Hf; rewrite (NS Hf), map_length; lia|].
    rewrite EX, app_length, repeat_each_length, TY, map_length; [lia|rewrite TY, map_length; unfold cs; rewrite map_length; auto].
Qed.

Lemma mapM2_rel {A B C} (f : A -> B -> option C) a b l : length a = length b -> mapM2 f a b = Some l ->
  Forall2 (fun xy z => f (fst xy) (snd xy) = Some z) (combine a b) l.
Proof.
  revert b l. induction a as [|x a IH]; intros [|y b] l HL H; try discriminate; cbn in H.
  - injection H as <-. constructor.
  - unfold bind in H. destruct (f x y) eqn:F; [|discriminate]. destruct (mapM2 f a b) eqn:M; [|discriminate].
    injection H as <-. cbn. constructor; auto.
Qed.

Lemma SEY_process_ok m sr k ps l k' : SEY_process m sr k ps = Some (l, k') ->
  length l = length ps /\ k' = (k + length ps)%nat /\
  forall i, (i < length ps)%nat -> sey_one m (s_uni sr (k + i)) (impat ps i) = Some (nth i l (0, false)).
Proof.
  unfold SEY_process, bind. intros H. destruct (mapM2 _ _ _) as [r|] eqn:M; [|discriminate].
  injection H as <- <-. apply mapM2_rel in M; [|apply draw_length].
  pose proof (Forall2_length M) as L. rewrite combine_length, draw_length, Nat.min_id in L.
  split; [auto|]. split; auto. intros i Hi.
  pose proof (Forall2_at _ _ _ i (0, imp0) (0, false) M) as A. cbv beta in A.
  rewrite combine_length, draw_length, Nat.min_id in A. specialize (A Hi).
  rewrite combine_nth in A by apply draw_length. cbn [fst snd] in A. unfold draw in A.
  rewrite (nth_indep (map _ _) 0 (s_uni sr 0)) in A by (rewrite map_length, seq_length; auto).
  rewrite map_nth, seq_nth in A by auto. auto.
Qed.

Lemma impacts_spec m c th fs sr k ps e k' :
  0 < th -> src_ok sr -> 0 < c_qe c -> 0 < c_mass c ->
  Forall unit_n ps -> Forall (fun p => 0 <= i_E p) ps ->
  impacts_on_surface m c th fs sr k ps = Some (e, k') ->
  (exists counts, split_spec th ps counts e /\ vel_spec c ps counts e) /\ emis_sized (length ps) fs e /\
  (forall i, (i < length ps)%nat -> exists el,
     sey_one m (s_uni sr (k + i)) (impat ps i) = Some (nth i (o_tot e) 0, el) /\
     nth i (o_type e) 9%nat = (if el then 0%nat else 1%nat)).
Proof.
  intros Hth Hs Hq Hm Hu HE H. unfold impacts_on_surface, bind in H.
  destruct (SEY_process m sr k ps) as [[pr k1]|] eqn:SP; [|discriminate].
  apply SEY_process_ok in SP. destruct SP as (L & _ & SP).
  apply emit_spec in H; auto. destruct H as (A & B & C & D). split; [auto|]. split; auto.
  intros i Hi. exists (nth i (map snd pr) false). split; [|apply D; auto].
  rewrite (SP i Hi), B.
  rewrite (nth_indep (map fst pr) 0 (fst (0, false))), (nth_indep (map snd pr) false (snd (0, false))) by (rewrite map_length; lia).
  rewrite !map_nth. destruct (nth i pr (0, false)). auto.
Qed.

(** Total charge. *)
Lemma rsum_nth_eq a b : length a = length b -> (forall i, (i < length a)%nat -> nth i a 0 = nth i b 0) -> rsum a = rsum b.
Proof.
  intros L H. f_equal. apply (nth_ext _ _ 0 0); auto.
Qed.

Lemma split_total th ps counts e : split_spec th ps counts e -> length (o_tot e) = length ps -> length (o_nel e) = length ps ->
  rsum (o_nel e) + rsum (n_nel e) = rsum (o_tot e).
Proof.
  intros (L & NN & _ & _ & _ & _ & _ & _ & _ & _ & S) LT LN. rewrite NN.
  assert (S' : forall i, (i < length ps)%nat -> nth i (o_nel e) 0 * (1 + INR (nth i counts 0%nat)) = nth i (o_tot e) 0).
  { intros i Hi. apply (S i Hi). }
  clear S NN. revert S' L LT LN. generalize (o_nel e), (o_tot e). generalize (length ps). intros n a t. revert n counts t.
  induction a as [|x a IH]; intros n counts t S L LT LN.
  - cbn in LN. destruct t as [|y t]; [|cbn in LT; lia]. cbn. unfold rsum; cbn; lra.
  - cbn in LN. destruct n as [|n]; [discriminate|]. destruct counts as [|c counts]; [discriminate|]. destruct t as [|y t]; [discriminate|].
    cbn [repeat_each]. rewrite rsum_app, rsum_repeat, !rsum_cons.
    pose proof (S 0%nat ltac:(lia)) as S0. cbn in S0.
    specialize (IH n counts t). cbn in L, LT. rewrite <- IH; try lia; [lra|]. intros i Hi. apply (S (Datatypes.S i)). lia.
Qed.

(** * Tables *)
Lemma diffs_length l : length (diffs l) = (length l - 1)%nat.
Proof.
  induction l as [|a l IH]; auto. destruct l as [|b l]; auto. change (diffs (a :: b :: l)) with ((b - a) :: diffs (b :: l)).
  cbn [length] in *. rewrite IH. lia.
Qed.
Lemma diffs_nth l i : (i + 1 < length l)%nat -> nth i (diffs l) 0 = nth (i + 1) l 0 - nth i l 0.
Proof.
  revert i. induction l as [|a l IH]; intros i H; [cbn in H; lia|]. destruct l as [|b l]; [cbn in H; lia|].
  change (diffs (a :: b :: l)) with ((b - a) :: diffs (b :: l)). destruct i as [|i]; [reflexivity|].
  cbn [nth Nat.add]. apply IH. cbn [length] in *. lia.
Qed.


Lemma grid_diffs a h n s : diffs (map (fun i => a + INR i * h) (seq s n)) = repeat h (n - 1).
Proof.
  revert s. induction n as [|n IH]; intros s; auto. destruct n as [|n]; auto.
  change (map (fun i => a + INR i * h) (seq s (S (S n)))) with
    ((a + INR s * h) :: (a + INR (S s) * h) :: map (fun i => a + INR i * h) (seq (S (S s)) n)).
  change (diffs ((a + INR s * h) :: (a + INR (S s) * h) :: map (fun i => a + INR i * h) (seq (S (S s)) n)))
    with ((a + INR (S s) * h - (a + INR s * h)) :: diffs (map (fun i => a + INR i * h) (seq (S s) (S n)))).
  rewrite IH. replace (S (S n) - 1)%nat with (S (S n - 1)) by lia. cbn [repeat]. f_equal. rewrite S_INR. ring.
Qed.

Lemma grid_min a h n s x : 0 <= h -> x <= a + INR s * h -> list_min x (map (fun i => a + INR i * h) (seq s n)) = x.
Proof.
  intros Hh. unfold list_min. revert s x. induction n as [|n IH]; intros s x Hx; auto. cbn [seq map fold_left].
  rewrite Rmin_left by auto. apply IH. rewrite S_INR. lra.
Qed.
Lemma grid_max a h n s : 0 <= h -> list_max (a + INR s * h) (map (fun i => a + INR i * h) (seq (S s) n)) = a + INR (s + n) * h.
Proof.
  intros Hh. unfold list_max. revert s. induction n as [|n IH]; intros s; cbn [seq map fold_left].
  - rewrite Nat.add_0_r. auto.
  - rewrite Rmax_right by (rewrite S_INR; lra). rewrite IH. f_equal. f_equal. f_equal. lia.
Qed.

Lemma tab_ctor_grid a h n tr el gt ct ge ce sc sh : 0 < h -> round3 h = h -> (2 <= n)%nat ->
  tab_ctor (grid a h n) tr el gt ct ge ce sc sh =
  Some (mkTab a (a + INR (n - 1) * h) h tr el (diffs tr ++ [0]) (diffs el ++ [0]) gt ct ge ce sc sh).
Proof.
  intros Hh Hr Hn. pose proof (grid_diffs a h n 0) as D.
  destruct n as [|[|n]]; try lia. change (S (S n) - 1)%nat with (S n) in *. 
  unfold grid. cbn [seq map] in *. unfold tab_ctor. rewrite D. cbn [repeat map].
  rewrite Hr.
  assert (EX : existsb (fun d => negb (Reqb d h)) (map round3 (repeat h n)) = false).
  { clear - Hr. induction n; cbn; auto. rewrite Hr, (proj2 (Reqb_true h h)) by auto. auto. }
  rewrite EX. f_equal.
  pose proof (grid_min a h (S n) 1 (a + INR 0 * h) ltac:(lra) ltac:(cbn; lra)) as M1. 
  pose proof (grid_max a h (S n) 0 ltac:(lra)) as M2.
  cbn [seq map] in M1, M2. rewrite M1, M2. replace (a + INR 0 * h) with a by (cbn; ring). reflexivity.
Qed.

Lemma nth_py {A} (l : list A) i d : (i < length l)%nat -> py_nth l (Z.of_nat i) = Some (nth i l d).
Proof.
  intros H. unfold py_nth. rewrite (proj2 (Z.leb_le 0 (Z.of_nat i))) by lia. rewrite Nat2Z.id. apply nth_error_nth'. auto.
Qed.

Lemma tab_interp_ok t a h n E : st_min t = a -> st_de t = h -> 0 < h -> (2 <= n)%nat ->
  length (st_true t) = n -> length (st_elast t) = n ->
  st_true_diff t = diffs (st_true t) ++ [0] -> st_elast_diff t = diffs (st_elast t) ++ [0] ->
  a <= E <= a + INR (n - 1) * h ->
  exists y1 y2, tab_interp t E = Some (y1, y2) /\ interpolates a h (st_true t) E y1 /\ interpolates a h (st_elast t) E y2.
Proof.
  intros Ha Hd Hh Hn L1 L2 D1 D2 HE. unfold tab_interp. rewrite Ha, Hd. rewrite (proj2 (Reqb_false _ _)) by lra.
  set (fi := (E - a) / h). assert (F : fi * h = E - a) by (unfold fi; field; lra).
  assert (F0 : 0 <= fi) by (unfold fi, Rdiv; apply Rmult_le_pos; [lra|left; apply Rinv_0_lt_compat; auto]).
  assert (F1 : fi <= INR (n - 1)) by (apply (Rmult_le_reg_r h); lra).
  rewrite rtrunc_nonneg by auto. pose proof (rfloor_bounds fi) as B.
  assert (Z0 : (0 <= rfloor fi)%Z) by (apply rfloor_ge; lra).
  set (i := Z.to_nat (rfloor fi)). assert (Zi : rfloor fi = Z.of_nat i) by (unfold i; lia).
  rewrite Zi in *. rewrite <- INR_IZR_INZ in *.
  assert (Hi : (i < n)%nat).
  { apply INR_lt. rewrite minus_INR in F1 by lia. cbn in F1. lra. }
  assert (DD : forall l, length l = n -> nth i (diffs l ++ [0]) 0 = if Nat.ltb (i + 1) n then nth (i + 1) l 0 - nth i l 0 else 0).
  { intros l Hl. destruct (Nat.ltb (i + 1) n) eqn:Q.
    - apply Nat.ltb_lt in Q. rewrite app_nth1 by (rewrite diffs_length; lia). apply diffs_nth. lia.
    - apply Nat.ltb_ge in Q. rewrite app_nth2 by (rewrite diffs_length; lia). rewrite diffs_length. replace (i - (length l - 1))%nat with 0%nat by lia. auto. }
  rewrite D1, D2.
  rewrite !(nth_py _ i 0) by (try rewrite app_length, diffs_length; cbn; lia). cbn [bind]. rewrite !DD by auto.
  eexists _, _. split; [reflexivity|].
  assert (I : forall l, length l = n -> interpolates a h l E (nth i l 0 + (fi - INR i) * (if Nat.ltb (i + 1) n then nth (i + 1) l 0 - nth i l 0 else 0))).
  { intros l Hl. destruct (Nat.ltb (i + 1) n) eqn:Q.
    - apply Nat.ltb_lt in Q. exists i, (fi - INR i). repeat split; try lra; try lia.
    - apply Nat.ltb_ge in Q. assert (i = (n - 1))%nat by lia. exists (n - 2)%nat, 1.
      assert (EI : fi = INR (n - 1)) by (rewrite H in B; lra).
      assert (EN : INR (n - 1) = INR (n - 2) + 1) by (rewrite <- S_INR; f_equal; lia).
      repeat split; try lra; try lia.
      + rewrite EI, EN in F. lra.
      + rewrite H. replace (n - 2 + 1)%nat with (n - 1)%nat by lia. lra. }
  split; apply I; auto.
Qed.

Lemma clip10_ok x : 0 <= clip10 x /\ (1 / 10 ^ 10 <= x -> clip10 x = x).
Proof.
  unfold clip10. destruct (Rltb x (1 / 10 ^ 10)) eqn:Q.
  - apply Rltb_true in Q. split; intros; lra.
  - apply Rltb_false in Q. split; auto. assert (0 < 1 / 10 ^ 10); [|lra]. apply Rdiv_lt_0_compat; [lra|]. apply pow_lt. lra.
Qed.

Lemma tab_values_range t E ct d f : tab_values t E ct = Some (d, f) -> 0 <= d /\ 0 <= f <= 1.
Proof.
  unfold tab_values, bind. destruct (tab_curve t E) as [[a b]|]; [|discriminate].
  destruct (if st_shift t then _ else _) as [[a' b']|]; [|discriminate]. intros H.
  match type of H with Some ?x = _ => assert (K : x = (d, f)) by congruence end.
  destruct (clip10_ok (if st_scale t then a' * exp (1 / 2 * (1 - ct)) else a')) as [C1 _]. destruct (clip10_ok b) as [C2 _].
  destruct (total_frac_ok _ _ C1 C2) as (A & B & _). rewrite K in A, B. auto.
Qed.

(** Yields from an equally spaced table whose spacing is a multiple of 0.001. *)
Lemma tab_values_grid a h n tr el gt ct ge ce (sc sh : bool) E co :
  0 < h -> round3 h = h -> (2 <= n)%nat -> length tr = n -> length el = n ->
  let Es := if sh then E / (1 + (7/10) * (1 - co)) else E in
  let sx := if sc then exp ((1/2) * (1 - co)) else 1 in
  let top := a + INR (n - 1) * h in
  a <= E -> a <= Es ->
  exists t y1 y2, tab_ctor (grid a h n) tr el gt ct ge ce sc sh = Some t /\
    (if Rleb Es top then interpolates a h tr Es y1 else y1 = ct + gt * Es) /\
    (if Rleb E top then interpolates a h el E y2 else y2 = ce + ge * E) /\
    tab_values t E co = Some (total_frac (clip10 (y1 * sx)) (clip10 y2)).
Proof.
  intros Hh Hr Hn L1 L2 Es sx top HE HEs. rewrite tab_ctor_grid by auto.
  set (t := mkTab _ _ _ _ _ _ _ _ _ _ _ _ _).
  assert (C : forall x, a <= x -> exists y1 y2, tab_curve t x = Some (y1, y2) /\
    (if Rleb x top then interpolates a h tr x y1 else y1 = ct + gt * x) /\
    (if Rleb x top then interpolates a h el x y2 else y2 = ce + ge * x)).
  { intros x Hx. unfold tab_curve. change (st_max t) with top. destruct (Rleb x top) eqn:Q.
    - apply Rleb_true in Q. rewrite (proj2 (Rgtb_false _ _)) by auto.
      destruct (tab_interp_ok t a h n x) as (y1 & y2 & T & I1 & I2); auto. exists y1, y2. auto.
    - apply Rleb_false in Q. rewrite (proj2 (Rgtb_true _ _)) by (unfold Rgt; auto). eexists _, _. split; [reflexivity|]. auto. }
  exists t. destruct (C E HE) as (z1 & z2 & T & I1 & I2). unfold tab_values. rewrite T. cbn [bind]. change (st_shift t) with sh. change (st_scale t) with sc.
  unfold Es in *. destruct sh.
  - destruct (C _ HEs) as (w1 & w2 & T' & J1 & J2). rewrite T'. cbn [bind]. exists w1, z2. repeat split; auto.
    unfold sx. destruct sc; auto. rewrite Rmult_1_r. auto.
  - cbn [bind]. exists z1, z2. repeat split; auto. unfold sx. destruct sc; auto. rewrite Rmult_1_r. auto.
Qed.

(** A table spaced by 0.0015 is accepted and read with spacing 0.002. *)
Lemma raround_near x n : IZR n - 1/2 < x < IZR n + 1/2 -> raround x = n.
Proof.
  intros H. unfold raround. fold (rfloor x).
  destruct (Rlt_dec x (IZR n)) as [L|L].
  - assert (E : rfloor x = (n - 1)%Z) by (apply rfloor_unique; rewrite minus_IZR; lra). rewrite E, minus_IZR.
    destruct (Rlt_dec _ _); [lra|]. destruct (Rlt_dec _ _); [lia|lra].
  - assert (E : rfloor x = n) by (apply rfloor_unique; lra). rewrite E. destruct (Rlt_dec _ _); [auto|lra].
Qed.

Lemma tab_rounded : exists a h n tr t,
  0 < h /\ tab_ctor (grid a h n) tr tr 0 0 0 0 false false = Some t /\ length tr = n /\
  tab_values t (a + h) 1 <> Some (2 * nth 1 tr 0, 1/2) /\ 0 < nth 1 tr 0.
Proof.
  exists 0, (16/10000), 3%nat, [0; 1; 2].
  assert (RR : round3 (16/10000) = 2/1000).
  { unfold round3. rewrite (raround_near _ 2); [lra|]. lra. }
  unfold grid. cbn [seq map].
  set (e := [0 + INR 0 * (16 / 10000); 0 + INR 1 * (16 / 10000); 0 + INR 2 * (16 / 10000)]).
  assert (DE : map round3 (diffs e) = [2/1000; 2/1000]).
  { cbn [e diffs map INR]. f_equal; [|f_equal]; rewrite <- RR; f_equal; lra. }
  unfold e in *. unfold tab_ctor. rewrite DE. cbn [existsb]. rewrite (proj2 (Reqb_true (2/1000) (2/1000))) by auto. cbn [negb orb].
  eexists. split; [lra|]. split; [reflexivity|]. split; [auto|]. split; [|cbn; lra].
  assert (M0 : list_min (0 + INR 0 * (16 / 10000)) [0 + INR 1 * (16 / 10000); 0 + INR 2 * (16 / 10000)] = 0).
  { unfold list_min. cbn [fold_left INR]. unfold Rmin; repeat destruct (Rle_dec _ _); lra. }
  assert (M1 : list_max (0 + INR 0 * (16 / 10000)) [0 + INR 1 * (16 / 10000); 0 + INR 2 * (16 / 10000)] = 32/10000).
  { unfold list_max. cbn [fold_left INR]. unfold Rmax; repeat destruct (Rle_dec _ _); lra. }
  rewrite M0, M1. clear M0 M1 DE RR.
  unfold tab_values, tab_curve, tab_interp. cbn [st_min st_max st_de st_true st_elast st_true_diff st_elast_diff st_shift st_scale].
  rewrite (proj2 (Rgtb_false _ _)) by lra. rewrite (proj2 (Reqb_false _ _)) by lra.
  set (fi := (0 + 16/10000 - 0) / (2/1000)). assert (F : fi = 8/10) by (unfold fi; field).
  assert (T : rtrunc fi = 0%Z) by (rewrite rtrunc_nonneg by lra; apply rfloor_unique; cbn; lra). rewrite T.
  cbn -[clip10 total_frac]. intros H. assert (K := f_equal (fun o => match o with Some x => fst x | None => 0 end) H). cbn -[clip10] in K.
  rewrite F in K. assert (P : 0 < 10 ^ 10) by (apply pow_lt; lra).
  assert (Q : 1 / 10 ^ 10 <= 8/10).
  { apply (Rmult_le_reg_r (10 ^ 10)); auto. unfold Rdiv at 1. rewrite Rmult_assoc, Rinv_l by lra. simpl. lra. }
  destruct (clip10_ok (0 + (8/10 - 0) * (1 - 0))) as [_ C]. rewrite C in K by lra. lra.
Qed.

(** * Charging *)
Lemma charged_yield_ok g Q y E : 0 < g_Qmax g -> 0 < g_EQ g -> 0 <= E -> 0 <= y ->
  0 <= charged_yield g Q y E <= Rmax y 1 /\
  (Q <= 0 -> charged_yield g Q y E = y) /\ (g_Qmax g <= Q -> charged_yield g Q y E = 1 - exp (- E / g_EQ g)).
Proof.
  intros HQ HEQ HE Hy. unfold charged_yield.
  set (Q1 := if Rltb Q 0 then 0 else Q). set (Q2 := if Rgtb Q1 (g_Qmax g) then g_Qmax g else Q1).
  assert (B1 : 0 <= Q1 /\ (Q <= 0 -> Q1 = 0) /\ (0 <= Q -> Q1 = Q)).
  { unfold Q1. destruct (Rltb Q 0) eqn:T; [apply Rltb_true in T|apply Rltb_false in T]; repeat split; intros; lra. }
  assert (B2 : 0 <= Q2 <= g_Qmax g /\ (Q1 <= g_Qmax g -> Q2 = Q1) /\ (g_Qmax g <= Q1 -> Q2 = g_Qmax g)).
  { unfold Q2. destruct (Rgtb Q1 (g_Qmax g)) eqn:T; [apply Rgtb_true in T|apply Rgtb_false in T]; repeat split; intros; lra. }
  set (w := Q2 / g_Qmax g). assert (W : w * g_Qmax g = Q2) by (unfold w; field; lra).
  assert (W01 : 0 <= w <= 1) by (split; nra).
  set (s := 1 - exp (- E / g_EQ g)).
  assert (S01 : 0 <= s <= 1).
  { unfold s. pose proof (exp_pos (- E / g_EQ g)).
    assert (exp (- E / g_EQ g) <= 1); [|lra]. rewrite <- exp_0.
    assert (- E / g_EQ g <= 0) as [L|L].
    { assert (0 <= E / g_EQ g) by (unfold Rdiv; apply Rmult_le_pos; auto; left; apply Rinv_0_lt_compat; auto). unfold Rdiv in *. lra. }
    - left. apply exp_increasing. auto.
    - rewrite L. lra. }
  pose proof (Rmax_l y 1). pose proof (Rmax_r y 1). set (M := Rmax y 1) in *.
  repeat split.
  - assert (0 <= y * (1 - w)) by (apply Rmult_le_pos; lra). assert (0 <= s * w) by (apply Rmult_le_pos; lra). lra.
  - assert (y * (1 - w) <= M * (1 - w)) by (apply Rmult_le_compat_r; lra). assert (s * w <= M * w) by (apply Rmult_le_compat_r; lra). lra.
  - intros Hq. assert (Q2 = 0) by (destruct B1 as (_ & B & _), B2 as (_ & C & _); rewrite B in C by auto; rewrite C; lra).
    assert (w = 0) by (unfold w; rewrite H1; unfold Rdiv; ring). rewrite H2. ring.
  - intros Hq. assert (Q2 = g_Qmax g) by (destruct B1 as (_ & _ & B), B2 as (_ & _ & C); rewrite B in C by lra; apply C; auto).
    assert (w = 1) by (unfold w; rewrite H1; field; lra). rewrite H2. ring.
Qed.

Lemma charge_update_length qe gs ps emit Qs : length Qs = length gs -> length (charge_update qe gs ps emit Qs) = length gs.
Proof. intros H. unfold charge_update. rewrite map2_length, combine_length, seq_length. lia. Qed.

Lemma map2_nth {A B C} (f : A -> B -> C) a b i da db dc : (i < length a)%nat -> (i < length b)%nat ->
  nth i (map2 f a b) dc = f (nth i a da) (nth i b db).
Proof.
  revert b i. induction a as [|x a IH]; intros [|y b] [|i] H1 H2; cbn in *; try lia; auto. apply IH; lia.
Qed.


Lemma charge_update_nth qe gs ps emit Qs i : length Qs = length gs -> (i < length gs)%nat ->
  nth i (charge_update qe gs ps emit Qs) 0 =
  let g := nth i gs g0 in
  if g_flag g then nth i Qs 0 + (rsum (mask_get (on_seg i ps) (map i_nel ps)) - rsum (mask_get (on_seg i ps) emit)) * (- qe) / g_L g
  else nth i Qs 0.
Proof.
  intros L Hi. unfold charge_update. rewrite (map2_nth _ _ _ i (0%nat, g0) 0) by (rewrite ?combine_length, ?seq_length; lia).
  rewrite combine_nth by (rewrite seq_length; auto). rewrite seq_nth by auto. reflexivity.
Qed.

Lemma charging_evol_nth gs Dt Qs i : length Qs = length gs -> (i < length gs)%nat ->
  nth i (charging_evol gs Dt Qs) 0 =
  let g := nth i gs g0 in if g_flag g && Rgtb (g_tau g) 0 then nth i Qs 0 * exp (- Dt / g_tau g) else nth i Qs 0.
Proof.
  intros L Hi. unfold charging_evol. rewrite (map2_nth _ _ _ i g0 0) by lia. reflexivity.
Qed.

Lemma on_seg_sum i ps qs : length qs = length ps -> rsum (mask_get (on_seg i ps) qs) = seg_sum i ps qs.
Proof.
  unfold seg_sum, on_seg. revert qs. induction ps as [|p ps IH]; intros [|q qs] H; try discriminate; cbn; auto.
  destruct (Nat.eqb (i_seg p) i); rewrite ?rsum_cons, IH by (cbn in H; lia); lra.
Qed.

Lemma charging_process_ok qe segs E0 gs sr k ps Qs l Qs' k' :
  charging_process qe segs E0 gs sr k ps Qs = Some (l, Qs', k') ->
  length l = length ps /\ Qs' = charge_update qe gs ps (map fst l) Qs /\
  forall i, (i < length ps)%nat ->
    charging_one segs E0 gs Qs (s_uni sr (k + i)) (impat ps i) = Some (nth i l (0, false)).
Proof.
  unfold charging_process, bind. intros H. destruct (mapM2 _ _ _) as [r|] eqn:M; [|discriminate].
  injection H as <- <- <-. apply mapM2_rel in M; [|apply draw_length].
  pose proof (Forall2_length M) as L. rewrite combine_length, draw_length, Nat.min_id in L.
  split; [auto|]. split; auto. intros i Hi.
  pose proof (Forall2_at _ _ _ i (0, imp0) (0, false) M) as A. cbv beta in A.
  rewrite combine_length, draw_length, Nat.min_id in A. specialize (A Hi).
  rewrite combine_nth in A by apply draw_length. cbn [fst snd] in A. unfold draw in A.
  rewrite (nth_indep (map _ _) 0 (s_uni sr 0)) in A by (rewrite map_length, seq_length; auto).
  rewrite map_nth, seq_nth in A by auto. auto.
Qed.

Lemma wall_run_ok qe segs E0 gs sr cs : forall k Qs Qf evs, length Qs = length gs ->
  wall_run qe segs E0 gs sr k Qs cs = Some (Qf, evs) ->
  length Qf = length gs /\
  forall i, (i < length gs)%nat -> nth i Qf 0 = edge_charge qe (nth i gs g0) i (nth i Qs 0) evs.
Proof.
  induction cs as [|c cs IH]; intros k Qs Qf evs L H; cbn [wall_run] in H.
  - injection H as <- <-. split; auto.
  - unfold bind in H. destruct c as [ps|Dt].
    + destruct (charging_process _ _ _ _ _ _ _ _) as [[[l Q1] k1]|] eqn:CP; [|discriminate].
      destruct (wall_run _ _ _ _ _ _ _ _) as [[Q2 ev2]|] eqn:W; [|discriminate]. injection H as <- <-.
      apply charging_process_ok in CP. destruct CP as (Ll & -> & _).
      assert (L1 := charge_update_length qe gs ps (map fst l) Qs L).
      destruct (IH _ _ _ _ L1 W) as [L2 F]. split; [auto|]. intros i Hi. rewrite (F i Hi).
      unfold edge_charge. cbn [fold_left]. f_equal. rewrite charge_update_nth by auto. cbv zeta. unfold edge_step.
      destruct (g_flag _); auto. rewrite !on_seg_sum by (rewrite map_length; auto). unfold Rdiv. ring.
    + destruct (wall_run _ _ _ _ _ _ _ _) as [[Q2 ev2]|] eqn:W; [|discriminate]. injection H as <- <-.
      assert (L1 : length (charging_evol gs Dt Qs) = length gs) by (unfold charging_evol; rewrite map2_length; lia).
      destruct (IH _ _ _ _ L1 W) as [L2 F]. split; [auto|]. intros i Hi. rewrite (F i Hi).
      unfold edge_charge. cbn [fold_left]. f_equal. rewrite charging_evol_nth by auto. cbv zeta. unfold edge_step.
      destruct (g_flag _); cbn [andb]; auto. unfold Rgtb, Rltb. destruct (Rlt_dec 0 _); auto.
Qed.

(** Metallic edges stay neutral. *)
Lemma metal_neutral qe g i Q evs : g_flag g = false -> edge_charge qe g i Q evs = Q.
Proof.
  intros H. unfold edge_charge. revert Q. induction evs as [|e evs IH]; intros Q; cbn [fold_left]; auto.
  rewrite IH. unfold edge_step. rewrite H. auto.
Qed.

(** Without decay the charge of an insulating edge is the sum of all
    deposits. *)
Lemma insulator_sum qe g i Q evs : g_flag g = true -> g_tau g <= 0 ->
  edge_charge qe g i Q evs = Q + qe * rsum (map (dep i) evs) / g_L g.
Proof.
  intros H Ht. unfold edge_charge. revert Q. induction evs as [|e evs IH]; intros Q; cbn [fold_left map].
  - unfold rsum. cbn. unfold Rdiv. ring.
  - rewrite IH, rsum_cons. unfold edge_step. rewrite H. unfold dep at 2. destruct e.
    + unfold Rdiv. ring.
    + destruct (Rlt_dec 0 (g_tau g)); [lra|]. unfold Rdiv. ring.
Qed.

Lemma charging_one_ok segs E0 gs Qs u p q b :
  charging_one segs E0 gs Qs u p = Some (q, b) ->
  exists Emax dm R0 g Q, nth_error segs (i_seg p) = Some (Emax, dm, R0) /\ nth_error gs (i_seg p) = Some g /\
    nth_error Qs (i_seg p) = Some Q /\
    let d := fst (yield_ECLOUD Emax dm R0 E0 s135 true true (i_E p) (i_ct p)) in
    let f := snd (yield_ECLOUD Emax dm R0 E0 s135 true true (i_E p) (i_ct p)) in
    q = i_nel p * (if g_flag g then charged_yield g Q d (i_E p) else d) /\ (b = true <-> u < f).
Proof.
  unfold charging_one, bind. destruct (nth_error segs (i_seg p)) as [[[a b'] c]|]; [|discriminate].
  destruct (nth_error gs (i_seg p)) as [g|]; [|discriminate]. destruct (nth_error Qs (i_seg p)) as [Q|]; [|discriminate].
  destruct (yield_ECLOUD _ _ _ _ _ _ _ _ _) as [d f] eqn:Y. intros H. injection H as <- <-.
  exists a, b', c, g, Q. rewrite Y. cbv zeta. cbn [fst snd]. rewrite Rltb_true. tauto.
Qed.

Lemma nunif_segment Emax dm R0 l E0 u p :
  match nth_error l (i_seg p) with
  | Some (e, d, r) =>
      sey_one (MNonUnif (nunif_segs Emax dm R0 l) E0) u p =
      sey_one (MEcloud (if Rlt_dec e 0 then Emax else e) (if Rlt_dec d 0 then dm else d)
                 (if Rlt_dec r 0 then R0 else r) E0 (135/100) true true) u p
  | None => sey_one (MNonUnif (nunif_segs Emax dm R0 l) E0) u p = None
  end.
Proof.
  unfold sey_one, nunif_segs. rewrite nth_error_map. destruct (nth_error l (i_seg p)) as [[[e d] r]|]; [|reflexivity].
  cbn [option_map bind].
  replace (if Rltb e 0 then Emax else e) with (if Rlt_dec e 0 then Emax else e) by (unfold Rltb; destruct (Rlt_dec e 0); auto).
  replace (if Rltb d 0 then dm else d) with (if Rlt_dec d 0 then dm else d) by (unfold Rltb; destruct (Rlt_dec d 0); auto).
  replace (if Rltb r 0 then R0 else r) with (if Rlt_dec r 0 then R0 else r) by (unfold Rltb; destruct (Rlt_dec r 0); auto).
  reflexivity.
Qed.
