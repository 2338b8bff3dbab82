(** Concrete chambers and tracks, and tracks that end exactly on the wall. *)
From Coq Require Import Lra Lia Reals Psatz.
From Verif Require Import Num NumFacts Geom SpecGeom GeomFacts Poly SpecPoly PolyGeo PolyFacts.

(** Rectangle with half sizes [xa] and [ya]. *)
Definition rectv (xa ya : R) : list (R * R) := [(xa, ya); (- xa, ya); (- xa, - ya); (xa, - ya)].

Ltac four i Hi := destruct i as [|[|[|[|i]]]]; [| | | |simpl in Hi; lia]; clear Hi.

Lemma rect_inside xa ya x y : 0 < xa -> 0 < ya ->
  (inside (rectv xa ya) (x, y) <-> Rabs x < xa /\ Rabs y < ya).
Proof.
  intros Hx Hy. split.
  - intros H. pose proof (H 0%nat ltac:(simpl; lia)) as H0. pose proof (H 1%nat ltac:(simpl; lia)) as H1.
    pose proof (H 2%nat ltac:(simpl; lia)) as H2. pose proof (H 3%nat ltac:(simpl; lia)) as H3.
    cbv [left_of vert rectv length Nat.add Nat.modulo Nat.divmod Nat.sub fst snd nth] in *.
    split; apply Rabs_def1; nra.
  - intros [Ax Ay]. apply Rabs_def2 in Ax. apply Rabs_def2 in Ay. intros i Hi. four i Hi;
    cbv [left_of vert rectv length Nat.add Nat.modulo Nat.divmod Nat.sub fst snd nth]; nra.
Qed.

Lemma rect_insc xa ya : 0 < xa -> 0 < ya -> insc_ok (rectv xa ya) ((99/100) * xa) ((99/100) * ya).
Proof.
  intros Hx Hy. split; [lra|split; [lra|]]. intros x y H. apply rect_inside; auto.
  set (a := 99 / 100 * xa) in *. set (b := 99 / 100 * ya) in *.
  assert (Ha : 0 < a) by (unfold a; lra). assert (Hb : 0 < b) by (unfold b; lra).
  assert (A : 0 <= x * x / (a * a)) by (unfold Rdiv; apply Rmult_le_pos; [nra|left; apply Rinv_0_lt_compat; nra]).
  assert (B : 0 <= y * y / (b * b)) by (unfold Rdiv; apply Rmult_le_pos; [nra|left; apply Rinv_0_lt_compat; nra]).
  assert (G : forall u w, 0 < w -> u * u / (w * w) <= 1 -> Rabs u <= w).
  { intros u w Hw Hu. rewrite <- (Rabs_right w) by lra. apply Rsqr_le_abs_0. unfold Rsqr.
    assert (E : u * u = u * u / (w * w) * (w * w)) by (field; lra). rewrite E. assert (0 < w * w) by nra. nra. }
  pose proof (G x a Ha ltac:(lra)). pose proof (G y b Hb ltac:(lra)). unfold a, b in *. split; lra.
Qed.

Lemma sqrt_le_sq a b : 0 <= a -> a * a <= b -> a <= sqrt b.
Proof. intros Ha H. rewrite <- (sqrt_square a) by auto. apply sqrt_le_1_alt. auto. Qed.

Lemma rect_accepted xa ya cv : 1 / 10^9 <= xa -> 1 / 10^9 <= ya -> exists p, rect_ctor xa ya cv = Some p.
Proof.
  intros Hx Hy. unfold rect_ctor, poly_ctor. cbn [np_diff map2 existsb].
  assert (Hs : 0 < 1 / 10^9) by lra. set (s := 1 / 10^9) in *.
  rewrite !(proj2 (Rltb_false _ _)) by (apply sqrt_le_sq; [lra|nra]). cbn [orb].
  set (vx := [xa; - xa; - xa; xa] ++ [xa]). set (vy := [ya; ya; - ya; - ya] ++ [ya]).
  assert (EA : poly_area vx vy = 4 * xa * ya).
  { unfold poly_area, vx, vy. cbn [app tl removelast map2 np_diff]. unfold rsum; simpl. field. }
  rewrite EA. rewrite (proj2 (Rltb_false _ _)) by nra.
  assert (EC : is_convex vx vy 4 = true).
  { unfold is_convex. apply convex_loop_spec; auto. right. split; auto. intros c Hc.
    apply in_map_iff in Hc. destruct Hc as (i & <- & Hi). apply in_seq in Hi. 
    assert (H4 : (i < 4)%nat) by lia. clear Hi.
    destruct i as [|[|[|[|i]]]]; [| | | |lia];
    cbv [turn vx vy Nat.add Nat.modulo Nat.divmod Nat.sub fst snd nth app]; nra. }
  cbn [length]. rewrite EC. rewrite Bool.andb_false_r. eauto.
Qed.

Lemma rect_ctor_poly xa ya cv : rect_ctor xa ya cv = 
  poly_ctor (map fst (rectv xa ya)) (map snd (rectv xa ya)) ((99/100) * xa) ((99/100) * ya) cv.
Proof. reflexivity. Qed.

Lemma rect_outside xa ya p x y : 0 < xa -> 0 < ya -> rect_ctor xa ya true = Some p ->
  (p_outside p x y = false <-> Rabs x < xa /\ Rabs y < ya).
Proof.
  intros Hx Hy H. rewrite rect_ctor_poly in H. apply ctor_built in H.
  rewrite (outside_spec _ _ _ _ H (rect_insc _ _ Hx Hy)). apply rect_inside; auto.
Qed.

(** A track that stays inside until its end, where it meets the wall. *)
Lemma end_on_wall vs cx cy p resc k :
  poly_ctor (map fst vs) (map snd vs) cx cy true = Some p -> insc_ok vs cx cy -> 0 < resc < 1 ->
  (forall u, 0 <= u < 1 -> inside vs (along (t_start k) (t_end k) u)) ->
  exists h, poly_impact p resc [k] = Some [(h, 0%nat)] /\ h_nx h = 0 /\ h_ny h = 0 /\ 
    h_pt h = along (t_start k) (t_end k) resc.
Proof.
  intros Hc Hi Hr Hin. apply ctor_built in Hc.
  assert (HS : hit_search p k = (1, None)).
  { unfold hit_search. rewrite (b_n _ _ _ _ _ Hc).
    destruct (fold_hit p k (seq 0 (length vs)) (1, None)) as [[R _]|(i & Hi' & R1 & R2 & R3 & R4)]; auto.
    exfalso. apply in_seq in Hi'. cbn [fst] in R3.
    destruct (cand_crosses vs cx cy p Hc k i _ ltac:(lia) R2) as (T0 & (s' & Hs' & Es') & _).
    assert (Zi : left_of (vert vs i) (vert vs (i + 1)) (along (vert vs i) (vert vs (i + 1)) s') = 0)
      by (unfold left_of, along; simpl; ring).
    rewrite <- Es' in Zi. specialize (Hin _ (conj T0 R3) i ltac:(lia)). lra. }
  unfold poly_impact. cbn [map]. unfold hit_cython. rewrite HS. cbn [h_x h_y].
  set (x := resc * 1 * t_xout k + (1 - resc * 1) * t_xin k). set (y := resc * 1 * t_yout k + (1 - resc * 1) * t_yin k).
  assert (E : (x, y) = along (t_start k) (t_end k) resc).
  { unfold x, y, along, t_start, t_end; simpl. f_equal; ring. }
  assert (O : p_outside p x y = false).
  { apply (outside_spec _ _ _ _ Hc Hi). rewrite E. apply Hin. lra. }
  rewrite O. cbn [existsb fst h_x h_y]. rewrite O. cbn [orb].
  eexists. split; [reflexivity|]. cbn [h_nx h_ny]. auto.
Qed.

Lemma end_on_wall_witness : exists vs cx cy p k h,
  poly_ctor (map fst vs) (map snd vs) cx cy true = Some p /\ insc_ok vs cx cy /\
  inside vs (t_start k) /\ p_outside p (t_xout k) (t_yout k) = true /\
  poly_impact p (99/100) [k] = Some [(h, 0%nat)] /\ h_nx h = 0 /\ h_ny h = 0 /\
  forall t, 0 <= t <= 1 -> ~ on_segment (vert vs 0) (vert vs 1) (along (t_start k) (t_end k) t).
Proof.
  destruct (rect_accepted 1 1 true ltac:(lra) ltac:(lra)) as (p & Hp).
  pose proof (rect_insc 1 1 ltac:(lra) ltac:(lra)) as HI.
  set (k := mkTrack 0 0 0 1 0 0).
  assert (HU : forall u, 0 <= u < 1 -> inside (rectv 1 1) (along (t_start k) (t_end k) u)).
  { intros u Hu. unfold along, t_start, t_end, k; simpl. apply rect_inside; try lra.
    split; apply Rabs_def1; lra. }
  destruct (end_on_wall (rectv 1 1) _ _ p (99/100) k Hp HI ltac:(lra) HU) as (h & E & H1 & H2 & _).
  exists (rectv 1 1), (99/100*1), (99/100*1), p, k, h.
  split; [exact Hp|]. split; auto. split.
  { specialize (HU 0 ltac:(lra)). replace (along (t_start k) (t_end k) 0) with (t_start k) in HU; auto.
    unfold along, t_start, t_end, k; simpl. f_equal; ring. }
  split.
  { destruct (p_outside p (t_xout k) (t_yout k)) eqn:O; auto. apply (rect_outside 1 1) in O; auto; try lra.
    destruct O as [O _]. simpl in O. rewrite Rabs_right in O; lra. }
  repeat (split; auto). intros t Ht (s & Hs & E2). 
  cbv [along t_start t_end k vert rectv length Nat.add Nat.modulo Nat.divmod Nat.sub fst snd nth t_xin t_yin t_xout t_yout] in E2.
  injection E2 as A B. lra.
Qed.

(** The longitudinal coordinate is lost. *)
Lemma z_lost_witness : exists vs cx cy p k h i,
  poly_ctor (map fst vs) (map snd vs) cx cy true = Some p /\ insc_ok vs cx cy /\
  inside vs (t_start k) /\ beyond vs (t_end k) /\
  poly_impact p (99/100) [k] = Some [(h, i)] /\
  forall t, 0 <= t <= 1 -> h_z h <> t_zin k + t * (t_zout k - t_zin k).
Proof.
  destruct (rect_accepted 1 1 true ltac:(lra) ltac:(lra)) as (p & Hp).
  pose proof (rect_insc 1 1 ltac:(lra) ltac:(lra)) as HI.
  set (k := mkTrack 0 0 5 2 0 6).
  assert (H0 : inside (rectv 1 1) (t_start k)).
  { unfold t_start, k; simpl. apply rect_inside; try lra. rewrite Rabs_R0. lra. }
  assert (H1 : beyond (rectv 1 1) (t_end k)).
  { exists 3%nat. split; [simpl; lia|]. cbv [left_of t_end k vert rectv length Nat.add Nat.modulo Nat.divmod Nat.sub fst snd nth t_xout t_yout]. lra. }
  assert (HF : Forall (fun k => p_outside p (t_xin k) (t_yin k) = false) [k]).
  { constructor; auto. apply (rect_outside 1 1); auto; try lra. simpl. rewrite Rabs_R0. lra. }
  destruct (poly_impact_inside p (99/100) [k] ltac:(lra) HF) as (hs & E & F2).
  inversion F2 as [|? [h i] ? hs' Hh F2']; subst. inversion F2'; subst. destruct Hh as (_ & t & _ & _ & Z). simpl in Z.
  exists (rectv 1 1), (99/100*1), (99/100*1), p, k, h, i.
  split; [exact Hp|]. repeat (split; auto). intros u Hu. rewrite Z. simpl. lra.
Qed.

(** Vertex lists accepted although they are malformed. *)
Definition closing_vs : list (R * R) := [(1, 1); (-1, 1); (-1, -1); (1, -1); (1, 1)].

Lemma ctor_accepts vs cx cy cv : vs <> [] ->
  (forall i, (i + 1 < length vs)%nat -> 1 / 10^9 <= edge_len vs i) -> 0 <= shoelace vs ->
  (cv = true -> left_turning vs) ->
  exists p, poly_ctor (map fst vs) (map snd vs) cx cy cv = Some p.
Proof.
  intros Hv HL HA HT. unfold poly_ctor.
  destruct (existsb _ _) eqn:EX.
  { exfalso. apply existsb_exists in EX. destruct EX as (d & Hd & Hlt). apply Rltb_true in Hlt.
    apply (In_nth _ _ 0) in Hd. destruct Hd as (i & Hi & <-). rewrite map2_length, !np_diff_length, !map_length in Hi.
    rewrite (nth_map2 _ _ _ 0 0 0) in Hlt by (rewrite np_diff_length, map_length; lia).
    rewrite !np_diff_nth in Hlt by (rewrite map_length; lia).
    assert (G : forall f j, (j < length vs)%nat -> nth j (map f vs) 0 = f (vert vs j)).
    { intros f j Hj. rewrite <- closed_nth by (auto; lia). rewrite app_nth1 by (rewrite map_length; lia). reflexivity. }
    rewrite !G in Hlt by lia. specialize (HL i ltac:(lia)). unfold edge_len in HL. replace (i + 1)%nat with (S i) in HL by lia. lra. }
  destruct vs as [|[x0 y0] vs0]; [contradiction|]. cbn [map fst snd].
  set (vs := (x0, y0) :: vs0) in *.
  change (x0 :: map fst vs0) with (map fst vs). change (y0 :: map snd vs0) with (map snd vs).
  change [x0] with [fst (hd (0, 0) vs)]. change [y0] with [snd (hd (0, 0) vs)].
  rewrite area_shoelace by auto. rewrite (proj2 (Rltb_false _ _)) by lra. rewrite map_length.
  destruct cv; [|cbn [andb]; eauto].
  match goal with |- context [is_convex ?a ?b ?c] => assert (EC : is_convex a b c = true) end.
  { unfold is_convex. apply convex_loop_spec; auto. right. split; auto. intros c Hc.
    apply in_map_iff in Hc. destruct Hc as (i & <- & Hi). apply in_seq in Hi.
    specialize (HT eq_refl i ltac:(lia)). unfold turn.
    assert (L0 : length vs <> 0%nat) by (simpl; lia).
    pose proof (Nat.mod_upper_bound (i + 1) (length vs) L0).
    pose proof (Nat.mod_upper_bound ((i + 1) mod length vs + 1) (length vs) L0).
    rewrite !closed_nth by (auto; lia).
    assert (M1 : vert vs ((i + 1) mod length vs) = vert vs (i + 1)).
    { unfold vert. rewrite Nat.mod_mod by auto. reflexivity. }
    assert (M2 : vert vs (((i + 1) mod length vs + 1) mod length vs) = vert vs (i + 2)).
    { unfold vert. rewrite Nat.mod_mod by auto. rewrite Nat.add_mod_idemp_l by auto. f_equal. f_equal. lia. }
    rewrite M1, M2. unfold left_of in HT. lra. }
  rewrite EC. cbn [negb andb]. eauto.
Qed.

Ltac vcbv := cbv [left_of edge_len vert closing_vs length Nat.add Nat.modulo Nat.divmod Nat.sub fst snd nth].

Lemma closing_accepted : exists p,
  poly_ctor (map fst closing_vs) (map snd closing_vs) (1/2) (1/2) true = Some p /\
  edge_len closing_vs 4 = 0 /\ nth 4 (Nrm p) None = None.
Proof.
  destruct (ctor_accepts closing_vs (1/2) (1/2) true) as (p & Hp).
  - discriminate.
  - intros i Hi. simpl in Hi. destruct i as [|[|[|[|i]]]]; [| | | |lia]; vcbv; apply sqrt_le_sq; lra.
  - unfold shoelace. vcbv. unfold rsum; simpl. lra.
  - intros _ i Hi. simpl in Hi. destruct i as [|[|[|[|[|i]]]]]; [| | | | |lia]; vcbv; lra.
  - exists p. split; auto. assert (E : edge_len closing_vs 4 = 0).
    { vcbv. rewrite <- sqrt_0. f_equal. ring. }
    split; auto. apply ctor_built in Hp. rewrite (b_nrm _ _ _ _ _ Hp) by (simpl; lia). unfold edge_normal.
    vcbv. replace (sqrt _) with 0. { rewrite (proj2 (Reqb_true 0 0)); auto. }
    rewrite <- sqrt_0. f_equal. ring.
Qed.

(** Five-pointed star, traversed anticlockwise (it winds twice). *)
Definition star_vs : list (R * R) := [(0, 10); (-6, -8); (10, 3); (-10, 3); (6, -8)].

Lemma star_accepted : exists p,
  poly_ctor (map fst star_vs) (map snd star_vs) 1 1 true = Some p /\
  (** edges 0 and 2 cross at an interior point of both *)
  exists s u, 0 < s < 1 /\ 0 < u < 1 /\
    along (vert star_vs 0) (vert star_vs 1) s = along (vert star_vs 2) (vert star_vs 3) u.
Proof.
  destruct (ctor_accepts star_vs 1 1 true) as (p & Hp).
  - discriminate.
  - intros i Hi. simpl in Hi. destruct i as [|[|[|[|i]]]]; [| | | |lia]; cbv [edge_len star_vs vert length Nat.add Nat.modulo Nat.divmod Nat.sub fst snd nth]; apply sqrt_le_sq; lra.
  - unfold shoelace. cbv [star_vs vert length Nat.add Nat.modulo Nat.divmod Nat.sub fst snd nth]. unfold rsum; simpl. lra.
  - intros _ i Hi. simpl in Hi. destruct i as [|[|[|[|[|i]]]]]; [| | | | |lia]; cbv [left_of star_vs vert length Nat.add Nat.modulo Nat.divmod Nat.sub fst snd nth]; lra.
  - exists p. split; auto. exists (7/18), ((10 + 7/3)/20). split; [lra|]. split; [lra|].
    cbv [along star_vs vert length Nat.add Nat.modulo Nat.divmod Nat.sub fst snd nth]. f_equal; field.
Qed.

(** Three points on a line: no inside at all. *)
Definition flat_vs : list (R * R) := [(0, 0); (1, 0); (2, 0)].
Lemma flat_accepted : exists p,
  poly_ctor (map fst flat_vs) (map snd flat_vs) 1 1 true = Some p /\ shoelace flat_vs = 0 /\
  forall q, ~ inside flat_vs q.
Proof.
  destruct (ctor_accepts flat_vs 1 1 true) as (p & Hp).
  - discriminate.
  - intros i Hi. simpl in Hi. destruct i as [|[|i]]; [| |lia]; cbv [edge_len flat_vs vert length Nat.add Nat.modulo Nat.divmod Nat.sub fst snd nth]; apply sqrt_le_sq; lra.
  - unfold shoelace. cbv [flat_vs vert length Nat.add Nat.modulo Nat.divmod Nat.sub fst snd nth]. unfold rsum; simpl. lra.
  - intros _ i Hi. simpl in Hi. destruct i as [|[|[|i]]]; [| | |lia]; cbv [left_of flat_vs vert length Nat.add Nat.modulo Nat.divmod Nat.sub fst snd nth]; lra.
  - exists p. split; auto. split.
    + unfold shoelace. cbv [flat_vs vert length Nat.add Nat.modulo Nat.divmod Nat.sub fst snd nth]. unfold rsum; simpl. lra.
    + intros [x y] H. pose proof (H 0%nat ltac:(simpl; lia)) as H0. pose proof (H 2%nat ltac:(simpl; lia)) as H2.
      cbv [left_of flat_vs vert length Nat.add Nat.modulo Nat.divmod Nat.sub fst snd nth] in *. lra.
Qed.

(** Rejections. *)
Lemma reject_short vs cx cy cv i : (i + 1 < length vs)%nat -> edge_len vs i < 1 / 10^9 ->
  poly_ctor (map fst vs) (map snd vs) cx cy cv = None.
Proof.
  intros Hi H. destruct (poly_ctor _ _ _ _ _) as [p|] eqn:E; auto. apply ctor_built in E.
  pose proof (b_len _ _ _ _ _ E i Hi). lra.
Qed.
Lemma reject_clockwise vs cx cy cv : shoelace vs < 0 -> poly_ctor (map fst vs) (map snd vs) cx cy cv = None.
Proof.
  intros H. destruct (poly_ctor _ _ _ _ _) as [p|] eqn:E; auto. apply ctor_built in E.
  pose proof (b_area _ _ _ _ _ E). lra.
Qed.
Lemma reject_mixed vs cx cy i j : (i < length vs)%nat -> (j < length vs)%nat ->
  0 < left_of (vert vs i) (vert vs (i + 1)) (vert vs (i + 2)) ->
  left_of (vert vs j) (vert vs (j + 1)) (vert vs (j + 2)) < 0 ->
  poly_ctor (map fst vs) (map snd vs) cx cy true = None.
Proof.
  intros Hi Hj A B. destruct (poly_ctor _ _ _ _ _) as [p|] eqn:E; auto. apply ctor_built in E.
  destruct (b_cvx _ _ _ _ _ E eq_refl) as [H|H]; [specialize (H j Hj)|specialize (H i Hi)]; lra.
Qed.
Lemma accepted_normal vs cx cy cv p i :
  poly_ctor (map fst vs) (map snd vs) cx cy cv = Some p -> (i < length vs)%nat -> edge_len vs i <> 0 ->
  exists nx ny, nth i (Nrm p) None = Some (nx, ny) /\ left_normal (vert vs i) (vert vs (i + 1)) nx ny.
Proof.
  intros E Hi Hne. apply ctor_built in E. rewrite (b_nrm _ _ _ _ _ E) by auto.
  destruct (edge_normal _ _) as [[nx ny]|] eqn:EN.
  - exists nx, ny. split; auto. apply edge_normal_spec; auto.
  - exfalso. apply Hne. unfold edge_normal in EN. destruct (Reqb _ 0) eqn:Q; [|discriminate].
    apply Reqb_true in Q. unfold edge_len. rewrite <- Q. f_equal. ring.
Qed.
Lemma accepted_normal_len vs cx cy cv p i :
  poly_ctor (map fst vs) (map snd vs) cx cy cv = Some p -> (i + 1 < length vs)%nat ->
  exists nx ny, nth i (Nrm p) None = Some (nx, ny) /\ left_normal (vert vs i) (vert vs (i + 1)) nx ny.
Proof.
  intros E Hi. apply (accepted_normal vs cx cy cv p i E); [lia|]. apply ctor_built in E.
  pose proof (b_len _ _ _ _ _ E i Hi). assert (0 < 1 / 10 ^ 9) by lra. lra.
Qed.

(** Outline membership. *)
Lemma combine_nth_lt {A B} (a : list A) (b : list B) da db : forall i,
  (i < length a)%nat -> (i < length b)%nat -> nth i (combine a b) (da, db) = (nth i a da, nth i b db).
Proof.
  revert b. induction a as [|x a IH]; intros [|y b] i Ha Hb; simpl in *; try lia. destruct i; auto. apply IH; lia.
Qed.
Lemma on_edge1_spec a b x y :
  on_edge1 x y (fst b - fst a) (snd b - snd a) (fst a) (snd a) = true <-> on_segment a b (x, y).
Proof.
  destruct a as [ax ay], b as [bx by_]. cbn [fst snd]. unfold on_edge1, on_segment, along. cbn [fst snd].
  destruct (Reqb x ax && Reqb y ay) eqn:E0.
  { split; auto. intros _. apply andb_prop in E0. destruct E0 as [A B]. apply Reqb_true in A, B. exists 0.
    split; [lra|]. subst. f_equal; ring. }
  assert (N0 : ~ (x = ax /\ y = ay)).
  { intros [-> ->]. rewrite !(proj2 (Reqb_true _ _)) in E0; auto. discriminate. }
  destruct (Reqb (bx - ax) 0) eqn:Ex; [apply Reqb_true in Ex|apply Reqb_false in Ex];
  (destruct (Reqb (by_ - ay) 0) eqn:Ey; [apply Reqb_true in Ey|apply Reqb_false in Ey]); cbn [negb andb].
  - split.
    + destruct (Reqb x ax); [discriminate|]; destruct (Reqb y ay); discriminate.
    + intros (t & Ht & E). injection E as -> ->. exfalso. apply N0. rewrite Ex, Ey. split; ring.
  - destruct (Reqb x ax) eqn:Q; [apply Reqb_true in Q|apply Reqb_false in Q].
    + rewrite Bool.andb_true_iff, !Rleb_true. split.
      * intros H. exists ((y - ay) / (by_ - ay)). split; auto. f_equal; [rewrite Ex; lra|field; auto].
      * intros (t & Ht & E). injection E as E1 E2. replace ((y - ay) / (by_ - ay)) with t; auto. rewrite E2. field; auto.
    + split; [discriminate|]. intros (t & Ht & E). injection E as E1 E2. rewrite Ex in E1. lra.
  - destruct (Reqb y ay) eqn:Q; [apply Reqb_true in Q|apply Reqb_false in Q].
    + rewrite Bool.andb_true_iff, !Rleb_true. split.
      * intros H. exists ((x - ax) / (bx - ax)). split; auto. f_equal; [field; auto|rewrite Ey; lra].
      * intros (t & Ht & E). injection E as E1 E2. replace ((x - ax) / (bx - ax)) with t; auto. rewrite E1. field; auto.
    + split; [discriminate|]. intros (t & Ht & E). injection E as E1 E2. rewrite Ey in E2. lra.
  - rewrite !Bool.andb_true_iff, !Rleb_true, Reqb_true. split.
    + intros [E H]. exists ((x - ax) / (bx - ax)). split; auto. f_equal; [field; auto|rewrite E; field; auto].
    + intros (t & Ht & E). injection E as E1 E2.
      replace ((x - ax) / (bx - ax)) with t by (rewrite E1; field; auto).
      replace ((y - ay) / (by_ - ay)) with t by (rewrite E2; field; auto). auto.
Qed.

Lemma vertex_is_on_edge_spec vs cx cy cv p x y :
  poly_ctor (map fst vs) (map snd vs) cx cy cv = Some p ->
  (vertex_is_on_edge p x y = true <-> on_outline_of vs (x, y)).
Proof.
  intros Hc. apply ctor_built in Hc. unfold vertex_is_on_edge. rewrite existsb_exists.
  set (n := length vs).
  assert (LX : length (Vx p) = S n /\ length (Vy p) = S n) by apply (b_lenV _ _ _ _ _ Hc).
  destruct LX as [LX LY].
  assert (N : forall i, (i < n)%nat ->
    nth i (combine (combine (np_diff (Vx p)) (np_diff (Vy p))) (combine (Vx p) (Vy p))) ((0,0),(0,0)) =
    ((fst (vert vs (i + 1)) - fst (vert vs i), snd (vert vs (i + 1)) - snd (vert vs i)), vert vs i)).
  { intros i Hi. rewrite combine_nth_lt by (rewrite ?combine_length, ?np_diff_length; lia).
    rewrite !combine_nth_lt by (rewrite ?np_diff_length; lia). rewrite !np_diff_nth by lia.
    fold (vx p i) (vy p i) (vx p (S i)) (vy p (S i)).
    rewrite !(b_vx _ _ _ _ _ Hc), !(b_vy _ _ _ _ _ Hc) by (unfold n in *; lia).
    replace (i + 1)%nat with (S i) by lia. rewrite <- surjective_pairing. reflexivity. }
  split.
  - intros ([[dx dy] [ax ay]] & Hin & H). apply (In_nth _ _ ((0,0),(0,0))) in Hin. destruct Hin as (i & Hi & E).
    rewrite !combine_length, !np_diff_length in Hi. rewrite N in E by lia. injection E as E1 E2 E3.
    exists i. split; [unfold n in *; lia|]. apply on_edge1_spec. rewrite E1, E2, E3. exact H.
  - intros (i & Hi & H). eexists. split.
    + apply (nth_In (n := i) _ ((0,0),(0,0))). rewrite !combine_length, !np_diff_length. unfold n in *; lia.
    + rewrite N by auto. apply on_edge1_spec in H. destruct (vert vs i) as [ax ay]. exact H.
Qed.

Lemma built_combine vs cx cy cv p : built vs cx cy cv p ->
  combine (Vx p) (Vy p) = map (vert vs) (seq 0 (S (length vs))).
Proof.
  intros Hc. destruct (b_lenV _ _ _ _ _ Hc) as [LX LY]. apply (nth_ext _ _ (0, 0) (vert vs 0)).
  - rewrite combine_length, map_length, seq_length. lia.
  - intros i Hi. rewrite combine_length in Hi. rewrite combine_nth_lt by lia.
    rewrite (map_nth (vert vs)), seq_nth by lia. fold (vx p i) (vy p i).
    rewrite !(b_vx _ _ _ _ _ Hc), !(b_vy _ _ _ _ _ Hc) by lia. rewrite <- surjective_pairing. reflexivity.
Qed.

Lemma subset_spec vs cx cy cv p vs' cx' cy' cv' p' :
  poly_ctor (map fst vs) (map snd vs) cx cy cv = Some p ->
  poly_ctor (map fst vs') (map snd vs') cx' cy' cv' = Some p' ->
  (vertexes_are_subset p p' = true <->
   (forall q, In q vs' -> on_outline_of vs q) /\ (forall q, In q vs -> on_outline_of vs' q)).
Proof.
  intros H1 H2. unfold vertexes_are_subset. rewrite Bool.andb_true_iff.
  assert (G : forall vs cx cy cv p vs' cx' cy' cv' p', 
    poly_ctor (map fst vs) (map snd vs) cx cy cv = Some p ->
    poly_ctor (map fst vs') (map snd vs') cx' cy' cv' = Some p' ->
    (forallb (fun '(x, y) => vertex_is_on_edge p x y) (combine (Vx p') (Vy p')) = true <->
     forall q, In q vs' -> on_outline_of vs q)).
  { clear. intros vs cx cy cv p vs' cx' cy' cv' p' H1 H2.
    pose proof (ctor_built _ _ _ _ _ H2) as B. rewrite (built_combine _ _ _ _ _ B), forallb_forall.
    pose proof (b_ne _ _ _ _ _ B) as NE.
    assert (L0 : length vs' <> 0%nat) by (destruct vs'; simpl; [contradiction|lia]).
    split.
    - intros H q Hq. apply (In_nth _ _ (0, 0)) in Hq. destruct Hq as (i & Hi & E).
      assert (V : vert vs' i = q) by (unfold vert; rewrite Nat.mod_small; auto).
      specialize (H q). destruct q as [x y]. apply (vertex_is_on_edge_spec _ _ _ _ _ x y H1). apply H.
      rewrite <- V. apply in_map. apply in_seq. lia.
    - intros H q Hq. apply in_map_iff in Hq. destruct Hq as (i & E & _). destruct q as [x y].
      apply (vertex_is_on_edge_spec _ _ _ _ _ x y H1). apply H. rewrite <- E. unfold vert. apply nth_In.
      apply Nat.mod_upper_bound; auto. }
  rewrite (G _ _ _ _ _ _ _ _ _ _ H1 H2), (G _ _ _ _ _ _ _ _ _ _ H2 H1). tauto.
Qed.

Lemma rect_self_outline q : In q (rectv 2 1) -> on_outline_of (rectv 2 1) q.
Proof.
  intros H. apply (In_nth _ _ (0, 0)) in H. destruct H as (i & Hi & <-). exists i. split; auto.
  exists 0. split; [lra|]. simpl in Hi. destruct i as [|[|[|[|i]]]]; [| | | |lia];
  cbv [along rectv vert length Nat.add Nat.modulo Nat.divmod Nat.sub fst snd nth]; f_equal; ring.
Qed.

Lemma ell_impact_inside_only e resc ks : ellip_ok e ->
  exists hs, ell_impact e resc ks = Some hs /\ Forall2 (fun (k : track) h => in_ellipse e (h_x h) (h_y h)) ks hs.
Proof.
  intros H. destruct (ell_impact_inside e resc ks H) as (hs & E & F). exists hs. split; auto.
  clear E. induction F as [|? ? ? ? (A & _) F IH]; constructor; auto.
Qed.

Lemma convex_test vs cx cy p x y :
  poly_ctor (map fst vs) (map snd vs) cx cy true = Some p -> insc_ok vs cx cy ->
  (p_outside p x y = false <-> inside vs (x, y)).
Proof. intros H Hi. apply ctor_built in H. apply (outside_spec _ _ _ _ H Hi). Qed.

Lemma boundary_outside vs cx cy p q :
  poly_ctor (map fst vs) (map snd vs) cx cy true = Some p -> insc_ok vs cx cy ->
  on_outline_of vs q -> p_outside p (fst q) (snd q) = true.
Proof.
  intros H Hi (i & Hn & s & Hs & E). destruct (p_outside p (fst q) (snd q)) eqn:O; auto. exfalso.
  apply (convex_test _ _ _ _ _ _ H Hi) in O. specialize (O i Hn). rewrite <- surjective_pairing, E in O.
  unfold left_of, along in O; cbn [fst snd] in O. ring_simplify in O. lra.
Qed.

Lemma accepted_area vs cx cy cv p :
  poly_ctor (map fst vs) (map snd vs) cx cy cv = Some p -> p_area p = shoelace vs /\ 0 <= shoelace vs.
Proof. intros H. apply ctor_built in H. apply (b_area _ _ _ _ _ H). Qed.

Lemma poly_normals vs cx cy p resc ks :
  poly_ctor (map fst vs) (map snd vs) cx cy true = Some p -> insc_ok vs cx cy -> 0 < resc < 1 ->
  Forall (fun k => inside vs (t_start k) /\ beyond vs (t_end k)) ks ->
  exists hs, poly_impact p resc ks = Some hs /\
    Forall2 (fun k hi => (snd hi < length vs)%nat /\
      unit_normal (fst hi) /\
      0 < h_nx (fst hi) * (t_xin k - t_xout k) + h_ny (fst hi) * (t_yin k - t_yout k) /\
      exists t, 0 < t < 1 /\
        on_segment (vert vs (snd hi)) (vert vs (snd hi + 1)) (along (t_start k) (t_end k) t)) ks hs.
Proof.
  intros H Hi Hr HF. destruct (poly_impact_convex _ _ _ _ _ _ H Hi Hr HF) as (hs & E & F). exists hs. split; auto. clear E.
  induction F as [|k hi ks hs Hk F IH]; constructor; [|inversion HF; auto].
  destruct Hk as (t & (Ht & Hn & Hs & _) & _ & _ & (HU & l & Hl & HL) & Hneg).
  inversion HF as [|? ? [Hin _] _]; subst. split; auto. split; [exact HU|]. split; [|eauto].
  specialize (Hin _ Hn). rewrite HL in Hin, Hneg. unfold t_start, t_end in *; cbn [fst snd] in *.
  set (d := h_nx (fst hi) * (t_xin k - t_xout k) + h_ny (fst hi) * (t_yin k - t_yout k)).
  assert (0 < l * d).
  { replace (l * d) with (l * (h_nx (fst hi) * (t_xin k - fst (vert vs (snd hi))) + h_ny (fst hi) * (t_yin k - snd (vert vs (snd hi)))) -
      l * (h_nx (fst hi) * (t_xout k - fst (vert vs (snd hi))) + h_ny (fst hi) * (t_yout k - snd (vert vs (snd hi))))) by (unfold d; ring). lra. }
  apply (Rmult_lt_reg_l l); lra.
Qed.
