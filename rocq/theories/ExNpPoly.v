(** Concrete cases for the numpy polygonal chamber. *)
From Coq Require Import Lra Lia Reals Psatz.
From Verif Require Import Num NumFacts Geom Poly SpecPoly PolyGeo PolyFacts NpPoly SpecNpPoly NpPolyFacts ExGeom.

Lemma np_rect : exists p q,
  poly_ctor (map fst (rectv 1 1)) (map snd (rectv 1 1)) (99/100*1) (99/100*1) true = Some p /\
  np_ctor (map fst (rectv 1 1)) (map snd (rectv 1 1)) (99/100*1) (99/100*1) = Some q /\
  insc_ok (rectv 1 1) (99/100*1) (99/100*1).
Proof.
  destruct (rect_accepted 1 1 true ltac:(lra) ltac:(lra)) as (p & Hp). rewrite rect_ctor_poly in Hp.
  exists p, (as_np p). split; [exact Hp|]. split; [apply (np_same _ _ _ true); exact Hp|apply rect_insc; lra].
Qed.

Ltac rect_eval := cbv [left_of along t_start t_end vert rectv length Nat.add Nat.modulo Nat.divmod Nat.sub fst snd nth t_xin t_yin t_xout t_yout].

Definition kc : track := mkTrack 0 0 0 2 2 0.
Definition kw : track := mkTrack 0 0 0 1 0 0.
Definition kd : track := mkTrack 0 0 0 2 1 0.

Lemma kc_ok : inside (rectv 1 1) (t_start kc) /\ beyond (rectv 1 1) (t_end kc).
Proof.
  split.
  - unfold t_start, kc; simpl. apply rect_inside; try lra. rewrite Rabs_R0. lra.
  - exists 3%nat. split; [simpl; lia|]. unfold kc. rect_eval. lra.
Qed.
Lemma kd_ok : inside (rectv 1 1) (t_start kd) /\ beyond (rectv 1 1) (t_end kd).
Proof.
  split.
  - unfold t_start, kd; simpl. apply rect_inside; try lra. rewrite Rabs_R0. lra.
  - exists 3%nat. split; [simpl; lia|]. unfold kd. rect_eval. lra.
Qed.
Lemma kw_ok : inside (rectv 1 1) (t_start kw) /\ ~ inside (rectv 1 1) (t_end kw).
Proof.
  split.
  - unfold t_start, kw; simpl. apply rect_inside; try lra. rewrite Rabs_R0. lra.
  - unfold t_end, kw; simpl. intros H. apply rect_inside in H; try lra. destruct H as [H _]. rewrite Rabs_right in H; lra.
Qed.

(** A track into a corner. *)
Lemma corner_witness : exists vs cx cy p q k c m i,
  poly_ctor (map fst vs) (map snd vs) cx cy true = Some p /\
  np_ctor (map fst vs) (map snd vs) cx cy = Some q /\ insc_ok vs cx cy /\
  inside vs (t_start k) /\ beyond vs (t_end k) /\
  poly_impact p (99/100) [k] = Some [(c, 0%nat)] /\ np_impact q (99/100) true [k] = Some [(m, Z.of_nat i)] /\
  i <> 0%nat /\ (h_nx c, h_ny c) <> (h_nx m, h_ny m).
Proof.
  destruct np_rect as (p & q & Hp & Hq & HI).
  destruct (impacts_agree _ _ _ _ _ (99/100) [kc] Hp Hq HI ltac:(lra) (Forall_cons _ kc_ok (Forall_nil _)))
    as (hs & hs' & E1 & E2 & L1 & L2 & F).
  destruct hs as [|[c ic] [|]]; try discriminate L1. destruct hs' as [|[m im] [|]]; try discriminate L2.
  cbn [combine] in F. inversion F as [|? ? ? ? X F']; subst. clear F F'.
  cbv beta iota in X. destruct X as (t & i & FC & FC' & Ei & P1 & P2 & N1 & N2 & B & O).
  cbn [fst snd] in *.
  assert (Ht : t = 1/2).
  { assert (X : first_touch (rectv 1 1) kc (1/2) 0).
    { split; [lra|]. split; [simpl; lia|]. split.
      - exists 0. split; [lra|]. unfold kc. rect_eval. f_equal; lra.
      - intros u Hu. unfold along, t_start, t_end, kc; simpl. apply rect_inside; try lra. split; apply Rabs_def1; lra. }
    exact (first_unique _ _ _ _ _ _ FC X). }
  subst t.
  assert (B0 : (ic <= 0 <= i)%nat).
  { apply B; [simpl; lia|]. exists 0. split; [lra|]. unfold kc. rect_eval. f_equal; lra. }
  assert (B3 : (ic <= 3 <= i)%nat).
  { apply B; [simpl; lia|]. exists 1. split; [lra|]. unfold kc. rect_eval. f_equal; lra. }
  assert (ic = 0%nat) by lia. assert (i = 3%nat) by (destruct FC' as (_ & A & _); simpl in A; lia). subst ic i.
  exists (rectv 1 1), (99/100*1), (99/100*1), p, q, kc, c, m, 3%nat.
  split; [exact Hp|]. split; [exact Hq|]. split; [exact HI|]. split; [apply kc_ok|]. split; [apply kc_ok|].
  split; [exact E1|]. split; [rewrite E2; congruence|]. split; [lia|].
  intros X. injection X as X1 X2. destruct N1 as [_ (l & Hl & N1)]. destruct N2 as [U (l' & Hl' & N2)].
  pose proof (N1 (0, 1)) as A. pose proof (N2 (1, 1)) as C. revert A C. rect_eval. intros A C.
  assert (l * h_nx c = 0) by lra. assert (l' * h_ny m = 0) by lra.
  assert (h_nx c = 0) by (apply (Rmult_eq_reg_l l); lra). assert (h_ny m = 0) by (apply (Rmult_eq_reg_l l'); lra).
  rewrite <- X1, <- X2 in U. rewrite <- X2 in H2. rewrite H1, H2 in U. lra.
Qed.

(** The outline is not checked. *)
Definition clockwise : list (R * R) := [(1, 1); (1, -1); (-1, -1); (-1, 1)].

Lemma clockwise_witness : exists vs cx cy q x y,
  (forall cv, poly_ctor (map fst vs) (map snd vs) cx cy cv = None) /\
  np_ctor (map fst vs) (map snd vs) cx cy = Some q /\
  inside (rev vs) (x, y) /\ np_outside q x y = true.
Proof.
  exists clockwise, (1/2), (1/2). eexists. exists (9/10), 0. split.
  - intros cv. unfold poly_ctor. destruct (existsb _ _); [reflexivity|]. cbn [map clockwise fst snd app].
    replace (poly_area _ _) with (-4).
    + replace (Rltb (-4) 0) with true by (symmetry; apply Rltb_true; lra). reflexivity.
    + unfold poly_area. cbn [app tl removelast map2 np_diff]. unfold rsum; simpl. field.
  - split; [reflexivity|]. split.
    + intros i Hi. destruct i as [|[|[|[|i]]]]; [| | | |simpl in Hi; lia];
      cbv [left_of vert rev clockwise app length Nat.add Nat.modulo Nat.divmod Nat.sub fst snd nth]; lra.
    + rewrite np_outside_convex. unfold outside_convex, in_insc.
      cbn [p_cx p_cy N_edg clockwise map length fst snd seq conv_loop].
      replace (Rleb _ 1) with false by (symmetry; apply Rleb_false; lra).
      replace (Rgtb _ 0) with false; [reflexivity|]. symmetry. apply Rgtb_false.
      cbv [side vx vy Vx Vy app nth Nat.add]. lra.
Qed.

(** A track of zero length gets a normal that is not a unit vector. *)
Definition kz : track := mkTrack (1/2) 0 0 (1/2) 0 0.

Lemma fallback_witness : exists vs cx cy q k m,
  np_ctor (map fst vs) (map snd vs) cx cy = Some q /\ insc_ok vs cx cy /\ inside vs (t_start k) /\
  np_impact q (99/100) true [k] = Some [(m, (-1)%Z)] /\
  h_nx m * h_nx m + h_ny m * h_ny m <> 1.
Proof.
  destruct np_rect as (p & q & Hp & Hq & HI).
  assert (S0 : inside (rectv 1 1) (t_start kz)).
  { unfold t_start, kz; simpl. apply rect_inside; try lra. split; apply Rabs_def1; lra. }
  assert (C : p_cx q = 99/100*1 /\ p_cy q = 99/100*1).
  { rewrite (np_same _ _ _ _ _ Hp) in Hq. injection Hq as <-. apply ctor_built in Hp. cbn [as_np p_cx p_cy].
    rewrite (b_cx _ _ _ _ _ Hp), (b_cy _ _ _ _ _ Hp). auto. }
  destruct C as [Cx Cy].
  assert (T : forall i, t_curr q kz i = None).
  { intros i. unfold t_curr, kz. cbn [t_xin t_yin t_xout t_yout]. destruct (nth i (Nrm q) None) as [[nx ny]|]; auto.
    replace (Reqb _ 0) with true; [reflexivity|]. symmetry. apply Reqb_true. ring. }
  assert (SR : np_search q kz = (1 + 1, false, (-1)%Z)).
  { unfold np_search. generalize (seq 0 (N_edg q)). intros l. generalize (1 + 1, false, (-1)%Z).
    induction l as [|i l IH]; intros st; cbn [fold_left]; auto. unfold np_step at 2. rewrite T.
    destruct st as [[a b] z]. apply IH. }
  assert (FB : np_fallback q (1/2) 0 = (- (99/100), 0)).
  { unfold np_fallback. rewrite Cx, Cy.
    replace (arctan2 (99 / 100 * 1 * 0) (99 / 100 * 1 * (1 / 2))) with 0.
    - rewrite sin_0, cos_0. cbv zeta. replace (Rgtb _ 0) with false by (symmetry; apply Rgtb_false; lra).
      f_equal; ring.
    - unfold arctan2. replace (Rltb 0 _) with true by (symmetry; apply Rltb_true; lra).
      replace (99 / 100 * 1 * 0 / (99 / 100 * 1 * (1 / 2))) with 0 by (field; lra). symmetry. apply atan_0. }
  assert (O : np_outside q (1/2) 0 = false).
  { rewrite (np_same_inside _ _ _ _ _ _ _ Hp Hq). apply ctor_built in Hp.
    apply (outside_spec _ _ _ _ Hp HI). exact S0. }
  exists (rectv 1 1), (99/100*1), (99/100*1), q, kz. eexists.
  split; [exact Hq|]. split; [exact HI|]. split; [exact S0|]. split.
  - unfold np_impact. cbn [map map2]. unfold np_hit. rewrite SR. cbn [kz t_xin t_yin]. rewrite FB. cbn [h_x h_y].
    rewrite O. cbn [existsb fst h_x h_y]. rewrite O. reflexivity.
  - cbn [h_nx h_ny]. lra.
Qed.

Lemma np_inside_case : exists q : poly,
  np_ctor (map fst (rectv 1 1)) (map snd (rectv 1 1)) (99/100*1) (99/100*1) = Some q /\
  np_outside q (t_xin kc) (t_yin kc) = false.
Proof.
  destruct np_rect as (p & q & Hp & Hq & HI). exists q. split; [exact Hq|].
  rewrite (np_same_inside _ _ _ _ _ _ _ Hp Hq). apply ctor_built in Hp.
  apply (outside_spec _ _ _ _ Hp HI). apply kc_ok.
Qed.

Lemma kd_only : only_edge (rectv 1 1) (along (t_start kd) (t_end kd) (1/2)) 3.
Proof.
  intros j Hj (s & Hs & E). destruct j as [|[|[|[|j]]]]; [| | |reflexivity|simpl in Hj; lia]; exfalso;
  revert E; unfold kd; rect_eval; intros E; injection E as A B; lra.
Qed.
