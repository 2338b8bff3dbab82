(** An L-shaped chamber. *)
From Coq Require Import Lra Lia Reals Psatz Bool.
From Verif Require Import Num NumFacts Geom SpecGeom GeomFacts Poly SpecPoly PolyGeo PolyFacts ExGeom SpecRay RayFacts.

Definition lshape : list (R * R) := [(-1, -1); (3, -1); (3, 1); (1, 1); (1, 3); (-1, 3)].
Ltac six i Hi := destruct i as [|[|[|[|[|[|i]]]]]]; [| | | | | |simpl in Hi; lia]; clear Hi.
Ltac lcomp := cbv [vert lshape length Nat.add Nat.modulo Nat.divmod Nat.sub fst snd nth along] in *.

Lemma lshape_accepted : exists p, poly_ctor (map fst lshape) (map snd lshape) (1/2) (1/2) false = Some p.
Proof.
  unfold poly_ctor, lshape. cbn [map fst snd np_diff map2 existsb].
  rewrite !(proj2 (Rltb_false _ _)) by (apply sqrt_le_sq; lra). cbn [orb].
  match goal with |- context [poly_area ?a ?b] => assert (EA : poly_area a b = 12) end.
  { unfold poly_area. cbn [app tl removelast map2 np_diff]. unfold rsum; simpl. lra. }
  rewrite EA. rewrite (proj2 (Rltb_false _ _)) by lra. cbn [andb]. eauto.
Qed.
Lemma lshape_off t i : (i < length lshape)%nat -> on_segment (vert lshape i) (vert lshape (i + 1)) t -> 1 <= Rabs (fst t) \/ 1 <= Rabs (snd t).
Proof.
  intros Hi (s & Hs & ->). six i Hi; lcomp; [right|left|right|left|right|left]; (unfold Rabs; destruct (Rcase_abs _); lra).
Qed.
Lemma lshape_clear : insc_clear lshape (1/2) (1/2).
Proof.
  split; [lra|]. split; [lra|]. split.
  - intros [x y] H (i & Hi & S). apply (lshape_off _ _ Hi) in S. unfold in_insc_ell in H. cbn [fst snd] in *.
    assert (E : x * x / (1 / 2 * (1 / 2)) + y * y / (1 / 2 * (1 / 2)) = 4 * (x * x) + 4 * (y * y)) by field. rewrite E in H.
    assert (Sq : forall u, 1 <= Rabs u -> 1 <= u * u) by (intros u Hu; assert (X : u * u = Rabs u * Rabs u) by (rewrite <- Rabs_mult; symmetry; apply Rabs_right; nra); rewrite X; nra).
    destruct S as [S|S]; apply Sq in S; nra.
  - exists [1%nat]. split; [repeat constructor; intros []|]. split; [|exists 0%nat; reflexivity]. intros i. split.
    + intros [<-|[]]. split; [cbn; lia|]. left. unfold left_of. lcomp. lra.
    + intros [Hi C]. six i Hi; unfold crossed, left_of in C; lcomp; try (left; reflexivity); exfalso; lra.
Qed.
Lemma lshape_corner : joined lshape (2, 2) (10, 2) /\ off_box lshape (10, 2).
Proof.
  split.
  - apply (joined_step _ _ (10, 2)); [|apply joined_here]. intros t Ht (i & Hi & s & Hs & E). six i Hi; lcomp; apply pair_equal_spec in E as [E1 E2]; lra.
  - left. intros v H. unfold lshape in H. cbn [In] in H. repeat (destruct H as [<-|H]; [cbn; lra|]). destruct H.
Qed.
Lemma lshape_arm : joined lshape (0, 0) (0, 2).
Proof.
  apply (joined_step _ _ (0, 2)); [|apply joined_here]. intros t Ht (i & Hi & s & Hs & E). six i Hi; lcomp; apply pair_equal_spec in E as [E1 E2]; lra.
Qed.
Lemma rect_strict xa ya : 0 < xa -> 0 < ya -> strictly_convex (rectv xa ya).
Proof.
  intros Hx Hy. split; [cbn; lia|]. intros i k Hi Hk N1 N2. four i Hi; four k Hk; cbn in N1, N2; try congruence;
  cbv [left_of vert rectv length Nat.add Nat.modulo Nat.divmod Nat.sub fst snd nth]; nra.
Qed.
