(** The Furman-Pivi code as the emission model of a simulation. *)
From Coq Require Import Lra Lia Reals Psatz.
From Verif Require Import Num NumFacts MP Geom SpecGeom GeomFacts Poly Sey SpecSey SeyFacts SeyFacts2 SeyFacts3 Impact SpecImpact Sim SpecSim
  Furman SpecFurman FurmanFacts FurmanFacts2 FurmanFacts3 FurmanFacts4 FurmanFacts5 FurmanFacts7.

Lemma fp_em_shape cfuel sp f fs th seg ps st e st' : fp_em cfuel sp f fs th seg ps st = Some (e, st') ->
  exists (Y : list (imp * R * nat)) V NV,
    map rI Y = ps /\ (forall y, In y Y -> rT f y = false -> rN y = 0%nat) /\
    e = mk_out f seg Y V NV /\ length V = length Y /\ length NV = nsum (map (fun y => (rN y - 1)%nat) Y).
Proof.
  unfold fp_em, bind. destruct (fp_impacts _ _ _ _ _ _ _ _) as [[e1 k1]|] eqn:E; [|discriminate]. intros H.
  assert (e1 = e) by congruence. subst. eapply fp_shape; eauto.
Qed.

Lemma fp_em_ok w cfuel sp f fs : w_out w 0 0 = false -> emitter_ok w (fp_em cfuel sp f fs).
Proof.
  intros W0 th seg ps st e st' Hth H. apply fp_em_shape in H. destruct H as (Y & V & NV & E1 & PT & EE & LV & LN).
  set (cs := map (fun y => (rN y - 1)%nat) Y) in *.
  assert (LY : length Y = length ps) by (rewrite <- E1, map_length; auto).
  assert (LCS : length cs = length Y) by (unfold cs; apply map_length).
  assert (LA : length (repeat_each Y cs) = nsum cs) by (apply repeat_each_length; auto).
  assert (LK : length (repeat_each (map (rK f) Y) cs) = nsum cs) by (apply repeat_each_length; rewrite map_length; auto).
  assert (RPS : forall {A} (g : imp -> A), map (fun y => g (rI y)) (repeat_each Y cs) = map g (repeat_each ps cs)).
  { intros A g. rewrite <- E1, repeat_each_map, map_map. auto. }
  constructor.
  - rewrite EE. unfold emis_sized, mk_out. cbn. fold cs. rewrite app_length, !map_length, LK, LA.
    repeat split; try lia. intros ->. rewrite map_length. auto.
  - rewrite EE. cbn. fold cs.
    assert (C2 : cs = map (fun y => pred (rE f y)) Y).
    { unfold cs. apply map_ext_in. intros y Hy. symmetry. apply rE_pred. apply PT. auto. }
    rewrite C2. apply (rsum_zero_or Y (rA f) (fun y => i_nel (rI y)) (rE f)).
    + intros y _ A. rewrite rE_zero in A. apply Nat.eqb_neq in A. lia.
    + intros y _ A. rewrite rE_zero in A. apply Nat.eqb_eq in A. auto.
  - intros i Hi p. rewrite EE. cbn. rewrite !(nth_map' _ Y i _ y0) by lia.
    replace p with (rI (nth i Y y0)).
    + destruct (rA f (nth i Y y0)); auto.
    + unfold p, impat. rewrite <- E1. symmetry. apply nth_map'. lia.
  - rewrite EE. cbn. rewrite <- E1, map_map. auto.
  - exists cs. rewrite EE. cbn. fold cs. rewrite !RPS. repeat split; auto. intros ->. reflexivity.
Qed.

Lemma fp_em_pos cfuel sp f fs : emitter_pos (fp_em cfuel sp f fs).
Proof.
  intros th seg ps st e st' Hth F H. apply fp_em_shape in H. destruct H as (Y & V & NV & E1 & PT & EE & LV & LN).
  assert (FY : forall y, In y Y -> 0 <= i_nel (rI y)).
  { intros y Hy. assert (In (rI y) ps) by (rewrite <- E1; apply in_map; auto). rewrite Forall_forall in F. apply F in H. apply H. }
  rewrite EE. unfold mk_out. cbn. split; apply Forall_map, Forall_forall; intros y Hy.
  - destruct (rA f y); [lra|auto].
  - apply FY. eapply repeat_each_In; eauto.
Qed.

(** The chambers of the code contain the origin: the ellipse is centred there,
    and points in the inscribed ellipse count as inside a polygon. *)
Lemma ell_origin e resc : ellip_ok e -> w_out (ell_wall e resc) 0 0 = false.
Proof.
  intros H. cbn [ell_wall w_out]. apply ell_outside_spec; [exact H|]. unfold in_ellipse, Rdiv. rewrite !Rmult_0_l. lra.
Qed.
Lemma poly_origin p resc : w_out (poly_wall p resc) 0 0 = false.
Proof.
  cbn [poly_wall w_out]. assert (I : in_insc p 0 0 = true).
  { unfold in_insc. apply Rleb_true. unfold Rdiv. rewrite !Rmult_0_l. lra. }
  unfold p_outside, outside_convex, outside_nonconvex. rewrite I. destruct (assume_convex p); reflexivity.
Qed.
