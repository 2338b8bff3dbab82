(** Beam and cloud act on each other. *)
From Coq Require Import String Lia Lra.
From Verif Require Import Num NumFacts MP SpecMP Push Impact Beam Source Sim SpecSim PyHT SpecPyHT PyHTFacts PyHTFacts6.
Local Open Scope list_scope.
Local Open Scope R_scope.

Lemma meets_iff i : interacts i = Some true <-> meets i.
Proof.
  unfold meets. split.
  - destruct i as [| |[o|] a b zl zr]; cbn; intros H; [auto|discriminate| |].
    + injection H as ->. right. exists (Some true), a, b, zl, zr. split; [reflexivity|discriminate].
    + right. exists None, a, b, zl, zr. split; [reflexivity|discriminate].
  - intros [->|(o & a & b & zl & zr & -> & N)]; [reflexivity|]. destruct o as [[|]|]; cbn; congruence.
Qed.
Lemma skips_inter i : skips i -> interacts i = Some false.
Proof. intros (a & b & zl & zr & ->). reflexivity. Qed.

Lemma pick_is {A} (l : list A) : forall ix ps, pick l ix = Some ps -> Forall2 (fun i q => nth_error l i = Some q) ix ps.
Proof.
  induction ix as [|i ix IH]; intros ps H; cbn [pick] in H; [injection H as <-; constructor|].
  destruct (nth_error l i) as [a|] eqn:E; [|discriminate]. cbn [bind] in H. destruct (pick l ix) as [r|]; [|discriminate]. cbn [bind] in H. injection H as <-. constructor; auto.
Qed.

Lemma mean_centre l : l <> [] -> centre l (mean l).
Proof. intros H. unfold centre, mean. assert (INR (List.length l) <> 0) by (apply not_0_INR; destruct l; [contradiction|discriminate]). field. assumption. Qed.
Lemma squares_nonneg c l : 0 <= rsum (map (fun x => (x - c) * (x - c)) l).
Proof.
  induction l as [|x l IH]; [unfold rsum; cbn; lra|]. cbn [map]. change (0 <= (x - c) * (x - c) + rsum (map (fun x => (x - c) * (x - c)) l)).
  assert (0 <= (x - c) * (x - c)) by apply Rle_0_sqr. lra.
Qed.
Lemma std_width l : l <> [] -> width l (std l).
Proof.
  intros H. split; [apply sqrt_pos|]. exists (mean l). split; [apply mean_centre; exact H|]. unfold std. rewrite sqrt_sqrt.
  - unfold mean at 1. rewrite map_length. assert (INR (List.length l) <> 0) by (apply not_0_INR; destruct l; [contradiction|discriminate]). field. assumption.
  - unfold mean at 1. apply Rmult_le_pos; [apply squares_nonneg|]. rewrite map_length. left. apply Rinv_0_lt_compat, lt_0_INR. destruct l; [contradiction|cbn; lia].
Qed.

Lemma dummy_acts f t d l n u sx sy x y : acts (mkTim t d l n u (dummy_field (Some f)) sx sy x y) (fun r => f (fst r) (snd r)).
Proof. intros [|q pos]; cbn; split; auto. Qed.
Lemma dummy_dark t d l n u sx sy x y : acts (mkTim t d l n u (dummy_field None) sx sy x y) (fun _ => (0, 0)).
Proof. intros [|q pos]; cbn; split; auto. Qed.

Lemma slice_meets p b ix dz force h b' h' : meets (q_info b) -> track_single_slice p b ix dz force h = Some (b', h') ->
  exists new g ps a tm, passage p (q_info b) force h = Some (new, g) /\ Forall2 (fun i q => nth_error (q_parts b) i = Some q) ix ps /\
    sim_time_step (z_env p) a tm [] (h_sim g) = Some (h_sim h') /\ s_force_sc a = true /\ s_noclean a = true /\ s_noregen a = true /\ s_kick a = z_kick p /\
    ti_new tm = new /\ ti_unif tm = true /\ ti_lam tm * dz = q_ppmp b * INR (List.length ix) /\
    acts tm (match ix with [] => fun _ => (0, 0) | _ => fun r => field_of p b dz ps (fst r) (snd r) end) /\
    (ix <> [] -> centre (map (fun q => bp_x q + z_xoff p) ps) (ti_x tm) /\ centre (map (fun q => bp_y q + z_yoff p) ps) (ti_y tm) /\
                 width (map bp_x ps) (ti_sx tm) /\ width (map bp_y ps) (ti_sy tm)) /\
    b' = kicked (z_kx p) (z_ky p) p (sc_fld (m_sc (h_sim h'))) ix b.
Proof.
  intros HI0 H. pose proof (proj2 (meets_iff _) HI0) as HI. pose proof (single_kick p b ix dz force h b' h' HI H) as (new0 & g0 & PA & KB & _).
  unfold track_single_slice in H. destruct (_ || _) eqn:G; [discriminate|]. rewrite HI in H. cbn [bind] in H. bd H. bd H. destruct p0 as [new g].
  apply inter_one in E. subst l. cbn [cloud_steps] in H. bd H. destruct p0 as [b1 h1]. injection H as <- <-.
  repeat (apply Bool.orb_false_iff in G; destruct G as [G ?]). repeat match goal with K : Reqb _ _ = false |- _ => apply Reqb_false in K end.
  unfold cloud_step in E. bd E. destruct p0 as [hs n]. bd E. destruct (dummy_beam _ _ _ _ _ _ _ _ _) as [tm hb] eqn:DB. bd E. bds E. injection E as <- <-. cbn [h_sim] in *.
  rename l into ps. exists new, g, ps. eexists _, tm. split; [reflexivity|]. pose proof (pick_is _ _ _ E2) as PK. split; [exact PK|]. split; [exact E3|]. cbn [s_force_sc s_noclean s_noregen s_kick].
  do 4 (split; [reflexivity|]).
  assert (LP : List.length ps = List.length ix) by (symmetry; eapply Forall2_length; exact PK).
  unfold dummy_beam in DB. cbn [negb orb] in DB. rewrite Bool.orb_false_r in DB. destruct (Nat.eqb (List.length ps) 0) eqn:L0.
  - apply Nat.eqb_eq in L0. injection DB as <- <-. cbn [ti_new ti_unif ti_lam]. do 2 (split; [reflexivity|]). assert (IX : ix = []) by (destruct ix; [reflexivity|cbn in *; lia]).
    subst ix. cbn [List.length INR]. split; [lra|]. split; [apply dummy_dark|]. split; [intros []; reflexivity|exact KB].
  - apply Nat.eqb_neq in L0. injection DB as <- <-. cbn [ti_new ti_unif ti_lam ti_x ti_y ti_sx ti_sy]. do 2 (split; [reflexivity|]). split; [rewrite LP; field; assumption|]. split.
    + destruct ix as [|i ix]; [cbn in LP; lia|]. apply dummy_acts.
    + split; [|exact KB]. intros _. 
      assert (SH : forall (f : bpart -> R) o, centre (map (fun q => f q + o) ps) (mean (map f ps) + o)).
      { intros f o. unfold centre. rewrite map_length, Rmult_plus_distr_l. assert (M : centre (map f ps) (mean (map f ps))) by (apply mean_centre; destruct ps; [cbn in L0; lia|discriminate]).
        unfold centre in M. rewrite map_length in M. rewrite M. clear. induction ps as [|q ps IH]; [unfold rsum; cbn; lra|].
        cbn [map]. change (rsum (f q :: map f ps)) with (f q + rsum (map f ps)). change (rsum (f q + o :: map (fun q => f q + o) ps)) with (f q + o + rsum (map (fun q => f q + o) ps)).
        rewrite <- IH. change (List.length (q :: ps)) with (S (List.length ps)). rewrite S_INR. lra. }
      split; [apply SH|]. split; [apply SH|]. split; apply std_width; destruct ps; try discriminate; cbn in L0; lia.
Qed.

Lemma slice_skips p b ix dz force h b' h' : skips (q_info b) -> track_single_slice p b ix dz force h = Some (b', h') ->
  b' = b /\ exists new g, passage p (q_info b) force h = Some (new, g) /\ unlit (z_env p) (h_sim g) (h_sim h').
Proof.
  intros HI0 H. pose proof (skips_inter _ HI0) as HI. unfold track_single_slice in H. destruct (_ || _) eqn:G; [discriminate|]. rewrite HI in H. cbn [bind] in H. bd H. bd H. destruct p0 as [new g].
  assert (K : forall first new b g b' h', cloud_steps p first new false ix dz l b g = Some (b', h') -> b' = b /\ unlit (z_env p) (h_sim g) (h_sim h')).
  { clear. induction l as [|dt dts IH]; intros first new b g b' h' H; cbn [cloud_steps] in H; [injection H as <- <-; split; [reflexivity|constructor]|].
    bd H. destruct p0 as [b1 h1]. apply IH in H. destruct H as [-> U]. unfold cloud_step in E. bd E. destruct p0 as [hs n]. bd E.
    destruct (dummy_beam _ _ _ _ _ _ _ _ _) as [tm hb] eqn:DB. bd E. bds E. injection E as <- <-. cbn [h_sim] in *. split; [reflexivity|].
    assert (T : acts tm (fun _ => (0, 0)) /\ ti_lam tm = 0).
    { unfold dummy_beam in DB. cbn [negb] in DB. rewrite Bool.orb_true_r in DB. injection DB as <- <-. split; [apply dummy_dark|reflexivity]. }
    eapply unlit_cons; [exact E2|apply T|apply T|exact U]. }
  destruct (K _ _ _ _ _ _ H) as [A B]. split; [exact A|]. exists new, g. auto.
Qed.

Lemma steps_some p i dt l : dt_array p i dt = Some l -> exists d r, l = d :: r.
Proof.
  unfold dt_array. destruct (z_Dt p) as [D|]; [|intros H; injection H as <-; eauto]. destruct (Rleb D 0) eqn:P; [discriminate|]. destruct (Rgtb dt D) eqn:G; [|intros H; injection H as <-; eauto].
  destruct i; [discriminate|]. intros H. injection H as <-. apply Rgtb_true in G. apply Rleb_false in P.
  assert (K : (0 < rceil (dt / D))%Z). { apply lt_IZR. pose proof (rceil_bounds (dt / D)) as K. assert (1 < dt / D) by (apply Rmult_lt_reg_r with D; [lra|]; unfold Rdiv; rewrite Rmult_assoc, Rinv_l by lra; lra). lra. }
  destruct (Z.to_nat (rceil (dt / D))) eqn:Z; [lia|]. cbn [repeat]. eauto.
Qed.
Lemma slice_new p clean b h b' h' o ib is zl zr : track_slice p clean b h = Some (b', h') -> q_info b = Info o ib is zl zr ->
  exists g a tm m1, sim_time_step (z_env p) a tm [] (h_sim g) = Some m1 /\
    (ti_new tm = true <-> exists n, ib = Some n /\ ((n = 0 /\ is = 0) \/ h_bunch h < n)%Z) /\
    ((ib = Some 0%Z /\ is = 0%Z /\ finalize_and_reinitialize p h = Some g) \/ (~ (ib = Some 0%Z /\ is = 0%Z) /\ h_sim g = h_sim h)).
Proof.
  intros H I. unfold track_slice in H. destruct clean; [discriminate|]. rewrite I in H. unfold track_single_slice in H. destruct (_ || _); [discriminate|].
  bd H. bd H. bd H. destruct p0 as [new g]. apply steps_some in E0 as (d & r & ->). cbn [cloud_steps] in H. bd H. destruct p0 as [b1 h1]. clear H.
  unfold cloud_step in E0. bd E0. destruct p0 as [hs k]. bd E0. destruct (dummy_beam _ _ _ _ _ _ _ _ _) as [tm hb] eqn:DB. bd E0. clear E0.
  assert (N : ti_new tm = new) by (unfold dummy_beam in DB; destruct (_ || _) in DB; injection DB as <- _; reflexivity). rewrite I in E1. cbn [passage] in E1.
  destruct ib as [n|].
  - bd E1. destruct ((n =? 0)%Z && (is =? 0)%Z) eqn:Z.
    + apply andb_prop in Z as [Z1 Z2]. apply Z.eqb_eq in Z1, Z2. subst n is. assert (B : h_bunch p0 = (-1)%Z).
      { unfold finalize_and_reinitialize in E0. destruct (z_slicemode p); [|discriminate]. bd E0. unfold reinitialize in E0. bd E0. injection E0 as <-. reflexivity. }
      rewrite B in E1. cbn in E1. injection E1 as <- <-. exists p0. eexists _, tm, _. split; [exact E4|]. split; [|left; auto].
      rewrite N. split; [intros _; exists 0%Z; auto|reflexivity].
    + injection E0 as <-. exists h. assert (Nz : ~ (n = 0 /\ is = 0)%Z) by (intros [-> ->]; discriminate).
      destruct (h_bunch h <? n)%Z eqn:L; injection E1 as <- <-; (eexists _, tm, _; split; [exact E4|]; split; [|right; split; [intros [X Y]; injection X as ->; tauto|reflexivity]]); rewrite N.
      * apply Z.ltb_lt in L. split; [intros _; exists n; auto|reflexivity].
      * apply Z.ltb_ge in L. split; [discriminate|]. intros (m & M & [X|X]); injection M as <-; [tauto|lia].
  - injection E1 as <- <-. exists h. eexists _, tm, _. split; [exact E4|]. split; [|right; split; [intros [X _]; discriminate|reflexivity]]. rewrite N. split; [discriminate|]. intros (m & M & _). discriminate.
Qed.
