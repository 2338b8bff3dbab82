(** The Furman-Pivi code returns. *)
From Coq Require Import Lra Lia Reals Psatz.
From Verif Require Import Num NumFacts Sey SpecSey SeyFacts SeyFacts2 SeyFacts3 Furman SpecFurman FurmanFacts FurmanFacts2 FurmanFacts3 FurmanFacts4.
Local Arguments Nat.ltb : simpl never.

Lemma en_true_returns sp f sr k nn E : f_ecl_energy f = false -> length nn = length E ->
  Forall (fun n => (1 <= n)%nat /\ (n <= length (f_eps f))%nat /\ (n <= length (f_pn f))%nat) nn ->
  exists l k', en_true sp f sr k nn E = Some (l, k') /\ length l = length E.
Proof.
  intros F L H. unfold en_true. rewrite F. destruct (Nat.eqb_spec (length E) 0) as [Z|_]; [exists [], k; auto|]. unfold bind.
  assert (M : forall us, length us = length E -> exists l, mapM2 (fun nE u => en_true1 sp f (fst nE) (snd nE) u) (combine nn E) us = Some l
    /\ length l = length E).
  { clear F. revert E L. induction H as [|n nn (A & B & C) H IH]; intros [|e E] L us U; try discriminate; destruct us as [|u us]; try discriminate; cbn [combine mapM2]; [exists []; auto|].
    cbn [fst snd]. destruct (en_true1_some sp f n e u A B C) as [x ->]. cbn [bind].
    destruct (IH E (eq_add_S _ _ L) us (eq_add_S _ _ U)) as (l & -> & Hl). cbn [bind]. exists (x :: l). cbn. auto. }
  destruct (M (draw (s_uni sr) k (length E))) as (l & -> & Hl); [apply draw_length|]. eauto.
Qed.

Lemma ang_returns f sr k En nx ny d : c_angle (f_e f) = Some d -> length nx = length En -> length ny = length En ->
  exists v k', ang f sr k En nx ny = Some (v, k') /\ length v = length En.
Proof.
  intros H Lx Ly. unfold ang, bind. rewrite H. destruct (angle_dist_func _ _ _ _ _ _ _ _ _) as [v k'] eqn:A. exists v, k'. split; auto.
  unfold angle_dist_func in A. assert (L : length (combine En (combine nx ny)) = length En) by (rewrite !combine_length; lia).
  destruct d; apply (f_equal fst) in A; cbn [fst] in A; rewrite <- A; rewrite ?map2_length, ?map_length, ?combine_length, ?map_length, ?draw_length; rewrite ?combine_length in L; lia.
Qed.

Lemma true_pos_count ts zero ns : length zero = length ts -> length ns = count_true ts -> Forall (fun n => n = 0%nat) zero ->
  count_true (map2 andb ts (map (fun n => Nat.ltb 0 n) (mask_put ts zero ns))) = count_true (map (fun n => Nat.ltb 0 n) ns).
Proof.
  revert zero ns. induction ts as [|b ts IH]; intros [|z zero] ns L M Z; cbn in *; try discriminate.
  - destruct ns; auto. discriminate.
  - inversion Z; subst. destruct b; cbn [mask_put].
    + destruct ns as [|n ns]; [discriminate|]. cbn [map map2 andb count_true fold_right]. change (fold_right _ 0%nat ?x) with (count_true x) in *.
      cbn in M. unfold count_true in *. cbn [fold_right]. rewrite (IH zero ns) by (auto; lia). auto.
    + cbn [map map2 andb]. unfold count_true in *. cbn [fold_right]. apply IH; auto; lia.
Qed.

Lemma true_added ts zero ns : length zero = length ts -> length ns = count_true ts ->
  mask_get ts (map (fun n => (n - 1)%nat) (mask_put ts zero ns)) = map (fun n => (n - 1)%nat) ns.
Proof.
  revert zero ns. induction ts as [|b ts IH]; intros [|z zero] ns L M; cbn in *; try discriminate.
  - destruct ns; auto. discriminate.
  - destruct b; cbn [mask_put].
    + destruct ns as [|n ns]; [discriminate|]. cbn. cbn in M. f_equal. apply IH; auto.
    + cbn. apply IH; auto.
Qed.

Lemma added_sum ts zero ns : length zero = length ts -> length ns = count_true ts -> Forall (fun n => n = 0%nat) zero ->
  nsum (map (fun n => (n - 1)%nat) (mask_put ts zero ns)) = nsum (map (fun n => (n - 1)%nat) ns).
Proof.
  revert zero ns. induction ts as [|b ts IH]; intros [|z zero] ns L M Z; cbn in *; try discriminate.
  - destruct ns; auto. discriminate.
  - inversion Z; subst. destruct b; cbn [mask_put].
    + destruct ns as [|n ns]; [discriminate|]. cbn in M. unfold nsum in *. cbn [map fold_right]. rewrite (IH zero ns); auto.
    + unfold nsum in *. cbn [map fold_right]. rewrite (IH zero ns); auto.
Qed.

Lemma rep_big ns : Forall (fun n => (2 <= n)%nat /\ In n ns) (repeat_each ns (map (fun n => (n - 1)%nat) ns)).
Proof.
  induction ns as [|n ns IH]; cbn; [constructor|]. apply Forall_app. split.
  - apply Forall_forall. intros x Hx. destruct n as [|[|n]]; cbn in Hx; try easy.
    assert (x = Datatypes.S (Datatypes.S n)) by (destruct Hx as [Hx|Hx]; [auto|apply repeat_spec in Hx; auto]). subst. split; [lia|auto].
  - revert IH. apply Forall_impl. intuition.
Qed.

Lemma mask_pos ns : Forall (fun n => (1 <= n)%nat /\ In n ns) (mask_get (map (fun n => Nat.ltb 0 n) ns) ns).
Proof.
  induction ns as [|n ns IH]; cbn; [constructor|]. assert (IH' : Forall (fun m => (1 <= m)%nat /\ (n = m \/ In m ns)) (mask_get (map (fun n => Nat.ltb 0 n) ns) ns)).
  { revert IH. apply Forall_impl. intuition. }
  destruct (Nat.ltb_spec 0 n); auto.
Qed.

Section Returns.
Context (sp : spfun) (f : fpar) (fs : fsrc) (d : adist).
Context (Ecl : f_ecl_energy f = false) (Con : f_conserve f = false) (Ang : c_angle (f_e f) = Some d).
Context (Le : (f_Mcut f <= length (f_eps f))%nat) (Lp : (f_Mcut f <= length (f_pn f))%nat).

Lemma fp_true_returns cfuel sr ps ts ns vel k : length ts = length ps -> length vel = length ps -> length ns = count_true ts ->
  Forall (fun n => (n <= f_Mcut f)%nat) ns ->
  exists r, fp_true cfuel sp f sr ps ts (mask_put ts (map (fun _ => 0%nat) ps) ns) ns vel k = Some r.
Proof using Ecl Con Ang Le Lp.
  intros L LV LN FN. set (zero := map (fun _ => 0%nat) ps).
  assert (LZ : length zero = length ts) by (unfold zero; rewrite map_length; auto).
  assert (FZ : Forall (fun n => n = 0%nat) zero) by (unfold zero; apply Forall_forall; intros x Hx; apply in_map_iff in Hx; destruct Hx as (? & <- & _); auto).
  unfold fp_true. pose proof (true_pos_count ts zero ns LZ LN FZ) as TP. pose proof (true_added ts zero ns LZ LN) as TA.
  pose proof (added_sum ts zero ns LZ LN FZ) as AS.
  set (tpos := map2 andb ts _) in *.
  assert (LT : length tpos = length ps) by (unfold tpos; rewrite map2_length, map_length, mask_put_length; lia).
  assert (B : forall n, In n ns -> (n <= f_Mcut f)%nat) by (apply Forall_forall; auto).
  destruct (en_true_returns sp f sr k (mask_get (map (fun n => Nat.ltb 0 n) ns) ns) (mask_get tpos (map i_E ps)) Ecl) as (En & k1 & -> & LEn).
  { rewrite !mask_get_length; rewrite ?map_length; auto. }
  { eapply Forall_impl; [|apply mask_pos]. cbn beta. intros n (H1 & H2). specialize (B n H2). lia. }
  cbn [bind]. rewrite AS, TA, Con. destruct (Nat.eqb _ _); [eauto|].
  destruct (en_true_returns sp f sr k1 (repeat_each ns (map (fun n => (n - 1)%nat) ns))
     (repeat_each (map i_E ps) (map (fun n => (n - 1)%nat) (mask_put ts zero ns))) Ecl) as (Ea & k2 & -> & LEa).
  { rewrite !repeat_each_length; rewrite ?map_length, ?mask_put_length; auto; lia. }
  { eapply Forall_impl; [|apply rep_big]. cbn beta. intros n (H1 & H2). specialize (B n H2). lia. }
  cbn [bind]. rewrite mask_get_length in LEn by (rewrite map_length; auto).
  destruct (ang_returns f sr k2 En (mask_get tpos (map i_nx ps)) (mask_get tpos (map i_ny ps)) d Ang) as (v & k3 & -> & Lv);
    [rewrite mask_get_length; rewrite ?map_length; auto..|].
  cbn [bind]. rewrite mask_set_exact by congruence. cbn [bind].
  destruct (ang_some f sr k3 Ea (repeat_each (map i_nx ps) (map (fun n => (n - 1)%nat) (mask_put ts zero ns)))
     (repeat_each (map i_ny ps) (map (fun n => (n - 1)%nat) (mask_put ts zero ns))) d Ang) as (va & k4 & ->). cbn [bind]. eauto.
Qed.

Lemma fp_returns cfuel th seg ps k : fp_yield_sane f -> Forall imp_ok ps ->
  (forall p, In p ps -> de_of f p + delta_r f (i_E p) (i_ct p) < 1) ->
  exists e k', fp_impacts cfuel sp f fs th seg ps k = Some (e, k').
Proof using Ecl Con Ang Le Lp.
  intros Y I HD. unfold fp_impacts.
  set (dl := map (fun p => (delta_e f (i_E p) (i_ct p), delta_r f (i_E p) (i_ct p), delta_ts f (i_E p) (i_ct p))) ps).
  assert (YD : fp_yields f ps = Some dl).
  { unfold fp_yields. fold dl. replace (existsb _ _) with false; auto. symmetry. apply not_true_is_false. intros X. apply existsb_exists in X.
    destruct X as (x & Hx & G). apply in_map_iff in Hx. destruct Hx as (p & <- & Hp). specialize (HD p Hp). unfold de_of in HD. cbn in G.
    unfold Rgeb in G. apply Rleb_true in G. unfold fst3, snd3 in G. cbn in G. lra. }
  rewrite YD. cbn [bind]. set (fl := map2 _ _ _). assert (Lfl : length fl = length ps) by (unfold fl; rewrite map2_length, draw_length; unfold dl; rewrite map_length; lia).
  assert (HB : forall bs vel kk, length bs = length ps -> exists v k', fp_back sp f (f_src fs) ps bs vel kk = Some (v, k') /\ length v = length vel).
  { intros bs vel kk Lb. unfold fp_back. rewrite Ecl. set (En := map2 (en_back sp f) _ _).
    assert (LEn : length En = count_true bs) by (unfold En; rewrite map2_length, draw_length, mask_get_length by (rewrite map_length; auto); lia).
    destruct (ang_returns f (f_src fs) (kk + count_true bs) En (mask_get bs (map i_nx ps)) (mask_get bs (map i_ny ps)) d Ang) as (v & k3 & -> & Lv);
      [rewrite mask_get_length; rewrite ?map_length; auto..|].
    cbn [bind]. rewrite mask_set_exact by congruence. cbn [bind]. eexists _, _. split; [reflexivity|]. apply mask_put_length. }
  assert (HR : forall rd vel kk, length rd = length ps -> exists v k', fp_redi f (f_src fs) ps rd vel kk = Some (v, k') /\ length v = length vel).
  { intros bs vel kk Lb. unfold fp_redi. destruct (f_excl f); [eauto|]. set (En := map2 (en_rediff f) _ _).
    assert (LEn : length En = count_true bs) by (unfold En; rewrite map2_length, draw_length, mask_get_length by (rewrite map_length; auto); lia).
    destruct (ang_returns f (f_src fs) (kk + count_true bs) En (mask_get bs (map i_nx ps)) (mask_get bs (map i_ny ps)) d Ang) as (v & k3 & -> & Lv);
      [rewrite mask_get_length; rewrite ?map_length; auto..|].
    cbn [bind]. rewrite mask_set_exact by congruence. cbn [bind]. eexists _, _. split; [reflexivity|]. apply mask_put_length. }
  destruct (HB (map fst3 fl) (map (fun p => (i_vx p, i_vy p, i_vz p)) ps) (k + length ps)%nat) as (v1 & k1 & -> & L1); [rewrite map_length; auto|].
  cbn [bind]. destruct (HR (map snd3 fl) v1 k1) as (v2 & k2 & -> & L2); [rewrite map_length; auto|]. cbn [bind].
  destruct (Nat.eqb _ _); [cbn [bind]; eauto|]. set (ts := map thd3 fl).
  assert (NU : exists ns k', fp_numbers f fs dl ts k2 = Some (ns, k') /\ length ns = count_true ts /\ Forall (fun n => (n <= f_Mcut f)%nat) ns).
  { unfold fp_numbers. set (lam := map _ (mask_get ts dl)).
    assert (Ll : length lam = count_true ts).
    { unfold lam. rewrite map_length, mask_get_length; auto. unfold ts, dl. rewrite !map_length. auto. }
    assert (Pl : Forall (fun l => 0 <= l) lam).
    { apply Forall_forall. intros x Hx. apply in_map_iff in Hx. destruct Hx as (q & <- & Hq). apply mask_get_In in Hq. apply in_map_iff in Hq.
      destruct Hq as (p & <- & Hp). unfold fst3, snd3, thd3. cbn [fst snd]. rewrite Forall_forall in I. destruct (I p Hp) as (_ & HE & HC).
      pose proof (delta_ts_range f (i_E p) (i_ct p) Y HE HC). specialize (HD p Hp). unfold de_of in HD.
      pose proof (delta_r_nonneg f (i_E p) (i_ct p) Y).
      apply Rmult_le_pos; [lra|]. left. apply Rinv_0_lt_compat. destruct (f_excl f); lra. }
    rewrite poisson_some by auto. cbn [bind]. set (n0 := map2 _ _ _). assert (L0 : length lam = length n0) by (unfold n0; rewrite map2_length, seq_length; lia).
    destruct (cut_rounds_some 12 fs (k2 + length lam)%nat (f_Mcut f) lam 0 n0 L0 Pl ltac:(lia) ltac:(lia)) as [[ns k'] R]. rewrite R.
    destruct (cut_rounds_ok _ _ _ _ _ _ _ _ _ L0 R) as (A1 & A2). exists ns, k'. repeat split; auto; lia. }
  destruct NU as (ns & k3 & -> & Ln & Fn). cbn [bind].
  destruct (fp_true_returns cfuel (f_src fs) ps ts ns v2 k3) as [[[v3 nw] k4] ->]; auto.
  { unfold ts. rewrite map_length. auto. }
  { rewrite L2, L1, map_length. auto. }
  cbn [bind]. eauto.
Qed.
End Returns.
