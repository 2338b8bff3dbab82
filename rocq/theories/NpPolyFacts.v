(** Proofs about the numpy implementation of the polygonal chamber. *)
From Verif Require Import Num NumFacts Geom Poly SpecPoly PolyGeo PolyFacts NpPoly SpecNpPoly.

Definition as_np (p : poly) : poly := mkPoly (Vx p) (Vy p) (Nrm p) (N_edg p) (p_cx p) (p_cy p) true 0.

Lemma np_same vs cx cy cv p : poly_ctor (map fst vs) (map snd vs) cx cy cv = Some p ->
  np_ctor (map fst vs) (map snd vs) cx cy = Some (as_np p).
Proof.
  unfold poly_ctor, np_ctor. destruct (existsb _ _); [discriminate|].
  destruct (map fst vs) as [|x0 xs]; [discriminate|]. destruct (map snd vs) as [|y0 ys]; [discriminate|].
  destruct (Rltb _ 0); [discriminate|]. destruct (cv && _); [discriminate|].
  intros H; injection H as <-. reflexivity.
Qed.

Lemma fold_false (f : nat -> bool) l : fold_left (fun (b : bool) ii => if b then f ii else b) l false = false.
Proof. induction l as [|i l IH]; simpl; auto. Qed.

Lemma fold_conv p l x y :
  fold_left (fun (b : bool) ii => if b then Rgtb (side p ii x y) 0 else b) l true = conv_loop p l x y.
Proof.
  induction l as [|i l IH]; cbn [fold_left conv_loop]; auto.
  destruct (Rgtb (side p i x y) 0); [exact IH|]. apply (fold_false (fun ii => Rgtb (side p ii x y) 0)).
Qed.

Lemma np_outside_convex p x y : np_outside p x y = outside_convex p x y.
Proof.
  unfold np_outside, outside_convex, in_insc. cbv zeta. rewrite fold_conv.
  destruct (Rleb _ 1) eqn:E.
  - apply Rleb_true in E. replace (Rgtb _ 1) with false by (symmetry; apply Rgtb_false; lra). reflexivity.
  - apply Rleb_false in E. replace (Rgtb _ 1) with true by (symmetry; apply Rgtb_true; lra). reflexivity.
Qed.

Lemma conv_as_np p l x y : conv_loop (as_np p) l x y = conv_loop p l x y.
Proof. induction l as [|i l IH]; cbn [conv_loop]; auto. rewrite IH. reflexivity. Qed.

Lemma outside_as_np p x y : outside_convex (as_np p) x y = outside_convex p x y.
Proof. unfold outside_convex. rewrite conv_as_np. reflexivity. Qed.

Lemma np_same_inside vs cx cy p q x y :
  poly_ctor (map fst vs) (map snd vs) cx cy true = Some p ->
  np_ctor (map fst vs) (map snd vs) cx cy = Some q ->
  np_outside q x y = p_outside p x y.
Proof.
  intros H1 H2. rewrite (np_same _ _ _ _ _ H1) in H2. injection H2 as <-.
  rewrite np_outside_convex, outside_as_np. unfold p_outside. rewrite (b_cv _ _ _ _ _ (ctor_built _ _ _ _ _ H1)). reflexivity.
Qed.

(** The search over the edges. *)
Lemma np_fold p k m :
  let '(tm, f, idx) := fold_left (np_step p k) (seq 0 m) (1 + 1, false, (-1)%Z) in
  (f = false /\ tm = 2 /\ forall i t, (i < m)%nat -> t_curr p k i = Some t -> 0 <= t -> 2 <= t) \/
  (f = true /\ exists i, (i < m)%nat /\ idx = Z.of_nat i /\ t_curr p k i = Some tm /\ 0 <= tm < 2 /\
     (forall j t, (j < m)%nat -> t_curr p k j = Some t -> 0 <= t -> tm <= t) /\
     (forall j, (j < m)%nat -> t_curr p k j = Some tm -> on_border p k j = true -> on_border p k i = true /\ (j <= i)%nat)).
Proof.
  induction m as [|m IH].
  - cbn [seq fold_left]. left. split; auto. split; [lra|]. intros; lia.
  - rewrite seq_S, fold_left_app. cbn [fold_left plus].
    destruct (fold_left _ (seq 0 m) _) as [[tm f] idx]. unfold np_step at 1.
    destruct (t_curr p k m) as [t|] eqn:T.
    2:{ destruct IH as [(F & E & H)|(F & i & H1 & H2 & H3 & H4 & H5 & H6)].
        - left. split; auto. split; auto. intros i u Hi Hu. assert (i <> m) by congruence. apply H with (i := i); auto; lia.
        - right. split; auto. exists i. repeat split; auto; try lra; try lia.
          + intros j u Hj Hu. assert (j <> m) by congruence. apply H5 with (j := j); auto; lia.
          + apply H6 with j; auto. assert (j <> m) by congruence. lia.
          + apply H6; auto. assert (j <> m) by congruence. lia. }
    destruct (Rgeb t 0 && Rltb t tm) eqn:U; cbv zeta.
    + apply andb_prop in U. destruct U as [U1 U2]. apply Rgeb_true in U1. apply Rltb_true in U2.
      right. split; [reflexivity|]. exists m. split; [lia|].
      split; [destruct (Reqb t t && on_border p k m); reflexivity|]. split; [auto|].
      destruct IH as [(F & E & H)|(F & i & H1 & H2 & H3 & H4 & H5 & H6)].
      * split; [lra|]. split.
        -- intros j u Hj Hu Hp. destruct (Nat.eq_dec j m) as [->|N]; [rewrite T in Hu; injection Hu as <-; lra|].
           assert (2 <= u) by (apply H with j; auto; lia). lra.
        -- intros j Hj Hu Hbj. destruct (Nat.eq_dec j m) as [->|N]; [auto|].
           assert (2 <= t) by (apply H with j; auto; lia || lra). lra.
      * split; [lra|]. split.
        -- intros j u Hj Hu Hp. destruct (Nat.eq_dec j m) as [->|N]; [rewrite T in Hu; injection Hu as <-; lra|].
           assert (tm <= u) by (apply H5 with j; auto; lia). lra.
        -- intros j Hj Hu Hbj. destruct (Nat.eq_dec j m) as [->|N]; [auto|].
           assert (tm <= t) by (apply H5 with j; auto; lia || lra). lra.
    + assert (U' : 0 <= t -> tm <= t).
      { intros Hp. apply Bool.andb_false_iff in U. destruct U as [U|U]; [apply Rgeb_false in U; lra|apply Rltb_false in U; lra]. }
      cbn [orb].
      destruct IH as [(F & E & H)|(F & i & H1 & H2 & H3 & H4 & H5 & H6)].
      * left. split; auto. split; auto. intros i u Hi Hu Hp. destruct (Nat.eq_dec i m) as [->|N].
        -- rewrite T in Hu; injection Hu as <-. specialize (U' Hp). lra.
        -- apply H with i; auto; lia.
      * right. split; auto.
        assert (G5 : forall j u, (j < S m)%nat -> t_curr p k j = Some u -> 0 <= u -> tm <= u).
        { intros j u Hj Hu Hp. destruct (Nat.eq_dec j m) as [->|N]; [rewrite T in Hu; injection Hu as <-; auto|].
          apply H5 with j; auto; lia. }
        destruct (Reqb t tm && on_border p k m) eqn:B.
        -- apply andb_prop in B. destruct B as [B1 B2]. apply Reqb_true in B1.
           exists m. split; [lia|]. split; [auto|]. split; [congruence|]. split; [lra|]. split; [exact G5|].
           intros j Hj _ _. split; [auto|lia].
        -- exists i. split; [lia|]. split; [auto|]. split; [auto|]. split; [auto|]. split; [exact G5|].
           intros j Hj Hu Hbj. destruct (Nat.eq_dec j m) as [->|N]; [|apply H6; auto; lia].
           exfalso. rewrite T in Hu; injection Hu as ->. rewrite Hbj in B.
           rewrite (proj2 (Reqb_true tm tm) eq_refl) in B. discriminate.
Qed.

(** The cython search keeps the first of the edges. *)
Lemma hit_fold_first p k m :
  let r := fold_left (hit_step p k) (seq 0 m) (1, None) in
  (forall j t, (j < m)%nat -> cand p k j = Some t -> fst r <= t) /\
  forall i, snd r = Some i -> forall j, (j < m)%nat -> cand p k j = Some (fst r) -> (i <= j)%nat.
Proof.
  induction m as [|m IH]; cbv zeta.
  - cbn [seq fold_left]. split; intros; lia.
  - rewrite seq_S, fold_left_app. cbn [fold_left plus]. cbv zeta in IH. destruct IH as [IH1 IH2].
    set (r := fold_left _ (seq 0 m) _) in *. rewrite hit_step_cand.
    destruct (cand p k m) as [t|] eqn:T.
    2:{ split.
        - intros j u Hj Hu. assert (j <> m) by congruence. apply IH1 with j; auto; lia.
        - intros i Hi j Hj Hu. assert (j <> m) by congruence. apply IH2; auto; lia. }
    destruct (Rltb t (fst r)) eqn:L.
    + apply Rltb_true in L. cbn [fst snd]. split.
      * intros j u Hj Hu. destruct (Nat.eq_dec j m) as [->|N]; [rewrite T in Hu; injection Hu as <-; lra|].
        assert (fst r <= u) by (apply IH1 with j; auto; lia). lra.
      * intros i Hi j Hj Hu. injection Hi as <-. destruct (Nat.eq_dec j m) as [->|N]; [lia|].
        assert (fst r <= t) by (apply IH1 with j; auto; lia). lra.
    + apply Rltb_false in L. split.
      * intros j u Hj Hu. destruct (Nat.eq_dec j m) as [->|N]; [rewrite T in Hu; injection Hu as <-; lra|].
        apply IH1 with j; auto; lia.
      * intros i Hi j Hj Hu. destruct (Nat.eq_dec j m) as [->|N]; [|apply IH2; auto; lia].
        assert (X : (i < m)%nat); [|lia].
        clear - Hi. subst r. destruct (fold_hit p k (seq 0 m) (1, None)) as [[R _]|(i' & Hi' & R1 & _)].
        -- rewrite R in Hi. discriminate.
        -- rewrite R1 in Hi. injection Hi as ->. apply in_seq in Hi'. lia.
Qed.

Section Built.
Variables (vs : list (R * R)) (cx cy : R) (p : poly).
Hypothesis Hb : built vs cx cy true p.
Let n := length vs.
Let V := vert vs.

Lemma cand_np k i : (i < n)%nat -> cand p k i =
  if on_border p k i then match t_curr p k i with Some t => if Rgeb t 0 then Some t else None | None => None end else None.
Proof.
  intros Hin. unfold cand, on_border, t_curr. cbv zeta.
  set (D := (t_yout k - t_yin k) * (vx p (i + 1) - vx p i) + (t_xin k - t_xout k) * (vy p (i + 1) - vy p i)).
  destruct (Reqb D 0) eqn:E0.
  { replace (Rgeb (-2) 0) with false by (symmetry; apply Rgeb_false; lra). reflexivity. }
  apply Reqb_false in E0. destruct (Rgeb _ 0 && Rleb _ 1); [|reflexivity].
  rewrite (b_nrm _ _ _ _ _ Hb) by (unfold n in *; lia).
  destruct (edge_normal _ _) as [[nx ny]|] eqn:EN; [|reflexivity].
  destruct (edge_normal_spec _ _ _ _ EN) as [U (l & Hl & HL)].
  set (dd := nx * (t_xout k - t_xin k) + ny * (t_yout k - t_yin k)).
  assert (Hdd : l * dd = D).
  { unfold D. rewrite !(b_vx _ _ _ _ _ Hb), !(b_vy _ _ _ _ _ Hb) by (unfold n in *; lia).
    pose proof (HL (t_start k)) as A. pose proof (HL (t_end k)) as B.
    unfold left_of, t_start, t_end in A, B; cbn [fst snd] in A, B. unfold dd. lra. }
  replace (Reqb dd 0) with false; [reflexivity|].
  symmetry. apply Reqb_false. intros X. rewrite X in Hdd. lra.
Qed.

Lemma t_curr_spec k i t : (i < n)%nat -> t_curr p k i = Some t ->
  t * (left_of (V i) (V (i + 1)) (t_start k) - left_of (V i) (V (i + 1)) (t_end k)) =
  left_of (V i) (V (i + 1)) (t_start k).
Proof.
  intros Hin. unfold t_curr. cbv zeta. rewrite (b_nrm _ _ _ _ _ Hb) by (unfold n in *; lia).
  rewrite !(b_vx _ _ _ _ _ Hb), !(b_vy _ _ _ _ _ Hb) by (unfold n in *; lia). fold V.
  destruct (edge_normal _ _) as [[nx ny]|] eqn:EN; [|discriminate].
  destruct (edge_normal_spec _ _ _ _ EN) as [U (l & Hl & HL)].
  destruct (Reqb _ 0) eqn:E0; [discriminate|]. apply Reqb_false in E0. intros H; injection H as <-.
  rewrite !HL. unfold t_start, t_end; cbn [fst snd]. field. exact E0.
Qed.

(** First touch of a track that starts inside and does not end inside. *)
Lemma np_search_spec k : inside vs (t_start k) -> ~ inside vs (t_end k) ->
  exists t i nx ny, np_search p k = (t, true, Z.of_nat i) /\ first_touch vs k t i /\
    nth i (Nrm p) None = Some (nx, ny) /\ left_normal (V i) (V (i + 1)) nx ny /\
    forall j, (j < n)%nat -> on_segment (V j) (V (j + 1)) (along (t_start k) (t_end k) t) -> (j <= i)%nat.
Proof.
  intros Hin Hout. pose proof (n_pos vs cx cy p Hb) as Hn. fold n in Hn.
  pose proof (V_per vs cx cy p Hb) as HV. fold n V in HV.
  pose proof (turns_left vs cx cy p Hb _ Hin) as HT. fold V in HT.
  set (ls := fun i => left_of (V i) (V (i + 1)) (t_start k)).
  set (le := fun i => left_of (V i) (V (i + 1)) (t_end k)).
  assert (Hls : forall i, 0 < ls i) by (apply (all_S V n Hn HV (fun x => 0 < x)); exact Hin).
  set (tc := fun i => ls i / (ls i - le i)).
  destruct (argmin_on tc (fun i => le i <= 0) n) as (m & Hm & Pm & Hmin).
  { intros i. destruct (Rle_dec (le i) 0); auto. }
  { assert (X : (exists i, (i < n)%nat /\ le i <= 0) \/ forall i, (i < n)%nat -> 0 < le i).
    { clear. induction n as [|j IH]; [right; lia|]. destruct IH as [(i & Hi & Hl)|H].
      - left. exists i. split; [lia|auto].
      - destruct (Rle_dec (le j) 0) as [L|L]; [left; exists j; split; [lia|auto]|].
        right. intros i Hi. destruct (Nat.eq_dec i j) as [->|N]; [lra|apply H; lia]. }
    destruct X as [X|X]; [exact X|]. exfalso. apply Hout. intros i Hi. apply X. exact Hi. }
  set (ts := tc m) in *.
  assert (Htc : forall i, le i <= 0 -> 0 < tc i <= 1 /\ tc i * (ls i - le i) = ls i).
  { intros i Hi'. pose proof (Hls i). unfold tc.
    assert (E : ls i / (ls i - le i) * (ls i - le i) = ls i) by (field; lra).
    split; auto. set (u := ls i / (ls i - le i)) in *. split.
    - apply Rdiv_lt_0_compat; lra.
    - nra. }
  destruct (Htc m Pm) as [Hts Ets]. fold ts in Hts, Ets.
  assert (Hbefore : forall u, 0 <= u < ts -> inside vs (along (t_start k) (t_end k) u)).
  { intros u Hu i Hi'. rewrite left_along. change (0 < (1 - u) * ls i + u * le i). pose proof (Hls i).
    destruct (Rle_dec (le i) 0) as [Hneg|Hneg].
    - destruct (Htc i Hneg) as [A B]. assert (ts <= tc i) by (apply Hmin; auto).
      assert (u < tc i) by lra. assert (u * (ls i - le i) < tc i * (ls i - le i)) by (apply Rmult_lt_compat_r; lra). lra.
    - assert (0 <= u * le i) by (apply Rmult_le_pos; lra). assert (0 < (1 - u) * ls i) by (apply Rmult_lt_0_compat; lra). lra. }
  assert (Hat : forall i, 0 <= S_ V i (along (t_start k) (t_end k) ts)).
  { apply (all_S V n Hn HV (fun x => 0 <= x)). intros i Hi'. unfold S_. rewrite left_along.
    change (0 <= (1 - ts) * ls i + ts * le i). pose proof (Hls i).
    destruct (Rle_dec (le i) 0) as [Hneg|Hneg].
    - destruct (Htc i Hneg) as [A B]. assert (ts <= tc i) by (apply Hmin; auto).
      assert (ts * (ls i - le i) <= tc i * (ls i - le i)) by (apply Rmult_le_compat_r; lra). lra.
    - assert (0 <= ts * le i) by (apply Rmult_le_pos; lra). assert (0 <= (1 - ts) * ls i) by (apply Rmult_le_pos; lra). lra. }
  assert (Hzero : S_ V m (along (t_start k) (t_end k) ts) = 0).
  { unfold S_. rewrite left_along. change ((1 - ts) * ls m + ts * le m = 0). lra. }
  destruct (on_outline V n Hn HV HT (t_start k) Hls _ m Hat Hzero) as (j & s & Hj & Hs & Ej).
  assert (Cseg : forall j s, (j < n)%nat -> 0 <= s <= 1 -> along (t_start k) (t_end k) ts = along (V j) (V (j + 1)) s ->
     on_border p k j = true /\ t_curr p k j = Some ts).
  { intros j' s' Hj' Hs' E'. pose proof (crosses_cand vs cx cy p Hb k j' ts s' Hj' ltac:(lra) Hs' E' (Hls j')) as C.
    rewrite cand_np in C by auto. destruct (on_border p k j'); [|discriminate]. destruct (t_curr p k j') as [u|]; [|discriminate].
    destruct (Rgeb u 0); [|discriminate]. auto. }
  destruct (Cseg j s Hj Hs Ej) as [Bj Tj].
  unfold np_search. rewrite (b_n _ _ _ _ _ Hb). fold n. pose proof (np_fold p k n) as NF.
  destruct (fold_left _ (seq 0 n) _) as [[tm f] idx].
  destruct NF as [(F & E & H)|(F & i & H1 & H2 & H3 & H4 & H5 & H6)].
  { exfalso. assert (2 <= ts) by (apply H with j; auto; lra). lra. }
  assert (Hle : tm <= ts) by (apply H5 with j; auto; lra).
  pose proof (t_curr_spec k i tm H1 H3) as Zi. change (tm * (ls i - le i) = ls i) in Zi. pose proof (Hls i).
  assert (Hlei : le i <= 0).
  { apply Rnot_lt_le. intros Hge. destruct (Req_dec tm 1) as [E1|E1]; [rewrite E1 in Zi; lra|].
    assert (0 < (1 - tm) * ls i) by (apply Rmult_lt_0_compat; lra).
    assert (0 <= tm * le i) by (apply Rmult_le_pos; lra). lra. }
  destruct (Htc i Hlei) as [A B]. assert (Hmi : ts <= tc i) by (apply Hmin; auto).
  assert (Eri : tm = tc i) by (apply (Rmult_eq_reg_r (ls i - le i)); lra).
  assert (Et : tm = ts) by lra. rewrite Et in *.
  destruct (H6 j Hj Tj Bj) as [Bi _].
  assert (Ci : cand p k i = Some ts).
  { rewrite cand_np by auto. rewrite Bi, H3. replace (Rgeb ts 0) with true by (symmetry; apply Rgeb_true; lra). reflexivity. }
  destruct (cand_crosses vs cx cy p Hb k i ts H1 Ci) as (T0 & (s' & Hs' & Es') & Hne & nx & ny & HN & HLN).
  exists ts, i, nx, ny. split; [congruence|]. split; [|split; [auto|split; [auto|]]].
  - split; [lra|]. split; [exact H1|]. split; [exists s'; auto|exact Hbefore].
  - intros j' Hj' (s2 & Hs2 & E2). destruct (Cseg j' s2 Hj' Hs2 E2) as [B2 T2]. apply (H6 j'); auto.
Qed.

Lemma np_hit_convex resc k : 0 < resc < 1 -> inside vs (t_start k) -> ~ inside vs (t_end k) ->
  exists t i nx ny,
    np_hit p resc k =
      (mkHit (fst (along (t_start k) (t_end k) (resc * t))) (snd (along (t_start k) (t_end k) (resc * t))) 0 nx ny, Z.of_nat i) /\
    first_touch vs k t i /\ left_normal (V i) (V (i + 1)) nx ny /\
    inside vs (along (t_start k) (t_end k) (resc * t)) /\
    forall j, (j < n)%nat -> on_segment (V j) (V (j + 1)) (along (t_start k) (t_end k) t) -> (j <= i)%nat.
Proof.
  intros Hr Hin Hout. destruct (np_search_spec k Hin Hout) as (t & i & nx & ny & E & FC & HN & LN & LAST).
  exists t, i, nx, ny. unfold np_hit. rewrite E, Nat2Z.id, HN.
  split; [|split; [auto|split; [auto|split; [|exact LAST]]]].
  - unfold along, t_start, t_end; simpl. f_equal. f_equal; ring.
  - destruct FC as (Ht & _ & _ & Hb'). apply Hb'. split; nra.
Qed.

Lemma hit_first k t i : inside vs (t_start k) -> hit_search p k = (t, Some i) -> 0 <= t ->
  forall j, (j < n)%nat -> on_segment (V j) (V (j + 1)) (along (t_start k) (t_end k) t) -> (i <= j)%nat.
Proof.
  intros Hin E Ht j Hj (s & Hs & Es). pose proof (hit_fold_first p k n) as [_ F]. unfold hit_search in E.
  rewrite (b_n _ _ _ _ _ Hb) in E. fold n in E. rewrite E in F. cbn [fst snd] in F. apply (F i); auto.
  apply (crosses_cand vs cx cy p Hb k j t s); auto.
Qed.
End Built.

Lemma map2_map_r {A B C} (f : A -> B -> C) (g : A -> B) l : map2 f l (map g l) = map (fun x => f x (g x)) l.
Proof. induction l as [|a l IH]; simpl; congruence. Qed.

(** Any outline: tracks that start inside. *)
Lemma np_impact_inside p resc ks :
  Forall (fun k => np_outside p (t_xin k) (t_yin k) = false) ks ->
  exists hs, np_impact p resc true ks = Some hs /\
    Forall2 (fun k hi => np_outside p (h_x (fst hi)) (h_y (fst hi)) = false /\ h_z (fst hi) = 0 /\
      exists t, h_pt (fst hi) = along (t_start k) (t_end k) t) ks hs.
Proof.
  intros HF. unfold np_impact. cbv zeta. rewrite map2_map_r.
  set (g := fun k => let '(h, i) := np_hit p resc k in
     if np_outside p (h_x h) (h_y h) then (mkHit (t_xin k) (t_yin k) (h_z h) (h_nx h) (h_ny h), i) else (h, i)).
  assert (G : forall k, np_outside p (t_xin k) (t_yin k) = false ->
     np_outside p (h_x (fst (g k))) (h_y (fst (g k))) = false /\ h_z (fst (g k)) = 0 /\
     exists t, h_pt (fst (g k)) = along (t_start k) (t_end k) t).
  { intros k Hk. unfold g.
    assert (P : h_z (fst (np_hit p resc k)) = 0 /\ exists t, h_pt (fst (np_hit p resc k)) = along (t_start k) (t_end k) t).
    { unfold np_hit. destruct (np_search p k) as [[tm f] i]. destruct f.
      - destruct (nth (Z.to_nat i) (Nrm p) None) as [[nx ny]|]; split; auto; exists (resc * tm);
          unfold h_pt, along, t_start, t_end; simpl; f_equal; ring.
      - destruct (np_fallback p (t_xin k) (t_yin k)) as [nx ny]. split; auto. exists 0.
        unfold h_pt, along, t_start, t_end; simpl; f_equal; ring. }
    destruct (np_hit p resc k) as [h i]. cbn [fst] in P. destruct P as [Z (t & E)].
    destruct (np_outside p (h_x h) (h_y h)) eqn:O; cbn [fst h_x h_y h_z].
    - split; auto. split; auto. exists 0. unfold h_pt, along, t_start; simpl. f_equal; ring.
    - split; auto. split; auto. exists t. exact E. }
  replace (existsb _ (map g ks)) with false.
  - exists (map g ks). split; auto. clear - HF G. induction HF; simpl; constructor; auto.
  - symmetry. apply Bool.not_true_iff_false. intros X. apply existsb_exists in X. destruct X as (hi & Hin & Ho).
    apply in_map_iff in Hin. destruct Hin as (k & <- & Hk). rewrite Forall_forall in HF.
    destruct (G k (HF k Hk)) as [A _]. congruence.
Qed.

Lemma np_impact_convex vs cx cy p q resc robust ks :
  poly_ctor (map fst vs) (map snd vs) cx cy true = Some p ->
  np_ctor (map fst vs) (map snd vs) cx cy = Some q -> insc_ok vs cx cy -> 0 < resc < 1 ->
  Forall (fun k => inside vs (t_start k) /\ ~ inside vs (t_end k)) ks ->
  exists hs, np_impact q resc robust ks = Some hs /\
    Forall2 (fun k hi =>
      exists t i, first_touch vs k t i /\ snd hi = Z.of_nat i /\
        h_pt (fst hi) = along (t_start k) (t_end k) (resc * t) /\ inside vs (h_pt (fst hi)) /\
        left_normal (vert vs i) (vert vs (i + 1)) (h_nx (fst hi)) (h_ny (fst hi)) /\
        forall j, (j < length vs)%nat ->
          on_segment (vert vs j) (vert vs (j + 1)) (along (t_start k) (t_end k) t) -> (j <= i)%nat) ks hs.
Proof.
  intros Hc Hq Hi Hr HF. rewrite (np_same _ _ _ _ _ Hc) in Hq. injection Hq as <-.
  apply ctor_built in Hc. unfold np_impact. cbv zeta. rewrite map2_map_r.
  set (g := fun k => let '(h, i) := np_hit (as_np p) resc k in
     if np_outside (as_np p) (h_x h) (h_y h) then (mkHit (t_xin k) (t_yin k) (h_z h) (h_nx h) (h_ny h), i) else (h, i)).
  set (Q := fun k (hi : hit * Z) => exists t i, first_touch vs k t i /\ snd hi = Z.of_nat i /\
        h_pt (fst hi) = along (t_start k) (t_end k) (resc * t) /\ inside vs (h_pt (fst hi)) /\
        left_normal (vert vs i) (vert vs (i + 1)) (h_nx (fst hi)) (h_ny (fst hi)) /\
        forall j, (j < length vs)%nat ->
          on_segment (vert vs j) (vert vs (j + 1)) (along (t_start k) (t_end k) t) -> (j <= i)%nat).
  assert (G : forall k, inside vs (t_start k) /\ ~ inside vs (t_end k) ->
    g k = np_hit (as_np p) resc k /\ np_outside (as_np p) (h_x (fst (g k))) (h_y (fst (g k))) = false /\ Q k (g k)).
  { intros k [H1 H2]. destruct (np_hit_convex vs cx cy p Hc resc k Hr H1 H2) as (t & i & nx & ny & E & FC & LN & IN & LAST).
    change (np_hit p resc k) with (np_hit (as_np p) resc k) in E.
    assert (O : np_outside (as_np p) (fst (along (t_start k) (t_end k) (resc * t))) (snd (along (t_start k) (t_end k) (resc * t))) = false).
    { rewrite np_outside_convex, outside_as_np.
      pose proof (proj2 (outside_spec vs cx cy p Hc Hi (fst (along (t_start k) (t_end k) (resc * t)))
        (snd (along (t_start k) (t_end k) (resc * t)))) IN) as X.
      unfold p_outside in X. rewrite (b_cv _ _ _ _ _ Hc) in X. exact X. }
    assert (E2 : g k = np_hit (as_np p) resc k).
    { unfold g. rewrite E. cbn [h_x h_y]. rewrite O. reflexivity. }
    split; [exact E2|]. rewrite E2, E. cbn [fst snd h_x h_y]. split; [exact O|].
    exists t, i. cbn [fst snd h_nx h_ny]. unfold h_pt; cbn [h_x h_y]. rewrite <- surjective_pairing. auto 10. }
  destruct robust.
  - replace (existsb _ (map g ks)) with false.
    + exists (map g ks). split; auto. clear - HF G. induction HF as [|k ks Hk HF IH]; simpl; constructor; auto. apply G; auto.
    + symmetry. apply Bool.not_true_iff_false. intros X. apply existsb_exists in X. destruct X as (hi & Hin & Ho).
      apply in_map_iff in Hin. destruct Hin as (k & <- & Hk). rewrite Forall_forall in HF.
      destruct (G k (HF k Hk)) as (_ & A & _). congruence.
  - exists (map (np_hit (as_np p) resc) ks). split; auto. clear - HF G.
    induction HF as [|k ks Hk HF IH]; simpl; constructor; auto. destruct (G k Hk) as (A & _ & B). rewrite <- A. exact B.
Qed.

(** The two implementations side by side. *)
Lemma seg_not_inside vs j q : (j < length vs)%nat -> on_segment (vert vs j) (vert vs (j + 1)) q -> ~ inside vs q.
Proof.
  intros Hj (s & _ & ->) H. specialize (H j Hj). unfold left_of, along in H; cbn [fst snd] in H. lra.
Qed.

Lemma first_unique vs k t i t' i' : first_crossing vs k t i -> first_touch vs k t' i' -> t = t'.
Proof.
  intros (A1 & A2 & A3 & A4) (B1 & B2 & B3 & B4). destruct (Rtotal_order t t') as [L|[L|L]]; auto; exfalso.
  - apply (seg_not_inside _ _ _ A2 A3). apply B4. lra.
  - apply (seg_not_inside _ _ _ B2 B3). apply A4. lra.
Qed.

Lemma beyond_not_inside vs q : beyond vs q -> ~ inside vs q.
Proof. intros (i & Hi & L) H. specialize (H i Hi). lra. Qed.

Lemma impacts_agree vs cx cy p q resc ks :
  poly_ctor (map fst vs) (map snd vs) cx cy true = Some p ->
  np_ctor (map fst vs) (map snd vs) cx cy = Some q -> insc_ok vs cx cy -> 0 < resc < 1 ->
  Forall (fun k => inside vs (t_start k) /\ beyond vs (t_end k)) ks ->
  exists hs hs', poly_impact p resc ks = Some hs /\ np_impact q resc true ks = Some hs' /\
    length hs = length ks /\ length hs' = length ks /\
    Forall2 (fun k hh => let '(c, m) := hh in
      exists t i, first_crossing vs k t (snd c) /\ first_crossing vs k t i /\ snd m = Z.of_nat i /\
        h_pt (fst m) = h_pt (fst c) /\ h_z (fst m) = h_z (fst c) /\
        left_normal (vert vs (snd c)) (vert vs (snd c + 1)) (h_nx (fst c)) (h_ny (fst c)) /\
        left_normal (vert vs i) (vert vs (i + 1)) (h_nx (fst m)) (h_ny (fst m)) /\
        (forall j, (j < length vs)%nat ->
          on_segment (vert vs j) (vert vs (j + 1)) (along (t_start k) (t_end k) t) -> (snd c <= j <= i)%nat) /\
        (only_edge vs (along (t_start k) (t_end k) t) i -> snd c = i /\ fst m = fst c)) ks (combine hs hs').
Proof.
  intros Hc Hq Hi Hr HF. rewrite (np_same _ _ _ _ _ Hc) in Hq. injection Hq as <-. apply ctor_built in Hc.
  set (g := fun k => let '(h, i) := hit_cython p resc k in
     if p_outside p (h_x h) (h_y h) then (mkHit (t_xin k) (t_yin k) (h_z h) (h_nx h) (h_ny h), i) else (h, i)).
  set (g' := fun k => let '(h, i) := np_hit (as_np p) resc k in
     if np_outside (as_np p) (h_x h) (h_y h) then (mkHit (t_xin k) (t_yin k) (h_z h) (h_nx h) (h_ny h), i) else (h, i)).
  set (Q := fun k (hh : (hit * nat) * (hit * Z)) => let '(c, m) := hh in
      exists t i, first_crossing vs k t (snd c) /\ first_crossing vs k t i /\ snd m = Z.of_nat i /\
        h_pt (fst m) = h_pt (fst c) /\ h_z (fst m) = h_z (fst c) /\
        left_normal (vert vs (snd c)) (vert vs (snd c + 1)) (h_nx (fst c)) (h_ny (fst c)) /\
        left_normal (vert vs i) (vert vs (i + 1)) (h_nx (fst m)) (h_ny (fst m)) /\
        (forall j, (j < length vs)%nat ->
          on_segment (vert vs j) (vert vs (j + 1)) (along (t_start k) (t_end k) t) -> (snd c <= j <= i)%nat) /\
        (only_edge vs (along (t_start k) (t_end k) t) i -> snd c = i /\ fst m = fst c)).
  assert (G : forall k, inside vs (t_start k) /\ beyond vs (t_end k) ->
    p_outside p (h_x (fst (g k))) (h_y (fst (g k))) = false /\
    np_outside (as_np p) (h_x (fst (g' k))) (h_y (fst (g' k))) = false /\ Q k (g k, g' k)).
  { intros k [H1 H2].
    destruct (search_spec vs cx cy p Hc k H1 H2) as (t & i & nx & ny & E & FC & HN & LN & Hneg).
    destruct (np_search_spec vs cx cy p Hc k H1 (beyond_not_inside _ _ H2)) as (t' & i' & nx' & ny' & E' & FC' & HN' & LN' & LAST).
    pose proof (first_unique _ _ _ _ _ _ FC FC') as Et. subst t'.
    assert (IN : inside vs (along (t_start k) (t_end k) (resc * t))).
    { destruct FC as (Ht & _ & _ & B). apply B. split; nra. }
    assert (P : np_outside (as_np p) (fst (along (t_start k) (t_end k) (resc * t))) (snd (along (t_start k) (t_end k) (resc * t))) = false
      /\ p_outside p (fst (along (t_start k) (t_end k) (resc * t))) (snd (along (t_start k) (t_end k) (resc * t))) = false).
    { rewrite np_outside_convex, outside_as_np.
      pose proof (proj2 (outside_spec vs cx cy p Hc Hi (fst (along (t_start k) (t_end k) (resc * t)))
        (snd (along (t_start k) (t_end k) (resc * t)))) IN) as X.
      split; [|exact X]. unfold p_outside in X. rewrite (b_cv _ _ _ _ _ Hc) in X. exact X. }
    destruct P as [P1 P2].
    assert (Ex : resc * t * t_xout k + (1 - resc * t) * t_xin k = fst (along (t_start k) (t_end k) (resc * t)))
      by (unfold along, t_start, t_end; simpl; ring).
    assert (Ey : resc * t * t_yout k + (1 - resc * t) * t_yin k = snd (along (t_start k) (t_end k) (resc * t)))
      by (unfold along, t_start, t_end; simpl; ring).
    assert (Eg : g k = (mkHit (fst (along (t_start k) (t_end k) (resc * t))) (snd (along (t_start k) (t_end k) (resc * t))) 0 nx ny, i)).
    { unfold g, hit_cython. rewrite E, HN. cbv zeta. rewrite Ex, Ey. cbn [h_x h_y]. rewrite P2. reflexivity. }
    assert (Eg' : g' k = (mkHit (fst (along (t_start k) (t_end k) (resc * t))) (snd (along (t_start k) (t_end k) (resc * t))) 0 nx' ny', Z.of_nat i')).
    { unfold g', np_hit. change (np_search (as_np p) k) with (np_search p k). rewrite E', Nat2Z.id.
      change (Nrm (as_np p)) with (Nrm p). rewrite HN'. cbv zeta. rewrite Ex, Ey. cbn [h_x h_y]. rewrite P1. reflexivity. }
    rewrite Eg, Eg'. cbn [fst snd h_x h_y]. split; [exact P2|]. split; [exact P1|].
    exists t, i'. cbn [fst snd h_z]. unfold h_pt; cbn [h_x h_y].
    split; [exact FC|]. split.
    { destruct FC as (A & _). destruct FC' as (_ & B2 & B3 & B4). split; auto. }
    split; [auto|]. split; [auto|]. split; [auto|]. split; [exact LN|]. split; [exact LN'|]. split.
    - intros j Hj Hs. split; [|apply LAST; auto].
      apply (hit_first vs cx cy p Hc k t i); auto. destruct FC as (A & _). lra.
    - intros O. assert (Ei : i = i') by (destruct FC as (_ & B2 & B3 & _); apply O; auto).
      subst i'. rewrite HN in HN'. injection HN' as <- <-. auto. }
  exists (map g ks), (map g' ks). rewrite !map_length.
  split; [|split; [|split; [auto|split; [auto|]]]].
  - unfold poly_impact. fold g. cbv zeta. replace (existsb _ (map g ks)) with false; [reflexivity|].
    symmetry. apply Bool.not_true_iff_false. intros X. apply existsb_exists in X. destruct X as (hi & Hin & Ho).
    apply in_map_iff in Hin. destruct Hin as (k & <- & Hk). rewrite Forall_forall in HF.
    destruct (G k (HF k Hk)) as (A & _). congruence.
  - unfold np_impact. cbv zeta. rewrite map2_map_r. fold g'. replace (existsb _ (map g' ks)) with false; [reflexivity|].
    symmetry. apply Bool.not_true_iff_false. intros X. apply existsb_exists in X. destruct X as (hi & Hin & Ho).
    apply in_map_iff in Hin. destruct Hin as (k & <- & Hk). rewrite Forall_forall in HF.
    destruct (G k (HF k Hk)) as (_ & A & _). congruence.
  - clear - HF G. induction HF as [|k ks Hk HF IH]; simpl; constructor; auto. apply G; auto.
Qed.
