(** Link between the code of the polygonal chamber and plane geometry. *)
From Coq Require Import Lra Lia Reals Psatz.
From Verif Require Import Num NumFacts Geom Poly SpecPoly PolyGeo.

Lemma np_diff_length l : length (np_diff l) = pred (length l).
Proof.
  induction l as [|a l IH]; auto. destruct l as [|b l]; auto.
  change (np_diff (a :: b :: l)) with ((b - a) :: np_diff (b :: l)). simpl in *. lia.
Qed.

Lemma np_diff_nth l : forall i, (S i < length l)%nat -> nth i (np_diff l) 0 = nth (S i) l 0 - nth i l 0.
Proof.
  induction l as [|a l IH]; [simpl; intros; lia|]. destruct l as [|b l]; [simpl; intros; lia|].
  intros i Hi. change (np_diff (a :: b :: l)) with ((b - a) :: np_diff (b :: l)). destruct i; auto.
  cbn [nth]. rewrite IH by (simpl in *; lia). reflexivity.
Qed.

Lemma nth_map2 {A B C} (f : A -> B -> C) a b da db dc : forall i,
  (i < length a)%nat -> (i < length b)%nat -> nth i (map2 f a b) dc = f (nth i a da) (nth i b db).
Proof.
  revert b. induction a as [|x a IH]; intros [|y b] i Ha Hb; simpl in *; try lia.
  destruct i; auto. apply IH; lia.
Qed.

Lemma vert_per vs i : vs <> [] -> vert vs (i + length vs) = vert vs i.
Proof.
  intros H. unfold vert. f_equal. replace (i + length vs)%nat with (i + 1 * length vs)%nat by lia.
  apply Nat.mod_add. destruct vs; simpl; [contradiction|lia].
Qed.

Lemma closed_nth (f : R * R -> R) vs i : vs <> [] -> (i <= length vs)%nat ->
  nth i (map f vs ++ [f (hd (0, 0) vs)]) 0 = f (vert vs i).
Proof.
  intros Hv Hi. unfold vert. destruct (Nat.eq_dec i (length vs)) as [->|Hne].
  - rewrite Nat.mod_same by (destruct vs; simpl; [contradiction|lia]).
    rewrite app_nth2, map_length, Nat.sub_diag by (rewrite map_length; lia). destruct vs; [contradiction|reflexivity].
  - rewrite Nat.mod_small by lia. rewrite app_nth1 by (rewrite map_length; lia).
    rewrite (nth_indep _ 0 (f (0, 0))) by (rewrite map_length; lia). apply map_nth.
Qed.

(** The loop of the convexity test. *)
Lemma convex_loop_spec cs : forall neg pos, neg && pos = false ->
  (convex_loop cs neg pos = true <->
   ((neg = false /\ forall c, In c cs -> 0 <= c) \/ (pos = false /\ forall c, In c cs -> c <= 0))).
Proof.
  induction cs as [|c cs IH]; intros neg pos Hnp.
  - simpl. split; auto. intros _. destruct neg; simpl in Hnp; [right; split; [auto|easy]|left; split; [auto|easy]].
  - cbn [convex_loop].
    destruct (Rltb c 0) eqn:E1.
    + apply Rltb_true in E1. rewrite Bool.orb_true_r. simpl negb. rewrite Bool.andb_false_l, Bool.orb_false_r.
      destruct pos; simpl.
      * split; [easy|]. intros [[Hn H]|[Hp _]]; [|easy]. specialize (H c (or_introl eq_refl)). lra.
      * rewrite IH by reflexivity. split.
        -- intros [[? _]|[_ H]]; [easy|]. right; split; auto; intros d [<-|Hd]; [lra|auto].
        -- intros [[_ H]|[_ H]]; [specialize (H c (or_introl eq_refl)); lra|]. right; split; auto; intros d Hd; apply H; right; auto.
    + apply Rltb_false in E1. rewrite Bool.orb_false_r. simpl negb. rewrite Bool.andb_true_l.
      destruct (Rgtb c 0) eqn:E2.
      * apply Rgtb_true in E2. rewrite Bool.orb_true_r. destruct neg; simpl.
        -- split; [easy|]. intros [[? _]|[_ H]]; [easy|]. specialize (H c (or_introl eq_refl)). lra.
        -- rewrite IH by reflexivity. split.
           ++ intros [[_ H]|[? _]]; [|easy]. left; split; auto; intros d [<-|Hd]; [lra|auto].
           ++ intros [[_ H]|[_ H]]; [|specialize (H c (or_introl eq_refl)); lra]. left; split; auto; intros d Hd; apply H; right; auto.
      * apply Rgtb_false in E2. rewrite Bool.orb_false_r, Hnp. rewrite IH by auto. assert (c = 0) by lra. subst c. split.
        -- intros [[Hn H]|[Hn H]]; [left|right]; split; auto; intros d [<-|Hd]; auto; lra.
        -- intros [[Hn H]|[Hn H]]; [left|right]; split; auto; intros d Hd; apply H; right; auto.
Qed.

(** What the constructor accepts and builds. *)
Record built (vs : list (R * R)) (cx cy : R) (cv : bool) (p : poly) : Prop := {
  b_ne : vs <> [];
  b_n : N_edg p = length vs;
  b_lenV : length (Vx p) = S (length vs) /\ length (Vy p) = S (length vs);
  b_cx : p_cx p = cx; b_cy : p_cy p = cy; b_cv : assume_convex p = cv;
  b_vx : forall i, (i <= length vs)%nat -> vx p i = fst (vert vs i);
  b_vy : forall i, (i <= length vs)%nat -> vy p i = snd (vert vs i);
  b_nrm : forall i, (i < length vs)%nat ->
    nth i (Nrm p) None = edge_normal (fst (vert vs (i + 1)) - fst (vert vs i)) (snd (vert vs (i + 1)) - snd (vert vs i));
  b_area : p_area p = shoelace vs /\ 0 <= shoelace vs;
  b_len : forall i, (i + 1 < length vs)%nat -> 1 / 10^9 <= edge_len vs i;
  b_cvx : cv = true ->
    (forall i, (i < length vs)%nat -> 0 <= left_of (vert vs i) (vert vs (i + 1)) (vert vs (i + 2))) \/
    (forall i, (i < length vs)%nat -> left_of (vert vs i) (vert vs (i + 1)) (vert vs (i + 2)) <= 0) }.

Lemma removelast_app1 {A} (l : list A) x : removelast (l ++ [x]) = l.
Proof. rewrite removelast_app by discriminate. simpl. apply app_nil_r. Qed.

Lemma rsum_nth_map2 f a b n : length a = n -> length b = n ->
  rsum (map2 f a b) = rsum (map (fun i => f (nth i a 0) (nth i b 0)) (seq 0 n)).
Proof.
  intros Ha Hb. f_equal. apply (nth_ext _ _ 0 0).
  - rewrite map2_length, map_length, seq_length. lia.
  - intros i Hi. rewrite map2_length in Hi. rewrite (nth_map2 f a b 0 0 0) by lia.
    rewrite (nth_indep (map _ (seq 0 n)) 0 (f (nth 0 a 0) (nth 0 b 0))) by (rewrite map_length, seq_length; lia).
    rewrite (map_nth (fun i => f (nth i a 0) (nth i b 0))), seq_nth by lia. reflexivity.
Qed.

Lemma rsum_telescope (g : nat -> R) n : rsum (map (fun i => g (i + 1)%nat - g i) (seq 0 n)) = g n - g 0%nat.
Proof.
  induction n; [unfold rsum; simpl; ring|]. rewrite seq_S, map_app, rsum_app, IHn. unfold rsum; simpl.
  replace (n + 1)%nat with (S n) by lia. ring.
Qed.

Lemma area_shoelace vs : vs <> [] ->
  let Vx := map fst vs ++ [fst (hd (0, 0) vs)] in let Vy := map snd vs ++ [snd (hd (0, 0) vs)] in
  poly_area Vx Vy = shoelace vs.
Proof.
  intros Hv Vx Vy. unfold poly_area, shoelace. set (n := length vs).
  assert (LV : length Vx = S n /\ length Vy = S n).
  { unfold Vx, Vy. rewrite !app_length, !map_length. simpl. unfold n. lia. }
  assert (Hty : length (tl Vy) = n) by (destruct Vy; simpl in *; lia).
  assert (Hry : removelast Vy = map snd vs) by apply removelast_app1.
  rewrite (rsum_nth_map2 _ _ _ n).
  2: { rewrite map2_length, Hty, Hry, map_length. unfold n; lia. }
  2: { rewrite np_diff_length. lia. }
  set (X := fun i => fst (vert vs i)). set (Y := fun i => snd (vert vs i)).
  transitivity (- (1/2) * rsum (map (fun i => (Y (i + 1)%nat + Y i) * (X (i + 1)%nat - X i)) (seq 0 n))).
  { f_equal. f_equal. apply map_ext_in. intros i Hi. apply in_seq in Hi.
    rewrite (nth_map2 Rplus _ _ 0 0 0) by (rewrite ?Hry, ?map_length; unfold n in *; lia).
    rewrite np_diff_nth by lia.
    assert (E1 : nth i (tl Vy) 0 = Y (i + 1)%nat).
    { unfold Y. rewrite <- (closed_nth snd vs (i + 1)) by (auto; unfold n in *; lia). fold Vy.
      replace (i + 1)%nat with (S i) by lia. destruct Vy; [simpl in *; lia|reflexivity]. }
    assert (E2 : nth i (removelast Vy) 0 = Y i).
    { unfold Y. rewrite <- (closed_nth snd vs i) by (auto; unfold n in *; lia). rewrite Hry.
      rewrite app_nth1 by (rewrite map_length; unfold n in *; lia). reflexivity. }
    rewrite E1, E2. unfold Vx. rewrite !closed_nth by (auto; unfold n in *; lia). unfold X.
    replace (i + 1)%nat with (S i) by lia. reflexivity. }
  transitivity (- (1/2) * (rsum (map (fun i => (X (i + 1)%nat * Y (i + 1)%nat) - (X i * Y i)) (seq 0 n))
     - rsum (map (fun i => X i * Y (i + 1)%nat - X (i + 1)%nat * Y i) (seq 0 n)))).
  { f_equal. rewrite <- rsum_map_minus. f_equal. apply map_ext. intros i. ring. }
  rewrite (rsum_telescope (fun i => X i * Y i) n).
  assert (X n = X 0%nat /\ Y n = Y 0%nat) as [-> ->].
  { unfold X, Y. pose proof (vert_per vs 0 Hv) as E. simpl in E. fold n in E. rewrite E. auto. }
  unfold X, Y. lra.
Qed.

Lemma ctor_built vs cx cy cv p :
  poly_ctor (map fst vs) (map snd vs) cx cy cv = Some p -> built vs cx cy cv p.
Proof.
  unfold poly_ctor. destruct (existsb _ _) eqn:EX; [discriminate|].
  destruct vs as [|[x0 y0] vs0]; [discriminate|]. cbn [map fst snd].
  set (vs := (x0, y0) :: vs0) in *.
  assert (Hv : vs <> []) by discriminate.
  change (x0 :: map fst vs0) with (map fst vs). change (y0 :: map snd vs0) with (map snd vs).
  change [x0] with [fst (hd (0, 0) vs)]. change [y0] with [snd (hd (0, 0) vs)].
  set (VX := map fst vs ++ [fst (hd (0, 0) vs)]). set (VY := map snd vs ++ [snd (hd (0, 0) vs)]).
  assert (HA : poly_area VX VY = shoelace vs) by (apply area_shoelace; auto).
  rewrite HA. destruct (Rltb (shoelace vs) 0) eqn:EA; [discriminate|]. apply Rltb_false in EA.
  rewrite map_length.
  destruct (cv && negb (is_convex VX VY (length vs))) eqn:EC; [discriminate|].
  intros E. injection E as <-.
  assert (HX : forall i, (i <= length vs)%nat -> nth i VX 0 = fst (vert vs i)) by (intros; apply closed_nth; auto).
  assert (HY : forall i, (i <= length vs)%nat -> nth i VY 0 = snd (vert vs i)) by (intros; apply closed_nth; auto).
  assert (LX : length VX = S (length vs)) by (unfold VX; rewrite app_length, map_length; simpl; lia).
  assert (LY : length VY = S (length vs)) by (unfold VY; rewrite app_length, map_length; simpl; lia).
  constructor; cbn [N_edg p_cx p_cy assume_convex p_area]; auto.
  - intros i Hi. match goal with |- nth i ?a None = _ => change a with (map2 edge_normal (np_diff VX) (np_diff VY)) end.
    rewrite (nth_map2 edge_normal _ _ 0 0 None) by (rewrite np_diff_length; lia).
    rewrite !np_diff_nth by lia. rewrite !HX, !HY by lia. replace (S i) with (i + 1)%nat by lia. reflexivity.
  - intros i Hi. apply Rnot_lt_le. intros Hlt.
    assert (X : existsb (fun d => Rltb d (1 / 10^9)) (map2 (fun dx dy => sqrt (dx * dx + dy * dy)) (np_diff (map fst vs)) (np_diff (map snd vs))) = true).
    { apply existsb_exists. exists (edge_len vs i). split; [|apply Rltb_true; auto].
      assert (LL : (i < length (map2 (fun dx dy => sqrt (dx * dx + dy * dy)) (np_diff (map fst vs)) (np_diff (map snd vs))))%nat).
      { rewrite map2_length, !np_diff_length, !map_length. lia. }
      assert (EE : nth i (map2 (fun dx dy => sqrt (dx * dx + dy * dy)) (np_diff (map fst vs)) (np_diff (map snd vs))) 0 = edge_len vs i).
      { rewrite (nth_map2 _ _ _ 0 0 0) by (rewrite np_diff_length, map_length; lia).
        rewrite !np_diff_nth by (rewrite map_length; lia).
        assert (G : forall f j, (j < length vs)%nat -> nth j (map f vs) 0 = f (vert vs j)).
        { intros f j Hj. rewrite <- closed_nth by (auto; lia). rewrite app_nth1 by (rewrite map_length; lia). reflexivity. }
        rewrite !G by lia. unfold edge_len. replace (S i) with (i + 1)%nat by lia. reflexivity. }
      rewrite <- EE. apply nth_In; auto. }
    congruence.
  - intros ->. simpl in EC. apply Bool.negb_false_iff in EC. unfold is_convex in EC.
    apply convex_loop_spec in EC; [|reflexivity].
    assert (TT : forall i, (i < length vs)%nat -> turn VX VY (length vs) i = - left_of (vert vs i) (vert vs (i + 1)) (vert vs (i + 2))).
    { intros i Hi. unfold turn. assert (L0 : length vs <> 0%nat) by (simpl; lia).
      pose proof (Nat.mod_upper_bound (i + 1) (length vs) L0). 
      pose proof (Nat.mod_upper_bound ((i + 1) mod length vs + 1) (length vs) L0).
      rewrite !HX, !HY by lia.
      assert (M1 : vert vs ((i + 1) mod length vs) = vert vs (i + 1)).
      { unfold vert. rewrite Nat.mod_mod by auto. reflexivity. }
      assert (M2 : vert vs (((i + 1) mod length vs + 1) mod length vs) = vert vs (i + 2)).
      { unfold vert. rewrite Nat.mod_mod by auto. rewrite Nat.add_mod_idemp_l by auto. f_equal. f_equal. lia. }
      rewrite M1, M2. unfold left_of. ring. }
    destruct EC as [[_ H]|[_ H]]; [right|left]; intros i Hi;
      (assert (Hin : In i (seq 0 (length vs))) by (apply in_seq; lia));
      specialize (H _ (in_map (turn VX VY (length vs)) _ i Hin)); rewrite TT in H by auto; lra.
Qed.

(** Facts about a built chamber. *)
Section Built.
Variables (vs : list (R * R)) (cx cy : R) (p : poly).
Hypothesis Hb : built vs cx cy true p.
Let n := length vs.
Let V := vert vs.

Lemma n_pos : (0 < n)%nat.
Proof. unfold n. pose proof (b_ne _ _ _ _ _ Hb). destruct vs; simpl; [contradiction|lia]. Qed.
Lemma V_per i : V (i + n)%nat = V i.
Proof. apply vert_per. apply (b_ne _ _ _ _ _ Hb). Qed.

Lemma side_spec i x y : (i < n)%nat -> side p i x y = left_of (V i) (V (i + 1)) (x, y).
Proof.
  intros Hi. unfold side, left_of. rewrite !(b_vx _ _ _ _ _ Hb), !(b_vy _ _ _ _ _ Hb) by (unfold n in *; lia).
  unfold V; simpl. ring.
Qed.

Lemma conv_loop_spec l x y : conv_loop p l x y = true <-> forall i, In i l -> 0 < side p i x y.
Proof.
  induction l as [|i l IH]; simpl; [split; easy|].
  destruct (Rgtb (side p i x y) 0) eqn:E.
  - apply Rgtb_true in E. rewrite IH. split; intros H; [intros j [<-|Hj]; auto|intros j Hj; auto].
  - apply Rgtb_false in E. split; [easy|]. intros H. specialize (H i (or_introl eq_refl)). lra.
Qed.

Lemma conv_all x y : conv_loop p (seq 0 (N_edg p)) x y = true <-> inside vs (x, y).
Proof.
  rewrite conv_loop_spec, (b_n _ _ _ _ _ Hb). unfold inside. split; intros H i Hi.
  - change (0 < left_of (V i) (V (i + 1)) (x, y)). rewrite <- side_spec by auto. apply H. apply in_seq. lia.
  - apply in_seq in Hi. rewrite side_spec by (unfold n; lia). apply H. lia.
Qed.

Hypothesis Hi : insc_ok vs cx cy.

Lemma outside_spec x y : p_outside p x y = false <-> inside vs (x, y).
Proof.
  unfold p_outside. rewrite (b_cv _ _ _ _ _ Hb). unfold outside_convex.
  rewrite Bool.negb_false_iff, Bool.orb_true_iff, conv_all. split; [|auto]. intros [H|H]; auto.
  destruct Hi as (H1 & H2 & H3). unfold in_insc in H. rewrite (b_cx _ _ _ _ _ Hb), (b_cy _ _ _ _ _ Hb) in H.
  apply Rleb_true in H. apply H3. 
  replace (x * x / (cx * cx) + y * y / (cy * cy)) with (x / cx * (x / cx) + y / cy * (y / cy)) by (field; lra). exact H.
Qed.

(** Candidate crossing of edge [i]. *)
Definition cand (k : track) (i : nat) : option R :=
  let xi := t_xin k in let yi := t_yin k in let xo := t_xout k in let yo := t_yout k in
  let den := (yo - yi) * (vx p (i + 1) - vx p i) + (xi - xo) * (vy p (i + 1) - vy p i) in
  let t_border := if Reqb den 0 then -2
    else ((yo - yi) * (xi - vx p i) + (xi - xo) * (yi - vy p i)) / den in
  if Rgeb t_border 0 && Rleb t_border 1 then
    match nth i (Nrm p) None with
    | None => None
    | Some (nx, ny) =>
        let t := (nx * (vx p i - xi) + ny * (vy p i - yi)) / (nx * (xo - xi) + ny * (yo - yi)) in
        if Rgeb t 0 then Some t else None
    end
  else None.

Lemma hit_step_cand k st i : hit_step p k st i =
  match cand k i with Some t => if Rltb t (fst st) then (t, Some i) else st | None => st end.
Proof.
  destruct st as [tm f]. unfold hit_step, cand. cbv zeta.
  destruct (Rgeb _ 0 && Rleb _ 1); auto. destruct (nth i (Nrm p) None) as [[nx ny]|]; auto.
  destruct (Rgeb _ 0); simpl; auto.
Qed.

Lemma fold_hit k l : forall st,
  let r := fold_left (hit_step p k) l st in
  (r = st /\ forall i u, In i l -> cand k i = Some u -> fst st <= u) \/
  (exists i, In i l /\ snd r = Some i /\ cand k i = Some (fst r) /\ fst r < fst st /\
     forall j u, In j l -> cand k j = Some u -> fst r <= u).
Proof.
  induction l as [|i l IH]; intros st r.
  - left. split; auto. intros i u [].
  - subst r. cbn [fold_left]. rewrite hit_step_cand. destruct (cand k i) as [t|] eqn:E.
    + destruct (Rltb t (fst st)) eqn:L.
      * apply Rltb_true in L. destruct (IH (t, Some i)) as [[R H]|(j & Hj & H1 & H2 & H3 & H4)].
        -- right. exists i. rewrite R. cbn [fst snd] in *. repeat split; auto; [left; auto|].
           intros j u [<-|Hj] Hc; [rewrite E in Hc; injection Hc as <-; lra|eauto].
        -- right. exists j. cbn [fst] in H3. repeat split; auto; [right; auto|lra|].
           intros m u [<-|Hm] Hc; [rewrite E in Hc; injection Hc as <-; lra|eauto].
      * apply Rltb_false in L. destruct (IH st) as [[R H]|(j & Hj & H1 & H2 & H3 & H4)].
        -- left. split; auto. intros j u [<-|Hj] Hc; [rewrite E in Hc; injection Hc as <-; lra|eauto].
        -- right. exists j. repeat split; auto; [right; auto|].
           intros m u [<-|Hm] Hc; [rewrite E in Hc; injection Hc as <-; lra|eauto].
    + destruct (IH st) as [[R H]|(j & Hj & H1 & H2 & H3 & H4)].
      * left. split; auto. intros j u [<-|Hj] Hc; [congruence|eauto].
      * right. exists j. repeat split; auto; [right; auto|].
        intros m u [<-|Hm] Hc; [congruence|eauto].
Qed.

Lemma edge_normal_spec a b nx ny :
  edge_normal (fst b - fst a) (snd b - snd a) = Some (nx, ny) ->
  left_normal a b nx ny.
Proof.
  unfold edge_normal. set (dx := fst b - fst a). set (dy := snd b - snd a).
  set (l := sqrt (- dy * - dy + dx * dx)). destruct (Reqb l 0) eqn:E; [discriminate|].
  apply Reqb_false in E. intros H; injection H as <- <-.
  assert (Hl : 0 < l) by (pose proof (sqrt_pos (- dy * - dy + dx * dx)); fold l in H; lra).
  assert (Hs : l * l = dy * dy + dx * dx).
  { unfold l. rewrite sqrt_sqrt; [ring|]. pose proof (Rle_0_sqr dy); pose proof (Rle_0_sqr dx); unfold Rsqr in *; lra. }
  split.
  - replace (- dy / l * (- dy / l) + dx / l * (dx / l)) with ((dy * dy + dx * dx) / (l * l)) by (field; lra).
    rewrite <- Hs. field. lra.
  - exists l. split; auto. intros q. unfold left_of. fold dx dy. field. lra.
Qed.

Lemma edge_normal_some a b q : 0 < left_of a b q ->
  exists nx ny, edge_normal (fst b - fst a) (snd b - snd a) = Some (nx, ny).
Proof.
  intros H. unfold edge_normal. set (dx := fst b - fst a) in *. set (dy := snd b - snd a) in *.
  assert (P : 0 < - dy * - dy + dx * dx).
  { unfold left_of in H. fold dx dy in H.
    destruct (Req_dec dx 0) as [E|E]; [destruct (Req_dec dy 0) as [E'|E']|].
    - rewrite E, E' in H. lra.
    - pose proof (Rsqr_pos_lt dy E') as X; unfold Rsqr in X. pose proof (Rle_0_sqr dx) as Y; unfold Rsqr in Y. lra.
    - pose proof (Rsqr_pos_lt dx E) as X; unfold Rsqr in X. pose proof (Rle_0_sqr dy) as Y; unfold Rsqr in Y. lra. }
  assert (0 < sqrt (- dy * - dy + dx * dx)) by (apply sqrt_lt_R0; auto).
  replace (Reqb _ 0) with false by (symmetry; apply Reqb_false; lra). eauto.
Qed.

(** A candidate is a crossing of the edge. *)
Lemma cand_crosses k i t : (i < n)%nat -> cand k i = Some t ->
  0 <= t /\ on_segment (V i) (V (i + 1)) (along (t_start k) (t_end k) t) /\
  left_of (V i) (V (i + 1)) (t_start k) <> left_of (V i) (V (i + 1)) (t_end k) /\
  exists nx ny, nth i (Nrm p) None = Some (nx, ny) /\ left_normal (V i) (V (i + 1)) nx ny.
Proof.
  intros Hin. unfold cand. rewrite !(b_vx _ _ _ _ _ Hb), !(b_vy _ _ _ _ _ Hb) by (unfold n in *; lia).
  fold V. set (D := (t_yout k - t_yin k) * (fst (V (i + 1)) - fst (V i)) + (t_xin k - t_xout k) * (snd (V (i + 1)) - snd (V i))).
  set (ls := left_of (V i) (V (i + 1)) (t_start k)). set (le := left_of (V i) (V (i + 1)) (t_end k)).
  assert (HD : D = le - ls).
  { unfold D, le, ls, left_of, t_start, t_end; simpl. ring. }
  destruct (Reqb D 0) eqn:E0.
  { replace (Rgeb (-2) 0) with false by (symmetry; apply Rgeb_false; lra). discriminate. }
  apply Reqb_false in E0.
  set (s := ((t_yout k - t_yin k) * (t_xin k - fst (V i)) + (t_xin k - t_xout k) * (t_yin k - snd (V i))) / D).
  destruct (Rgeb s 0 && Rleb s 1) eqn:Es; [|discriminate].
  apply andb_prop in Es. destruct Es as [Es1 Es2]. apply Rgeb_true in Es1. apply Rleb_true in Es2.
  rewrite (b_nrm _ _ _ _ _ Hb) by (unfold n in *; lia). fold V.
  destruct (edge_normal _ _) as [[nx ny]|] eqn:EN; [|discriminate].
  pose proof (edge_normal_spec _ _ _ _ EN) as LN. destruct LN as [U (l & Hl & HL)].
  set (dd := nx * (t_xout k - t_xin k) + ny * (t_yout k - t_yin k)).
  assert (Hdd : l * dd = D).
  { rewrite HD. unfold le, ls. rewrite !HL. unfold t_start, t_end, dd; simpl. ring. }
  assert (Hdd0 : dd <> 0) by (intros X; rewrite X in Hdd; lra).
  destruct (Rgeb _ 0) eqn:Et; [|discriminate]. apply Rgeb_true in Et.
  intros H; injection H as <-. set (t := (nx * (fst (V i) - t_xin k) + ny * (snd (V i) - t_yin k)) / dd) in *.
  split; [lra|]. split; [|split; [lra|exists nx, ny; split; auto; split; eauto]].
  exists s. split; [lra|].
  assert (Ht : t * D = - ls).
  { unfold t. rewrite <- Hdd. unfold ls. rewrite HL. unfold t_start; simpl. field. lra. }
  assert (Hs : s * D = (t_yout k - t_yin k) * (t_xin k - fst (V i)) + (t_xin k - t_xout k) * (t_yin k - snd (V i))).
  { unfold s. field. auto. }
  clearbody s t. unfold along, t_start, t_end in *; simpl in *.
  unfold ls, left_of in Ht. simpl in Ht.
  set (e1 := fst (V (i + 1)) - fst (V i)) in *. set (e2 := snd (V (i + 1)) - snd (V i)) in *.
  set (a1 := t_xin k - fst (V i)) in *. set (a2 := t_yin k - snd (V i)) in *.
  set (d1 := t_xout k - t_xin k) in *. set (d2 := t_yout k - t_yin k) in *.
  assert (HD' : D = e1 * d2 - e2 * d1) by (unfold D, d1, d2; ring).
  assert (Hs' : s * D = d2 * a1 - d1 * a2) by (rewrite Hs; unfold d1; ring).
  f_equal; apply (Rmult_eq_reg_r D); auto.
  - assert (D * (a1 + t * d1) = D * (s * e1)).
    { replace (D * (a1 + t * d1)) with (D * a1 + (t * D) * d1) by ring. replace (D * (s * e1)) with ((s * D) * e1) by ring.
      rewrite Ht, Hs', HD'. ring. }
    unfold a1 in H. lra.
  - assert (D * (a2 + t * d2) = D * (s * e2)).
    { replace (D * (a2 + t * d2)) with (D * a2 + (t * D) * d2) by ring. replace (D * (s * e2)) with ((s * D) * e2) by ring.
      rewrite Ht, Hs', HD'. ring. }
    unfold a2 in H. lra.
Qed.

(** A crossing of a proper edge is a candidate. *)
Lemma crosses_cand k i t s : (i < n)%nat -> 0 <= t -> 0 <= s <= 1 ->
  along (t_start k) (t_end k) t = along (V i) (V (i + 1)) s ->
  0 < left_of (V i) (V (i + 1)) (t_start k) ->
  cand k i = Some t.
Proof.
  intros Hin Ht Hs HA Hpos. unfold cand. rewrite !(b_vx _ _ _ _ _ Hb), !(b_vy _ _ _ _ _ Hb) by (unfold n in *; lia).
  fold V. set (D := (t_yout k - t_yin k) * (fst (V (i + 1)) - fst (V i)) + (t_xin k - t_xout k) * (snd (V (i + 1)) - snd (V i))).
  set (ls := left_of (V i) (V (i + 1)) (t_start k)) in *.
  assert (HD : D = left_of (V i) (V (i + 1)) (t_end k) - ls).
  { unfold D, ls, left_of, t_start, t_end; simpl. ring. }
  assert (HtD : t * D = - ls).
  { assert (X : left_of (V i) (V (i + 1)) (along (t_start k) (t_end k) t) = 0).
    { rewrite HA. unfold left_of, along; simpl. ring. }
    rewrite left_along in X. fold ls in X. rewrite HD. lra. }
  assert (HD0 : D <> 0) by (intros X; rewrite X in HtD; lra).
  replace (Reqb D 0) with false by (symmetry; apply Reqb_false; auto).
  set (s' := ((t_yout k - t_yin k) * (t_xin k - fst (V i)) + (t_xin k - t_xout k) * (t_yin k - snd (V i))) / D).
  assert (Es : s' = s).
  { unfold s'. apply (Rmult_eq_reg_r D); auto. unfold Rdiv. rewrite Rmult_assoc, Rinv_l, Rmult_1_r by auto.
    unfold along, t_start, t_end in HA; simpl in HA. injection HA as A B. unfold D.
    set (e1 := fst (V (i + 1)) - fst (V i)) in *. set (e2 := snd (V (i + 1)) - snd (V i)) in *.
    replace (s * ((t_yout k - t_yin k) * e1 + (t_xin k - t_xout k) * e2)) with
      ((t_yout k - t_yin k) * (s * e1) + (t_xin k - t_xout k) * (s * e2)) by ring.
    replace (s * e1) with (t_xin k + t * (t_xout k - t_xin k) - fst (V i)) by lra.
    replace (s * e2) with (t_yin k + t * (t_yout k - t_yin k) - snd (V i)) by lra. ring. }
  rewrite Es.
  replace (Rgeb s 0) with true by (symmetry; apply Rgeb_true; lra).
  replace (Rleb s 1) with true by (symmetry; apply Rleb_true; lra). cbn [andb].
  rewrite (b_nrm _ _ _ _ _ Hb) by (unfold n in *; lia). fold V.
  destruct (edge_normal_some (V i) (V (i + 1)) (t_start k) Hpos) as (nx & ny & EN). rewrite EN.
  destruct (edge_normal_spec _ _ _ _ EN) as [U (l & Hl & HL)].
  set (dd := nx * (t_xout k - t_xin k) + ny * (t_yout k - t_yin k)).
  assert (Hdd : l * dd = D).
  { rewrite HD. unfold ls. rewrite !HL. unfold t_start, t_end, dd; simpl. ring. }
  assert (Hdd0 : dd <> 0) by (intros X; rewrite X in Hdd; lra).
  set (t' := (nx * (fst (V i) - t_xin k) + ny * (snd (V i) - t_yin k)) / dd).
  assert (Et : t' = t).
  { apply (Rmult_eq_reg_r D); auto. rewrite HtD. unfold t'. rewrite <- Hdd. unfold ls. rewrite HL.
    unfold t_start; simpl. field. auto. }
  rewrite Et. replace (Rgeb t 0) with true by (symmetry; apply Rgeb_true; lra). reflexivity.
Qed.

(** Once an inside point is known, the accepted outline turns left. *)
Lemma turns_left q : inside vs q -> forall i, 0 <= T_ V i.
Proof.
  intros Hq. pose proof n_pos as Hn.
  assert (Hq' : forall i, 0 < S_ V i q) by (apply (all_S V n Hn V_per (fun x => 0 < x)); exact Hq).
  destruct (some_left_turn V n Hn V_per q Hq') as (m & Hm & HTm).
  apply (all_T V n Hn V_per (fun x => 0 <= x)).
  destruct (b_cvx _ _ _ _ _ Hb eq_refl) as [H|H]; [exact H|].
  exfalso. specialize (H m Hm). unfold T_ in HTm. fold V in H. lra.
Qed.

(** First crossing of a track that starts inside and ends strictly beyond. *)
Lemma search_spec k : inside vs (t_start k) -> beyond vs (t_end k) ->
  exists t i nx ny, hit_search p k = (t, Some i) /\ first_crossing vs k t i /\
    nth i (Nrm p) None = Some (nx, ny) /\ left_normal (V i) (V (i + 1)) nx ny /\
    left_of (V i) (V (i + 1)) (t_end k) < 0.
Proof.
  intros Hin Hout. pose proof n_pos as Hn. pose proof (turns_left _ Hin) as HT.
  set (ls := fun i => left_of (V i) (V (i + 1)) (t_start k)).
  set (le := fun i => left_of (V i) (V (i + 1)) (t_end k)).
  assert (Hls : forall i, 0 < ls i) by (apply (all_S V n Hn V_per (fun x => 0 < x)); exact Hin).
  set (tc := fun i => ls i / (ls i - le i)).
  destruct (argmin_on tc (fun i => le i < 0) n) as (m & Hm & Pm & Hmin).
  { intros i. destruct (Rlt_dec (le i) 0); auto. }
  { destruct Hout as (i & Hi' & Hl). exists i. auto. }
  set (ts := tc m) in *.
  assert (Htc : forall i, le i < 0 -> 0 < tc i < 1 /\ tc i * (ls i - le i) = ls i).
  { intros i Hi'. pose proof (Hls i). unfold tc.
    assert (E : ls i / (ls i - le i) * (ls i - le i) = ls i) by (field; lra).
    split; auto. set (u := ls i / (ls i - le i)) in *. split.
    - apply Rdiv_lt_0_compat; lra.
    - nra. }
  destruct (Htc m Pm) as [Hts Ets]. fold ts in Hts, Ets.
  (* before ts everything is inside *)
  assert (Hbefore : forall u, 0 <= u < ts -> inside vs (along (t_start k) (t_end k) u)).
  { intros u Hu i Hi'. rewrite left_along. change (0 < (1 - u) * ls i + u * le i). pose proof (Hls i).
    destruct (Rlt_dec (le i) 0) as [Hneg|Hneg].
    - destruct (Htc i Hneg) as [A B]. assert (ts <= tc i) by (apply Hmin; auto).
      assert (u < tc i) by lra. assert (u * (ls i - le i) < tc i * (ls i - le i)) by (apply Rmult_lt_compat_r; lra). lra.
    - assert (0 <= u * le i) by (apply Rmult_le_pos; lra). assert (0 < (1 - u) * ls i) by (apply Rmult_lt_0_compat; lra). lra. }
  assert (Hat : forall i, 0 <= S_ V i (along (t_start k) (t_end k) ts)).
  { apply (all_S V n Hn V_per (fun x => 0 <= x)). intros i Hi'. unfold S_. rewrite left_along.
    change (0 <= (1 - ts) * ls i + ts * le i). pose proof (Hls i).
    destruct (Rlt_dec (le i) 0) as [Hneg|Hneg].
    - destruct (Htc i Hneg) as [A B]. assert (ts <= tc i) by (apply Hmin; auto).
      assert (ts * (ls i - le i) <= tc i * (ls i - le i)) by (apply Rmult_le_compat_r; lra). lra.
    - assert (0 <= ts * le i) by (apply Rmult_le_pos; lra). assert (0 < (1 - ts) * ls i) by (apply Rmult_lt_0_compat; lra). lra. }
  assert (Hzero : S_ V m (along (t_start k) (t_end k) ts) = 0).
  { unfold S_. rewrite left_along. change ((1 - ts) * ls m + ts * le m = 0). lra. }
  destruct (on_outline V n Hn V_per HT (t_start k) Hls _ m Hat Hzero) as (j & s & Hj & Hs & Ej).
  assert (Cj : cand k j = Some ts).
  { apply (crosses_cand k j ts s); auto; lra. }
  unfold hit_search. rewrite (b_n _ _ _ _ _ Hb). fold n.
  destruct (fold_hit k (seq 0 n) (1, None)) as [[R H]|(i & Hi' & R1 & R2 & R3 & R4)].
  - exfalso. assert (Jin : In j (seq 0 n)) by (apply in_seq; lia). specialize (H j ts Jin Cj). cbn [fst] in H. lra.
  - apply in_seq in Hi'. set (r := fold_left (hit_step p k) (seq 0 n) (1, None)) in *.
    cbn [fst] in R3.
    destruct (cand_crosses k i (fst r) ltac:(lia) R2) as (T0 & (s' & Hs' & Es') & Hne & nx & ny & HN & HLN).
    assert (Hle_ts : fst r <= ts) by (apply (R4 j); auto; apply in_seq; lia).
    assert (Zi : left_of (V i) (V (i + 1)) (along (t_start k) (t_end k) (fst r)) = 0).
    { rewrite Es'. unfold left_of, along; simpl. ring. }
    rewrite left_along in Zi. change ((1 - fst r) * ls i + fst r * le i = 0) in Zi.
    assert (Hlei : le i < 0).
    { pose proof (Hls i). apply Rnot_le_lt. intros Hge.
      assert (0 < (1 - fst r) * ls i) by (apply Rmult_lt_0_compat; lra).
      assert (0 <= fst r * le i) by (apply Rmult_le_pos; lra). lra. }
    destruct (Htc i Hlei) as [A B]. assert (Hmi : ts <= tc i) by (apply Hmin; auto; lia).
    assert (Eri : fst r = tc i).
    { apply (Rmult_eq_reg_r (ls i - le i)); [lra|]. pose proof (Hls i). lra. }
    assert (Et : fst r = ts) by lra.
    exists (fst r), i, nx, ny. split; [destruct r; cbn [fst snd] in *; congruence|].
    split; [|split; [auto|split; [auto|exact Hlei]]].
    split; [lra|]. split; [fold n; lia|]. split; [exists s'; auto|]. rewrite Et. exact Hbefore.
Qed.

(** The impact of one track. *)
Lemma hit_convex resc k : 0 < resc < 1 -> inside vs (t_start k) -> beyond vs (t_end k) ->
  exists t i nx ny,
    hit_cython p resc k =
      (mkHit (fst (along (t_start k) (t_end k) (resc * t))) (snd (along (t_start k) (t_end k) (resc * t))) 0 nx ny, i) /\
    first_crossing vs k t i /\ left_normal (V i) (V (i + 1)) nx ny /\ left_of (V i) (V (i + 1)) (t_end k) < 0 /\
    inside vs (along (t_start k) (t_end k) (resc * t)).
Proof.
  intros Hr Hin Hout. destruct (search_spec k Hin Hout) as (t & i & nx & ny & E & FC & HN & LN & Hneg).
  exists t, i, nx, ny. unfold hit_cython. rewrite E, HN.
  split; [|split; [auto|split; [auto|split; [auto|]]]].
  - unfold along, t_start, t_end; simpl. f_equal. f_equal; ring.
  - destruct FC as (Ht & _ & _ & Hb'). apply Hb'. split; nra.
Qed.
End Built.

(** Any chamber: tracks that start inside. *)
Lemma hit_search_range p k : 0 <= fst (hit_search p k) <= 1.
Proof.
  unfold hit_search.
  assert (G : forall l st, 0 <= fst st <= 1 -> 0 <= fst (fold_left (hit_step p k) l st) <= 1).
  { induction l as [|i l IH]; intros st Hst; simpl; auto. apply IH. rewrite hit_step_cand.
    destruct (cand p k i) as [t|] eqn:E; auto. destruct (Rltb t (fst st)) eqn:L; auto. simpl.
    apply Rltb_true in L. split; [|lra]. unfold cand in E. cbv zeta in E.
    destruct (Rgeb _ 0 && Rleb _ 1); [|discriminate]. destruct (nth i (Nrm p) None) as [[nx ny]|]; [|discriminate].
    destruct (Rgeb _ 0) eqn:G; [|discriminate]. injection E as <-. apply Rgeb_true in G. lra. }
  apply G. simpl. lra.
Qed.

Lemma hit_cython_pt p resc k : exists t, 0 <= t <= 1 /\
  h_pt (fst (hit_cython p resc k)) = along (t_start k) (t_end k) (resc * t) /\ h_z (fst (hit_cython p resc k)) = 0.
Proof.
  pose proof (hit_search_range p k) as H. unfold hit_cython. destruct (hit_search p k) as [t f]. simpl in H.
  exists t. split; auto. destruct f as [i|]; [destruct (nth i (Nrm p) None) as [[nx ny]|]|];
    unfold h_pt, along, t_start, t_end; simpl; split; auto; f_equal; ring.
Qed.

Lemma poly_impact_inside p resc ks : 0 < resc < 1 ->
  Forall (fun k => p_outside p (t_xin k) (t_yin k) = false) ks ->
  exists hs, poly_impact p resc ks = Some hs /\
    Forall2 (fun k hi => p_outside p (h_x (fst hi)) (h_y (fst hi)) = false /\
      exists t, 0 <= t < 1 /\ h_pt (fst hi) = along (t_start k) (t_end k) t /\ h_z (fst hi) = 0) ks hs.
Proof.
  intros Hr HF. unfold poly_impact.
  set (g := fun k => let '(h, i) := hit_cython p resc k in
     if p_outside p (h_x h) (h_y h) then (mkHit (t_xin k) (t_yin k) (h_z h) (h_nx h) (h_ny h), i) else (h, i)).
  assert (G : forall k, p_outside p (t_xin k) (t_yin k) = false ->
     p_outside p (h_x (fst (g k))) (h_y (fst (g k))) = false /\
     exists t, 0 <= t < 1 /\ h_pt (fst (g k)) = along (t_start k) (t_end k) t /\ h_z (fst (g k)) = 0).
  { intros k Hk. unfold g. destruct (hit_cython_pt p resc k) as (t & Ht & E & Z).
    destruct (hit_cython p resc k) as [h i]. simpl in E, Z.
    destruct (p_outside p (h_x h) (h_y h)) eqn:O; simpl.
    - split; auto. exists 0. split; [lra|]. split; auto. unfold h_pt, along, t_start; simpl. f_equal; ring.
    - split; auto. exists (resc * t). split; [nra|auto]. }
  replace (existsb _ (map g ks)) with false.
  - exists (map g ks). split; auto. clear - HF G. induction HF; simpl; constructor; auto.
  - symmetry. apply Bool.not_true_iff_false. intros X. apply existsb_exists in X. destruct X as (hi & Hin & Ho).
    apply in_map_iff in Hin. destruct Hin as (k & <- & Hk). rewrite Forall_forall in HF.
    destruct (G k (HF k Hk)) as [A _]. congruence.
Qed.

Lemma poly_impact_convex vs cx cy p resc ks :
  poly_ctor (map fst vs) (map snd vs) cx cy true = Some p -> insc_ok vs cx cy -> 0 < resc < 1 ->
  Forall (fun k => inside vs (t_start k) /\ beyond vs (t_end k)) ks ->
  exists hs, poly_impact p resc ks = Some hs /\
    Forall2 (fun k hi =>
      exists t, first_crossing vs k t (snd hi) /\
        h_pt (fst hi) = along (t_start k) (t_end k) (resc * t) /\ inside vs (h_pt (fst hi)) /\
        left_normal (vert vs (snd hi)) (vert vs (snd hi + 1)) (h_nx (fst hi)) (h_ny (fst hi)) /\
        left_of (vert vs (snd hi)) (vert vs (snd hi + 1)) (t_end k) < 0) ks hs.
Proof.
  intros Hc Hi Hr HF. apply ctor_built in Hc. unfold poly_impact.
  set (g := fun k => let '(h, i) := hit_cython p resc k in
     if p_outside p (h_x h) (h_y h) then (mkHit (t_xin k) (t_yin k) (h_z h) (h_nx h) (h_ny h), i) else (h, i)).
  assert (G : forall k, inside vs (t_start k) /\ beyond vs (t_end k) ->
    g k = hit_cython p resc k /\ p_outside p (h_x (fst (g k))) (h_y (fst (g k))) = false /\
    exists t, first_crossing vs k t (snd (g k)) /\
        h_pt (fst (g k)) = along (t_start k) (t_end k) (resc * t) /\ inside vs (h_pt (fst (g k))) /\
        left_normal (vert vs (snd (g k))) (vert vs (snd (g k) + 1)) (h_nx (fst (g k))) (h_ny (fst (g k))) /\
        left_of (vert vs (snd (g k))) (vert vs (snd (g k) + 1)) (t_end k) < 0).
  { intros k [H1 H2]. destruct (hit_convex vs cx cy p Hc resc k Hr H1 H2) as (t & i & nx & ny & E & FC & LN & Hneg & IN).
    assert (E2 : g k = hit_cython p resc k).
    { unfold g. rewrite E. cbn [h_x h_y]. rewrite (proj2 (outside_spec vs cx cy p Hc Hi _ _)); auto. }
    rewrite E2, E. cbn [fst snd h_x h_y h_nx h_ny]. split; auto. split.
    - apply (outside_spec vs cx cy p Hc Hi). exact IN.
    - exists t. unfold h_pt; cbn [h_x h_y]. rewrite <- surjective_pairing. auto. }
  replace (existsb _ (map g ks)) with false.
  - exists (map g ks). split; auto. clear - HF G. induction HF as [|k ks Hk HF IH]; simpl; constructor; auto. apply G; auto.
  - symmetry. apply Bool.not_true_iff_false. intros X. apply existsb_exists in X. destruct X as (hi & Hin & Ho).
    apply in_map_iff in Hin. destruct Hin as (k & <- & Hk). rewrite Forall_forall in HF.
    destruct (G k (HF k Hk)) as (_ & A & _). congruence.
Qed.
