(** Lemmas about photoemission per segment and the uniform distributions. *)
From Coq Require Import Lra Lia.
From Verif Require Import Num NumFacts MP SpecMP MPFacts RegenFacts Geom SpecGeom Poly Sey SpecSey SeyFacts SeyFacts2 Impact SpecImpact Source SpecSource SourceFacts SourceFacts2.

(** * Histogram of the segments *)
Fixpoint nondec (l : list R) : Prop :=
  match l with a :: ((b :: _) as l') => a <= b /\ nondec l' | _ => True end.

Lemma diff_nondec l : existsb (fun d => Rltb d 0) (np_diff l) = false -> nondec l.
Proof.
  induction l as [|a [|b l] IH]; cbn; auto. intros H. apply orb_false_iff in H as [H1 H2].
  apply Rltb_false in H1. split; [lra|]. apply IH. exact H2.
Qed.

Lemma last_def {A} (l : list A) a b c : last (c :: l) a = last (c :: l) b.
Proof. revert c; induction l as [|d l IH]; intros; auto. exact (IH d). Qed.

Lemma nondec_last l a : nondec (a :: l) -> a <= last l a.
Proof.
  revert a; induction l as [|b l IH]; intros a H; [cbn; lra|]. destruct H as [H1 H2].
  specialize (IH b H2). destruct l as [|c l]; [cbn; lra|].
  change (last (b :: c :: l) a) with (last (c :: l) a). rewrite (last_def l a b c). lra.
Qed.

Lemma count_cons b l : count_true (b :: l) = ((if b then 1 else 0) + count_true l)%nat.
Proof. destruct b; reflexivity. Qed.

Lemma count_split (f g h : R -> bool) us :
  (forall u, In u us -> (if h u then 1 else 0) = (if f u then 1 else 0) + (if g u then 1 else 0))%nat ->
  (count_true (map h us) = count_true (map f us) + count_true (map g us))%nat.
Proof.
  induction us as [|u us IH]; intros H; auto. cbn [map]. rewrite !count_cons. pose proof (H u (or_introl eq_refl)).
  assert (IH' := IH (fun v Hv => H v (or_intror Hv))).
  lia.
Qed.

Lemma hist_total us : forall b a l, nondec (a :: b :: l) ->
  nsum (hist_bins us (a :: b :: l)) = count_true (map (fun u => Rleb a u && Rleb u (last (b :: l) a)) us).
Proof.
  intros b a l. revert a b; induction l as [|d l IH]; intros a b H.
  - cbn [hist_bins nsum fold_right last]. lia.
  - change (hist_bins us (a :: b :: d :: l)) with
      (count_true (map (fun u => Rleb a u && Rltb u b) us) :: hist_bins us (b :: d :: l)).
    change (nsum (?x :: ?y)) with (x + nsum y)%nat. rewrite IH by apply H.
    symmetry. apply count_split. intros u _. destruct H as [H1 H2].
    pose proof (nondec_last (d :: l) b H2) as HL.
    change (last (b :: d :: l) a) with (last (d :: l) a). rewrite (last_def l a b d).
    unfold Rleb, Rltb. destruct (Rle_dec a u), (Rle_dec b u), (Rlt_dec u b), (Rle_dec u (last (d :: l) b)); cbn; try lia; lra.
Qed.

Lemma hist_nth us bins i : (S i < length bins)%nat -> (forall u, In u us -> u < last bins 0) ->
  nth i (hist_bins us bins) 0%nat = in_bin bins us i.
Proof.
  revert i; induction bins as [|a bins IH]; intros i Hi HU; cbn in Hi; [lia|].
  destruct bins as [|b l]; [cbn in Hi; lia|]. destruct i as [|i].
  - unfold in_bin. cbn [hist_bins nth]. rewrite count_true_map. f_equal.
    apply filter_ext_in. intros u Hu. specialize (HU u Hu). f_equal. destruct l; auto.
    cbn in HU. unfold Rleb, Rltb. destruct (Rle_dec u b), (Rlt_dec u b); auto; lra.
  - change (hist_bins us (a :: b :: l)) with (let h := hist_bins us (b :: l) in
      count_true (map (fun u => Rleb a u && (match l with [] => Rleb u b | _ => Rltb u b end)) us) :: h).
    cbn [nth]. rewrite IH; [reflexivity|cbn in *; lia|]. intros u Hu. specialize (HU u Hu). cbn in *. exact HU.
Qed.

Lemma hist_bins_length us bins : length (hist_bins us bins) = (length bins - 1)%nat.
Proof.
  induction bins as [|a bins IH]; auto. destruct bins as [|b l]; auto.
  change (length (hist_bins us (a :: b :: l))) with (S (length (hist_bins us (b :: l)))). rewrite IH. cbn. lia.
Qed.

(** * Points of one segment *)
Definition seg_pt (x0 y0 dx dy : R) (x y : R) : Prop := exists r, 0 <= r < 1 /\ x = x0 + r * dx /\ y = y0 + r * dy.

Lemma Forall2_put2 (P : R -> R -> Prop) m : forall a b v u, length m = length a -> length v = length u -> Forall2 P a b -> Forall2 P v u ->
  Forall2 P (mask_put m a v) (mask_put m b u).
Proof.
  induction m as [|f m IH]; intros a b v u Lm L F G; destruct F; cbn in *; auto; try lia.
  destruct f; [|constructor; auto]. destruct G; cbn in *; constructor; auto.
Qed.

Lemma seg_points_rel x0 y0 dx dy sr k n : (forall j, 0 <= s_uni sr j < 1) ->
  Forall2 (seg_pt x0 y0 dx dy) (map (fun r => x0 + r * dx) (draw (s_uni sr) k n)) (map (fun r => y0 + r * dy) (draw (s_uni sr) k n)).
Proof.
  intros H. unfold draw. rewrite !map_map. induction (seq k n) as [|j l IH]; cbn; constructor; auto.
  exists (s_uni sr j). auto.
Qed.

(** After the assignment of inside points to the flagged slots all are inside. *)
Lemma put_inside (out : R -> R -> bool) : forall xs ys xo yo, length xs = length ys ->
  length xo = count_true (map2 out xs ys) -> length yo = count_true (map2 out xs ys) ->
  Forall2 (fun x y => out x y = false) xo yo ->
  Forall2 (fun x y => out x y = false) (mask_put (map2 out xs ys) xs xo) (mask_put (map2 out xs ys) ys yo).
Proof.
  induction xs as [|x xs IH]; intros [|y ys] xo yo L L1 L2 F; cbn in *; try lia; auto.
  destruct (out x y) eqn:O; cbn in *.
  - destruct F; cbn in *; try lia. constructor; auto.
  - constructor; auto.
Qed.

Lemma segment_points_ok fuel out x0 y0 dx dy sr : (forall j, 0 <= s_uni sr j < 1) ->
  forall k n xs ys k', segment_points fuel out x0 y0 dx dy sr k n = Some (xs, ys, k') ->
  length xs = n /\ length ys = n /\ Forall2 (fun x y => out x y = false) xs ys /\ Forall2 (seg_pt x0 y0 dx dy) xs ys.
Proof.
  intros HU. induction fuel as [|fuel IH]; intros k n xs ys k' E; [discriminate|]. cbn [segment_points] in E.
  pose proof (seg_points_rel x0 y0 dx dy sr k n HU) as REL.
  set (xs0 := map (fun r => x0 + r * dx) _) in *. set (ys0 := map (fun r => y0 + r * dy) _) in *.
  assert (L1 : length xs0 = n) by (unfold xs0; rewrite map_length, draw_length; auto).
  assert (L2 : length ys0 = n) by (unfold ys0; rewrite map_length, draw_length; auto).
  destruct (Nat.eqb_spec (count_true (map2 out xs0 ys0)) 0) as [Z|Z].
  - injection E as <- <- <-. split; [auto|]. split; [auto|]. split; [|auto]. apply no_flag_inside; auto. lia.
  - destruct (segment_points fuel out x0 y0 dx dy sr (k + n) _) as [[[xo yo] k2]|] eqn:R; [|discriminate].
    cbn [bind] in E. injection E as <- <- <-. apply IH in R. destruct R as (A & B & C & D).
    rewrite !mask_put_length. split; [auto|]. split; [auto|]. split; [apply put_inside; auto; lia|].
    apply Forall2_put2; auto; [rewrite map2_length|]; lia.
Qed.

(** * The photoemission chamber *)
Lemma phcham_fields vxs vys cx cy cdf pc : phcham_ctor vxs vys cx cy cdf = Some pc ->
  pc_bins pc = 0 :: cdf /\ last cdf 0 = 1 /\ cdf <> [] /\
  Vx (pc_poly pc) = vxs ++ [nth 0 vxs 0] /\ Vy (pc_poly pc) = vys ++ [nth 0 vys 0] /\
  (forall i x0 y0 nx ny, length vxs = length vys -> nth_error (pc_x0 pc) i = Some x0 -> nth_error (pc_y0 pc) i = Some y0 ->
     nth_error (pc_nrm pc) i = Some (nx, ny) ->
     x0 = vx (pc_poly pc) i + phem_dist * nx /\ y0 = vy (pc_poly pc) i + phem_dist * ny /\
     edge_normal (vx (pc_poly pc) (S i) - vx (pc_poly pc) i) (vy (pc_poly pc) (S i) - vy (pc_poly pc) i) = Some (nx, ny)).
Proof.
  intros E. unfold phcham_ctor in E. destruct (rev cdf) as [|l rl] eqn:RV; [discriminate|].
  destruct vxs as [|vx0 vxs]; [discriminate|]. destruct vys as [|vy0 vys]; [discriminate|].
  destruct (Reqb l 1) eqn:L1; cbn [negb] in E; [|discriminate]. apply Reqb_true in L1. subst l.
  destruct (existsb (fun d => Rltb d 0) (np_diff cdf)) eqn:ND; [discriminate|].
  set (X := (vx0 :: vxs) ++ [vx0]) in *. set (Y := (vy0 :: vys) ++ [vy0]) in *.
  destruct (Rltb (poly_area X Y) 0); [discriminate|].
  match type of E with (if ?b then _ else _) = _ => destruct b; [discriminate|] end.
  set (N := map2 edge_normal (np_diff X) (np_diff Y)) in *.
  match type of E with bind ?o _ = _ => destruct o as [nrm|] eqn:MN; [|discriminate] end. cbn [bind] in E.
  match type of E with Some ?a = Some ?b => assert (E' : b = a) by congruence end. clear E. subst pc.
  cbn [pc_bins pc_poly pc_x0 pc_y0 pc_nrm Vx Vy nth].
  assert (EC : cdf = rev rl ++ [1]) by (rewrite <- (rev_involutive cdf), RV; reflexivity).
  split; [auto|]. split; [rewrite EC; apply last_last|]. split; [rewrite EC; intros H; apply app_eq_nil in H as [_ H]; discriminate H|].
  split; [reflexivity|]. split; [reflexivity|].
  intros i x0 y0 nx ny LL H1 H2 H3. unfold vx, vy. cbn [Vx Vy].
  assert (Li : (i < length nrm)%nat) by (apply nth_error_Some; congruence).
  assert (M2 : forall (A B C : Type) (f : A -> B -> C) a b j c, nth_error (map2 f a b) j = Some c ->
     exists u v, nth_error a j = Some u /\ nth_error b j = Some v /\ c = f u v).
  { clear. intros A B C f a. induction a as [|u a IH]; intros [|v b] [|j] c H; cbn in H; try discriminate.
    - injection H as <-. exists u, v. auto.
    - cbn. eauto. }
  assert (NE : forall j d, (S j < length d)%nat -> nth_error (np_diff d) j = Some (nth (S j) d 0 - nth j d 0)).
  { clear. induction j; intros [|a [|b d]] H; cbn in H; try lia; auto.
    change (nth_error (np_diff (a :: b :: d)) (S j)) with (nth_error (np_diff (b :: d)) j).
    rewrite IHj by (cbn; lia). reflexivity. }
  assert (Mn : forall j, nth_error N j = option_map Some (nth_error nrm j)).
  { clear -MN. revert nrm MN. induction N as [|o N IH]; intros nrm E j; cbn in E.
    - injection E as <-. destruct j; auto.
    - destruct o as [a|]; [|discriminate]. cbn in E. destruct (mapM (fun o => o) N) as [r|]; [|discriminate].
      cbn in E. injection E as <-. destruct j; cbn; auto. }
  apply M2 in H1. destruct H1 as (v & q & A1 & A2 & ->). apply M2 in H2. destruct H2 as (v' & q' & B1 & B2 & ->).
  rewrite H3 in A2, B2. injection A2 as <-. injection B2 as <-. cbn [fst snd].
  assert (Lx : (i < length (vx0 :: vxs))%nat) by (apply nth_error_Some; congruence).
  assert (Ly : (i < length (vy0 :: vys))%nat) by (apply nth_error_Some; congruence).
  assert (NX : nth i X 0 = v) by (unfold X; rewrite app_nth1 by auto; apply nth_error_nth; auto).
  assert (NY : nth i Y 0 = v') by (unfold Y; rewrite app_nth1 by auto; apply nth_error_nth; auto).
  rewrite NX, NY. split; [auto|]. split; [auto|].
  specialize (Mn i). rewrite H3 in Mn. cbn [option_map] in Mn. apply M2 in Mn.
  destruct Mn as (dx & dy & D1 & D2 & EN). rewrite NE in D1 by (unfold X; rewrite app_length; cbn in *; lia).
  rewrite NE in D2 by (unfold Y; rewrite app_length; cbn in *; lia).
  assert (E1 : dx = nth (S i) X 0 - v) by congruence. assert (E2 : dy = nth (S i) Y 0 - v') by congruence.
  rewrite <- E1, <- E2. auto.
Qed.

Lemma diffs_in d vl yl : forall vxs vx0 vy0 vys, length (vx0 :: vxs) = length (vy0 :: vys) ->
  In d (map2 (fun dx dy => sqrt (dx * dx + dy * dy)) (np_diff (vx0 :: vxs)) (np_diff (vy0 :: vys))) ->
  In d (map2 (fun dx dy => sqrt (dx ^ 2 + dy ^ 2)) (np_diff ((vx0 :: vxs) ++ [vl])) (np_diff ((vy0 :: vys) ++ [yl]))).
Proof.
  induction vxs as [|x1 vxs IH]; intros vx0 vy0 [|y1 vys] LL I; try discriminate; [contradiction|].
  change (In d (map2 (fun dx dy => sqrt (dx ^ 2 + dy ^ 2)) ((x1 - vx0) :: np_diff ((x1 :: vxs) ++ [vl])) ((y1 - vy0) :: np_diff ((y1 :: vys) ++ [yl])))).
  destruct I as [I|I]; [left; rewrite <- I; f_equal; ring|right]. apply IH; [cbn in *; lia|exact I].
Qed.
Lemma phcham_same vxs vys cx cy cdf pc : phcham_ctor vxs vys cx cy cdf = Some pc -> length vxs = length vys ->
  exists cvx, poly_ctor vxs vys cx cy cvx = Some (pc_poly pc).
Proof.
  intros E LL. unfold phcham_ctor in E. destruct (rev cdf) as [|l rl] eqn:RV; [discriminate|].
  destruct vxs as [|vx0 vxs]; [discriminate|]. destruct vys as [|vy0 vys]; [discriminate|].
  destruct (negb (Reqb l 1)); [discriminate|]. destruct (existsb (fun d => Rltb d 0) (np_diff cdf)); [discriminate|].
  unfold poly_ctor.
  set (X := (vx0 :: vxs) ++ [vx0]) in *. set (Y := (vy0 :: vys) ++ [vy0]) in *.
  destruct (Rltb (poly_area X Y) 0); [discriminate|].
  match type of E with (if ?b then _ else _) = _ => destruct b eqn:EX; [discriminate|] end.
  match type of E with bind ?o _ = _ => destruct o as [nrm|] eqn:MN; [|discriminate] end. cbn [bind] in E.
  match type of E with Some ?a = Some ?b => assert (E' : b = a) by congruence end. clear E. subst pc. cbn [pc_poly].
  exists (is_convex X Y (length (vx0 :: vxs))).
  match goal with |- (if ?b then _ else _) = _ => destruct b eqn:EY end.
  - exfalso. rewrite <- not_true_iff_false in EX. apply EX. apply existsb_exists in EY. destruct EY as (d & I & Q). apply existsb_exists. exists d. split; [|exact Q].
    unfold X, Y. apply diffs_in; assumption.
  - rewrite andb_negb_r. reflexivity.
Qed.

Lemma edge_normal_ok dx dy nx ny : edge_normal dx dy = Some (nx, ny) ->
  nx * nx + ny * ny = 1 /\ nx * dx + ny * dy = 0 /\ 0 <= ny * dx - nx * dy.
Proof.
  unfold edge_normal. set (n := sqrt _). intros E. destruct (Reqb n 0) eqn:Z; [discriminate|]. apply Reqb_false in Z.
  injection E as <- <-. assert (N2 : n * n = dy * dy + dx * dx).
  { unfold n. rewrite sqrt_sqrt; [lra|]. nra. }
  assert (NP : 0 < n) by (pose proof (sqrt_pos (- dy * - dy + dx * dx)) as P; fold n in P; lra).
  split; [|split].
  - replace (- dy / n * (- dy / n) + dx / n * (dx / n)) with ((dy * dy + dx * dx) / (n * n)) by (field; auto).
    rewrite <- N2. field. auto.
  - field. auto.
  - replace (dx / n * dx - - dy / n * dy) with ((dy * dy + dx * dx) / n) by (field; auto).
    rewrite <- N2. replace (n * n / n) with n by (field; auto). lra.
Qed.

(** * The loop over segments *)
Definition pt4 (p : poly) (i : nat) (q : R * R * R * R) : Prop :=
  let '(x, y, nx, ny) := q in near_segment p i x y nx ny /\ p_outside p x y = false.

Lemma segments_loop_ok vxs vys cx cy cdf pc fuel sr : phcham_ctor vxs vys cx cy cdf = Some pc -> length vxs = length vys ->
  (forall j, 0 <= s_uni sr j < 1) ->
  forall counts i k pts k', segments_loop fuel pc sr k i counts = Some (pts, k') ->
  exists groups, pts = concat groups /\ length groups = length counts /\
    forall j g, nth_error groups j = Some g -> length g = nth j counts 0%nat /\ Forall (pt4 (pc_poly pc) (i + j)) g.
Proof.
  intros CT LL HU. pose proof (phcham_fields _ _ _ _ _ _ CT) as (_ & _ & _ & _ & _ & FLD).
  induction counts as [|c counts IH]; intros i k pts k' E; cbn [segments_loop] in E.
  - injection E as <- <-. exists []. split; [auto|]. split; [auto|]. intros [|j] g H; discriminate.
  - match type of E with bind ?o _ = _ => destruct o as [[p1 k1]|] eqn:P1; [|discriminate] end. cbn [bind] in E.
    destruct (segments_loop fuel pc sr k1 (S i) counts) as [[rest k2]|] eqn:RS; [|discriminate]. cbn [bind] in E.
    injection E as <- <-. apply IH in RS. destruct RS as (groups & -> & LG & HG).
    exists (p1 :: groups). split; [auto|]. split; [cbn; auto|].
    intros [|j] g H; cbn in H.
    + injection H as <-. rewrite Nat.add_0_r. destruct (Nat.eqb_spec c 0).
      * injection P1 as <- <-. subst. cbn. auto.
      * destruct (nth_error (pc_x0 pc) i) as [x0|] eqn:X0; [|discriminate]. cbn [bind] in P1.
        destruct (nth_error (pc_y0 pc) i) as [y0|] eqn:Y0; [|discriminate]. cbn [bind] in P1.
        destruct (nth_error (pc_nrm pc) i) as [[nx ny]|] eqn:NN; [|discriminate]. cbn [bind] in P1.
        destruct (segment_points _ _ _ _ _ _ _ _ _) as [[[xs ys] k3]|] eqn:SP; [|discriminate]. cbn [bind] in P1.
        injection P1 as <- <-. destruct (FLD i x0 y0 nx ny LL X0 Y0 NN) as (-> & -> & EN).
        apply edge_normal_ok in EN. destruct EN as (U1 & U2 & U3).
        apply segment_points_ok in SP; auto. destruct SP as (L1 & L2 & IN & PT).
        split; [rewrite map2_length; cbn; lia|].
        clear -U1 U2 U3 IN PT. induction PT as [|x y xs ys P PT IHP]; cbn; [constructor|].
        inversion IN; subst. constructor; auto. unfold pt4. split; [|auto].
        unfold near_segment. split; [auto|]. split; [auto|]. split; [auto|].
        destruct P as (r & Hr & -> & ->). exists r. change (1 / 10 ^ 14) with phem_dist. split; [auto|]. split; lra.
    + destruct (HG j g H) as [A B]. split; [exact A|]. replace (i + S j)%nat with (S i + j)%nat by lia. exact B.
Qed.

Lemma concat_length {A} (gs : list (list A)) : length (concat gs) = nsum (map (@length A) gs).
Proof. induction gs; cbn; auto. rewrite app_length. auto. Qed.

Lemma groups_nsum {A} (gs : list (list A)) counts : length gs = length counts ->
  (forall j g, nth_error gs j = Some g -> length g = nth j counts 0%nat) -> nsum (map (@length A) gs) = nsum counts.
Proof.
  revert counts; induction gs as [|g gs IH]; intros [|c counts] L H; cbn in *; try lia; auto.
  rewrite (H 0%nat g eq_refl). f_equal. apply IH; [lia|]. intros j. apply (H (S j)).
Qed.

Lemma histogram_complete bins us counts : np_histogram us bins = Some counts -> nth 0 bins 0 = 0 -> last bins 0 = 1 ->
  (2 <= length bins)%nat -> Forall (fun u => 0 <= u < 1) us -> nsum counts = length us.
Proof.
  intros E B0 BL LB HU. unfold np_histogram in E. destruct (existsb _ _) eqn:ND; [discriminate|]. injection E as <-.
  apply diff_nondec in ND. destruct bins as [|a [|b l]]; cbn in LB; try lia. rewrite hist_total by auto.
  cbn in B0. subst a. rewrite count_true_map.
  replace (filter _ us) with us; auto. symmetry.
  assert (BL' : last (b :: l) 0 = 1) by exact BL. clear -HU BL'.
  induction HU as [|u us Hu _ IH]; auto.
  change (filter ?f (u :: us)) with (if f u then u :: filter f us else filter f us). cbv beta.
  rewrite IH, BL'. unfold Rleb. destruct (Rle_dec 0 u), (Rle_dec u 1); cbn; auto; lra.
Qed.

Lemma positions_ok vxs vys cx cy cdf pc fuel sr k n pts k' : phcham_ctor vxs vys cx cy cdf = Some pc -> length vxs = length vys ->
  (forall j, 0 <= s_uni sr j < 1) ->
  get_photoelectron_positions fuel pc sr k n = Some (pts, k') ->
  length pts = n /\ exists groups, pts = concat groups /\ length groups = length cdf /\
    forall j g, nth_error groups j = Some g ->
      length g = in_bin (0 :: cdf) (draw (s_uni sr) k n) j /\ Forall (pt4 (pc_poly pc) j) g.
Proof.
  intros CT LL HU E. unfold get_photoelectron_positions in E.
  destruct (np_histogram _ _) as [counts|] eqn:HH; [|discriminate]. cbn [bind] in E.
  destruct (segments_loop _ _ _ _ _ _) as [[p k2]|] eqn:SL; [|discriminate]. cbn [bind] in E.
  destruct (Nat.eqb_spec (length p) n) as [LP|]; [|discriminate]. injection E as <- <-. split; [auto|].
  eapply segments_loop_ok in SL; eauto. destruct SL as (groups & -> & LG & HG). exists groups. split; [auto|].
  pose proof (phcham_fields _ _ _ _ _ _ CT) as (BB & LC & NC & _).
  unfold np_histogram in HH. destruct (existsb _ _); [discriminate|]. injection HH as <-.
  rewrite hist_bins_length, BB in LG. cbn [length] in LG. split; [lia|].
  intros j g Hj. destruct (HG j g Hj) as [A B]. split; [|exact B]. rewrite A, BB. apply hist_nth.
  - assert (j < length groups)%nat by (apply nth_error_Some; congruence). cbn. lia.
  - intros u Hu. replace (last (0 :: cdf) 0) with 1.
    + unfold draw in Hu. apply in_map_iff in Hu. destruct Hu as (q & <- & _). apply HU.
    + destruct cdf; [congruence|]. exact (eq_sym LC).
Qed.

(** The final test of the model never fails: every new macroparticle is
    assigned to a segment. *)
Lemma positions_all_filled vxs vys cx cy cdf pc fuel sr k n counts pts k' :
  phcham_ctor vxs vys cx cy cdf = Some pc -> length vxs = length vys -> (forall j, 0 <= s_uni sr j < 1) ->
  np_histogram (draw (s_uni sr) k n) (pc_bins pc) = Some counts ->
  segments_loop fuel pc sr (k + n) 0 counts = Some (pts, k') ->
  length pts = n /\ get_photoelectron_positions fuel pc sr k n = Some (pts, k').
Proof.
  intros CT LL HU HH SL. assert (LP : length pts = n).
  { pose proof (phcham_fields _ _ _ _ _ _ CT) as (BB & LC & NC & _).
    eapply segments_loop_ok in SL; eauto. destruct SL as (groups & -> & LG & HG).
    rewrite concat_length, (groups_nsum groups counts LG (fun j g Hj => proj1 (HG j g Hj))).
    rewrite (histogram_complete _ _ _ HH), draw_length; rewrite ?BB; auto.
    - destruct cdf; [congruence|]. exact LC.
    - destruct cdf; [congruence|]. cbn. lia.
    - apply draw_Forall. auto. }
  split; auto. unfold get_photoelectron_positions. rewrite HH. cbn [bind]. rewrite SL. cbn [bind].
  rewrite LP, Nat.eqb_refl. reflexivity.
Qed.

Lemma zip4_of pts : zip4 (map (fun '(x, _, _, _) => x) pts) (map (fun '(_, y, _, _) => y) pts)
   (map (fun '(_, _, nx, _) => nx) pts) (map (fun '(_, _, _, ny) => ny) pts) = pts.
Proof. unfold zip4. induction pts as [|[[[x y] a] b] pts IH]; cbn; auto. rewrite IH. auto. Qed.

Lemma Forall2_concat {A B} (P : A -> B -> Prop) gs : forall l, Forall2 P (concat gs) l ->
  exists hs, l = concat hs /\ length hs = length gs /\
    forall j g h, nth_error gs j = Some g -> nth_error hs j = Some h -> Forall2 P g h.
Proof.
  induction gs as [|g gs IH]; intros l H; cbn in H.
  - inversion H; subst. exists []. split; [auto|]. split; [auto|]. intros [|j] a b Ha; discriminate.
  - apply Forall2_app_inv_l in H. destruct H as (l1 & l2 & H1 & H2 & ->).
    apply IH in H2. destruct H2 as (hs & -> & L & HH). exists (l1 :: hs). split; [auto|]. split; [cbn; auto|].
    intros [|j] a b Ha Hb; cbn in *; [injection Ha as <-; injection Hb as <-; auto|eauto].
Qed.

Lemma photo3_main vxs vys cx cy cdf pc fuel kc ph mass lam Dt sr k s s' k' :
  phcham_ctor vxs vys cx cy cdf = Some pc -> length vxs = length vys ->
  wf s -> (N_mp s < capacity s)%nat -> 0 < nel_mp_ref s -> src_ok sr -> 0 < q_e kc -> 0 < mass -> 0 < ph_sig ph ->
  0 <= photo_DNel kc (ph_k ph) (ph_mean ph) lam Dt ->
  photo3_generate fuel kc ph pc mass lam Dt sr k s = Some (s', k') ->
  exists new, generated (p_outside (pc_poly pc)) s s' new /\ never_hit new /\
    rounded (photo_DNel kc (ph_k ph) (ph_mean ph) lam Dt / nel_mp_ref s) (s_uni sr k) (length new) /\
    close_charge (photo_DNel kc (ph_k ph) (ph_mean ph) lam Dt) s s' /\
    exists groups, new = concat groups /\ length groups = length cdf /\
      forall i g, nth_error groups i = Some g ->
        length g = in_bin (0 :: cdf) (draw (s_uni sr) (S k) (length new)) i /\
        Forall (fun p => exists nx ny, near_segment (pc_poly pc) i (m_x p) (m_y p) nx ny /\
                         photo_mp kc ph mass (m_x p, m_y p, nx, ny) p) g.
Proof.
  intros CT LL W F Hr HS Hq Hm Hg HD E. unfold photo3_generate in E.
  set (req := photo_DNel kc (ph_k ph) (ph_mean ph) lam Dt) in *.
  assert (Hq0 : 0 <= req / nel_mp_ref s) by (unfold Rdiv; apply Rmult_le_pos; auto; left; apply Rinv_0_lt_compat; auto).
  rewrite photo_number_stoch in E by auto.
  destruct (stoch_round_rounded _ (s_uni sr k) Hq0) as (n & En & Rn). rewrite En in E.
  destruct (Z.ltb_spec 0 (Z.of_nat n)) as [Hn|Hn].
  - rewrite Nat2Z.id in E.
    destruct (get_photoelectron_positions fuel pc sr (S k) n) as [[pts k1]|] eqn:GP; [|discriminate]. cbn [bind] in E.
    eapply positions_ok in GP; eauto; [|apply HS]. destruct GP as (LP & groups & -> & LG & HG).
    apply (photo_set_ok (p_outside (pc_poly pc))) in E; auto; try (rewrite map_length; auto; fail).
    + destruct E as (new & G & NH & LN & V & CH). exists new. split; [auto|]. split; [auto|]. rewrite LN.
      split; [auto|]. split; [apply (close_rounded _ (s_uni sr k) n); auto; apply HS|].
      rewrite zip4_of in V. apply Forall2_concat in V. destruct V as (hs & -> & LH & VH).
      exists hs. split; [auto|]. split; [lia|]. intros i h Hi.
      destruct (nth_error groups i) as [g|] eqn:Gi; [|apply nth_error_None in Gi; assert (i < length hs)%nat by (apply nth_error_Some; congruence); lia].
      destruct (HG i g Gi) as [A B]. specialize (VH i g h Gi Hi). split; [rewrite <- (Forall2_length VH); exact A|].
      clear -B VH. induction VH as [|[[[x y] nx] ny] p g h P VH IH]; constructor.
      * inversion B; subst. destruct H1 as [NS _]. destruct P as (Ex & Ey & K). exists nx, ny. rewrite Ex, Ey.
        split; [exact NS|]. split; [auto|]. split; [auto|]. exact K.
      * apply IH. inversion B; auto.
    + assert (B : Forall (fun q : R * R * R * R => let '(x, y, _, _) := q in p_outside (pc_poly pc) x y = false) (concat groups)).
      { apply Forall_concat. apply Forall_forall. intros g Hg'. apply In_nth_error in Hg'. destruct Hg' as [j Hj].
        eapply Forall_impl; [|apply (HG j g Hj)]. intros [[[x y] a] b] [_ K]. exact K. }
      clear -B. induction B as [|[[[x y] a] b] l H _ IH]; cbn; constructor; auto.
  - injection E as <- <-. assert (n = 0%nat) by lia. subst n. exists []. split; [apply generated_none; auto|].
    split; [constructor|]. split; [auto|]. split; [apply (close_rounded _ (s_uni sr k) 0); auto; [apply HS|cbn; lra]|].
    exists (map (fun _ => []) cdf). split; [clear; induction cdf; auto|]. split; [apply map_length|].
    intros i g H. rewrite nth_error_map in H. destruct (nth_error cdf i); [|discriminate]. injection H as <-. cbn. auto.
Qed.
