From Coq Require Import Lra Lia Reals Psatz Bool.
From Verif Require Import Num NumFacts Geom SpecGeom GeomFacts Poly SpecPoly PolyGeo PolyFacts SpecRay.

Ltac rd H := first [apply Rltb_true in H | apply Rltb_false in H | apply Rleb_true in H | apply Rleb_false in H].

(** * Parity of a list of booleans *)
Definition xorl (l : list bool) : bool := fold_right xorb false l.
Lemma xorl_app a b : xorl (a ++ b) = xorb (xorl a) (xorl b).
Proof. induction a as [|x a IH]; simpl; [destruct (xorl b); reflexivity|]. rewrite IH. destruct x, (xorl a), (xorl b); reflexivity. Qed.
Lemma xorl_two {A} (f g : A -> bool) l : xorl (map (fun i => xorb (f i) (g i)) l) = xorb (xorl (map f l)) (xorl (map g l)).
Proof. induction l as [|x l IH]; simpl; [reflexivity|]. rewrite IH. destruct (f x), (g x), (xorl (map f l)), (xorl (map g l)); reflexivity. Qed.
Lemma xorl_tele (h : nat -> bool) n : forall s, xorl (map (fun i => xorb (h i) (h (i + 1)%nat)) (seq s n)) = xorb (h s) (h (s + n)%nat).
Proof.
  induction n as [|n IH]; intros s; simpl; [rewrite Nat.add_0_r; destruct (h s); reflexivity|].
  rewrite IH. replace (S s + n)%nat with (s + S n)%nat by lia. replace (S s) with (s + 1)%nat by lia. destruct (h s), (h (s + 1)%nat), (h (s + S n)%nat); reflexivity.
Qed.
Lemma xorl_odd {A} (f : A -> bool) l : xorl (map f l) = Nat.odd (length (filter f l)).
Proof.
  induction l as [|x l IH]; [reflexivity|]. simpl. rewrite IH. destruct (f x); [|destruct (Nat.odd _); reflexivity].
  simpl length. rewrite Nat.odd_succ, <- Nat.negb_odd. reflexivity.
Qed.

(** * One edge *)
Definition crossb (a b q : R * R) : bool :=
  if Bool.eqb (Rgtb (snd b) (snd q)) (Rgtb (snd a) (snd q)) then false
  else Rltb (fst q) ((fst a - fst b) * (snd q - snd b) / (snd a - snd b) + fst b).
Lemma crossb_spec a b q : crossb a b q = true <-> crossed a b q.
Proof.
  destruct a as [ax ay], b as [bx by_], q as [x y]. unfold crossb, crossed, left_of, Rgtb. cbn [fst snd].
  destruct (Rltb y by_) eqn:B; destruct (Rltb y ay) eqn:A; rd A; rd B; simpl.
  - split; [discriminate|lra].
  - rewrite Rltb_true. assert (E : (ax - bx) * (y - by_) / (ay - by_) + bx - x = ((bx - ax) * (y - ay) - (by_ - ay) * (x - ax)) * / (by_ - ay)) by (field; lra).
    assert (P : 0 < / (by_ - ay)) by (apply Rinv_0_lt_compat; lra). split.
    + intros H. left. split; [lra|]. assert (H' : 0 < ((bx - ax) * (y - ay) - (by_ - ay) * (x - ax)) * / (by_ - ay)) by lra. nra.
    + intros [[_ H]|[H _]]; [|lra]. assert (0 < ((bx - ax) * (y - ay) - (by_ - ay) * (x - ax)) * / (by_ - ay)) by (apply Rmult_lt_0_compat; lra). lra.
  - rewrite Rltb_true. assert (E : (ax - bx) * (y - by_) / (ay - by_) + bx - x = (- ((bx - ax) * (y - ay) - (by_ - ay) * (x - ax))) * / (ay - by_)) by (field; lra).
    assert (P : 0 < / (ay - by_)) by (apply Rinv_0_lt_compat; lra). split.
    + intros H. right. split; [lra|]. assert (H' : 0 < (- ((bx - ax) * (y - ay) - (by_ - ay) * (x - ax))) * / (ay - by_)) by lra. nra.
    + intros [[H _]|[_ H]]; [lra|]. assert (0 < (- ((bx - ax) * (y - ay) - (by_ - ay) * (x - ax))) * / (ay - by_)) by (apply Rmult_lt_0_compat; lra). lra.
  - split; [discriminate|lra].
Qed.
Lemma crossed_sym a b q : crossed a b q <-> crossed b a q.
Proof. unfold crossed. replace (left_of b a q) with (- left_of a b q) by (unfold left_of; ring). split; intros [H|H]; [right|left|right|left]; lra. Qed.
Lemma crossb_sym a b q : crossb a b q = crossb b a q.
Proof. apply Bool.eq_iff_eq_true. rewrite !crossb_spec. apply crossed_sym. Qed.

(** Two segments that do not meet. *)
Definition apart (a b p q : R * R) : Prop := forall s t, 0 <= s <= 1 -> 0 <= t <= 1 -> along a b s <> along p q t.
Lemma apart_sym a b p q : apart a b p q -> apart b a p q.
Proof.
  intros H s t Hs Ht E. apply (H (1 - s) t ltac:(lra) Ht). rewrite <- E. unfold along. f_equal; simpl; ring.
Qed.
Lemma apart_rev a b p q : apart a b p q -> apart a b q p.
Proof.
  intros H s t Hs Ht E. apply (H s (1 - t) Hs ltac:(lra)). rewrite E. unfold along. f_equal; simpl; ring.
Qed.

(** In the strip above [p] and up to [q], on the right of the line through both. *)
Definition right_of (p q v : R * R) : bool := Rltb (snd p) (snd v) && Rleb (snd v) (snd q) && Rltb (left_of p q v) 0.

(** Horizontal distance of the two lines at height [y]. *)
Definition gap (a b p q : R * R) (y : R) : R :=
  (fst a + (y - snd a) / (snd b - snd a) * (fst b - fst a)) - (fst p + (y - snd p) / (snd q - snd p) * (fst q - fst p)).
Lemma div01 u v : 0 <= u <= v -> 0 < v -> 0 <= u / v <= 1.
Proof.
  intros [H1 H2] Hv. split; [unfold Rdiv; apply Rmult_le_pos; [lra|left; apply Rinv_0_lt_compat; lra]|].
  apply (Rmult_le_reg_r v); [lra|]. unfold Rdiv. rewrite Rmult_assoc, Rinv_l by lra. lra.
Qed.
Lemma gap_zero a b p q y : snd a < snd b -> snd p < snd q -> snd a <= y <= snd b -> snd p <= y <= snd q -> gap a b p q y = 0 -> ~ apart a b p q.
Proof.
  intros Hab Hpq Ha Hp E H. apply (H ((y - snd a) / (snd b - snd a)) ((y - snd p) / (snd q - snd p))); [apply div01; lra|apply div01; lra|].
  unfold along. f_equal; [unfold gap in E; lra|]. field. lra.
Qed.
Lemma gap_sign a b p q y z : snd a < snd b -> snd p < snd q -> apart a b p q ->
  snd a <= y <= snd b -> snd p <= y <= snd q -> snd a <= z <= snd b -> snd p <= z <= snd q -> 0 < gap a b p q y -> 0 < gap a b p q z.
Proof.
  intros Hab Hpq H Y1 Y2 Z1 Z2 G. destruct (Rlt_le_dec 0 (gap a b p q z)) as [|L]; [auto|]. exfalso.
  set (g := gap a b p q) in *. set (w := y + (z - y) * (g y / (g y - g z))).
  assert (T : 0 <= g y / (g y - g z) <= 1) by (apply div01; lra).
  assert (W : (snd a <= w <= snd b) /\ (snd p <= w <= snd q)) by (unfold w; set (t := g y / (g y - g z)) in *; nra).
  apply (gap_zero a b p q w Hab Hpq (proj1 W) (proj2 W)); [|exact H].
  assert (Af : forall u v t, gap a b p q (u + (v - u) * t) = gap a b p q u + (gap a b p q v - gap a b p q u) * t) by (intros; unfold gap; field; lra).
  unfold w. rewrite Af. fold g. field. lra.
Qed.
Lemma prod_pos a b : 0 < a -> (0 < a * b <-> 0 < b).
Proof. intros H. split; intros H'; nra. Qed.
Lemma gap_p a b p q : snd a < snd b -> snd p < snd q -> (0 < left_of a b p <-> 0 < gap a b p q (snd p)).
Proof.
  intros Hab Hpq. assert (E : left_of a b p = (snd b - snd a) * gap a b p q (snd p)) by (unfold left_of, gap; field; lra).
  rewrite E. apply prod_pos. lra.
Qed.
Lemma gap_q a b p q : snd a < snd b -> snd p < snd q -> (0 < left_of a b q <-> 0 < gap a b p q (snd q)).
Proof.
  intros Hab Hpq. assert (E : left_of a b q = (snd b - snd a) * gap a b p q (snd q)) by (unfold left_of, gap; field; lra).
  rewrite E. apply prod_pos. lra.
Qed.
Lemma gap_a a b p q : snd a < snd b -> snd p < snd q -> (left_of p q a < 0 <-> 0 < gap a b p q (snd a)).
Proof.
  intros Hab Hpq. assert (E : - left_of p q a = (snd q - snd p) * gap a b p q (snd a)) by (unfold left_of, gap; field; lra).
  rewrite <- (prod_pos (snd q - snd p)) by lra. rewrite <- E. split; lra.
Qed.
Lemma gap_b a b p q : snd a < snd b -> snd p < snd q -> (left_of p q b < 0 <-> 0 < gap a b p q (snd b)).
Proof.
  intros Hab Hpq. assert (E : - left_of p q b = (snd q - snd p) * gap a b p q (snd b)) by (unfold left_of, gap; field; lra).
  rewrite <- (prod_pos (snd q - snd p)) by lra. rewrite <- E. split; lra.
Qed.

Lemma crossb_up a b q : snd a < snd b -> crossb a b q = Rleb (snd a) (snd q) && Rltb (snd q) (snd b) && Rltb 0 (left_of a b q).
Proof.
  intros H. apply Bool.eq_iff_eq_true. rewrite crossb_spec, !andb_true_iff, Rleb_true, !Rltb_true. unfold crossed. split; [intros [G|G]; lra|intros G; left; lra].
Qed.
Lemma crossb_level a b q : snd a = snd b -> crossb a b q = false.
Proof. intros H. apply not_true_iff_false. rewrite crossb_spec. unfold crossed. lra. Qed.

Lemma edge_up a b p q : snd a <= snd b -> snd p < snd q -> apart a b p q ->
  xorb (crossb a b p) (crossb a b q) = xorb (right_of p q a) (right_of p q b).
Proof.
  intros Hab Hpq H. destruct (Rle_lt_or_eq_dec _ _ Hab) as [L|E].
  - rewrite !crossb_up by auto. unfold right_of.
    assert (Pp : Rltb 0 (left_of a b p) = Rltb 0 (gap a b p q (snd p))) by (apply Bool.eq_iff_eq_true; rewrite !Rltb_true; apply gap_p; auto).
    assert (Pq : Rltb 0 (left_of a b q) = Rltb 0 (gap a b p q (snd q))) by (apply Bool.eq_iff_eq_true; rewrite !Rltb_true; apply gap_q; auto).
    assert (Pa : Rltb (left_of p q a) 0 = Rltb 0 (gap a b p q (snd a))) by (apply Bool.eq_iff_eq_true; rewrite !Rltb_true; apply gap_a; auto).
    assert (Pb : Rltb (left_of p q b) 0 = Rltb 0 (gap a b p q (snd b))) by (apply Bool.eq_iff_eq_true; rewrite !Rltb_true; apply gap_b; auto).
    rewrite Pp, Pq, Pa, Pb.
    assert (Sg : forall y z, snd a <= y <= snd b -> snd p <= y <= snd q -> snd a <= z <= snd b -> snd p <= z <= snd q ->
      Rltb 0 (gap a b p q y) = Rltb 0 (gap a b p q z)).
    { intros y z Y1 Y2 Z1 Z2. apply Bool.eq_iff_eq_true. rewrite !Rltb_true. split; apply gap_sign; auto. }
    clear Pp Pq Pa Pb.
    destruct (Rle_lt_dec (snd a) (snd p)) as [A1|A1]; destruct (Rle_lt_dec (snd a) (snd q)) as [A2|A2]; try lra;
    destruct (Rlt_le_dec (snd p) (snd b)) as [B1|B1]; destruct (Rlt_le_dec (snd q) (snd b)) as [B2|B2]; try lra;
    repeat first [rewrite (proj2 (Rleb_true _ _)) by lra | rewrite (proj2 (Rleb_false _ _)) by lra | rewrite (proj2 (Rltb_true (snd _) _)) by lra | rewrite (proj2 (Rltb_false (snd _) _)) by lra];
    cbn [andb xorb]; rewrite ?xorb_false_r; try reflexivity.
    + rewrite (Sg (snd p) (snd q)) by (split; lra). apply xorb_nilpotent.
    + rewrite (Sg (snd p) (snd b)) by (split; lra). destruct (Rltb 0 _); reflexivity.
    + rewrite (Sg (snd q) (snd a)) by (split; lra). destruct (Rltb 0 _); reflexivity.
    + rewrite (Sg (snd a) (snd b)) by (split; lra). symmetry. apply xorb_nilpotent.
  - rewrite !crossb_level by auto. cbn [xorb]. symmetry. unfold right_of. rewrite <- E.
    destruct (Rltb (snd p) (snd a)) eqn:P; [|reflexivity]. destruct (Rleb (snd a) (snd q)) eqn:Q; [|reflexivity]. rd P. rd Q. cbn [andb].
    set (t := (snd a - snd p) / (snd q - snd p)). assert (T : 0 <= t <= 1) by (apply div01; lra).
    set (xs := fst p + t * (fst q - fst p)).
    assert (La : left_of p q a = (snd q - snd p) * (xs - fst a)) by (unfold left_of, xs, t; field; lra).
    assert (Lb : left_of p q b = (snd q - snd p) * (xs - fst b)) by (unfold left_of, xs, t; rewrite <- E; field; lra).
    assert (Meet : forall s, 0 <= s <= 1 -> fst a + s * (fst b - fst a) <> xs).
    { intros s Hs X. apply (H s t Hs T). unfold along. f_equal; [exact X|]. rewrite <- E. unfold t. field. lra. }
    destruct (Rltb (left_of p q a) 0) eqn:A; destruct (Rltb (left_of p q b) 0) eqn:B; try reflexivity; exfalso; rd A; rd B.
    + apply (Meet ((fst a - xs) / (fst a - fst b))); [apply div01; nra|]. field. nra.
    + apply (Meet ((xs - fst a) / (fst b - fst a))); [apply div01; nra|]. field. nra.
Qed.
Lemma edge_move a b p q : snd p < snd q -> apart a b p q -> xorb (crossb a b p) (crossb a b q) = xorb (right_of p q a) (right_of p q b).
Proof.
  intros Hpq H. destruct (Rle_lt_dec (snd a) (snd b)) as [L|L]; [apply edge_up; auto|].
  rewrite (crossb_sym a b p), (crossb_sym a b q), (xorb_comm (right_of p q a)). apply edge_up; [lra|auto|apply apart_sym; auto].
Qed.
Lemma edge_flat a b p q : snd p = snd q -> apart a b p q -> crossb a b p = true -> crossb a b q = true.
Proof.
  intros E H C. apply crossb_spec. apply crossb_spec in C. unfold crossed in *. rewrite <- E.
  assert (K : forall u v, snd u <= snd p < snd v -> (forall s, 0 <= s <= 1 -> forall t, 0 <= t <= 1 -> along u v s <> along p q t) -> 0 < left_of u v p -> 0 < left_of u v q).
  { intros u v L H' C'. destruct (Rlt_le_dec 0 (left_of u v q)) as [|D]; [auto|exfalso].
    set (s := (snd p - snd u) / (snd v - snd u)). assert (Hs : 0 <= s <= 1) by (apply div01; lra). set (xs := fst u + s * (fst v - fst u)).
    assert (Lp : left_of u v p = (snd v - snd u) * (xs - fst p)) by (unfold left_of, xs, s; field; lra).
    assert (Lq : left_of u v q = (snd v - snd u) * (xs - fst q)) by (unfold left_of, xs, s; rewrite <- E; field; lra).
    assert (X1 : 0 < xs - fst p) by (apply (prod_pos (snd v - snd u)); lra). assert (X2 : xs - fst q <= 0) by (apply Rnot_lt_le; intros X; apply (prod_pos (snd v - snd u)) in X; lra).
    apply (H' s Hs ((xs - fst p) / (fst q - fst p))); [apply div01; lra|]. unfold along. fold xs. rewrite <- E. f_equal; [field; lra|]. unfold s. field. lra. }
  destruct C as [[L C]|[L C]]; [left|right]; (split; [exact L|]).
  - apply (K a b L); auto.
  - assert (0 < left_of b a q); [|unfold left_of in *; lra]. apply (K b a L); [|unfold left_of in *; lra].
    intros s Hs t Ht. apply (apart_sym _ _ _ _ H); auto.
Qed.

(** * The whole outline *)
Section Outline.
Variable vs : list (R * R).
Hypothesis Ne : vs <> [].
Notation n := (length vs).
Notation V := (vert vs).
Definition parity (q : R * R) : bool := xorl (map (fun i => crossb (V i) (V (i + 1)) q) (seq 0 n)).
Lemma n_some : (0 < n)%nat. Proof. destruct vs; [contradiction|simpl; lia]. Qed.
Lemma V_n i : V (i + n)%nat = V i.
Proof. unfold vert. pose proof n_some. replace (i + n)%nat with (i + 1 * n)%nat by lia. rewrite Nat.mod_add by lia. reflexivity. Qed.

Lemma parity_spec q : parity q = true <-> enclosed vs q.
Proof.
  unfold parity. rewrite xorl_odd. set (f := fun i => crossb (V i) (V (i + 1)) q).
  assert (F : forall i, In i (filter f (seq 0 n)) <-> (i < n)%nat /\ crossed (V i) (V (i + 1)) q).
  { intros i. rewrite filter_In, in_seq. unfold f. rewrite crossb_spec. intuition lia. }
  rewrite Nat.odd_spec. split.
  - intros H. exists (filter f (seq 0 n)). split; [apply NoDup_filter, seq_NoDup|]. split; [exact F|exact H].
  - intros (l & Nd & L & O). assert (P : length l = length (filter f (seq 0 n))); [|rewrite <- P; exact O].
    apply Nat.le_antisymm; apply NoDup_incl_length; auto.
    + intros i I. apply F, L, I.
    + apply NoDup_filter, seq_NoDup.
    + intros i I. apply L, F, I.
Qed.

Lemma free_apart a b i : (i < n)%nat -> free vs a b -> apart (V i) (V (i + 1)) a b.
Proof. intros Hi H s t Hs Ht E. apply (H t Ht). exists i. split; [exact Hi|]. exists s. auto. Qed.

Lemma parity_move p q : free vs p q -> parity p = parity q.
Proof.
  intros H. assert (Up : forall p q, snd p < snd q -> free vs p q -> parity p = parity q).
  { clear p q H. intros p q L H. apply xorb_eq. unfold parity. rewrite <- xorl_two.
    rewrite (map_ext_in _ (fun i => xorb (right_of p q (V i)) (right_of p q (V (i + 1))))).
    - rewrite (xorl_tele (fun i => right_of p q (V i))). rewrite V_n. apply xorb_nilpotent.
    - intros i I. apply in_seq in I. apply edge_move; [exact L|apply free_apart; [lia|exact H]]. }
  assert (Rv : free vs q p).
  { intros t Ht. replace (along q p t) with (along p q (1 - t)); [apply H; lra|]. unfold along. f_equal; ring. }
  destruct (Rtotal_order (snd p) (snd q)) as [L|[E|L]]; [apply Up; auto| |symmetry; apply Up; auto].
  unfold parity. f_equal. apply map_ext_in. intros i I. apply in_seq in I. apply Bool.eq_iff_eq_true. split.
  - apply edge_flat; [exact E|apply free_apart; [lia|exact H]].
  - apply edge_flat; [auto|apply free_apart; [lia|exact Rv]].
Qed.
Lemma parity_joined p q : joined vs p q -> parity p = parity q.
Proof. induction 1 as [|a b c F J IH]; [reflexivity|]. rewrite (parity_move a b F). exact IH. Qed.
Lemma enclosed_joined p q : joined vs p q -> (enclosed vs p <-> enclosed vs q).
Proof. intros H. rewrite <- !parity_spec, (parity_joined p q H). reflexivity. Qed.

Lemma xorl_false l : (forall b, In b l -> b = false) -> xorl l = false.
Proof. induction l as [|b l IH]; intros H; [reflexivity|]. simpl. rewrite (H b) by (left; auto). rewrite IH; [reflexivity|]. intros c I. apply H. right. auto. Qed.
Lemma vert_in i : In (V i) vs.
Proof. unfold vert. apply nth_In. pose proof n_some. apply Nat.mod_upper_bound. lia. Qed.
Lemma off_box_out q : off_box vs q -> ~ enclosed vs q.
Proof.
  intros H E. apply parity_spec in E. cut (parity q = false); [congruence|]. destruct H as [H|[H|H]].
  - unfold parity. apply xorl_false. intros b I. apply in_map_iff in I as (i & <- & I). apply not_true_iff_false. rewrite crossb_spec.
    pose proof (H _ (vert_in i)). pose proof (H _ (vert_in (i + 1))). unfold crossed, left_of. intros [G|G]; nra.
  - unfold parity. rewrite (map_ext _ (fun i => xorb (Rltb (snd q) (snd (V i))) (Rltb (snd q) (snd (V (i + 1)))))).
    + rewrite (xorl_tele (fun i => Rltb (snd q) (snd (V i)))). rewrite V_n. apply xorb_nilpotent.
    + intros i. pose proof (H _ (vert_in i)). pose proof (H _ (vert_in (i + 1))). apply Bool.eq_iff_eq_true. rewrite crossb_spec. unfold crossed, left_of.
      destruct (Rltb (snd q) (snd (V i))) eqn:A; destruct (Rltb (snd q) (snd (V (i + 1)))) eqn:B; rd A; rd B; simpl.
      * split; [intros [G|G]; lra|discriminate].
      * split; [reflexivity|intros _; right; nra].
      * split; [reflexivity|intros _; left; nra].
      * split; [intros [G|G]; lra|discriminate].
  - unfold parity. apply xorl_false. intros b I. apply in_map_iff in I as (i & <- & I). apply not_true_iff_false. rewrite crossb_spec.
    unfold crossed. destruct H as [H|H]; pose proof (H _ (vert_in i)); pose proof (H _ (vert_in (i + 1))); lra.
Qed.

(** The ellipse. *)
Lemma insc_enclosed cx cy q : insc_clear vs cx cy -> in_insc_ell cx cy q -> enclosed vs q.
Proof.
  intros (Cx & Cy & A & O) H. apply (enclosed_joined (0, 0) q); [|exact O]. apply (joined_step vs _ q); [|apply joined_here].
  intros t Ht. apply A. unfold in_insc_ell, along in *. cbn [fst snd].
  assert (X : 0 <= fst q * fst q / (cx * cx)) by (unfold Rdiv; apply Rmult_le_pos; [nra|left; apply Rinv_0_lt_compat; nra]).
  assert (Y : 0 <= snd q * snd q / (cy * cy)) by (unfold Rdiv; apply Rmult_le_pos; [nra|left; apply Rinv_0_lt_compat; nra]).
  replace ((0 + t * (fst q - 0)) * (0 + t * (fst q - 0)) / (cx * cx) + (0 + t * (snd q - 0)) * (0 + t * (snd q - 0)) / (cy * cy))
    with (t * t * (fst q * fst q / (cx * cx) + snd q * snd q / (cy * cy))) by (field; lra). nra.
Qed.
End Outline.

(** * The code *)
Section Code.
Variables (vs : list (R * R)) (cx cy : R) (p : poly).
Hypothesis Hp : poly_ctor (map fst vs) (map snd vs) cx cy false = Some p.
Notation n := (length vs).
Notation V := (vert vs).
Lemma ray_built : built vs cx cy false p. Proof. exact (ctor_built _ _ _ _ _ Hp). Qed.
Lemma odd_spec q : forall m s ins, (s + m < n)%nat ->
  odd_loop p (seq (s + 1) m) s (fst q) (snd q) ins = xorb ins (xorl (map (fun i => crossb (V i) (V (i + 1)) q) (seq s m))).
Proof.
  pose proof ray_built as B. induction m as [|m IH]; intros s ins H; simpl; [destruct ins; reflexivity|].
  replace (S (s + 1)) with ((s + 1) + 1)%nat by lia. rewrite IH by lia.
  rewrite (b_vx _ _ _ _ _ B s), (b_vy _ _ _ _ _ B s), (b_vx _ _ _ _ _ B (s + 1)), (b_vy _ _ _ _ _ B (s + 1)) by lia.
  fold (crossb (V s) (V (s + 1)) q). replace (S s) with (s + 1)%nat by lia. destruct (crossb (V s) (V (s + 1)) q), ins, (xorl _); reflexivity.
Qed.
Lemma odd_parity x y : odd_loop p (seq 0 n) (n - 1) x y false = parity vs (x, y).
Proof.
  pose proof ray_built as B. pose proof (n_some vs (b_ne _ _ _ _ _ B)) as Hn. replace (seq 0 n) with (0%nat :: seq 1 (n - 1)) by (destruct n; [lia|simpl; rewrite Nat.sub_0_r; reflexivity]).
  cbn [odd_loop]. change (seq 1 (n - 1)) with (seq (0 + 1) (n - 1)). rewrite (odd_spec (x, y)) by lia.
  rewrite (b_vx _ _ _ _ _ B (n - 1)), (b_vy _ _ _ _ _ B (n - 1)), (b_vx _ _ _ _ _ B 0), (b_vy _ _ _ _ _ B 0) by lia.
  unfold parity. replace (seq 0 n) with (seq 0 (n - 1) ++ [(n - 1)%nat]) by (rewrite <- seq_S; f_equal; lia).
  rewrite map_app, xorl_app. cbn [map xorl fold_right]. rewrite xorb_false_r. change (fold_right xorb false) with xorl.
  replace (n - 1 + 1)%nat with (0 + n)%nat by lia. rewrite (V_n vs (b_ne _ _ _ _ _ B)).
  change (if Bool.eqb (Rgtb (snd (V 0)) y) (Rgtb (snd (V (n - 1))) y) then false else Rltb x ((fst (V (n - 1)) - fst (V 0)) * (y - snd (V 0)) / (snd (V (n - 1)) - snd (V 0)) + fst (V 0)))
    with (crossb (V (n - 1)) (V 0) (x, y)).
  destruct (crossb (V (n - 1)) (V 0) (x, y)), (xorl _); reflexivity.
Qed.
Lemma insc_in x y : 0 < cx -> 0 < cy -> (in_insc p x y = true <-> in_insc_ell cx cy (x, y)).
Proof.
  intros Cx Cy. pose proof ray_built as B. unfold in_insc, in_insc_ell. rewrite (b_cx _ _ _ _ _ B), (b_cy _ _ _ _ _ B), Rleb_true. cbn [fst snd].
  replace (x * x / (cx * cx) + y * y / (cy * cy)) with (x / cx * (x / cx) + y / cy * (y / cy)) by (field; lra). reflexivity.
Qed.
Theorem ray_test x y : 0 < cx -> 0 < cy -> (p_outside p x y = false <-> in_insc_ell cx cy (x, y) \/ enclosed vs (x, y)).
Proof.
  intros Cx Cy. pose proof ray_built as B. unfold p_outside. rewrite (b_cv _ _ _ _ _ B). unfold outside_nonconvex. rewrite negb_false_iff, orb_true_iff, (insc_in x y Cx Cy).
  rewrite (b_n _ _ _ _ _ B), odd_parity, (parity_spec vs). reflexivity.
Qed.
Theorem ray_enclosed x y : insc_clear vs cx cy -> (p_outside p x y = false <-> enclosed vs (x, y)).
Proof.
  intros H. pose proof H as (Cx & Cy & _ & _). rewrite (ray_test x y Cx Cy). split; [|auto]. intros [G|G]; [|exact G].
  apply (insc_enclosed vs (b_ne _ _ _ _ _ ray_built) cx cy); auto.
Qed.
Theorem ray_joined q q' : insc_clear vs cx cy -> joined vs q q' -> p_outside p (fst q) (snd q) = p_outside p (fst q') (snd q').
Proof.
  intros H J. apply (enclosed_joined vs (b_ne _ _ _ _ _ ray_built)) in J. destruct q as [x y], q' as [x' y']. cbn [fst snd].
  pose proof (ray_enclosed x y H) as A. pose proof (ray_enclosed x' y' H) as A'.
  destruct (p_outside p x y), (p_outside p x' y'); try reflexivity; exfalso; intuition discriminate.
Qed.
Theorem ray_centre q : insc_clear vs cx cy -> joined vs (0, 0) q -> p_outside p (fst q) (snd q) = false.
Proof. intros H J. rewrite <- (ray_joined _ _ H J). apply ray_enclosed; [exact H|apply H]. Qed.
Theorem ray_far q far : insc_clear vs cx cy -> off_box vs far -> joined vs q far -> p_outside p (fst q) (snd q) = true.
Proof.
  intros H F J. rewrite (ray_joined _ _ H J). apply (off_box_out vs (b_ne _ _ _ _ _ ray_built)) in F. destruct far as [x y]. cbn [fst snd].
  destruct (p_outside p x y) eqn:E; [reflexivity|]. apply (ray_enclosed x y H) in E. contradiction.
Qed.
End Code.

(** * Strictly convex outlines *)
Section Convex.
Variable vs : list (R * R).
Hypothesis Cv : strictly_convex vs.
Notation n := (length vs).
Notation V := (vert vs).
Notation L i q := (left_of (V i) (V (i + 1)) q).
Lemma cv_ne : vs <> []. Proof. destruct Cv as [H _]. destruct vs; [simpl in H; lia|discriminate]. Qed.
Lemma cv_n : (3 <= n)%nat. Proof. apply Cv. Qed.
Lemma V_mod i : V (i mod n) = V i.
Proof. unfold vert. rewrite Nat.mod_mod by (pose proof cv_n; lia). reflexivity. Qed.
Lemma V_mod1 i : V (i mod n + 1) = V (i + 1).
Proof. unfold vert. rewrite Nat.add_mod_idemp_l by (pose proof cv_n; lia). reflexivity. Qed.
Lemma L_vert i k : (i < n)%nat -> (k < n)%nat -> 0 <= L i (V k) /\ (L i (V k) = 0 -> k = i \/ k = ((i + 1) mod n)%nat).
Proof.
  intros Hi Hk. destruct (Nat.eq_dec k i) as [->|N1]; [split; [unfold left_of; right; ring|auto]|].
  destruct (Nat.eq_dec k ((i + 1) mod n)) as [->|N2]; [split; [rewrite V_mod; unfold left_of; right; ring|auto]|].
  pose proof (proj2 Cv i k Hi Hk N1 N2). split; [lra|intros; lra].
Qed.
Lemma L_pos i k : 0 <= L i (V k).
Proof. rewrite <- (V_mod i), <- (V_mod1 i), <- (V_mod k). apply L_vert; apply Nat.mod_upper_bound; pose proof cv_n; lia. Qed.
Lemma L_along i a b t : L i (along a b t) = (1 - t) * L i a + t * L i b.
Proof. unfold left_of, along. cbn [fst snd]. ring. Qed.

(** Edges that go up, and down, through the height [y]. *)
Definition up (y : R) (i : nat) : Prop := snd (V i) <= y < snd (V (i + 1)).
Definition down (y : R) (i : nat) : Prop := snd (V (i + 1)) <= y < snd (V i).
(** The point of edge [i] at the height [y]. *)
Definition at_height (y : R) (i : nat) : R * R := along (V i) (V (i + 1)) ((y - snd (V i)) / (snd (V (i + 1)) - snd (V i))).
Lemma height_up y i : up y i -> snd (at_height y i) = y /\ 0 <= (y - snd (V i)) / (snd (V (i + 1)) - snd (V i)) < 1.
Proof.
  intros [A B]. split; [unfold at_height, along; cbn [snd]; field; lra|]. split; [apply div01; lra|].
  apply (Rmult_lt_reg_r (snd (V (i + 1)) - snd (V i))); [lra|]. unfold Rdiv. rewrite Rmult_assoc, Rinv_l by lra. lra.
Qed.
Lemma height_down y i : down y i -> snd (at_height y i) = y /\ 0 < (y - snd (V i)) / (snd (V (i + 1)) - snd (V i)) <= 1.
Proof.
  intros [A B]. split; [unfold at_height, along; cbn [snd]; field; lra|].
  replace ((y - snd (V i)) / (snd (V (i + 1)) - snd (V i))) with ((snd (V i) - y) / (snd (V i) - snd (V (i + 1)))) by (field; lra).
  split; [apply Rdiv_lt_0_compat; lra|apply div01; lra].
Qed.
Lemma L_up y i q : up y i -> snd q = y -> L i q = (snd (V (i + 1)) - snd (V i)) * (fst (at_height y i) - fst q).
Proof. intros [A B] E. unfold left_of, at_height, along. cbn [fst]. rewrite E. field. lra. Qed.
Lemma L_down y i q : down y i -> snd q = y -> L i q = (snd (V i) - snd (V (i + 1))) * (fst q - fst (at_height y i)).
Proof. intros [A B] E. unfold left_of, at_height, along. cbn [fst]. rewrite E. field. lra. Qed.
Lemma L_height i j y : up y j \/ down y j -> 0 <= L i (at_height y j).
Proof.
  intros H. assert (T : 0 <= (y - snd (V j)) / (snd (V (j + 1)) - snd (V j)) <= 1) by (destruct H as [H|H]; [apply height_up in H|apply height_down in H]; lra).
  unfold at_height. rewrite L_along. pose proof (L_pos i j). pose proof (L_pos i (j + 1)). nra.
Qed.
Lemma next_twice i j : (i < n)%nat -> (j < n)%nat -> (j = i \/ j = (i + 1) mod n)%nat -> (i = j \/ i = (j + 1) mod n)%nat -> i = j.
Proof.
  intros Hi Hj H G. pose proof cv_n as Hn. destruct H as [->| ->]; [reflexivity|]. destruct G as [G|G]; [exact G|]. exfalso.
  rewrite Nat.add_mod_idemp_l in G by lia. replace (i + 1 + 1)%nat with (i + 2)%nat in G by lia.
  destruct (Nat.lt_ge_cases (i + 2) n) as [X|X]; [rewrite Nat.mod_small in G by lia; lia|].
  replace (i + 2)%nat with ((i + 2 - n) + 1 * n)%nat in G by lia. rewrite Nat.mod_add in G by lia. rewrite Nat.mod_small in G by lia. lia.
Qed.
Lemma up_one y i j : (i < n)%nat -> (j < n)%nat -> up y i -> up y j -> i = j.
Proof.
  intros Hi Hj Ui Uj. destruct (height_up y i Ui) as [Ei Ti]. destruct (height_up y j Uj) as [Ej Tj].
  pose proof (L_height i j y (or_introl Uj)) as A. pose proof (L_height j i y (or_introl Ui)) as B.
  rewrite (L_up y i _ Ui Ej) in A. rewrite (L_up y j _ Uj Ei) in B.
  assert (E : fst (at_height y i) = fst (at_height y j)) by (destruct Ui, Uj; nra).
  assert (Zi : L i (at_height y j) = 0) by (rewrite (L_up y i _ Ui Ej), E; ring).
  assert (Zj : L j (at_height y i) = 0) by (rewrite (L_up y j _ Uj Ei), E; ring).
  unfold at_height in Zi, Zj. rewrite L_along in Zi, Zj.
  pose proof (L_vert i j Hi Hj) as [P1 P2]. pose proof (L_vert j i Hj Hi) as [Q1 Q2]. pose proof (L_pos i (j + 1)). pose proof (L_pos j (i + 1)).
  apply next_twice; auto; [apply P2; nra|apply Q2; nra].
Qed.
Lemma down_one y i j : (i < n)%nat -> (j < n)%nat -> down y i -> down y j -> i = j.
Proof.
  intros Hi Hj Ui Uj. destruct (height_down y i Ui) as [Ei Ti]. destruct (height_down y j Uj) as [Ej Tj].
  pose proof (L_height i j y (or_intror Uj)) as A. pose proof (L_height j i y (or_intror Ui)) as B.
  rewrite (L_down y i _ Ui Ej) in A. rewrite (L_down y j _ Uj Ei) in B.
  assert (E : fst (at_height y i) = fst (at_height y j)) by (destruct Ui, Uj; nra).
  assert (Zi : L i (at_height y j) = 0) by (rewrite (L_down y i _ Ui Ej), E; ring).
  assert (Zj : L j (at_height y i) = 0) by (rewrite (L_down y j _ Uj Ei), E; ring).
  unfold at_height in Zi, Zj. rewrite L_along in Zi, Zj. pose proof cv_n as Hn.
  assert (M : forall k, ((k + 1) mod n < n)%nat) by (intros; apply Nat.mod_upper_bound; lia).
  pose proof (L_vert i ((j + 1) mod n) Hi (M j)) as [P1 P2]. pose proof (L_vert j ((i + 1) mod n) Hj (M i)) as [Q1 Q2]. rewrite V_mod in P1, P2, Q1, Q2. pose proof (L_pos i j). pose proof (L_pos j i).
  assert (S1 : ((j + 1) mod n = i \/ (j + 1) mod n = (i + 1) mod n)%nat) by (apply P2; nra).
  assert (S2 : ((i + 1) mod n = j \/ (i + 1) mod n = (j + 1) mod n)%nat) by (apply Q2; nra).
  assert (Inj : forall a b, (a < n)%nat -> (b < n)%nat -> ((a + 1) mod n = (b + 1) mod n)%nat -> a = b).
  { intros a b Ha Hb E'. assert (C : forall c, (c < n)%nat -> ((c + 1) mod n = c + 1 \/ (c + 1 = n /\ (c + 1) mod n = 0))%nat).
    { intros c Hc. destruct (Nat.eq_dec (c + 1) n) as [Q|Q]; [right; split; [auto|rewrite Q; apply Nat.mod_same; lia]|left; apply Nat.mod_small; lia]. }
    destruct (C a Ha) as [Ca|[Ca Ca']], (C b Hb) as [Cb|[Cb Cb']]; lia. }
  destruct S1 as [S1|S1]; [|symmetry; apply Inj; auto]. destruct S2 as [S2|S2]; [|apply Inj; auto]. apply next_twice; auto.
Qed.

(** Somewhere the outline goes up through the height of a point inside. *)
Lemma cyc_up (P : nat -> bool) : (forall i, P (i + n)%nat = P i) -> (exists i, P i = true) -> (exists i, P i = false) -> exists i, (i < n)%nat /\ P i = false /\ P (i + 1)%nat = true.
Proof.
  intros Per [a A] [b B]. pose proof cv_n as Hn.
  assert (Pm : forall k i, P (i + k * n)%nat = P i) by (induction k; intros i; [rewrite Nat.add_0_r; auto|replace (i + S k * n)%nat with ((i + k * n) + n)%nat by lia; rewrite Per; auto]).
  assert (Md : forall i, P (i mod n) = P i) by (intros i; rewrite (Nat.div_mod i n) at 2 by lia; rewrite (Nat.add_comm (n * _)), (Nat.mul_comm n), Pm; auto).
  assert (A' : exists d, P (b + d)%nat = true).
  { exists (a + b * n - b)%nat. replace (b + (a + b * n - b))%nat with (a + b * n)%nat by nia. rewrite Pm. exact A. }
  destruct A' as [d D]. clear a A. assert (G : exists i, P i = false /\ P (i + 1)%nat = true).
  { revert b B D. induction d as [|d IH]; intros b B D; [rewrite Nat.add_0_r in D; congruence|].
    destruct (P (b + 1)%nat) eqn:E; [eauto|]. apply (IH (b + 1)%nat E). replace (b + 1 + d)%nat with (b + S d)%nat by lia. exact D. }
  destruct G as (i & G1 & G2). exists (i mod n)%nat. split; [apply Nat.mod_upper_bound; lia|]. rewrite Md. split; [exact G1|].
  rewrite <- Md, Nat.add_mod_idemp_l, Md by lia. exact G2.
Qed.
Lemma extreme (f : nat -> R) : (forall i, f (i + n)%nat = f i) -> exists m, (1 <= m)%nat /\ forall i, f m <= f i.
Proof.
  intros Per. pose proof cv_n as Hn.
  assert (Pm : forall k i, f (i + k * n)%nat = f i) by (induction k; intros i; [rewrite Nat.add_0_r; auto|replace (i + S k * n)%nat with ((i + k * n) + n)%nat by lia; rewrite Per; auto]).
  assert (Md : forall i, f (i mod n) = f i) by (intros i; rewrite (Nat.div_mod i n) at 2 by lia; rewrite (Nat.add_comm (n * _)), (Nat.mul_comm n), Pm; auto).
  assert (G : forall k, (0 < k)%nat -> exists m, forall i, (i < k)%nat -> f m <= f i).
  { induction k as [|k IH]; intros Hk; [lia|]. destruct k as [|k]; [exists 0%nat; intros i Hi; replace i with 0%nat by lia; right; reflexivity|].
    destruct IH as [m M]; [lia|]. destruct (Rle_lt_dec (f m) (f (S k))) as [Q|Q].
    - exists m. intros i Hi. destruct (Nat.eq_dec i (S k)) as [->|]; [exact Q|apply M; lia].
    - exists (S k). intros i Hi. destruct (Nat.eq_dec i (S k)) as [->|]; [right; reflexivity|]. apply Rle_trans with (f m); [lra|apply M; lia]. }
  destruct (G n ltac:(lia)) as [m M]. exists (m + n)%nat. split; [lia|]. intros i. rewrite Per, <- (Md i). apply M. apply Nat.mod_upper_bound. lia.
Qed.
Lemma turn_pos m : (1 <= m)%nat -> 0 < left_of (V (m - 1)) (V m) (V (m + 1)).
Proof.
  intros Hm. pose proof cv_n as Hn. set (i := ((m - 1) mod n)%nat). set (k := ((m + 1) mod n)%nat).
  assert (Hi : (i < n)%nat) by (apply Nat.mod_upper_bound; lia). assert (Hk : (k < n)%nat) by (apply Nat.mod_upper_bound; lia).
  assert (E2 : V (i + 1) = V m) by (unfold i; rewrite V_mod1; f_equal; lia).
  replace (V (m - 1)) with (V i) by apply V_mod. replace (V m) with (V (i + 1)) by exact E2. replace (V (m + 1)) with (V k) by apply V_mod.
  assert (Em : ((i + 1) mod n = m mod n)%nat) by (unfold i; rewrite Nat.add_mod_idemp_l by lia; f_equal; lia).
  assert (Ek : (k = (m mod n + 1) mod n)%nat) by (unfold k; rewrite Nat.add_mod_idemp_l by lia; reflexivity).
  assert (Ei : (m mod n = (i + 1) mod n)%nat) by auto. set (j := (m mod n)%nat) in *. assert (Hj : (j < n)%nat) by (apply Nat.mod_upper_bound; lia).
  assert (C : forall c, (c < n)%nat -> ((c + 1) mod n = c + 1 /\ c + 1 < n \/ (c + 1 = n /\ (c + 1) mod n = 0))%nat).
  { intros c Hc. destruct (Nat.eq_dec (c + 1) n) as [Q|Q]; [right; split; [auto|rewrite Q; apply Nat.mod_same; lia]|left; split; [apply Nat.mod_small; lia|lia]]. }
  apply (proj2 Cv); auto; destruct (C i Hi) as [[C1 C2]|[C1 C2]], (C j Hj) as [[D1 D2]|[D1 D2]]; lia.
Qed.
Lemma some_up q : inside vs q -> exists i, (i < n)%nat /\ up (snd q) i.
Proof.
  intros H. pose proof cv_n as Hn. assert (All : forall i, 0 < L i q).
  { intros i. rewrite <- (V_mod i), <- (V_mod1 i). apply H. apply Nat.mod_upper_bound. lia. }
  destruct (cyc_up (fun i => Rltb (snd q) (snd (V i)))) as (i & Hi & A & B).
  - intros i. rewrite (V_n vs cv_ne). reflexivity.
  - (* not all below *)
    destruct (extreme (fun i => - snd (V i))) as (m & Hm & M); [intros i; rewrite (V_n vs cv_ne); reflexivity|].
    exists m. apply Rltb_true. apply Rnot_le_lt. intros X.
    pose proof (turn_pos m Hm) as T. pose proof (All m) as A1. pose proof (All (m - 1)%nat) as A2. replace (m - 1 + 1)%nat with m in A2 by lia.
    pose proof (M (m - 1)%nat) as M1. pose proof (M (m + 1)%nat) as M2. cbn beta in *.
    unfold left_of in *. set (dx := fst (V (m + 1)) - fst (V m)) in *. set (dy := snd (V (m + 1)) - snd (V m)) in *.
    set (ex := fst (V m) - fst (V (m - 1))) in *. set (ey := snd (V m) - snd (V (m - 1))) in *.
    set (h := snd q - snd (V m)) in *. set (w := fst q - fst (V m)) in *.
    assert (A2' : 0 < ex * h - ey * w) by (unfold ex, ey, h, w in *; nra). assert (T' : 0 < ex * dy - ey * dx) by (unfold ex, ey, dx, dy in *; nra).
    assert (dy <= 0) by (unfold dy; lra). assert (0 <= ey) by (unfold ey; lra). assert (0 <= h) by (unfold h; lra). clearbody dx dy ex ey h w. clear - A1 A2' T' H0 H1 H2.
    assert (U1 : 0 <= ey * (dx * h - dy * w)) by (apply Rmult_le_pos; lra). assert (U2 : 0 <= (- dy) * (ex * h - ey * w)) by (apply Rmult_le_pos; lra).
    assert (U3 : h * (ex * dy - ey * dx) <= 0) by nra. assert (h = 0) by nra. subst h. rewrite !Rmult_0_r in A1, A2'.
    destruct (Rle_lt_dec w 0) as [W|W]; [assert (0 <= (- dy) * (- w)) by (apply Rmult_le_pos; lra)|assert (0 <= ey * w) by (apply Rmult_le_pos; lra)]; lra.
  - destruct (extreme (fun i => snd (V i))) as (m & Hm & M); [intros i; rewrite (V_n vs cv_ne); reflexivity|].
    exists m. apply Rltb_false. apply Rnot_lt_le. intros X.
    pose proof (turn_pos m Hm) as T. pose proof (All m) as A1. pose proof (All (m - 1)%nat) as A2. replace (m - 1 + 1)%nat with m in A2 by lia.
    pose proof (M (m - 1)%nat) as M1. pose proof (M (m + 1)%nat) as M2. cbn beta in *.
    unfold left_of in *. set (dx := fst (V (m + 1)) - fst (V m)) in *. set (dy := snd (V (m + 1)) - snd (V m)) in *.
    set (ex := fst (V m) - fst (V (m - 1))) in *. set (ey := snd (V m) - snd (V (m - 1))) in *.
    set (h := snd q - snd (V m)) in *. set (w := fst q - fst (V m)) in *.
    assert (A2' : 0 < ex * h - ey * w) by (unfold ex, ey, h, w in *; nra). assert (T' : 0 < ex * dy - ey * dx) by (unfold ex, ey, dx, dy in *; nra).
    assert (0 <= dy) by (unfold dy; lra). assert (ey <= 0) by (unfold ey; lra). assert (h < 0) by (unfold h; lra). clearbody dx dy ex ey h w. clear - A1 A2' T' H0 H1 H2.
    assert (U1 : 0 <= (- ey) * (dx * h - dy * w)) by (apply Rmult_le_pos; lra). assert (U2 : 0 <= dy * (ex * h - ey * w)) by (apply Rmult_le_pos; lra).
    assert (U3 : 0 <= h * (ex * dy - ey * dx)) by nra. nra.
  - apply Rltb_false in A. apply Rltb_true in B. exists i. unfold up. auto.
Qed.

Theorem convex_enclosed q : inside vs q -> enclosed vs q.
Proof.
  intros H. destruct (some_up q H) as (i & Hi & U). exists [i]. split; [repeat constructor; intros []|]. split; [|exists 0%nat; reflexivity].
  intros j. split.
  - intros [<-|[]]. split; [exact Hi|]. left. split; [exact U|apply H; exact Hi].
  - intros [Hj [[A B]|[A B]]]; [left; apply (up_one (snd q)); auto|]. exfalso. pose proof (H j Hj). lra.
Qed.
Theorem convex_not_enclosed q : beyond vs q -> ~ enclosed vs q.
Proof.
  intros (k & Hk & K) (l & Nd & Hl & Od). pose proof cv_n as Hn.
  assert (Ex : (exists i, (i < n)%nat /\ up (snd q) i) /\ (exists j, (j < n)%nat /\ down (snd q) j)).
  { destruct l as [|a l]; [destruct Od as [m Om]; simpl in Om; lia|]. destruct (proj1 (Hl a) (or_introl eq_refl)) as [Ha C].
    assert (S : exists i, Rltb (snd q) (snd (V i)) = true) by (destruct C as [[C _]|[C _]]; [exists (a + 1)%nat|exists a]; apply Rltb_true; lra).
    assert (F : exists i, Rltb (snd q) (snd (V i)) = false) by (destruct C as [[C _]|[C _]]; [exists a|exists (a + 1)%nat]; apply Rltb_false; lra).
    assert (Per : forall i, Rltb (snd q) (snd (V (i + n)%nat)) = Rltb (snd q) (snd (V i))) by (intros i; rewrite (V_n vs cv_ne); reflexivity). split.
    - destruct (cyc_up (fun i => Rltb (snd q) (snd (V i))) Per S F) as (i & Hi & A & B). exists i. apply Rltb_false in A. apply Rltb_true in B. unfold up. auto.
    - destruct (cyc_up (fun i => negb (Rltb (snd q) (snd (V i))))) as (i & Hi & A & B).
      + intros i. rewrite Per. reflexivity.
      + destruct F as [i F]. exists i. rewrite F. reflexivity.
      + destruct S as [i S]. exists i. rewrite S. reflexivity.
      + apply negb_false_iff, Rltb_true in A. apply negb_true_iff, Rltb_false in B. exists i. unfold down. auto. }
  destruct Ex as [(i & Hi & Ui) (j & Hj & Dj)].
  assert (Sub : forall a, In a l <-> (a = i /\ 0 < L i q) \/ (a = j /\ L j q < 0)).
  { intros a. rewrite Hl. split.
    - intros [Ha [[A B]|[A B]]].
      + left. assert (E : a = i) by (apply (up_one (snd q)); auto). subst. auto.
      + right. assert (E : a = j) by (apply (down_one (snd q)); auto). subst. auto.
    - intros [[-> A]|[-> A]]; (split; [auto|]); [left|right]; auto. }
  destruct (height_up _ _ Ui) as [Ei Ti]. destruct (height_down _ _ Dj) as [Ej Tj].
  pose proof (L_up _ _ q Ui eq_refl) as Lq. pose proof (L_down _ _ q Dj eq_refl) as Mq.
  pose proof (L_height i j (snd q) (or_intror Dj)) as Lj. rewrite (L_up _ _ _ Ui Ej) in Lj.
  assert (Nij : i <> j) by (intros ->; destruct Ui, Dj; lra).
  destruct (Rlt_le_dec 0 (L i q)) as [P|P]; destruct (Rlt_le_dec (L j q) 0) as [Q|Q].
  - (* both crossed: an even number *)
    assert (Pm : length l = 2%nat); [|rewrite Pm in Od; destruct Od; lia].
    apply Nat.le_antisymm.
    + change 2%nat with (length [i; j]). apply NoDup_incl_length; [auto|]. intros a I. apply Sub in I. simpl. intuition.
    + change 2%nat with (length [i; j]). apply NoDup_incl_length; [repeat constructor; simpl; intuition|]. intros a [<-|[<-|[]]]; apply Sub; auto.
  - (* between the two edges *)
    destruct Ui as [U1 U2], Dj as [D1 D2].
    assert (X1 : 0 < fst (at_height (snd q) i) - fst q) by (apply (prod_pos (snd (V (i + 1)) - snd (V i))); lra).
    assert (X2 : 0 <= fst q - fst (at_height (snd q) j)) by (apply Rnot_lt_le; intros X; assert (0 < (snd (V j) - snd (V (j + 1))) * - (fst q - fst (at_height (snd q) j))) by (apply prod_pos; lra); lra).
    set (A := at_height (snd q) j) in *. set (B := at_height (snd q) i) in *.
    assert (E : q = along A B ((fst q - fst A) / (fst B - fst A))).
    { unfold along. rewrite Ei, Ej. destruct q as [x y]. cbn [fst snd] in *. f_equal; [field; lra|ring]. }
    assert (T : 0 <= (fst q - fst A) / (fst B - fst A) <= 1) by (apply div01; lra).
    rewrite E, L_along in K. pose proof (L_height k j (snd q) (or_intror (conj D1 D2))). pose proof (L_height k i (snd q) (or_introl (conj U1 U2))). fold A B in H, H0. nra.
  - destruct Ui as [U1 U2], Dj as [D1 D2]. 
    assert (0 <= fst q - fst (at_height (snd q) i)) by (apply Rnot_lt_le; intros X; assert (0 < (snd (V (i + 1)) - snd (V i)) * - (fst q - fst (at_height (snd q) i))) by (apply prod_pos; lra); lra).
    assert (0 < - (fst q - fst (at_height (snd q) j))) by (apply (prod_pos (snd (V j) - snd (V (j + 1)))); lra).
    assert (0 <= (snd (V (i + 1)) - snd (V i)) * - (fst (at_height (snd q) j) - fst (at_height (snd q) i))); [lra|].
    assert (0 < (snd (V (i + 1)) - snd (V i)) * (fst (at_height (snd q) j) - fst (at_height (snd q) i))) by (apply prod_pos; lra). lra.
  - destruct l as [|a l]; [destruct Od as [m Om]; simpl in Om; lia|]. destruct (proj1 (Sub a) (or_introl eq_refl)) as [[_ X]|[_ X]]; lra.
Qed.
End Convex.
