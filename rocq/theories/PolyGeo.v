(** Plane geometry of closed polygons, with vertices as a periodic function. *)
From Coq Require Import Lra Lia Reals Psatz.
From Verif Require Import Num NumFacts Geom Poly SpecPoly.

Lemma left_along a b s e t :
  left_of a b (along s e t) = (1 - t) * left_of a b s + t * left_of a b e.
Proof. unfold left_of, along; simpl. ring. Qed.

Lemma left_shift a b c t : left_of b c (along a b t) = (1 - t) * left_of a b c.
Proof. unfold left_of, along; simpl. ring. Qed.

Lemma left_back a b c t : left_of a b (along b c t) = t * left_of a b c.
Proof. unfold left_of, along; simpl. ring. Qed.

Lemma par1 e1 e2 f1 f2 : e1 * f2 - e2 * f1 = 0 -> f1 * (e1 * e1 + e2 * e2) = (f1 * e1 + f2 * e2) * e1.
Proof.
  intros H. replace (f1 * (e1 * e1 + e2 * e2)) with ((f1 * e1 + f2 * e2) * e1 - e2 * (e1 * f2 - e2 * f1)) by ring.
  rewrite H. ring.
Qed.
Lemma par2 e1 e2 f1 f2 : e1 * f2 - e2 * f1 = 0 -> f2 * (e1 * e1 + e2 * e2) = (f1 * e1 + f2 * e2) * e2.
Proof.
  intros H. replace (f2 * (e1 * e1 + e2 * e2)) with ((f1 * e1 + f2 * e2) * e2 + e1 * (e1 * f2 - e2 * f1)) by ring.
  rewrite H. ring.
Qed.
Lemma zero_factor x e1 e2 : 0 < e1 * e1 + e2 * e2 -> x * e1 = 0 -> x * e2 = 0 -> x = 0.
Proof.
  intros H A B. apply (Rmult_eq_reg_r (e1 * e1 + e2 * e2)); [|lra].
  replace (x * (e1 * e1 + e2 * e2)) with (x * e1 * e1 + x * e2 * e2) by ring. rewrite A, B. ring.
Qed.

(** Largest value of a function on [0..n-1]. *)
Lemma argmax (f : nat -> R) n : (0 < n)%nat -> exists m, (m < n)%nat /\ forall i, (i < n)%nat -> f i <= f m.
Proof.
  induction n as [|n IH]; [lia|]. intros _. destruct n as [|n].
  - exists 0%nat. split; [lia|]. intros i Hi. replace i with 0%nat by lia. lra.
  - destruct IH as (m & Hm & Hf); [lia|].
    destruct (Rle_dec (f (S n)) (f m)).
    + exists m. split; [lia|]. intros i Hi. destruct (Nat.eq_dec i (S n)) as [->|]; auto. apply Hf; lia.
    + exists (S n). split; [lia|]. intros i Hi. destruct (Nat.eq_dec i (S n)) as [->|]; [lra|].
      eapply Rle_trans; [apply Hf; lia|lra].
Qed.

(** Smallest value of a function over the indices that satisfy a predicate. *)
Lemma argmin_on (f : nat -> R) (P : nat -> Prop) n :
  (forall i, P i \/ ~ P i) ->
  (exists i, (i < n)%nat /\ P i) -> exists m, (m < n)%nat /\ P m /\ forall i, (i < n)%nat -> P i -> f m <= f i.
Proof.
  intros D. induction n as [|n IH]; intros (i & Hi & Pi); [lia|].
  destruct (D n) as [Pn|Pn].
  - assert (X : (exists i, (i < n)%nat /\ P i) \/ forall i, (i < n)%nat -> ~ P i).
    { clear - D. induction n as [|n IHn]; [right; lia|]. destruct (D n); [left; exists n; auto|].
      destruct IHn as [(i & Hi & Pi)|H1]; [left; exists i; split; auto; lia|].
      right. intros i Hi. destruct (Nat.eq_dec i n) as [->|]; auto. apply H1; lia. }
    destruct X as [X|X].
    + destruct (IH X) as (m & Hm & Pm & Hf). destruct (Rle_dec (f n) (f m)).
      * exists n. split; [lia|]. split; auto. intros j Hj Pj.
        destruct (Nat.eq_dec j n) as [->|]; [lra|]. eapply Rle_trans; [eauto|]. apply Hf; auto; lia.
      * exists m. split; [lia|]. split; auto. intros j Hj Pj.
        destruct (Nat.eq_dec j n) as [->|]; [lra|]. apply Hf; auto; lia.
    + exists n. split; [lia|]. split; auto. intros j Hj Pj. destruct (Nat.eq_dec j n) as [->|]; [lra|].
      exfalso. apply (X j); auto; lia.
  - destruct IH as (m & Hm & Pm & Hf).
    { exists i. split; auto. destruct (Nat.eq_dec i n) as [->|]; [contradiction|lia]. }
    exists m. split; [lia|]. split; auto. intros j Hj Pj.
    destruct (Nat.eq_dec j n) as [->|]; [contradiction|]. apply Hf; auto; lia.
Qed.

Lemma far_vertex_turns q a b c :
  let d p := (fst p - fst q) * (fst p - fst q) + (snd p - snd q) * (snd p - snd q) in
  d a <= d b -> d c <= d b -> 0 < left_of a b q -> 0 < left_of b c q -> 0 < left_of a b c.
Proof.
  destruct q as [qx qy], a as [ax ay], b as [bx by_], c as [cx cy]. unfold left_of; simpl.
  intros Ha Hc Hab Hbc.
  set (a1 := ax - qx) in *. set (a2 := ay - qy) in *. set (b1 := bx - qx) in *. set (b2 := by_ - qy) in *.
  set (c1 := cx - qx) in *. set (c2 := cy - qy) in *.
  assert (Hab' : 0 < a1 * b2 - a2 * b1) by (unfold a1, a2, b1, b2; lra).
  assert (Hbc' : 0 < b1 * c2 - b2 * c1) by (unfold b1, b2, c1, c2; lra).
  replace ((bx - ax) * (cy - ay) - (by_ - ay) * (cx - ax)) with
    ((a1 * b2 - a2 * b1) + (b1 * c2 - b2 * c1) - (a1 * c2 - a2 * c1)) by (unfold a1, a2, b1, b2, c1, c2; ring).
  clearbody a1 a2 b1 b2 c1 c2. clear Hab Hbc.
  assert (Hb : 0 < b1 * b1 + b2 * b2).
  { destruct (Req_dec b1 0) as [->|Hb]; [destruct (Req_dec b2 0) as [->|Hb]|]; [lra| |].
    - pose proof (Rsqr_pos_lt b2 Hb) as H; unfold Rsqr in H. lra.
    - pose proof (Rsqr_pos_lt b1 Hb) as H; unfold Rsqr in H. pose proof (Rle_0_sqr b2) as H'; unfold Rsqr in H'. lra. }
  assert (H1 : 0 <= (b1 * b1 + b2 * b2) - (b1 * c1 + b2 * c2)).
  { pose proof (Rle_0_sqr (b1 - c1)) as S1. pose proof (Rle_0_sqr (b2 - c2)) as S2. unfold Rsqr in *. lra. }
  assert (H2 : 0 < (b1 * b1 + b2 * b2) - (a1 * b1 + a2 * b2)).
  { assert (0 < (b1 - a1) * (b1 - a1) + (b2 - a2) * (b2 - a2)); [|lra].
    destruct (Req_dec b1 a1) as [->|Hn]; [destruct (Req_dec b2 a2) as [->|Hn]|]; [lra| |].
    - assert (b2 - a2 <> 0) as Hn' by lra. pose proof (Rsqr_pos_lt _ Hn') as H; unfold Rsqr in H. lra.
    - assert (b1 - a1 <> 0) as Hn' by lra. pose proof (Rsqr_pos_lt _ Hn') as H; unfold Rsqr in H.
      pose proof (Rle_0_sqr (b2 - a2)) as H'; unfold Rsqr in H'. lra. }
  assert (0 < (b1 * b1 + b2 * b2) * ((a1 * b2 - a2 * b1) + (b1 * c2 - b2 * c1) - (a1 * c2 - a2 * c1))); [|nra].
  replace ((b1 * b1 + b2 * b2) * ((a1 * b2 - a2 * b1) + (b1 * c2 - b2 * c1) - (a1 * c2 - a2 * c1))) with
    ((a1 * b2 - a2 * b1) * ((b1 * b1 + b2 * b2) - (b1 * c1 + b2 * c2)) +
     (b1 * c2 - b2 * c1) * ((b1 * b1 + b2 * b2) - (a1 * b1 + a2 * b2))) by ring.
  nra.
Qed.

Section Periodic.
Variables (V : nat -> R * R) (n : nat).
Hypothesis Hn : (0 < n)%nat.
Hypothesis Hper : forall i, V (i + n) = V i.

Definition S_ (i : nat) (q : R * R) : R := left_of (V i) (V (i + 1)) q.
Definition T_ (i : nat) : R := left_of (V i) (V (i + 1)) (V (i + 2)).

Lemma Vmod i : V (i mod n)%nat%nat%nat%nat = V i.
Proof.
  rewrite (Nat.div_mod i n) at 2 by lia. rewrite Nat.add_comm, Nat.mul_comm.
  generalize (i mod n)%nat. intros r. induction (i / n)%nat as [|m IH]; simpl; [f_equal; lia|].
  replace (r + (n + m * n))%nat with ((r + m * n) + n)%nat by lia. rewrite Hper. exact IH.
Qed.

Lemma Vper1 i k : V (i mod n + k)%nat = V (i + k).
Proof.
  rewrite <- (Vmod (i mod n + k)%nat), <- (Vmod (i + k)%nat). f_equal.
  rewrite Nat.add_mod_idemp_l by lia. reflexivity.
Qed.

Lemma S_mod i q : S_ (i mod n)%nat q = S_ i q.
Proof. unfold S_. rewrite Vmod, Vper1. reflexivity. Qed.

Lemma T_mod i : T_ (i mod n)%nat = T_ i.
Proof. unfold T_. rewrite Vmod, !Vper1. reflexivity. Qed.

Lemma all_S (P : R -> Prop) q : (forall i, (i < n)%nat -> P (S_ i q)) -> forall i, P (S_ i q).
Proof. intros H i. rewrite <- S_mod. apply H. apply Nat.mod_upper_bound. lia. Qed.
Lemma all_T (P : R -> Prop) : (forall i, (i < n)%nat -> P (T_ i)) -> forall i, P (T_ i).
Proof. intros H i. rewrite <- T_mod. apply H. apply Nat.mod_upper_bound. lia. Qed.

(** A polygon with a point on the left of all its edges turns left somewhere. *)
Lemma some_left_turn q : (forall i, 0 < S_ i q) -> exists i, (i < n)%nat /\ 0 < T_ i.
Proof.
  intros Hq.
  set (d := fun i => (fst (V i) - fst q) * (fst (V i) - fst q) + (snd (V i) - snd q) * (snd (V i) - snd q)).
  destruct (argmax d n Hn) as (m & Hm & Hmax).
  assert (Hall : forall i, d i <= d m).
  { intros i. unfold d. rewrite <- (Vmod i). apply (Hmax (i mod n)%nat). apply Nat.mod_upper_bound; lia. }
  exists ((m + n - 1) mod n)%nat. split; [apply Nat.mod_upper_bound; lia|].
  rewrite T_mod. unfold T_.
  assert (E : V (m + n - 1 + 1) = V m) by (replace (m + n - 1 + 1)%nat with (m + n)%nat by lia; apply Hper).
  apply (far_vertex_turns q).
  - rewrite E. apply (Hall (m + n - 1)%nat).
  - rewrite E. apply (Hall (m + n - 1 + 2)%nat).
  - apply Hq.
  - replace (m + n - 1 + 2)%nat with (m + n - 1 + 1 + 1)%nat by lia. apply Hq.
Qed.

(** From now on no right turns. *)
Hypothesis HT : forall i, 0 <= T_ i.
Variable q : R * R.
Hypothesis Hq : forall i, 0 < S_ i q.

Definition dot (a b : R * R) : R := fst a * fst b + snd a * snd b.
Definition vsub (a b : R * R) : R * R := (fst a - fst b, snd a - snd b).

Lemma edge_nz i : 0 < dot (vsub (V (i + 1)) (V i)) (vsub (V (i + 1)) (V i)).
Proof.
  pose proof (Hq i) as H. unfold S_, left_of in H. unfold dot, vsub; simpl.
  set (a := fst (V (i + 1)) - fst (V i)) in *. set (b := snd (V (i + 1)) - snd (V i)) in *.
  destruct (Req_dec a 0) as [E|E]; [destruct (Req_dec b 0) as [E'|E']|].
  - rewrite E, E' in H. lra.
  - pose proof (Rsqr_pos_lt b E') as X; unfold Rsqr in X. pose proof (Rle_0_sqr a) as Y; unfold Rsqr in Y. lra.
  - pose proof (Rsqr_pos_lt a E) as X; unfold Rsqr in X. pose proof (Rle_0_sqr b) as Y; unfold Rsqr in Y. lra.
Qed.

(** At a flat vertex the next edge goes on in the same direction. *)
Lemma flat_same_direction i : T_ i = 0 ->
  exists c, 0 < c /\ vsub (V (i + 2)) (V (i + 1)) = (c * (fst (V (i + 1)) - fst (V i)), c * (snd (V (i + 1)) - snd (V i))).
Proof.
  intros Ht. pose proof (edge_nz i) as He. pose proof (Hq i) as H1. pose proof (Hq (i + 1)) as H2.
  replace (i + 1 + 1)%nat with (i + 2)%nat in H2 by lia.
  unfold S_ in *. replace (i + 1 + 1)%nat with (i + 2)%nat in H2 by lia.
  unfold T_, left_of in *. unfold dot, vsub in *; simpl in *.
  destruct (V i) as [ax ay], (V (i + 1)) as [bx by_], (V (i + 2)) as [cx cy], q as [qx qy]. simpl in *.
  set (e1 := bx - ax) in *. set (e2 := by_ - ay) in *. set (f1 := cx - bx) in *. set (f2 := cy - by_) in *.
  set (N := e1 * e1 + e2 * e2) in *.
  exists ((f1 * e1 + f2 * e2) / N).
  assert (Hc : e1 * f2 - e2 * f1 = 0) by (unfold e1, e2, f1, f2 in *; lra).
  assert (F1 : f1 = (f1 * e1 + f2 * e2) / N * e1).
  { apply (Rmult_eq_reg_r N); [|lra]. transitivity ((f1 * e1 + f2 * e2) * e1); [|field; lra]. apply par1; auto. }
  assert (F2 : f2 = (f1 * e1 + f2 * e2) / N * e2).
  { apply (Rmult_eq_reg_r N); [|lra]. transitivity ((f1 * e1 + f2 * e2) * e2); [|field; lra]. apply par2; auto. }
  set (c := (f1 * e1 + f2 * e2) / N) in *.
  split; [|f_equal; assumption].
  apply Rnot_le_lt. intros Hle.
  assert (X : f1 * (qy - by_) - f2 * (qx - bx) = c * (e1 * (qy - ay) - e2 * (qx - ax))).
  { rewrite F1, F2. unfold e1, e2. ring. }
  nra.
Qed.

(** A point of the line of edge [i] that no edge excludes lies on some edge of
    that line, found by walking forward or backward. *)
Lemma forward P : (forall j, 0 <= S_ j P) -> forall i, S_ i P = 0 ->
  forall m, (exists j s, 0 <= s <= 1 /\ P = along (V j) (V (j + 1)) s) \/
   (forall s, P = along (V i) (V (i + 1)) s -> s <= 1) \/
   exists s c, 1 < s /\ 0 < c /\ P = along (V (i + m)) (V (i + m + 1)) s /\ S_ (i + m) P = 0 /\
     vsub (V (i + m + 1)) (V (i + m)) = (c * (fst (V (i + 1)) - fst (V i)), c * (snd (V (i + 1)) - snd (V i))) /\
     dot (vsub P (V (i + m))) (vsub (V (i + 1)) (V i)) <=
       dot (vsub P (V i)) (vsub (V (i + 1)) (V i)) - (if Nat.eqb m 0 then 0 else dot (vsub (V (i + 1)) (V i)) (vsub (V (i + 1)) (V i))).
Proof.
  intros HP i Hi.
  assert (OnLine : forall j, S_ j P = 0 -> exists s, P = along (V j) (V (j + 1)) s).
  { intros j Hj. pose proof (edge_nz j) as He. unfold S_, left_of in Hj. unfold dot, vsub in He; simpl in He.
    destruct (V j) as [ax ay], (V (j + 1)) as [bx by_], P as [x y]; simpl in *.
    set (e1 := bx - ax) in *. set (e2 := by_ - ay) in *. set (N := e1 * e1 + e2 * e2) in *.
    exists (((x - ax) * e1 + (y - ay) * e2) / N). unfold along; simpl. fold e1 e2.
    f_equal; apply (Rmult_eq_reg_r N); try lra.
    - transitivity (ax * N + ((x - ax) * e1 + (y - ay) * e2) * e1); [|field; lra].
      transitivity (ax * N + (x - ax) * N); [ring|]. f_equal. apply par1; auto.
    - transitivity (ay * N + ((x - ax) * e1 + (y - ay) * e2) * e2); [|field; lra].
      transitivity (ay * N + (y - ay) * N); [ring|]. f_equal. apply par2; auto. }
  induction m as [|m IH].
  - destruct (OnLine i Hi) as [s Hs]. destruct (Rle_dec s 1) as [Hs1|Hs1].
    + right; left. intros s' Hs'.
      assert (s = s').
      { pose proof (edge_nz i) as He. unfold dot, vsub in He; simpl in He. rewrite Hs' in Hs. unfold along in Hs.
        injection Hs as A B. 
        set (e1 := fst (V (i + 1)) - fst (V i)) in *. set (e2 := snd (V (i + 1)) - snd (V i)) in *.
        assert (s' - s = 0); [apply (zero_factor _ e1 e2 He); lra|lra]. }
      lra.
    + right; right. exists s, 1. rewrite Nat.add_0_r. split; [lra|]. split; [lra|]. split; [exact Hs|]. split; [exact Hi|].
      split; [unfold vsub; f_equal; ring|]. simpl. lra.
  - destruct IH as [IH|[IH|(s & c & Hs & Hc & HPs & HS & HV & HD)]]; [left; auto|right; left; auto|].
    set (j := (i + m)%nat) in *.
    assert (HSn : S_ (j + 1) P = (1 - s) * T_ j).
    { unfold S_, T_. replace (j + 1 + 1)%nat with (j + 2)%nat by lia. rewrite HPs at 1. apply left_shift. }
    pose proof (HP (j + 1)%nat) as HPj. pose proof (HT j) as HTj.
    assert (HT0 : T_ j = 0) by nra.
    destruct (flat_same_direction j HT0) as (d & Hd & Ed).
    assert (HS' : S_ (j + 1) P = 0) by (rewrite HSn, HT0; ring).
    destruct (OnLine _ HS') as [s' Hs'].
    replace (j + 1 + 1)%nat with (j + 2)%nat in * by lia.
    assert (Es : s - 1 = s' * d).
    { pose proof (edge_nz j) as He. unfold dot, vsub in He; simpl in He.
      rewrite Hs' in HPs. unfold along in HPs. unfold vsub in Ed. injection Ed as E1 E2. injection HPs as A B.
      set (e1 := fst (V (j + 1)) - fst (V j)) in *. set (e2 := snd (V (j + 1)) - snd (V j)) in *.
      assert (A' : s' * d * e1 = (s - 1) * e1) by (rewrite E1 in A; unfold e1 in *; lra).
      assert (B' : s' * d * e2 = (s - 1) * e2) by (rewrite E2 in B; unfold e2 in *; lra).
      assert (s' * d - (s - 1) = 0); [apply (zero_factor _ e1 e2 He); lra|lra]. }
    destruct (Rle_dec s' 1) as [Hs1|Hs1].
    + left. exists (j + 1)%nat, s'. replace (j + 1 + 1)%nat with (j + 2)%nat by lia. split; [nra|exact Hs'].
    + right; right. exists s', (d * c).
      replace (i + S m)%nat with (j + 1)%nat by (unfold j; lia). replace (j + 1 + 1)%nat with (j + 2)%nat by lia.
      split; [lra|]. split; [nra|]. split; [exact Hs'|]. split; [exact HS'|]. split.
      * rewrite Ed. unfold vsub in HV. injection HV as -> ->. f_equal; ring.
      * simpl. pose proof (edge_nz i) as Hei. unfold vsub, dot in HD, HV, Hei |- *. simpl in *. injection HV as V1 V2.
        set (g1 := fst (V (i + 1)) - fst (V i)) in *. set (g2 := snd (V (i + 1)) - snd (V i)) in *.
        replace (fst P - fst (V (j + 1))) with ((fst P - fst (V j)) - (fst (V (j + 1)) - fst (V j))) by ring.
        replace (snd P - snd (V (j + 1))) with ((snd P - snd (V j)) - (snd (V (j + 1)) - snd (V j))) by ring.
        rewrite V1, V2. destruct m as [|m']; cbn [Nat.eqb] in HD.
        -- assert (c = 1).
           { unfold j in V1, V2. rewrite Nat.add_0_r in V1, V2. fold g1 in V1. fold g2 in V2.
             assert (c - 1 = 0); [apply (zero_factor _ g1 g2 Hei); lra|lra]. }
           subst c. lra.
        -- assert (0 < c * (g1 * g1 + g2 * g2)) by nra. lra.
Qed.

Lemma forward_end P : (forall j, 0 <= S_ j P) -> forall i, S_ i P = 0 ->
  (exists j s, 0 <= s <= 1 /\ P = along (V j) (V (j + 1)) s) \/ (forall s, P = along (V i) (V (i + 1)) s -> s <= 1).
Proof.
  intros HP i Hi. destruct (forward P HP i Hi n) as [H|[H|(s & c & Hs & Hc & HPs & HS & HV & HD)]]; auto.
  exfalso. rewrite Hper in HD. pose proof (edge_nz i).
  destruct n; [lia|]. cbn [Nat.eqb] in HD. lra.
Qed.

Lemma on_line P j : S_ j P = 0 -> exists s, P = along (V j) (V (j + 1)) s.
Proof.
  intros Hj. pose proof (edge_nz j) as He. unfold S_, left_of in Hj. unfold dot, vsub in He; simpl in He.
  destruct (V j) as [ax ay], (V (j + 1)) as [bx by_], P as [x y]; simpl in *.
  set (e1 := bx - ax) in *. set (e2 := by_ - ay) in *. set (N := e1 * e1 + e2 * e2) in *.
  exists (((x - ax) * e1 + (y - ay) * e2) / N). unfold along; simpl. fold e1 e2.
  f_equal; apply (Rmult_eq_reg_r N); try lra.
  - transitivity (ax * N + ((x - ax) * e1 + (y - ay) * e2) * e1); [|field; lra].
    transitivity (ax * N + (x - ax) * N); [ring|]. f_equal. apply par1; auto.
  - transitivity (ay * N + ((x - ax) * e1 + (y - ay) * e2) * e2); [|field; lra].
    transitivity (ay * N + (y - ay) * N); [ring|]. f_equal. apply par2; auto.
Qed.

Lemma along_inj j s s' : along (V j) (V (j + 1)) s = along (V j) (V (j + 1)) s' -> s = s'.
Proof.
  intros H. pose proof (edge_nz j) as He. unfold dot, vsub in He; simpl in He. unfold along in H.
  injection H as A B.
  set (e1 := fst (V (j + 1)) - fst (V j)) in *. set (e2 := snd (V (j + 1)) - snd (V j)) in *.
  assert (s' - s = 0); [apply (zero_factor _ e1 e2 He); lra|lra].
Qed.

(** One step backward: [j + 1] is the current edge and [j] the previous one. *)
Lemma back_step P j s : (forall j, 0 <= S_ j P) -> P = along (V (j + 1)) (V (j + 2)) s -> s < 0 ->
  exists c s', 0 < c /\ P = along (V j) (V (j + 1)) s' /\ s' < 1 /\
    vsub (V (j + 2)) (V (j + 1)) = (c * (fst (V (j + 1)) - fst (V j)), c * (snd (V (j + 1)) - snd (V j))).
Proof.
  intros HP Hs Hneg.
  assert (HS : S_ j P = s * T_ j).
  { unfold S_, T_. rewrite Hs. apply left_back. }
  pose proof (HP j) as H1. pose proof (HT j) as H2. assert (HT0 : T_ j = 0) by nra.
  destruct (flat_same_direction j HT0) as (c & Hc & Ec).
  exists c, (1 + s * c). split; [auto|]. split; [|split; [nra|exact Ec]].
  rewrite Hs. unfold along, vsub in *. injection Ec as -> ->. f_equal; ring.
Qed.

Lemma backward P i : (forall j, 0 <= S_ j P) -> S_ i P = 0 ->
  forall m, (exists j s, 0 <= s <= 1 /\ P = along (V j) (V (j + 1)) s) \/
   (forall s, P = along (V i) (V (i + 1)) s -> 0 <= s) \/
   exists j s c, (j + m = i + n * m)%nat /\ s < 0 /\ 0 < c /\ P = along (V j) (V (j + 1)) s /\
     vsub (V (j + 1)) (V j) = (c * (fst (V (i + 1)) - fst (V i)), c * (snd (V (i + 1)) - snd (V i))) /\
     dot (vsub P (V i)) (vsub (V (i + 1)) (V i)) + (if Nat.eqb m 0 then 0 else 1) * 0 <=
       dot (vsub P (V j)) (vsub (V (i + 1)) (V i)) /\
     (m <> 0%nat -> dot (vsub P (V i)) (vsub (V (i + 1)) (V i)) < dot (vsub P (V j)) (vsub (V (i + 1)) (V i))).
Proof.
  intros HP Hi. destruct (on_line P i Hi) as [s0 Hs0].
  destruct (Rle_dec 0 s0) as [Hp|Hp].
  { intros m. right; left. intros s Hs. rewrite Hs0 in Hs. apply along_inj in Hs. lra. }
  induction m as [|m IH].
  - right; right. exists i, s0, 1. split; [lia|]. split; [lra|]. split; [lra|]. split; [auto|].
    split; [unfold vsub; f_equal; ring|]. split; [lra|]. intros X; contradiction.
  - destruct IH as [IH|[IH|(j & s & c & Hj & Hs & Hc & HPs & HV & HD & HD')]]; [left; auto|right; left; auto|].
    (* previous edge of j *)
    set (k := (j + n - 1)%nat).
    assert (Ek : V (k + 1) = V j) by (unfold k; replace (j + n - 1 + 1)%nat with (j + n)%nat by lia; apply Hper).
    assert (Ek2 : V (k + 2) = V (j + 1)).
    { unfold k. replace (j + n - 1 + 2)%nat with (j + 1 + n)%nat by lia. apply Hper. }
    destruct (back_step P k s HP) as (d & s' & Hd & HPk & Hs' & Ed); [rewrite Ek, Ek2; auto|auto|].
    destruct (Rle_dec 0 s') as [Hp'|Hp'].
    + left. exists k, s'. split; [lra|auto].
    + right; right. exists k, s', (c / d). split; [unfold k; lia|]. split; [lra|]. split; [apply Rdiv_lt_0_compat; auto|].
      split; [auto|].
      assert (G : vsub (V (k + 1)) (V k) = (c / d * (fst (V (i + 1)) - fst (V i)), c / d * (snd (V (i + 1)) - snd (V i)))).
      { rewrite Ek, Ek2, HV in Ed. injection Ed as A B. rewrite <- Ek in A, B. unfold vsub. rewrite Ek in *.
        f_equal; apply (Rmult_eq_reg_l d); try lra.
        - rewrite <- A. field; lra.
        - rewrite <- B. field; lra. }
      split; [exact G|].
      assert (X : dot (vsub P (V j)) (vsub (V (i + 1)) (V i)) < dot (vsub P (V k)) (vsub (V (i + 1)) (V i))).
      { pose proof (edge_nz i) as Hei. unfold dot, vsub in *. cbn [fst snd] in *. injection G as G1 G2. rewrite Ek in G1, G2.
        set (g1 := fst (V (i + 1)) - fst (V i)) in *. set (g2 := snd (V (i + 1)) - snd (V i)) in *.
        replace (fst P - fst (V k)) with ((fst P - fst (V j)) + (fst (V j) - fst (V k))) by ring.
        replace (snd P - snd (V k)) with ((snd P - snd (V j)) + (snd (V j) - snd (V k))) by ring.
        rewrite G1, G2. assert (0 < c / d) by (apply Rdiv_lt_0_compat; auto).
        assert (0 < c / d * (g1 * g1 + g2 * g2)) by nra. lra. }
      split; [lra|]. intros _. lra.
Qed.

Lemma backward_end P i : (forall j, 0 <= S_ j P) -> S_ i P = 0 ->
  (exists j s, 0 <= s <= 1 /\ P = along (V j) (V (j + 1)) s) \/ (forall s, P = along (V i) (V (i + 1)) s -> 0 <= s).
Proof.
  intros HP Hi. destruct (backward P i HP Hi n) as [H|[H|(j & s & c & Hj & _ & _ & _ & _ & _ & HD)]]; auto.
  exfalso. assert (E : V j = V i).
  { rewrite <- (Vmod j), <- (Vmod i). f_equal.
    assert (j mod n = (j + n) mod n)%nat as ->.
    { replace (j + n)%nat with (j + 1 * n)%nat by lia. rewrite Nat.mod_add by lia. reflexivity. }
    rewrite Hj. apply Nat.mod_add. lia. }
  rewrite E in HD. assert (n <> 0)%nat by lia. specialize (HD H). lra.
Qed.

(** A point that no edge excludes and that is on the line of an edge is on an
    edge. *)
Lemma on_outline P i : (forall j, 0 <= S_ j P) -> S_ i P = 0 ->
  exists j s, (j < n)%nat /\ 0 <= s <= 1 /\ P = along (V j) (V (j + 1)) s.
Proof.
  intros HP Hi.
  assert (X : exists j s, 0 <= s <= 1 /\ P = along (V j) (V (j + 1)) s).
  { destruct (forward_end P HP i Hi) as [H|H]; auto.
    destruct (backward_end P i HP Hi) as [H'|H']; auto.
    destruct (on_line P i Hi) as [s Hs]. exists i, s. split; auto. }
  destruct X as (j & s & Hs & E). exists (j mod n)%nat, s. split; [apply Nat.mod_upper_bound; lia|].
  split; auto. rewrite Vmod, Vper1. exact E.
Qed.
End Periodic.
