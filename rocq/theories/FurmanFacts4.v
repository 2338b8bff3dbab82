(** Facts about the Furman-Pivi model: the statements used by the theorems. *)
From Coq Require Import Lra Lia Reals Psatz.
From Verif Require Import Num NumFacts Sey SpecSey SeyFacts SeyFacts2 SeyFacts3 Furman SpecFurman FurmanFacts FurmanFacts2 FurmanFacts3.
Local Arguments Nat.ltb : simpl never.

Lemma rsum_zero_or {A} (l : list A) (b : A -> bool) (n : A -> R) (m : A -> nat) :
  (forall y, In y l -> b y = false -> (1 <= m y)%nat) -> (forall y, In y l -> b y = true -> m y = 0%nat) ->
  rsum (map (fun y => if b y then 0 else n y) l) + rsum (map n (repeat_each l (map (fun y => pred (m y)) l))) =
  rsum (map (fun y => n y * INR (m y)) l).
Proof.
  induction l as [|x l IH]; intros H1 H2; cbn; [unfold rsum; cbn; lra|]. rewrite map_app, rsum_app, !rsum_cons.
  rewrite <- IH by (intros; (apply H1 || apply H2); auto; right; auto).
  assert (E : rsum (map n (repeat x (pred (m x)))) = INR (pred (m x)) * n x) by (rewrite <- rsum_repeat; f_equal; induction (pred (m x)); cbn; f_equal; auto). rewrite E.
  destruct (b x) eqn:B.
  - rewrite (H2 x) by (auto; left; auto). cbn. lra.
  - specialize (H1 x (or_introl eq_refl) B). destruct (m x) as [|k]; [lia|]. cbn [pred]. rewrite S_INR. lra.
Qed.

Lemma F2_at {A B} (Q : A -> B -> Prop) l m i d d' : Forall2 Q l m -> (i < length l)%nat -> Q (nth i l d) (nth i m d').
Proof. intros H. revert i. induction H; intros [|i] Hi; cbn in *; try lia; auto. apply IHForall2. lia. Qed.

Lemma nsum_pos c j : (1 <= nth j c 0)%nat -> nsum c <> 0%nat.
Proof. revert j. induction c as [|n c IH]; intros [|j] H; cbn in H; try lia; change (nsum (n :: c)) with (n + nsum c)%nat; try specialize (IH j H); lia. Qed.

Section S4.
Context (f : fpar) (sp : spfun) (fs : fsrc) (cfuel : nat) (th : R) (seg : bool) (ps : list imp) (k : nat) (e : emis) (k' : nat).
Context (SP : sp_ok sp) (F : fp_energy_sane f) (Hs : src_ok (f_src fs)) (HI : Forall imp_ok ps).
Context (H : fp_impacts cfuel sp f fs th seg ps k = Some (e, k')).

Lemma rE_pred y : (rT f y = false -> rN y = 0%nat) -> pred (rE f y) = (rN y - 1)%nat.
Proof. intros Q. unfold rE. destruct (rT f y); [lia|]. rewrite Q; auto. Qed.

Lemma rE_zero y : rA f y = Nat.eqb (rE f y) 0.
Proof. unfold rA, rE. destruct (rT f y); auto. Qed.

Lemma nth_map' {A B} (g : A -> B) l i d d' : (i < length l)%nat -> nth i (map g l) d = g (nth i l d').
Proof. intros L. rewrite (nth_indep _ d (g d')) by (rewrite map_length; auto). apply map_nth. Qed.

Definition y0 : imp * R * nat := (imp0, 0, 0%nat).

Theorem fp_all : exists ns, fp_books f fs k ps ns seg e /\ fp_vels f ps ns e /\
  (forall p, In p ps -> de_of f p + delta_r f (i_E p) (i_ct p) < 1) /\
  rsum (o_nel e) + rsum (n_nel e) = rsum (o_tot e) /\
  (f_conserve f = true -> Forall2 (fun pv w => kin3 f (snd pv) + kin3 f w <= i_E (fst pv))
     (repeat_each (combine ps (vels e)) (map pred ns)) (nvels e)).
Proof using SP F Hs HI H.
  destruct (fp_main f cfuel sp fs th seg ps k e k' SP F Hs HI H) as (Y & V & NV & E1 & E2 & PT & LT & EE & RV & RN & RC). clear H HI SP F Hs.
  set (cs := map (fun y => (rN y - 1)%nat) Y) in *. set (any := negb (Nat.eqb (nsum cs) 0)) in *.
  assert (LY : length Y = length ps) by (rewrite <- E1, map_length; auto).
  assert (CS : map pred (map (rE f) Y) = cs).
  { unfold cs. rewrite map_map. apply map_ext_in. intros y Hy. apply rE_pred. apply PT. auto. }
  assert (LV := Forall2_length RV). assert (LNV := Forall2_length RN).
  assert (VE : vels e = V) by (rewrite EE; unfold vels, mk_out; cbn; apply combine_map3).
  assert (NVE : nvels e = NV) by (rewrite EE; unfold nvels, mk_out; cbn; apply combine_map3).
  assert (IY : forall i, (i < length ps)%nat -> In (nth i Y y0) Y) by (intros; apply nth_In; lia).
  assert (IP : forall i, (i < length ps)%nat -> impat ps i = rI (nth i Y y0)).
  { intros i Hi. unfold impat. rewrite <- E1. apply nth_map'. lia. }
  assert (IU : forall i, (i < length ps)%nat -> rU (nth i Y y0) = s_uni (f_src fs) (k + i)).
  { intros i Hi. rewrite <- (nth_map' rU Y i 0) by lia. rewrite E2. unfold draw.
    rewrite (nth_map' _ _ _ _ 0%nat) by (rewrite seq_length; auto). f_equal. apply seq_nth. auto. }
  assert (IN : forall i, (i < length ps)%nat -> nth i (map (rE f) Y) 0%nat = rE f (nth i Y y0)) by (intros; apply nth_map'; lia).
  assert (IT : forall i, (i < length ps)%nat -> type_at e i = rK f (nth i Y y0)).
  { intros i Hi. unfold type_at. rewrite EE. cbn. apply nth_map'. lia. }
  assert (RPS : forall {A} (g : imp -> A), map (fun y => g (rI y)) (repeat_each Y cs) = map g (repeat_each ps cs)).
  { intros A g. rewrite <- E1, repeat_each_map, map_map. auto. }
  assert (SZ : emis_sized (length ps) seg e).
  { assert (LCS : length cs = length Y) by (unfold cs; apply map_length).
    assert (LA : length (repeat_each Y cs) = nsum cs) by (apply repeat_each_length; auto).
    assert (LK : length (repeat_each (map (rK f) Y) cs) = nsum cs) by (apply repeat_each_length; rewrite map_length; auto).
    rewrite EE. unfold emis_sized, mk_out. cbn. fold cs. rewrite app_length, !map_length, LK, LA.
    repeat split; try lia. intros ->. rewrite map_length. auto. }
  exists (map (rE f) Y). split; [|split; [|split; [|split]]].
  - constructor; auto.
    + rewrite map_length. auto.
    + intros i Hi. fold (type_at e i). rewrite IT, IN, IP, <- IU by auto. apply flags_meaning. apply PT. auto.
    + intros i Hi. rewrite EE. cbn. rewrite (nth_map' _ _ _ _ y0) by lia. rewrite IN, IP by auto. auto.
    + intros i Hi. rewrite EE. cbn. rewrite !(nth_map' _ Y i _ y0) by lia. rewrite !rE_zero. rewrite IP by auto.
      destruct (Nat.eqb (rE f (nth i Y y0)) 0); auto.
    + rewrite EE. cbn. rewrite <- E1, map_map. auto.
    + cbv zeta. rewrite CS, EE. cbn. fold cs. repeat split; try apply RPS. intros ->. apply RPS.
    + rewrite CS, EE. auto.
  - assert (RV' : forall i, (i < length ps)%nat -> row_vel f any (nth i Y y0) (vel_at e i)).
    { intros i Hi. replace (vel_at e i) with (nth i V (0, 0, 0)).
      - apply F2_at; [exact RV|lia].
      - unfold vel_at. rewrite EE. cbn. rewrite !(nth_map' _ V i _ (0, 0, 0)) by lia. destruct (nth i V (0, 0, 0)) as [[a b] c]. auto. }
    assert (KT : forall i, (i < length ps)%nat -> type_at e i = 1%nat -> rA f (nth i Y y0) = false /\ rT f (nth i Y y0) = true).
    { intros i Hi Ti. rewrite IT in Ti by auto. unfold rK, rA in *.
      destruct (flags_one f (nth i Y y0)) as [Q|[Q|Q]]; injection Q as Q1 Q2 Q3; rewrite Q1, ?Q2 in Ti; try discriminate.
      destruct (Nat.eqb (rN (nth i Y y0)) 0) in *; [discriminate|]. rewrite Q3. auto. }
    constructor.
    + intros i Hi Ti. specialize (RV' i Hi). rewrite IP by auto. rewrite IT in Ti by auto. unfold rK, row_vel, rA in *.
      destruct (flags_one f (nth i Y y0)) as [Q|[Q|Q]]; injection Q as Q1 Q2 Q3; rewrite Q1, ?Q2 in Ti; try discriminate.
      * rewrite Q2, Q3 in RV'. exact RV'.
      * destruct (Nat.eqb (rN (nth i Y y0)) 0) in Ti; discriminate.
    + intros i Hi Ti. specialize (RV' i Hi). rewrite IP by auto. rewrite IT in Ti by auto. unfold rK, row_vel, rA in *.
      destruct (flags_one f (nth i Y y0)) as [Q|[Q|Q]]; injection Q as Q1 Q2 Q3; rewrite Q1, ?Q2 in Ti; try discriminate.
      * rewrite Q2, Q3 in RV'. exact RV'.
      * destruct (Nat.eqb (rN (nth i Y y0)) 0) in Ti; discriminate.
    + intros i Hi Ti. specialize (RV' i Hi). rewrite IT in Ti by auto. unfold rK, row_vel, rA in *.
      destruct (flags_one f (nth i Y y0)) as [Q|[Q|Q]]; injection Q as Q1 Q2 Q3; rewrite Q1, ?Q2 in Ti; try discriminate.
      destruct (Nat.eqb (rN (nth i Y y0)) 0) in *; [|discriminate]. rewrite Q3 in RV'. exact RV'.
    + intros i j Hi Ti HJ. specialize (RV' i Hi). rewrite IP by auto. unfold row_vel in RV'. destruct (KT i Hi Ti) as [K1 K2].
      rewrite K1, K2 in RV'. replace any with true in RV'; auto. unfold any. symmetry. apply negb_true_iff. apply Nat.eqb_neq.
      assert (HJ2 : (1 <= nth j cs 0)%nat).
      { rewrite <- CS. destruct (Nat.lt_ge_cases j (length (map (rE f) Y))) as [LJ|LJ].
        - rewrite (nth_map' pred _ _ _ 0%nat) by auto. lia.
        - rewrite nth_overflow in HJ by auto. lia. }
      apply (nsum_pos cs j HJ2).
    + intros i Hi Ti HJ. specialize (RV' i Hi). rewrite IP by auto. unfold row_vel in RV'. destruct (KT i Hi Ti) as [K1 K2].
      rewrite K1, K2 in RV'. replace any with false in RV'; auto. unfold any. symmetry. apply negb_false_iff. apply Nat.eqb_eq.
      rewrite <- CS. revert HJ. generalize (map (rE f) Y). clear. intros l HJ. induction l as [|n l IH]; auto. cbn [map]. change (nsum (pred n :: map pred l)) with (pred n + nsum (map pred l))%nat.
      rewrite IH by (intros j; apply (HJ (S j))). specialize (HJ 0%nat). cbn in HJ. lia.
    + rewrite CS, NVE, <- E1, repeat_each_map. apply Forall2_map_l. auto.
  - auto.
  - rewrite EE. cbn. fold cs.
    assert (C2 : cs = map (fun y => pred (rE f y)) Y) by (rewrite <- CS, map_map; auto). rewrite C2.
    apply (rsum_zero_or Y (rA f) (fun y => i_nel (rI y)) (rE f)).
    + intros y _ A. rewrite rE_zero in A. apply Nat.eqb_neq in A. lia.
    + intros y _ A. rewrite rE_zero in A. apply Nat.eqb_eq in A. auto.
  - intros HC. specialize (RC HC). rewrite CS, VE, NVE.
    replace (combine ps V) with (map (fun yw : imp * R * nat * (R * R * R) => (rI (fst yw), snd yw)) (combine Y V)).
    + rewrite repeat_each_map. apply Forall2_map_l. auto.
    + rewrite <- E1. clear. revert V. induction Y; intros [|v V]; cbn; f_equal; auto.
Qed.
End S4.

(** * Energy of an event *)
Lemma slice_rep {A B} (Q : A -> B -> Prop) a c b i d : length c = length a -> (i < length a)%nat ->
  Forall2 Q (repeat_each a c) b ->
  length (firstn (nth i c 0%nat) (skipn (nsum (firstn i c)) b)) = nth i c 0%nat /\
  Forall (Q (nth i a d)) (firstn (nth i c 0%nat) (skipn (nsum (firstn i c)) b)).
Proof.
  revert c b i. induction a as [|x a IH]; intros [|n c] b i L Hi F; try discriminate; cbn in Hi; [lia|]. cbn in F.
  apply Forall2_app_inv_l in F. destruct F as (b1 & b2 & F1 & F2 & ->).
  assert (L1 : length b1 = n) by (apply Forall2_length in F1; rewrite repeat_length in F1; auto).
  destruct i as [|i]; cbn [nth firstn]; [|change (nsum (n :: firstn i c)) with (n + nsum (firstn i c))%nat].
  - cbn [nsum fold_right skipn]. rewrite firstn_app_exact by auto. split; auto. clear -F1. revert n F1. induction b1; intros [|n] F1; inversion F1; subst; constructor; eauto.
  - rewrite <- L1, skipn_app, skipn_all2 by lia. cbn [app]. change (fold_right Init.Nat.add 0%nat (firstn i c)) with (nsum (firstn i c)). replace (length b1 + nsum (firstn i c) - length b1)%nat with (nsum (firstn i c)) by lia.
    apply (IH c b2 i); auto; cbn in L; lia.
Qed.

Lemma event_bound f ps ns e i : length ns = length ps -> length (vels e) = length ps -> (i < length ps)%nat -> (2 <= nth i ns 0)%nat ->
  nth i (vels e) (0, 0, 0) = vel_at e i -> 0 <= kin3 f (vel_at e i) ->
  Forall2 (fun pv w => kin3 f (snd pv) + kin3 f w <= i_E (fst pv)) (repeat_each (combine ps (vels e)) (map pred ns)) (nvels e) ->
  event_energy f ns e i <= INR (nth i ns 0%nat - 1) * i_E (impat ps i).
Proof.
  intros L LV Hi HN EV P0 FF. apply (slice_rep _ _ _ _ i (imp0, (0, 0, 0))) in FF.
  2:{ rewrite map_length, combine_length. lia. }
  2:{ rewrite combine_length. lia. }
  assert (EN : nth i (map pred ns) 0%nat = pred (nth i ns 0%nat)) by (apply (map_nth pred ns 0%nat i)). rewrite EN in FF.
  change (firstn (pred (nth i ns 0%nat)) (skipn (nsum (firstn i (map pred ns))) (nvels e))) with (clones ns e i) in FF.
  rewrite combine_nth in FF by auto. cbn [fst snd] in FF. rewrite EV in FF. fold (impat ps i) in FF.
  unfold event_energy. destruct FF as [LC FC].
  assert (B : forall l, Forall (fun w => kin3 f (vel_at e i) + kin3 f w <= i_E (impat ps i)) l ->
     rsum (map (kin3 f) l) <= INR (length l) * (i_E (impat ps i) - kin3 f (vel_at e i))).
  { clear. induction l as [|w l IH]; intros FC; [unfold rsum; cbn; lra|]. inversion FC; subst. specialize (IH ltac:(auto)).
    cbn [map length]. rewrite rsum_cons, S_INR. lra. }
  specialize (B _ FC). rewrite LC in B. replace (nth i ns 0%nat - 1)%nat with (pred (nth i ns 0%nat)) by lia.
  assert (1 <= INR (pred (nth i ns 0%nat))).
  { replace 1 with (INR 1) by auto. apply le_INR. lia. }
  nra.
Qed.
