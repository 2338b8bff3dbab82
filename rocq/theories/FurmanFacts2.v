(** Facts about [impacts_on_surface] of the Furman-Pivi model. *)
From Coq Require Import Lra Lia Reals Psatz.
From Verif Require Import Num NumFacts Sey SpecSey SeyFacts SeyFacts2 SeyFacts3 Furman SpecFurman FurmanFacts.

Local Arguments Nat.ltb : simpl never.

(** * Rows *)
Lemma put_rows {X A} (P Q : X -> A -> Prop) (g : X -> bool) l a v :
  Forall2 Q l a -> Forall2 P (mask_get (map g l) l) v ->
  Forall2 (fun x w => if g x then P x w else Q x w) l (mask_put (map g l) a v).
Proof.
  intros H. revert v. induction H as [|x w l a Hx H IH]; intros v F; cbn; [constructor|]. cbn in F. destruct (g x) eqn:G.
  - inversion F; subst. constructor; [rewrite G; auto|apply IH; auto].
  - constructor; [rewrite G; auto|apply IH; auto].
Qed.

Lemma fill_rows {X A} (Q : X -> A -> Prop) (g : X -> bool) l a c :
  Forall2 Q l a -> Forall2 (fun x w => if g x then w = c else Q x w) l (mask_fill (map g l) a c).
Proof. intros H. induction H as [|x w l a Hx H IH]; cbn; constructor; auto. destruct (g x); auto. Qed.

Lemma fill_map {X A} (g : X -> bool) (h : X -> A) l c :
  mask_fill (map g l) (map h l) c = map (fun x => if g x then c else h x) l.
Proof. induction l as [|x l IH]; cbn; f_equal; auto. Qed.

Lemma map2_maps {X A B C} (f : A -> B -> C) (a : X -> A) (b : X -> B) l :
  map2 f (map a l) (map b l) = map (fun x => f (a x) (b x)) l.
Proof. induction l; cbn; f_equal; auto. Qed.

Lemma get_get {X A} (g h : X -> bool) (a : X -> A) l :
  mask_get (map h (mask_get (map g l) l)) (map a (mask_get (map g l) l)) =
  map a (mask_get (map (fun x => g x && h x) l) l).
Proof. induction l as [|x l IH]; auto. cbn. destruct (g x) eqn:G; cbn; auto. destruct (h x); cbn; f_equal; auto. Qed.

Lemma rep_drop {X A} (g : X -> bool) (cnt : X -> nat) (l : list X) (a : list A) : length a = length l ->
  (forall x, In x l -> g x = false -> cnt x = 0%nat) ->
  repeat_each a (map cnt l) = repeat_each (mask_get (map g l) a) (map cnt (mask_get (map g l) l)).
Proof.
  revert a. induction l as [|x l IH]; intros [|y a] L H; try discriminate; auto. cbn.
  specialize (IH a ltac:(cbn in L; lia) (fun z Hz => H z (or_intror Hz))). destruct (g x) eqn:G; cbn; rewrite IH; auto.
  rewrite (H x (or_introl eq_refl) G). auto.
Qed.

Lemma Forall2_combine_r {A B C} (P : A * B -> C -> Prop) (Q : A -> C -> Prop) l b c :
  length b = length l -> (forall x y z, In (x, y) (combine l b) -> P (x, y) z -> Q x z) ->
  Forall2 P (combine l b) c -> Forall2 Q l c.
Proof.
  revert b c. induction l as [|x l IH]; intros [|y b] c L H F; try discriminate; cbn in F; inversion F; subst; constructor.
  - apply (H x y); [left; auto|auto].
  - eapply IH; eauto. intros. eapply H; eauto. right. auto.
Qed.

Lemma Forall2_In_combine {A B} (P : A -> B -> Prop) l m x y : Forall2 P l m -> In (x, y) (combine l m) -> P x y.
Proof. induction 1; cbn; [tauto|]. intros [E|I]; [injection E as <- <-; auto|auto]. Qed.

(** * Angles *)
Definition shot (f : fpar) (nx ny e : R) (v : R * R * R) : Prop :=
  kin3 f v = e /\ 0 <= normal_comp nx ny (fst3 v) (snd3 v).

Lemma ang_ok {X} f sr k (fnx fny : X -> R) (Q : list X) En v k' :
  fp_energy_sane f -> src_ok sr -> length En = length Q ->
  (forall x, In x Q -> fnx x * fnx x + fny x * fny x = 1) -> Forall (fun e => 0 <= e) En ->
  ang f sr k En (map fnx Q) (map fny Q) = Some (v, k') ->
  Forall2 (fun xe w => shot f (fnx (fst xe)) (fny (fst xe)) (snd xe) w) (combine Q En) v.
Proof.
  intros F Hs L HN HE H. unfold ang, bind in H. destruct (c_angle (f_e f)) as [d|]; [|discriminate].
  assert (HV : v = fst (v, k')) by auto. injection H as H. rewrite HV, <- H. clear H HV.
  pose proof (fs_qe f F) as Hq. pose proof (fs_mass f F) as Hm.
  assert (V : forall x e st phi, In x Q -> 0 <= e -> 0 <= st <= 1 ->
    shot f (fnx x) (fny x) e (vel_angle (c_qe (f_e f)) (c_mass (f_e f)) e (fnx x) (fny x) st phi)).
  { intros x e st phi Hx He Hst. pose proof (vel_angle_ok _ _ e _ _ st phi Hq Hm He (HN x Hx) Hst) as K.
    unfold shot, kin3. destruct (vel_angle _ _ _ _ _ _ _) as [[vx vy] vz]. exact K. }
  assert (VN : forall x e, In x Q -> 0 <= e ->
    shot f (fnx x) (fny x) e (vel_normal (c_qe (f_e f)) (c_mass (f_e f)) e (fnx x) (fny x))).
  { intros x e Hx He. pose proof (vel_normal_ok _ _ e _ _ Hq Hm He (HN x Hx)) as K.
    unfold shot, kin3. destruct (vel_normal _ _ _ _ _) as [[vx vy] vz]. exact K. }
  assert (SQ : forall u, 0 <= u < 1 -> 0 <= sqrt u <= 1).
  { intros u Hu. split; [apply sqrt_pos|]. rewrite <- sqrt_1. apply sqrt_le_1_alt. lra. }
  unfold angle_dist_func.
  assert (GEN : forall st phi, length st = length Q -> length phi = length Q -> Forall (fun s => 0 <= s <= 1) st ->
    Forall2 (fun xe w => shot f (fnx (fst xe)) (fny (fst xe)) (snd xe) w) (combine Q En)
     (map2 (fun '(e, (a, b)) '(s, p) => vel_angle (c_qe (f_e f)) (c_mass (f_e f)) e a b s p)
        (combine En (combine (map fnx Q) (map fny Q))) (combine st phi))).
  { clear VN HN SQ. revert En L HE. induction Q as [|x Q IH]; intros En L HE st phi L1 L2 FF; destruct En as [|e En]; try discriminate; cbn; [constructor|].
    destruct st as [|s st]; [discriminate|]. destruct phi as [|p phi]; [discriminate|]. inversion FF; subst. inversion HE; subst. cbn. constructor.
    - apply V; auto. left. auto.
    - apply IH; auto. intros. apply V; auto. right. auto. }
  destruct d; cbn [fst].
  - apply GEN; try (rewrite !map_length, ?draw_length, ?seq_length; auto; fail).
    + rewrite Forall_map. apply draw_Forall. intros. apply SQ. apply Hs.
  - apply GEN; try (rewrite ?map_length, ?draw_length; auto; fail).
    apply draw_Forall. intros j. pose proof (proj1 Hs j). lra.
  - clear V GEN HN. revert En L HE. induction Q as [|x Q IH]; intros En L HE; destruct En as [|e En]; try discriminate; cbn; [constructor|].
    inversion HE; subst. constructor; [apply VN; auto; left; auto|]. apply IH; auto. intros. apply VN; auto. right. auto.
Qed.

Lemma ang_some f sr k En nx ny d : c_angle (f_e f) = Some d -> exists v k', ang f sr k En nx ny = Some (v, k').
Proof. intros H. unfold ang, bind. rewrite H. destruct (angle_dist_func _ _ _ _ _ _ _ _ _) as [v k']. eauto. Qed.

(** * The energy loop *)
Lemma put_mask {X A} (Q : X -> A -> Prop) m l a v :
  Forall2 Q l a -> Forall2 Q (mask_get m l) v -> Forall2 Q l (mask_put m a v).
Proof.
  intros H. revert m v. induction H as [|x w l a Hx H IH]; intros [|b m] v F; cbn; auto.
  cbn in F. destruct b; [inversion F; subst|]; constructor; auto.
Qed.

Lemma set_mask {X A} (Q : X -> A -> Prop) m l a v r : length m = length l ->
  Forall2 Q l a -> Forall2 Q (mask_get m l) v -> mask_set m a v = Some r -> Forall2 Q l r.
Proof.
  intros L H F E. assert (LL := Forall2_length F). rewrite mask_get_length in LL by auto.
  rewrite mask_set_exact in E by auto. injection E as <-. apply put_mask; auto.
Qed.

Lemma take_length {A} (a : list A) is r : take a is = Some r -> length r = length is.
Proof.
  revert r. induction is as [|i is IH]; cbn; intros r H; [injection H as <-; auto|]. unfold bind in H.
  destruct (py_nth a i); [|discriminate]. destruct (take a is) as [l|] eqn:T; [|discriminate]. injection H as <-. cbn. f_equal. auto.
Qed.

Lemma cumsum_length acc l : length (cumsum acc l) = length l.
Proof. revert acc. induction l; intros; cbn; auto. Qed.

Lemma inverse_repeat_length {A} (a : list A) rep r : inverse_repeat a rep = Some r -> length r = length rep.
Proof. unfold inverse_repeat. intros H. apply take_length in H. rewrite H, map_length, cumsum_length. auto. Qed.

Lemma combine_maps {A B} (l : list A) (m : list B) : length l = length m -> l = map fst (combine l m) /\ m = map snd (combine l m).
Proof.
  revert m. induction l as [|x l IH]; intros [|y m] L; try discriminate; auto. cbn. injection L as L. destruct (IH m L) as [A1 A2].
  split; f_equal; auto.
Qed.

Lemma no_viol {C0} (g h : C0 -> R) (C : list C0) (Ea : list R) : length C = length Ea ->
  count_true (map2 (fun e E => Rgtb e E) (map2 Rplus (map g C) Ea) (map h C)) = 0%nat ->
  Forall2 (fun c e => g c + e <= h c) C Ea.
Proof.
  revert Ea. induction C as [|c C IH]; intros [|e Ea] L H; try discriminate; constructor.
  - cbn in H. destruct (Rgtb _ _) eqn:G in H; [discriminate|]. apply Rgtb_false in G. auto.
  - apply IH; auto. cbn in H. destruct (Rgtb _ _) in H; [discriminate|auto].
Qed.

Section Conserve.
Context {Y0 : Type} (sp : spfun) (SP : sp_ok sp) (f : fpar) (F : fp_energy_sane f) (sr : src) (Hs : src_ok sr).
Context (fN cnt : Y0 -> nat) (fE : Y0 -> R).

Lemma conserve_ok fuel (P : list Y0) k En Ea En' Ea' k' :
  (forall x, In x P -> 0 <= fE x) ->
  Forall2 (fun x e => ts_ok f (fE x) e) P En ->
  Forall2 (fun x e => ts_ok f (fE x) e) (repeat_each P (map cnt P)) Ea ->
  conserve fuel sp f sr k (map cnt P) (map fN P) (map fE P) En Ea = Some (En', Ea', k') ->
  Forall2 (fun x e => ts_ok f (fE x) e) P En' /\
  Forall2 (fun x e => ts_ok f (fE x) e) (repeat_each P (map cnt P)) Ea' /\
  Forall2 (fun xe e => snd xe + e <= fE (fst xe)) (repeat_each (combine P En') (map cnt P)) Ea'.
Proof.
  intros HE. revert k En Ea. induction fuel as [|fu IH]; intros k En Ea H1 H2 H; cbn [conserve] in H; unfold bind in H.
  - destruct (inverse_repeat _ _) as [vr|] eqn:IR; [|discriminate]. destruct (Nat.eqb _ 0) eqn:Z; [|discriminate].
    injection H as <- <- <-. split; auto. split; auto.
    assert (L1 := Forall2_length H1). assert (L2 := Forall2_length H2). destruct (combine_maps P En L1) as [C1 C2].
    apply (no_viol snd (fun xe => fE (fst xe))).
    + rewrite <- L2. rewrite !repeat_each_length; auto; rewrite ?map_length, ?combine_length; lia.
    + apply Nat.eqb_eq in Z. unfold viol in Z. rewrite <- !repeat_each_map, <- C2.
      replace (map (fun xe : Y0 * R => fE (fst xe)) (combine P En)) with (map fE P); [auto|].
      rewrite C1 at 1. apply map_map.
  - destruct (inverse_repeat _ _) as [vr|] eqn:IR; [|discriminate]. destruct (Nat.eqb _ 0) eqn:Z.
    + injection H as <- <- <-. split; auto. split; auto.
      assert (L1 := Forall2_length H1). assert (L2 := Forall2_length H2). destruct (combine_maps P En L1) as [C1 C2].
      apply (no_viol snd (fun xe => fE (fst xe))).
      * rewrite <- L2. rewrite !repeat_each_length; auto; rewrite ?map_length, ?combine_length; lia.
      * apply Nat.eqb_eq in Z. unfold viol in Z. rewrite <- !repeat_each_map, <- C2.
      replace (map (fun xe : Y0 * R => fE (fst xe)) (combine P En)) with (map fE P); [auto|].
      rewrite C1 at 1. apply map_map.
    + assert (L1 := Forall2_length H1). assert (L2 := Forall2_length H2).
      assert (LV : length (viol (map cnt P) (map fE P) En Ea) = length (repeat_each P (map cnt P))).
      { unfold viol. rewrite !map2_length, <- L2, !repeat_each_length; rewrite ?map_length; lia. }
      set (v := viol (map cnt P) (map fE P) En Ea) in *.
      rewrite !repeat_each_map, !mask_get_map in H.
      destruct (en_true _ _ _ _ (map fN (mask_get v _)) _) as [[l k1]|] eqn:E1; [|discriminate].
      destruct (mask_set v Ea l) as [Ea1|] eqn:S1; [|discriminate].
      destruct (en_true _ _ _ k1 _ _) as [[l2 k2]|] eqn:E2; [|discriminate].
      destruct (mask_set vr En l2) as [En1|] eqn:S2; [|discriminate].
      apply IH in H; auto.
      * eapply set_mask; [|exact H1| |exact S2].
        -- rewrite (inverse_repeat_length _ _ _ IR), map_length. auto.
        -- eapply en_true_ok; [..|exact E2]; auto. intros x Hx. apply HE. eapply mask_get_In; eauto.
      * eapply set_mask; [|exact H2| |exact S1]; auto.
        eapply en_true_ok; [..|exact E1]; auto. intros x Hx. apply HE. apply mask_get_In in Hx. eapply repeat_each_In; eauto.
Qed.
End Conserve.

(** * True secondaries *)
Lemma Forall2_repeat_each {A B} (Q : A -> B -> Prop) a b c : Forall2 Q a b -> Forall2 Q (repeat_each a c) (repeat_each b c).
Proof.
  intros H. revert c. induction H; intros [|n c]; cbn; auto. apply Forall2_app; auto. induction n; cbn; constructor; auto.
Qed.

Lemma Forall2_chain {A B C D} (P1 : A -> B -> Prop) (P2 : A -> C -> Prop) (P3 : C -> D -> Prop) (U : B -> D -> Prop) a b c d :
  (forall x y z t, P1 x y -> P2 x z -> P3 z t -> U y t) ->
  Forall2 P1 a b -> Forall2 P2 a c -> Forall2 P3 c d -> Forall2 U b d.
Proof.
  intros H HA. revert c d. induction HA; intros c d HB HC; inversion HB; subst; inversion HC; subst; constructor; eauto.
Qed.

Lemma combine_rel {X B C} (P : X * B -> C -> Prop) (Q : B -> C -> Prop) l b c :
  length b = length l -> (forall x y z, P (x, y) z -> Q y z) -> Forall2 P (combine l b) c -> Forall2 Q b c.
Proof.
  revert b c. induction l as [|x l IH]; intros [|y b] c L H F; try discriminate; cbn in F; inversion F; subst; constructor; eauto.
Qed.

Lemma combine_pair {X B C} (P : X * B -> C -> Prop) l b c : length b = length l ->
  Forall2 P (combine l b) c -> Forall2 (fun xb xc => fst xb = fst xc /\ P xb (snd xc)) (combine l b) (combine l c).
Proof.
  revert b c. induction l as [|x l IH]; intros [|y b] c L F; try discriminate; cbn in F; inversion F; subst; cbn; constructor; auto.
Qed.

Lemma mask_get_combine {A B} m (a : list A) (b : list B) :
  mask_get m (combine a b) = combine (mask_get m a) (mask_get m b).
Proof.
  revert a b. induction m as [|h m IH]; intros [|x a] [|y b]; auto.
  - cbn. destruct h; auto. destruct (mask_get m a); auto.
  - cbn. destruct h; cbn; [f_equal|]; apply IH.
Qed.

Section True_.
Context {Y0 : Type} (sp : spfun) (SP : sp_ok sp) (f : fpar) (F : fp_energy_sane f) (sr : src) (Hs : src_ok sr).
Context (pI : Y0 -> imp) (T : Y0 -> bool) (N : Y0 -> nat).
Definition cntY y := (N y - 1)%nat.
Definition SY y := T y && Nat.ltb 0 (N y).

Lemma fresh_shot y e w : ts_ok f (i_E (pI y)) e -> shot f (i_nx (pI y)) (i_ny (pI y)) e w -> fp_fresh f (pI y) w.
Proof.
  unfold ts_ok, shot, fp_fresh, leaves, out_loss. destruct w as [[vx vy] vz]. intros H [K1 K2].
  unfold kin3, fst3, snd3, thd3 in *. cbn [fst snd] in *. destruct (f_ecl_energy f); rewrite K1; auto.
Qed.

Lemma fp_true_ok cfuel (Y : list Y0) (Q : Y0 -> R * R * R -> Prop) vel k vel' va k' :
  (forall y, In y Y -> imp_ok (pI y) /\ (T y = false -> N y = 0%nat)) -> Forall2 Q Y vel ->
  fp_true cfuel sp f sr (map pI Y) (map T Y) (map N Y) (map N (mask_get (map T Y) Y)) vel k = Some (vel', va, k') ->
  if Nat.eqb (nsum (map cntY Y)) 0 then vel' = vel /\ va = [] else
  Forall2 (fun y w => if SY y then fp_fresh f (pI y) w else Q y w) Y vel' /\
  Forall2 (fun y w => fp_fresh f (pI y) w) (repeat_each Y (map cntY Y)) va /\
  (f_conserve f = true -> Forall2 (fun yw wa => kin3 f (snd yw) + kin3 f wa <= i_E (pI (fst yw)))
    (repeat_each (combine Y vel') (map cntY Y)) va).
Proof using SP F Hs.
  intros HY HQ H. unfold fp_true in H. unfold bind in H.
  set (P := mask_get (map SY Y) Y).
  assert (CZ : forall y, In y Y -> SY y = false -> cntY y = 0%nat).
  { intros y Hy S0. unfold SY in S0. unfold cntY. destruct (T y) eqn:TT; cbn in S0.
    - apply Nat.ltb_ge in S0. lia.
    - rewrite (proj2 (HY y Hy) TT). auto. }
  assert (CZ2 : forall y, In y Y -> T y = false -> cntY y = 0%nat).
  { intros y Hy TT. unfold cntY. rewrite (proj2 (HY y Hy) TT). auto. }
  assert (E1 : mask_get (map (fun n => Nat.ltb 0 n) (map N (mask_get (map T Y) Y))) (map N (mask_get (map T Y) Y)) = map N P).
  { rewrite map_map. rewrite get_get. auto. }
  assert (E2 : map2 andb (map T Y) (map (fun n => Nat.ltb 0 n) (map N Y)) = map SY Y) by (rewrite map_map, map2_maps; auto).
  rewrite E1, E2 in H.
  assert (E3 : map (fun n => (n - 1)%nat) (map N Y) = map cntY Y) by (rewrite map_map; auto). rewrite E3 in H.
  assert (EM : forall (g : imp -> R), mask_get (map SY Y) (map g (map pI Y)) = map (fun y => g (pI y)) P).
  { intros g. rewrite map_map. apply mask_get_map_l. }
  assert (ER : forall (g : imp -> R), repeat_each (map g (map pI Y)) (map cntY Y) = map (fun y => g (pI y)) (repeat_each Y (map cntY Y))).
  { intros g. rewrite map_map. apply repeat_each_map. }
  rewrite !EM, !ER in H.
  assert (E4 : mask_get (map T Y) (map cntY Y) = map cntY (mask_get (map T Y) Y)) by (apply mask_get_map). rewrite E4 in H.
  assert (E5 : repeat_each (map N (mask_get (map T Y) Y)) (map cntY (mask_get (map T Y) Y)) = map N (repeat_each Y (map cntY Y))).
  { rewrite repeat_each_map. f_equal. symmetry. apply rep_drop; auto. }
  rewrite E5 in H.
  assert (E6 : mask_get (map (fun n => Nat.ltb 0 n) (map N (mask_get (map T Y) Y))) (map cntY (mask_get (map T Y) Y)) = map cntY P).
  { rewrite map_map. rewrite get_get. auto. }
  assert (E7 : mask_get (map (fun n => Nat.ltb 0 n) (map N (mask_get (map T Y) Y))) (mask_get (map T Y) (map i_E (map pI Y))) = map (fun y => i_E (pI y)) P).
  { rewrite !map_map. rewrite (mask_get_map_l T). rewrite get_get. auto. }
  rewrite E6, E7 in H. clear E1 E2 E3 E4 E5 E6 E7.
  assert (INP : forall y, In y P -> In y Y) by (intros y; apply mask_get_In).
  assert (INA : forall y, In y (repeat_each Y (map cntY Y)) -> In y Y) by (intros y; apply repeat_each_In).
  assert (RP : repeat_each Y (map cntY Y) = repeat_each P (map cntY P)) by (apply rep_drop; auto).
  set (A := repeat_each Y (map cntY Y)) in *.
  destruct (en_true _ _ _ _ _ _) as [[En k1]|] eqn:T1 in H; [|discriminate].
  apply en_true_ok in T1; auto. 2:{ intros y Hy. apply (HY y (INP y Hy)). }
  destruct (Nat.eqb (nsum (map cntY Y)) 0) eqn:Z; [split; congruence|].
  destruct (en_true _ _ _ _ _ _) as [[Ea k2]|] eqn:T2 in H; [|discriminate].
  apply en_true_ok in T2; auto. 2:{ intros y Hy. apply (HY y (INA y Hy)). }
  assert (HC : exists En' Ea' k3, Forall2 (fun y e => ts_ok f (i_E (pI y)) e) P En' /\
     Forall2 (fun y e => ts_ok f (i_E (pI y)) e) A Ea' /\
     (f_conserve f = true -> Forall2 (fun ye e => snd ye + e <= i_E (pI (fst ye))) (repeat_each (combine P En') (map cntY P)) Ea') /\
     match ang f sr k3 En' (map (fun y => i_nx (pI y)) P) (map (fun y => i_ny (pI y)) P) with
     | Some (v, k) => match mask_set (map SY Y) vel v with
         | Some vel => match ang f sr k Ea' (map (fun y => i_nx (pI y)) A) (map (fun y => i_ny (pI y)) A) with
             | Some (va, k) => Some (vel, va, k) | None => None end | None => None end
     | None => None end = Some (vel', va, k')).
  { destruct (f_conserve f).
    - destruct (conserve _ _ _ _ _ _ _ _ _) as [[[En' Ea'] k3]|] eqn:CC; [|discriminate].
      apply (conserve_ok sp SP f F sr Hs N cntY (fun y => i_E (pI y))) in CC; auto.
      + destruct CC as (C1 & C2 & C3). exists En', Ea', k3. rewrite RP. repeat split; auto. rewrite <- RP. auto.
      + intros y Hy. apply (HY y (INP y Hy)).
      + rewrite <- RP. auto.
    - exists En, Ea, k2. repeat split; auto. discriminate. }
  clear H T1 T2. destruct HC as (En' & Ea' & k3 & T1 & T2 & CO & H).
  destruct (ang _ _ _ _ _ _) as [[v k4]|] eqn:G1 in H; [|discriminate].
  destruct (mask_set (map SY Y) vel v) as [vel1|] eqn:MS; [|discriminate].
  destruct (ang _ _ _ _ _ _) as [[va1 k5]|] eqn:G2 in H; [|discriminate]. injection H as -> -> _.
  assert (L1 := Forall2_length T1). assert (L2 := Forall2_length T2).
  assert (FN : forall l e, Forall2 (fun y e => ts_ok f (i_E (pI y)) e) l e -> Forall (fun e => 0 <= e) e).
  { clear. induction 1; constructor; auto. eapply ts_ok_nonneg; eauto. }
  apply ang_ok in G1; auto; [|intros y Hy; apply (proj1 (proj1 (HY y (INP y Hy))))|eapply FN; eauto].
  apply ang_ok in G2; auto; [|intros y Hy; apply (proj1 (proj1 (HY y (INA y Hy))))|eapply FN; eauto].
  assert (LV : length v = length P).
  { apply Forall2_length in G1. rewrite combine_length in G1. lia. }
  rewrite mask_set_exact in MS by (rewrite count_get; auto). injection MS as <-.
  split; [|split].
  - apply put_rows; auto. fold P. eapply (Forall2_combine_r _ _ _ En'); [auto| |exact G1].
    cbn. intros y e w I S0. eapply fresh_shot; eauto. apply (Forall2_In_combine _ _ _ _ _ T1 I).
  - eapply (Forall2_combine_r _ _ _ Ea'); [auto| |exact G2].
    cbn. intros y e w I S0. eapply fresh_shot; eauto. apply (Forall2_In_combine _ _ _ _ _ T2 I).
  - intros HC. specialize (CO HC).
    assert (LQ := Forall2_length HQ).
    rewrite (rep_drop SY cntY Y); auto; [|rewrite combine_length, mask_put_length; lia].
    rewrite mask_get_combine, mask_put_get_same; [|rewrite map_length; auto|rewrite count_get; auto]. fold P.
    assert (G3 : Forall2 (fun e w => kin3 f w = e) Ea' va).
    { revert G2. apply combine_rel; [auto|]. intros y e w [K _]. exact K. }
    eapply Forall2_chain; [| |exact CO|].
    2:{ apply Forall2_repeat_each. eapply combine_pair; [auto|exact G1]. }
    2:{ exact G3. }
    cbn. intros [y e] [y' w] e' w' [EQ [K1 _]] K2 K3. cbn in *. subst. auto.
Qed.
End True_.
