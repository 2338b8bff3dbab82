(** Facts about [impacts_on_surface] of the Furman-Pivi model: the whole call. *)
From Coq Require Import Lra Lia Reals Psatz.
From Verif Require Import Num NumFacts Sey SpecSey SeyFacts SeyFacts2 SeyFacts3 Furman SpecFurman FurmanFacts FurmanFacts2.
Local Arguments Nat.ltb : simpl never.

Lemma Forall2_map_l {A B C} (Q : B -> C -> Prop) (g : A -> B) l m :
  Forall2 Q (map g l) m <-> Forall2 (fun x y => Q (g x) y) l m.
Proof.
  revert m. induction l as [|x l IH]; intros m; split; intros H; cbn in *; inversion H; subst; constructor; auto; apply IH; auto.
Qed.

Lemma out_loss_shot f p e w : 0 <= e <= i_E p -> shot f (i_nx p) (i_ny p) e w -> out_loss f p w.
Proof. intros H [K1 K2]. unfold out_loss. rewrite K1. auto. Qed.

(** Energies sampled elementwise. *)
Lemma sampled (g : R -> R -> R) {X} (fE : X -> R) (Q : list X) us : length us = length Q ->
  (forall E u, 0 <= E -> 0 <= u < 1 -> 0 <= g E u <= E) ->
  (forall x, In x Q -> 0 <= fE x) -> Forall (fun u => 0 <= u < 1) us ->
  Forall2 (fun x e => 0 <= e <= fE x) Q (map2 g (map fE Q) us).
Proof.
  intros L G. revert us L. induction Q as [|x Q IH]; intros [|u us] L HE U; try discriminate; cbn; constructor.
  - inversion U; subst. apply G; auto. apply HE. left. auto.
  - inversion U; subst. apply IH; auto. intros. apply HE. right. auto.
Qed.

Section Stages.
Context {Y0 : Type} (sp : spfun) (SP : sp_ok sp) (f : fpar) (F : fp_energy_sane f) (sr : src) (Hs : src_ok sr).
Context (pI : Y0 -> imp) (B : Y0 -> bool).

Lemma shot_stage (Y : list Y0) (g : R -> R -> R) k k1 (Q : Y0 -> R * R * R -> Prop) vel v k' vel' :
  (forall E u, 0 <= E -> 0 <= u < 1 -> 0 <= g E u <= E) ->
  (forall y, In y Y -> imp_ok (pI y)) -> Forall2 Q Y vel ->
  ang f sr k (map2 g (mask_get (map B Y) (map i_E (map pI Y))) (draw (s_uni sr) k1 (count_true (map B Y))))
     (mask_get (map B Y) (map i_nx (map pI Y))) (mask_get (map B Y) (map i_ny (map pI Y))) = Some (v, k') ->
  mask_set (map B Y) vel v = Some vel' ->
  Forall2 (fun y w => if B y then out_loss f (pI y) w else Q y w) Y vel'.
Proof using F Hs.
  intros HG HY HQ H MS. set (P := mask_get (map B Y) Y).
  assert (INP : forall y, In y P -> In y Y) by (intros y; apply mask_get_In).
  assert (EM : forall (h : imp -> R), mask_get (map B Y) (map h (map pI Y)) = map (fun y => h (pI y)) P).
  { intros h. rewrite map_map. apply mask_get_map_l. }
  rewrite !EM, count_get in H. fold P in H.
  assert (S1 : Forall2 (fun y e => 0 <= e <= i_E (pI y)) P (map2 g (map (fun y => i_E (pI y)) P) (draw (s_uni sr) k1 (length P)))).
  { apply sampled; auto; [apply draw_length|intros y Hy; apply (HY y (INP y Hy))|]. apply draw_Forall. apply Hs. }
  set (En := map2 g _ _) in *. assert (L := Forall2_length S1).
  apply ang_ok in H; auto; [|intros y Hy; apply (proj1 (HY y (INP y Hy)))|clear -S1; induction S1; constructor; auto; lra].
  assert (LV : length v = length P).
  { apply Forall2_length in H. rewrite combine_length in H. lia. }
  rewrite mask_set_exact in MS by (rewrite count_get; auto). injection MS as <-.
  apply put_rows; auto. fold P. eapply (Forall2_combine_r _ _ _ En); [auto| |exact H].
  cbn. intros y e w I S0. eapply out_loss_shot; eauto. apply (Forall2_In_combine _ _ _ _ _ S1 I).
Qed.

Lemma fp_back_ok (Y : list Y0) k (Q : Y0 -> R * R * R -> Prop) vel k' vel' :
  (forall y, In y Y -> imp_ok (pI y)) -> Forall2 Q Y vel ->
  fp_back sp f sr (map pI Y) (map B Y) vel k = Some (vel', k') ->
  Forall2 (fun y w => if B y then back_vel f (pI y) w else Q y w) Y vel'.
Proof using SP F Hs.
  intros HY HQ H. unfold fp_back, bind in H. unfold back_vel. destruct (f_ecl_energy f).
  - destruct (mask_set _ _ _) as [v|] eqn:MS; [|discriminate]. injection H as -> _.
    rewrite mask_get_map_l, map_map in MS. rewrite mask_set_exact in MS by (rewrite map_length, count_get; auto). injection MS as <-.
    apply put_rows; auto. remember (mask_get (map B Y) Y) as l eqn:EL. clear. induction l; cbn; constructor; auto.
  - destruct (ang _ _ _ _ _ _) as [[v k1]|] eqn:G; [|discriminate].
    destruct (mask_set _ _ _) as [v1|] eqn:MS; [|discriminate]. injection H as -> _.
    eapply shot_stage; eauto. intros. apply en_back_ok; auto.
Qed.

Lemma fp_redi_ok (Y : list Y0) k (Q : Y0 -> R * R * R -> Prop) vel k' vel' :
  (forall y, In y Y -> imp_ok (pI y)) -> (f_excl f = true -> forall y, In y Y -> B y = false) -> Forall2 Q Y vel ->
  fp_redi f sr (map pI Y) (map B Y) vel k = Some (vel', k') ->
  Forall2 (fun y w => if B y then out_loss f (pI y) w else Q y w) Y vel'.
Proof using F Hs.
  intros HY HX HQ H. unfold fp_redi, bind in H. destruct (f_excl f).
  - injection H as -> _. specialize (HX eq_refl). clear -HQ HX. induction HQ; constructor.
    + rewrite HX; auto. left. auto.
    + apply IHHQ. intros. apply HX. right. auto.
  - destruct (ang _ _ _ _ _ _) as [[v k1]|] eqn:G; [|discriminate].
    destruct (mask_set _ _ _) as [v1|] eqn:MS; [|discriminate]. injection H as -> _.
    eapply shot_stage; eauto. intros. apply en_rediff_ok; auto.
Qed.
End Stages.

Lemma Forall2_const {A B} (P : B -> Prop) (l : list A) m : length l = length m -> Forall P m -> Forall2 (fun _ y => P y) l m.
Proof. revert m. induction l; intros [|y m] E F; try discriminate; constructor; inversion F; subst; auto. Qed.

Lemma Forall2_impl_in {A B} (P Q : A -> B -> Prop) l m : (forall x y, In x l -> P x y -> Q x y) -> Forall2 P l m -> Forall2 Q l m.
Proof.
  intros H F. induction F; constructor.
  - apply H; auto. left. auto.
  - apply IHF. intros. apply H; auto. right. auto.
Qed.

(** * The call *)
Section Call.
Context (f : fpar).
Notation Y0 := (imp * R * nat)%type.
Definition rI (y : Y0) : imp := fst (fst y).
Definition rU (y : Y0) : R := snd (fst y).
Definition rN (y : Y0) : nat := snd y.
Definition yl (p : imp) : R * R * R := (delta_e f (i_E p) (i_ct p), delta_r f (i_E p) (i_ct p), delta_ts f (i_E p) (i_ct p)).
Definition fl (x : imp * R) : bool * bool * bool := fp_flags (f_excl f) (yl (fst x)) (snd x).
Definition rB (y : Y0) := fst3 (fl (fst y)).
Definition rR (y : Y0) := snd3 (fl (fst y)).
Definition rT (y : Y0) := thd3 (fl (fst y)).
(** Emitted MPs and event type. *)
Definition rE (y : Y0) : nat := if rT y then rN y else 1%nat.
Definition rK (y : Y0) : nat := if rB y then 0%nat else if rR y then 2%nat else if Nat.eqb (rN y) 0 then 3%nat else 1%nat.
Definition rA (y : Y0) : bool := rT y && Nat.eqb (rN y) 0.

Lemma flags_one y : (rB y, rR y, rT y) = (true, false, false) \/ (rB y, rR y, rT y) = (false, true, false) \/
  (rB y, rR y, rT y) = (false, false, true).
Proof.
  unfold rB, rR, rT, fl, fp_flags. destruct (f_excl f); cbn.
  - destruct (Rgtb _ _); auto.
  - destruct (Rgtb _ _); cbn; auto. destruct (Rltb _ _); auto.
Qed.

Lemma flags_excl y : f_excl f = true -> rR y = false.
Proof. intros H. unfold rR, fl, fp_flags. rewrite H. auto. Qed.

Lemma flags_meaning y : (rN y <= f_Mcut f)%nat -> fp_outcome f (rI y) (rU y) (rK y) (rE y).
Proof.
  intros HM. unfold rK, rE, rB, rR, rT, fl, fp_flags, yl. fold (rI y) (rU y). change (fst (fst y)) with (rI y). change (snd (fst y)) with (rU y).
  cbn [fst3 snd3 thd3 fst snd]. destruct (f_excl f) eqn:X; unfold fst3, snd3, thd3; cbn [fst snd].
  - destruct (Rgtb (rU y) _) eqn:G; cbn [negb].
    + apply Rgtb_true in G. destruct (Nat.eqb (rN y) 0) eqn:Z; [apply Nat.eqb_eq in Z; rewrite Z; apply Out_absorbed|apply Nat.eqb_neq in Z; apply Out_true; [|lia]];
      unfold de_of, dr_of; rewrite X; lra.
    + apply Rgtb_false in G. apply Out_back. unfold de_of. destruct G; auto.
  - destruct (Rgtb (rU y) _) eqn:G; cbn [negb andb].
    + apply Rgtb_true in G. destruct (Nat.eqb (rN y) 0) eqn:Z; [apply Nat.eqb_eq in Z; rewrite Z; apply Out_absorbed|apply Nat.eqb_neq in Z; apply Out_true; [|lia]];
      unfold de_of, dr_of; rewrite X; lra.
    + apply Rgtb_false in G. destruct (Rltb (rU y) _) eqn:G2; cbn [negb].
      * apply Rltb_true in G2. apply Out_back. unfold de_of. auto.
      * apply Rltb_false in G2. apply Out_rediff; auto. unfold de_of, dr_of. rewrite X. lra.
Qed.

Definition mk_out (seg : bool) (Y : list Y0) (V NV : list (R * R * R)) : emis :=
  let cs := map (fun y => (rN y - 1)%nat) Y in
  let A := repeat_each Y cs in
  mkEmis (map (fun y => i_nel (rI y) * INR (rE y)) Y) (map rK Y) (map rK Y ++ repeat_each (map rK Y) cs)
    (map (fun y => if rA y then 0 else i_nel (rI y)) Y)
    (map (fun y => if rA y then 0 else i_x (rI y)) Y)
    (map (fun y => if rA y then 0 else i_y (rI y)) Y)
    (map (fun y => if rA y then 0 else i_z (rI y)) Y)
    (map fst3 V) (map snd3 V) (map thd3 V) (map (fun y => i_seg (rI y)) Y)
    (map (fun y => i_nel (rI y)) A) (map (fun y => i_x (rI y)) A) (map (fun y => i_y (rI y)) A) (map (fun y => i_z (rI y)) A)
    (map fst3 NV) (map snd3 NV) (map thd3 NV) (if seg then map (fun y => i_seg (rI y)) A else []).

(** Velocity of a row, [any]: some event emits more than one. *)
Definition row_vel (any : bool) (y : Y0) (w : R * R * R) : Prop :=
  if rA y then w = (0, 0, 0) else
  if rT y then (if any then fp_fresh f (rI y) w else w = vimp (rI y))
  else if rR y then out_loss f (rI y) w else back_vel f (rI y) w.

Lemma rep_nil {A} (a : list A) c : nsum c = 0%nat -> repeat_each a c = [].
Proof. apply repeat_each_nil. Qed.

Lemma combine_fst_snd {A B} (l : list A) (m : list B) : length l = length m -> map fst (combine l m) = l /\ map snd (combine l m) = m.
Proof. intros H. destruct (combine_maps l m H). auto. Qed.

Lemma rep_fill {A B} (g : A -> bool) (c : A -> nat) (l : list A) (v : list B) b :
  (forall y, In y l -> g y = true -> c y = 0%nat) ->
  repeat_each (combine l (mask_fill (map g l) v b)) (map c l) = repeat_each (combine l v) (map c l).
Proof.
  revert v. induction l as [|x l IH]; intros [|w v] H; auto. cbn. rewrite IH by (intros; apply H; auto; right; auto). f_equal.
  destruct (g x) eqn:G; auto. rewrite (H x) by (auto; left; auto). auto.
Qed.

Lemma rA_cnt y : rA y = true -> (rN y - 1)%nat = 0%nat.
Proof. unfold rA. intros H. apply andb_prop in H. destruct H as [_ H]. apply Nat.eqb_eq in H. rewrite H. auto. Qed.

Theorem fp_main cfuel sp fs th seg ps k e k' : sp_ok sp -> fp_energy_sane f -> src_ok (f_src fs) -> Forall imp_ok ps ->
  fp_impacts cfuel sp f fs th seg ps k = Some (e, k') ->
  exists (Y : list Y0) V NV,
    map rI Y = ps /\ map rU Y = draw (s_uni (f_src fs)) k (length ps) /\
    (forall y, In y Y -> (rN y <= f_Mcut f)%nat /\ (rT y = false -> rN y = 0%nat)) /\
    (forall p, In p ps -> de_of f p + delta_r f (i_E p) (i_ct p) < 1) /\
    let cs := map (fun y => (rN y - 1)%nat) Y in
    let any := negb (Nat.eqb (nsum cs) 0) in
    e = mk_out seg Y V NV /\ Forall2 (row_vel any) Y V /\
    Forall2 (fun y w => fp_fresh f (rI y) w) (repeat_each Y cs) NV /\
    (f_conserve f = true -> Forall2 (fun yw wa => kin3 f (snd yw) + kin3 f wa <= i_E (rI (fst yw)))
       (repeat_each (combine Y V) cs) NV).
Proof.
  intros SP F Hs HI H. unfold fp_impacts, bind in H.
  destruct (fp_yields f ps) as [dl|] eqn:YD; [|discriminate]. unfold fp_yields in YD.
  destruct (existsb _ _) eqn:EX in YD; [discriminate|]. injection YD as <-.
  assert (LT1 : forall p, In p ps -> de_of f p + delta_r f (i_E p) (i_ct p) < 1).
  { intros p Hp. apply Rnot_le_lt. intros G. apply Bool.not_true_iff_false in EX. apply EX.
    apply existsb_exists. exists (yl p). split; [apply (in_map yl); auto|]. apply Rgeb_true. cbn. unfold de_of in G. lra. }
  clear EX. change (map (fun p : imp => (delta_e f (i_E p) (i_ct p), delta_r f (i_E p) (i_ct p), delta_ts f (i_E p) (i_ct p))) ps) with (map yl ps) in H.
  set (us := draw (s_uni (f_src fs)) k (length ps)) in *.
  set (L := combine ps us). assert (LU : length ps = length us) by (unfold us; rewrite draw_length; auto).
  destruct (combine_fst_snd ps us LU) as [L1 L2]. fold L in L1, L2.
  assert (FL : map2 (fp_flags (f_excl f)) (map yl ps) us = map fl L).
  { rewrite <- L1, <- L2 at 1. rewrite map_map, map2_maps. auto. }
  rewrite FL in H. rewrite !map_map in H.
  assert (HIL : forall x, In x L -> imp_ok (fst x)).
  { intros [p u] Hx. apply (proj1 (Forall_forall _ _) HI). eapply in_combine_l; eauto. }
  destruct (fp_back _ _ _ _ _ _ _) as [[vel1 k1]|] eqn:BK; [|discriminate].
  rewrite <- L1 in BK at 1. 
  apply (fp_back_ok sp SP f F _ Hs fst (fun x => fst3 (fl x)) L _ (fun x w => w = vimp (fst x))) in BK; auto.
  2:{ rewrite <- L1, map_map. clear. induction L; cbn; constructor; auto. }
  destruct (fp_redi _ _ _ _ _ _) as [[vel2 k2]|] eqn:RD; [|discriminate].
  rewrite <- L1 in RD at 1.
  eapply (fp_redi_ok f F _ Hs fst (fun x => snd3 (fl x)) L) in RD; [|auto| |exact BK].
  2:{ intros X x _. apply (flags_excl (x, 0%nat) X). }
  assert (LL : length L = length ps) by (rewrite <- L1, map_length; auto).
  (* the numbers *)
  assert (HN : exists nem vel3 news k3, length nem = length ps /\
     (forall y, In y (combine L nem) -> (rN y <= f_Mcut f)%nat /\ (rT y = false -> rN y = 0%nat)) /\
     (if Nat.eqb (nsum (map (fun y => (rN y - 1)%nat) (combine L nem))) 0 then vel3 = vel2 /\ news = [] else
      Forall2 (fun y w => if rT y && Nat.ltb 0 (rN y) then fp_fresh f (rI y) w else
          if rR y then out_loss f (rI y) w else if rB y then back_vel f (rI y) w else w = vimp (rI y)) (combine L nem) vel3 /\
      Forall2 (fun y w => fp_fresh f (rI y) w) (repeat_each (combine L nem) (map (fun y => (rN y - 1)%nat) (combine L nem))) news /\
      (f_conserve f = true -> Forall2 (fun yw wa => kin3 f (snd yw) + kin3 f wa <= i_E (rI (fst yw)))
         (repeat_each (combine (combine L nem) vel3) (map (fun y => (rN y - 1)%nat) (combine L nem))) news)) /\
     (if Nat.eqb (count_true (map (fun x => thd3 (fl x)) L)) 0 then Some (map (fun _ => 0%nat) ps, vel2, [], k2)
       else match fp_numbers f fs (map yl ps) (map (fun x => thd3 (fl x)) L) k2 with
        | Some (ns, k) => match fp_true cfuel sp f (f_src fs) ps (map (fun x => thd3 (fl x)) L)
             (mask_put (map (fun x => thd3 (fl x)) L) (map (fun _ => 0%nat) ps) ns) ns vel2 k with
           | Some (vel, news, k) => Some (mask_put (map (fun x => thd3 (fl x)) L) (map (fun _ => 0%nat) ps) ns, vel, news, k)
           | None => None end
        | None => None end) = Some (nem, vel3, news, k3)).
  { destruct (Nat.eqb (count_true (map (fun x => thd3 (fl x)) L)) 0) eqn:Z.
    - exists (map (fun _ => 0%nat) ps), vel2, [], k2. split; [apply map_length|]. 
      assert (Z0 : forall y, In y (combine L (map (fun _ : imp => 0%nat) ps)) -> rN y = 0%nat).
      { intros [x n] Hy. apply in_combine_r in Hy. apply in_map_iff in Hy. destruct Hy as (? & <- & _). auto. }
      split; [intros y Hy; rewrite (Z0 y Hy); split; auto; lia|]. split; auto.
      replace (nsum _) with 0%nat; [cbn; auto|]. symmetry. revert Z0. generalize (combine L (map (fun _ : imp => 0%nat) ps)).
      intros l Z0. induction l as [|y l IH]; auto. cbn. rewrite (Z0 y) by (left; auto). cbn. apply IH. intros. apply Z0. right. auto.
    - destruct (fp_numbers _ _ _ _ _) as [[ns k3]|] eqn:NU; [|discriminate].
      destruct (fp_true _ _ _ _ _ _ _ _ _ _) as [[[vel3 news] k4]|] eqn:TR; [|discriminate].
      unfold fp_numbers, bind in NU. set (lam := map _ _) in NU. destruct (poisson _ _ _) as [n0|] eqn:PO; [|discriminate].
      apply poisson_len in PO. apply cut_rounds_ok in NU; auto. destruct NU as [LN MC].
      set (ts := map (fun x => thd3 (fl x)) L) in *.
      assert (LTS : length ts = length ps) by (unfold ts; rewrite map_length; auto).
      assert (LNS : length ns = count_true ts).
      { rewrite LN, PO. unfold lam. rewrite map_length, mask_get_length; auto. rewrite map_length. auto. }
      set (nem := mask_put ts _ ns) in *.
      assert (LNE : length nem = length ps) by (unfold nem; rewrite mask_put_length, map_length; auto).
      set (Y := combine L nem) in *.
      assert (LY : length L = length nem) by lia. destruct (combine_fst_snd L nem LY) as [Y1 Y2]. fold Y in Y1, Y2.
      assert (PT : forall y, In y Y -> (rN y <= f_Mcut f)%nat /\ (rT y = false -> rN y = 0%nat)).
      { assert (FF : Forall2 (fun x n => if thd3 (fl x) then (n <= f_Mcut f)%nat else n = 0%nat) L nem).
        { unfold nem, ts. apply (put_rows (fun _ n => (n <= f_Mcut f)%nat) (fun _ n => n = 0%nat)).
          - apply Forall2_const; [rewrite map_length; auto|]. apply Forall_map. apply Forall_forall. auto.
          - fold ts. assert (E : length (mask_get ts L) = length ns) by (rewrite mask_get_length; [auto|unfold ts; rewrite map_length; auto]).
            apply Forall2_const; auto. }
        intros [x n] Hy. apply (Forall2_In_combine _ _ _ _ _ FF) in Hy. unfold rN, rT. cbn [fst snd]. destruct (thd3 (fl x)); [split; [auto|discriminate]|rewrite Hy; split; [lia|auto]]. }
      exists nem, vel3, news, k4. split; [auto|]. split; [exact PT|]. split; [|auto].
      assert (TT : fp_true cfuel sp f (f_src fs) (map rI Y) (map rT Y) (map rN Y) (map rN (mask_get (map rT Y) Y)) vel2 k3 = Some (vel3, news, k4)).
      { assert (TS : map rT Y = ts) by (unfold ts; rewrite <- Y1, map_map; reflexivity).
        assert (E1 : map rI Y = ps) by (rewrite <- L1, <- Y1, map_map; auto).
        assert (E2 : map rN Y = nem) by (exact Y2).
        assert (E3 : map rN (mask_get (map rT Y) Y) = ns).
        { rewrite <- mask_get_map, TS, E2. apply mask_put_get_same; auto. rewrite map_length. auto. }
        rewrite E1, E2, E3, TS. exact TR. }
      assert (RD' : Forall2 (fun y w => if rR y then out_loss f (rI y) w else if rB y then back_vel f (rI y) w else w = vimp (rI y)) Y vel2).
      { rewrite <- Y1 in RD. apply Forall2_map_l in RD. exact RD. }
      eapply (fp_true_ok sp SP f F _ Hs rI rT rN cfuel Y) in TT; [|intros y Hy; split; [|apply PT; auto]|exact RD'].
      + unfold cntY, SY in TT. exact TT.
      + apply HIL. rewrite <- Y1. apply in_map with (f := fst). auto. }
  destruct HN as (nem & vel3 & news & k3 & LNE & PT & HV & HE). rewrite HE in H. clear HE.
  assert (LY : length L = length nem) by lia. destruct (combine_fst_snd L nem LY) as [Y1 Y2].
  set (Y := combine L nem) in *.
  assert (E1 : map rI Y = ps) by (rewrite <- L1, <- Y1, map_map; auto).
  assert (E2 : map rN Y = nem) by (exact Y2).
  assert (EB : forall {A} (g : imp * R -> A), map g L = map (fun y : Y0 => g (fst y)) Y) by (intros; rewrite <- Y1, map_map; auto).
  set (cs := map (fun y => (rN y - 1)%nat) Y) in *.
  exists Y, (mask_fill (map rA Y) vel3 (0, 0, 0)), news. split; auto. split; [rewrite <- L2, <- Y1, map_map; auto|].
  split; auto. split; auto. cbv zeta.
  fold cs. split; [|split; [|split]].
  - rewrite !EB, <- E2, <- E1 in H.
    change (fun y : Y0 => fst3 (fl (fst y))) with rB in H. change (fun y : Y0 => snd3 (fl (fst y))) with rR in H.
    change (fun y : Y0 => thd3 (fl (fst y))) with rT in H.
    assert (AB : map2 andb (map rT Y) (map (fun n => Nat.eqb n 0) (map rN Y)) = map rA Y).
    { rewrite map_map, map2_maps. auto. }
    rewrite AB in H.
    assert (NE : (if f_excl f then mask_fill (map rB Y) (map rN Y) 1%nat
                  else mask_fill (map rR Y) (mask_fill (map rB Y) (map rN Y) 1%nat) 1%nat) = map rE Y).
    { rewrite !fill_map. destruct (f_excl f) eqn:X; [|]; rewrite ?fill_map; apply map_ext_in; intros y Hy; unfold rE;
      destruct (flags_one y) as [Q|[Q|Q]]; injection Q as -> Q2 ->; rewrite ?Q2; auto.
      rewrite (flags_excl y X) in Q2. discriminate. }
    rewrite NE in H.
    assert (EV : (if f_excl f then map2 (fun e n : nat => if Nat.eqb n 0 then 3%nat else e)
                    (map (fun y : Y0 => if thd3 (fl (fst y)) then 1%nat else 0%nat) Y) (map rE Y)
                  else map2 (fun (e : nat) (b : bool) => (e + 2 * (if b then 1 else 0))%nat)
                    (map2 (fun e n : nat => if Nat.eqb n 0 then 3%nat else e)
                      (map (fun y : Y0 => if thd3 (fl (fst y)) then 1%nat else 0%nat) Y) (map rE Y)) (map rR Y)) = map rK Y).
    { rewrite !map2_maps. change (fun x : Y0 => if Nat.eqb (rE x) 0 then 3%nat else if thd3 (fl (fst x)) then 1%nat else 0%nat)
        with (fun x : Y0 => if Nat.eqb (rE x) 0 then 3%nat else if rT x then 1%nat else 0%nat).
      destruct (f_excl f) eqn:X; apply map_ext_in; intros y Hy; change (thd3 (fl (fst y))) with (rT y); unfold rE, rK;
      destruct (flags_one y) as [Q|[Q|Q]]; injection Q as -> Q2 ->; rewrite ?Q2; auto.
      all: try (rewrite (flags_excl y X) in Q2; discriminate).
      all: destruct (Nat.eqb (rN y) 0); auto. }
    rewrite EV in H. clear EV NE AB. rewrite !map_map, !map2_maps, !fill_map in H. 
    change (map (fun x => (rN x - 1)%nat) Y) with cs in H.
    rewrite !repeat_each_map in H.
    assert (HH : e = fst (e, k')) by auto. injection H as H _. rewrite <- H. clear H HH.
    unfold mk_out. fold cs. destruct (Nat.eqb (nsum cs) 0) eqn:Z; cbn [negb andb]; rewrite ?repeat_each_map; [|reflexivity].
    apply Nat.eqb_eq in Z. rewrite (rep_nil Y cs Z). cbn. rewrite app_nil_r. destruct seg; reflexivity.
  - assert (ST : forall Q : Y0 -> R * R * R -> Prop, Forall2 Q Y vel3 ->
       (forall y w, In y Y -> Q y w -> rA y = false -> row_vel (negb (Nat.eqb (nsum cs) 0)) y w) ->
       Forall2 (row_vel (negb (Nat.eqb (nsum cs) 0))) Y (mask_fill (map rA Y) vel3 (0, 0, 0))).
    { intros Q HQ HQ2. apply (fill_rows _ rA _ _ (0, 0, 0)) in HQ. 
      eapply Forall2_impl_in; [|exact HQ]. cbn. intros y w Hy HW. destruct (rA y) eqn:RA; [unfold row_vel; rewrite RA; auto|]. apply HQ2; auto. }
    destruct (Nat.eqb (nsum cs) 0) eqn:Z; cbn [negb] in *.
    + destruct HV as [-> _]. rewrite <- Y1 in RD. apply Forall2_map_l in RD. apply (ST _ RD).
      intros y w Hy HW RA. unfold row_vel. rewrite RA. cbn beta in HW. change (snd3 (fl (fst y))) with (rR y) in HW.
      change (fst3 (fl (fst y))) with (rB y) in HW. change (fst (fst y)) with (rI y) in HW.
      destruct (flags_one y) as [Q|[Q|Q]]; injection Q as Q1 Q2 Q3; rewrite Q1, Q2 in HW; rewrite Q3, ?Q2; auto.
    + destruct HV as [HV _]. apply (ST _ HV). intros y w Hy HW RA. cbn beta in HW. unfold row_vel. rewrite RA.
      destruct (flags_one y) as [Q|[Q|Q]]; injection Q as Q1 Q2 Q3; rewrite Q1, Q2, Q3 in HW; rewrite Q3, ?Q2; auto.
      cbn [andb] in HW. unfold rA in RA. rewrite Q3 in RA. cbn [andb] in RA. destruct (rN y); [discriminate|]. exact HW.
  - destruct (Nat.eqb (nsum cs) 0) eqn:Z; [|apply HV]. apply Nat.eqb_eq in Z. rewrite (rep_nil _ _ Z). destruct HV as [_ ->]. constructor.
  - intros HC. unfold cs. rewrite rep_fill by (intros y _; apply rA_cnt). fold cs.
    destruct (Nat.eqb (nsum cs) 0) eqn:Z; [|apply HV; auto]. apply Nat.eqb_eq in Z. rewrite (rep_nil _ _ Z). destruct HV as [_ ->]. constructor.
Qed.
End Call.
