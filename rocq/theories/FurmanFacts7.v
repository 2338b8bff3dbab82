(** The Furman-Pivi code: sizes, positions and charges without any assumption
    on its parameters. *)
From Coq Require Import Lra Lia Reals Psatz.
From Verif Require Import Num NumFacts Sey SpecSey SeyFacts SeyFacts2 SeyFacts3 Furman SpecFurman FurmanFacts FurmanFacts2 FurmanFacts3 FurmanFacts4 FurmanFacts5.
Local Arguments Nat.ltb : simpl never.

Lemma mapM2_len {A B C} (f : A -> B -> option C) : forall l m r, mapM2 f l m = Some r -> length l = length m -> length r = length m.
Proof.
  induction l as [|a l IH]; intros [|b m] r H L; cbn in *; try discriminate; [injection H as <-; reflexivity|].
  destruct (f a b); [|discriminate]. cbn in H. destruct (mapM2 f l m) eqn:E; [|discriminate]. cbn in H. injection H as <-. cbn. f_equal. eapply IH; eauto.
Qed.

Lemma en_true_len sp f sr k nn E l k' : length nn = length E -> en_true sp f sr k nn E = Some (l, k') -> length l = length E.
Proof.
  intros L H. unfold en_true in H. destruct (f_ecl_energy f).
  - unfold sec_energy_hilleret_model2 in H. destruct (_ =? 0)%Z.
    + apply redraw_length in H. rewrite draw_length in H. auto.
    + destruct (_ =? 2)%Z; [|discriminate]. unfold bind in H. destruct (redraw _ _ _ _ _) as [[r k2]|] eqn:RD; [|discriminate].
      injection H as <- <-. apply redraw_length in RD. rewrite mask_put_length. rewrite draw_length in RD. auto.
  - destruct (Nat.eqb_spec (length E) 0) as [Z|_].
    + injection H as <- _. cbn. auto.
    + unfold bind in H. destruct (mapM2 _ _ _) as [r|] eqn:M; [|discriminate]. injection H as <- _.
      apply mapM2_len in M; rewrite draw_length in *; auto. rewrite combine_length. lia.
Qed.

Lemma ang_len f sr k En nx ny v k' : length nx = length En -> length ny = length En ->
  ang f sr k En nx ny = Some (v, k') -> length v = length En.
Proof.
  intros Lx Ly H. destruct (c_angle (f_e f)) as [d|] eqn:C; [|unfold ang in H; rewrite C in H; discriminate].
  destruct (ang_returns f sr k En nx ny d C Lx Ly) as (v1 & k1 & E & L). rewrite E in H. injection H as <- _. auto.
Qed.

Lemma conserve_len sp f sr rep nn E fuel : forall k En Ea En' Ea' k',
  conserve fuel sp f sr k rep nn E En Ea = Some (En', Ea', k') -> length En' = length En /\ length Ea' = length Ea.
Proof.
  induction fuel as [|fu IH]; intros k En Ea En' Ea' k' H; cbn [conserve] in H; unfold bind in H;
    (destruct (inverse_repeat _ _); [|discriminate]); destruct (Nat.eqb _ 0); try discriminate; try (injection H as <- <- _; auto).
  destruct (en_true _ _ _ _ _ _) as [[l1 k1]|]; [|discriminate]. destruct (mask_set _ Ea _) as [Ea1|] eqn:M1; [|discriminate].
  destruct (en_true _ _ _ _ _ _) as [[l2 k2]|]; [|discriminate]. destruct (mask_set _ En _) as [En1|] eqn:M2; [|discriminate].
  apply mask_set_length in M1. apply mask_set_length in M2. apply IH in H. destruct H. split; congruence.
Qed.

Section Shape.
Context (f : fpar) (sp : spfun) (fs : fsrc).

Lemma fp_back_len ps bs vel k v k' : fp_back sp f (f_src fs) ps bs vel k = Some (v, k') -> length v = length vel.
Proof.
  unfold fp_back, bind. destruct (f_ecl_energy f).
  - destruct (mask_set _ _ _) as [r|] eqn:M; [|discriminate]. intros H. injection H as <- _. eapply mask_set_length; eauto.
  - destruct (ang _ _ _ _ _ _) as [[v1 k1]|]; [|discriminate]. destruct (mask_set _ _ _) as [r|] eqn:M; [|discriminate].
    intros H. injection H as <- _. eapply mask_set_length; eauto.
Qed.

Lemma fp_redi_len ps bs vel k v k' : fp_redi f (f_src fs) ps bs vel k = Some (v, k') -> length v = length vel.
Proof.
  unfold fp_redi, bind. destruct (f_excl f); [intros H; injection H as <- _; auto|].
  destruct (ang _ _ _ _ _ _) as [[v1 k1]|]; [|discriminate]. destruct (mask_set _ _ _) as [r|] eqn:M; [|discriminate].
  intros H. injection H as <- _. eapply mask_set_length; eauto.
Qed.

Lemma fp_true_len cfuel sr ps ts ns vel k vel' news k' : length ts = length ps -> length ns = count_true ts ->
  let nem := mask_put ts (map (fun _ => 0%nat) ps) ns in
  fp_true cfuel sp f sr ps ts nem ns vel k = Some (vel', news, k') ->
  length vel' = length vel /\ length news = nsum (map (fun n => (n - 1)%nat) nem).
Proof.
  intros L LN nem H. set (zero := map (fun _ => 0%nat) ps) in *.
  assert (LZ : length zero = length ts) by (unfold zero; rewrite map_length; auto).
  assert (FZ : Forall (fun n => n = 0%nat) zero) by (unfold zero; apply Forall_forall; intros x Hx; apply in_map_iff in Hx; destruct Hx as (? & <- & _); auto).
  unfold fp_true in H. pose proof (true_added ts zero ns LZ LN) as TA. pose proof (added_sum ts zero ns LZ LN FZ) as AS. fold nem in TA, AS.
  unfold bind in H. destruct (en_true _ _ _ _ _ _) as [[En k1]|]; [|discriminate].
  destruct (Nat.eqb_spec (nsum (map (fun n => (n - 1)%nat) nem)) 0) as [Z|Z]; [injection H as <- <- _; auto|].
  destruct (en_true sp f sr k1 _ _) as [[Ea k2]|] eqn:EA; [|discriminate].
  assert (LE : length (repeat_each (map i_E ps) (map (fun n => (n - 1)%nat) nem)) = nsum (map (fun n => (n - 1)%nat) nem)).
  { apply repeat_each_length. rewrite !map_length. unfold nem. rewrite mask_put_length. lia. }
  apply en_true_len in EA.
  2:{ rewrite LE, TA, repeat_each_length by (rewrite map_length; auto). auto. }
  destruct (if f_conserve f then _ else _) as [[[En1 Ea1] k3]|] eqn:CO; [|discriminate].
  assert (LA : length Ea1 = length Ea).
  { destruct (f_conserve f); [apply conserve_len in CO; tauto|injection CO as _ <- _; auto]. }
  destruct (ang f sr k3 _ _ _) as [[v k4]|]; [|discriminate]. destruct (mask_set _ vel v) as [vel1|] eqn:MS; [|discriminate].
  destruct (ang f sr k4 _ _ _) as [[va k5]|] eqn:AV; [|discriminate]. injection H as <- <- _.
  split; [eapply mask_set_length; eauto|]. apply ang_len in AV.
  - rewrite AV, LA, EA, LE. auto.
  - rewrite LA, EA, LE. apply repeat_each_length. rewrite !map_length. unfold nem. rewrite mask_put_length. lia.
  - rewrite LA, EA, LE. apply repeat_each_length. rewrite !map_length. unfold nem. rewrite mask_put_length. lia.
Qed.

Notation Y0 := (imp * R * nat)%type.

Theorem fp_shape cfuel th seg ps k e k' : fp_impacts cfuel sp f fs th seg ps k = Some (e, k') ->
  exists (Y : list Y0) V NV,
    map rI Y = ps /\ (forall y, In y Y -> rT f y = false -> rN y = 0%nat) /\
    e = mk_out f seg Y V NV /\ length V = length Y /\ length NV = nsum (map (fun y => (rN y - 1)%nat) Y).
Proof.
  intros H. unfold fp_impacts, bind in H.
  destruct (fp_yields f ps) as [dl|] eqn:YD; [|discriminate]. unfold fp_yields in YD.
  destruct (existsb _ _) in YD; [discriminate|]. injection YD as <-.
  change (map (fun p : imp => (delta_e f (i_E p) (i_ct p), delta_r f (i_E p) (i_ct p), delta_ts f (i_E p) (i_ct p))) ps) with (map (yl f) ps) in H.
  set (us := draw (s_uni (f_src fs)) k (length ps)) in *.
  set (L := combine ps us). assert (LU : length ps = length us) by (unfold us; rewrite draw_length; auto).
  destruct (combine_fst_snd ps us LU) as [L1 L2]. fold L in L1, L2.
  assert (FL : map2 (fp_flags (f_excl f)) (map (yl f) ps) us = map (fl f) L).
  { rewrite <- L1, <- L2 at 1. rewrite map_map, map2_maps. auto. }
  rewrite FL in H. rewrite !map_map in H.
  assert (LL : length L = length ps) by (rewrite <- L1, map_length; auto).
  destruct (fp_back _ _ _ _ _ _ _) as [[vel1 k1]|] eqn:BK; [|discriminate]. apply fp_back_len in BK. rewrite map_length in BK.
  destruct (fp_redi _ _ _ _ _ _) as [[vel2 k2]|] eqn:RD; [|discriminate]. apply fp_redi_len in RD.
  set (ts := map (fun x => thd3 (fl f x)) L) in *.
  assert (LTS : length ts = length ps) by (unfold ts; rewrite map_length; auto).
  assert (HN : exists nem vel3 news k3, length nem = length ps /\
     Forall2 (fun x n => thd3 (fl f x) = false -> n = 0%nat) L nem /\ length vel3 = length ps /\
     length news = nsum (map (fun n => (n - 1)%nat) nem) /\
     (if Nat.eqb (count_true ts) 0 then Some (map (fun _ => 0%nat) ps, vel2, [], k2)
       else match fp_numbers f fs (map (yl f) ps) ts k2 with
        | Some (ns, k) => match fp_true cfuel sp f (f_src fs) ps ts (mask_put ts (map (fun _ => 0%nat) ps) ns) ns vel2 k with
           | Some (vel, news, k) => Some (mask_put ts (map (fun _ => 0%nat) ps) ns, vel, news, k)
           | None => None end
        | None => None end) = Some (nem, vel3, news, k3)).
  { destruct (Nat.eqb (count_true ts) 0) eqn:Z.
    - exists (map (fun _ => 0%nat) ps), vel2, [], k2. split; [apply map_length|]. split; [|split; [lia|split; [|auto]]].
      + revert LL. generalize L ps. clear. intros l. induction l as [|x l IH]; intros [|p q] E; try discriminate; constructor; auto.
      + clear. induction ps; cbn; auto.
    - destruct (fp_numbers _ _ _ _ _) as [[ns k3]|] eqn:NU; [|discriminate].
      destruct (fp_true _ _ _ _ _ _ _ _ _ _) as [[[vel3 news] k4]|] eqn:TR; [|discriminate].
      unfold fp_numbers, bind in NU. set (lam := map _ _) in NU. destruct (poisson _ _ _) as [n0|] eqn:PO; [|discriminate].
      apply poisson_len in PO. apply cut_rounds_ok in NU; auto. destruct NU as [LN _].
      assert (LNS : length ns = count_true ts).
      { rewrite LN, PO. unfold lam. rewrite map_length, mask_get_length; auto. rewrite map_length. auto. }
      apply fp_true_len in TR; auto. destruct TR as (T1 & T2).
      exists (mask_put ts (map (fun _ => 0%nat) ps) ns), vel3, news, k4.
      split; [rewrite mask_put_length, map_length; auto|]. split; [|split; [lia|split; [exact T2|auto]]].
      assert (FF : Forall2 (fun x n => if thd3 (fl f x) then True else n = 0%nat) L (mask_put ts (map (fun _ => 0%nat) ps) ns)).
      { unfold ts. apply (put_rows (fun _ n => True) (fun _ n => n = 0%nat)).
        - apply Forall2_const; [rewrite map_length; auto|]. apply Forall_map. apply Forall_forall. auto.
        - fold ts. assert (E : length (mask_get ts L) = length ns) by (rewrite mask_get_length; [auto|unfold ts; rewrite map_length; auto]).
          apply Forall2_const; auto. apply Forall_forall. auto. }
      revert FF. clear. intros FF. induction FF; constructor; auto. intros E. rewrite E in H. auto. }
  destruct HN as (nem & vel3 & news & k3 & LNE & PT & LV & LW & HE). rewrite HE in H. clear HE.
  assert (LY : length L = length nem) by lia. destruct (combine_fst_snd L nem LY) as [Y1 Y2].
  set (Y := combine L nem) in *.
  assert (E1 : map rI Y = ps) by (rewrite <- L1, <- Y1, map_map; auto).
  assert (E2 : map rN Y = nem) by (exact Y2).
  assert (EB : forall {A} (g : imp * R -> A), map g L = map (fun y : Y0 => g (fst y)) Y) by (intros; rewrite <- Y1, map_map; auto).
  set (cs := map (fun y => (rN y - 1)%nat) Y) in *.
  assert (LYP : length Y = length ps) by (unfold Y; rewrite combine_length; lia).
  exists Y, (mask_fill (map (rA f) Y) vel3 (0, 0, 0)), news. split; auto. split; [|split; [|split]].
  - intros [x n] Hy. apply (Forall2_In_combine _ _ _ _ _ PT Hy).
  - unfold ts in H. rewrite !EB, <- E2, <- E1 in H.
    change (fun y : Y0 => fst3 (fl f (fst y))) with (rB f) in H. change (fun y : Y0 => snd3 (fl f (fst y))) with (rR f) in H.
    change (fun y : Y0 => thd3 (fl f (fst y))) with (rT f) in H.
    assert (AB : map2 andb (map (rT f) Y) (map (fun n => Nat.eqb n 0) (map rN Y)) = map (rA f) Y).
    { rewrite map_map, map2_maps. auto. }
    rewrite AB in H.
    assert (NE : (if f_excl f then mask_fill (map (rB f) Y) (map rN Y) 1%nat
                  else mask_fill (map (rR f) Y) (mask_fill (map (rB f) Y) (map rN Y) 1%nat) 1%nat) = map (rE f) Y).
    { rewrite !fill_map. destruct (f_excl f) eqn:X; [|]; rewrite ?fill_map; apply map_ext_in; intros y Hy; unfold rE;
      destruct (flags_one f y) as [Q|[Q|Q]]; injection Q as -> Q2 ->; rewrite ?Q2; auto.
      rewrite (flags_excl f y X) in Q2. discriminate. }
    rewrite NE in H.
    assert (EV : (if f_excl f then map2 (fun e n : nat => if Nat.eqb n 0 then 3%nat else e)
                    (map (fun y : Y0 => if thd3 (fl f (fst y)) then 1%nat else 0%nat) Y) (map (rE f) Y)
                  else map2 (fun (e : nat) (b : bool) => (e + 2 * (if b then 1 else 0))%nat)
                    (map2 (fun e n : nat => if Nat.eqb n 0 then 3%nat else e)
                      (map (fun y : Y0 => if thd3 (fl f (fst y)) then 1%nat else 0%nat) Y) (map (rE f) Y)) (map (rR f) Y)) = map (rK f) Y).
    { rewrite !map2_maps. change (fun x : Y0 => if Nat.eqb (rE f x) 0 then 3%nat else if thd3 (fl f (fst x)) then 1%nat else 0%nat)
        with (fun x : Y0 => if Nat.eqb (rE f x) 0 then 3%nat else if rT f x then 1%nat else 0%nat).
      destruct (f_excl f) eqn:X; apply map_ext_in; intros y Hy; change (thd3 (fl f (fst y))) with (rT f y); unfold rE, rK;
      destruct (flags_one f y) as [Q|[Q|Q]]; injection Q as -> Q2 ->; rewrite ?Q2; auto.
      all: try (rewrite (flags_excl f y X) in Q2; discriminate).
      all: destruct (Nat.eqb (rN y) 0); auto. }
    rewrite EV in H. clear EV NE AB. rewrite !map_map, !map2_maps, !fill_map in H. 
    change (map (fun x => (rN x - 1)%nat) Y) with cs in H.
    rewrite !repeat_each_map in H.
    injection H as H _. rewrite <- H. clear H.
    unfold mk_out. fold cs. destruct (Nat.eqb (nsum cs) 0) eqn:Z; cbn [negb andb]; rewrite ?repeat_each_map; [|reflexivity].
    apply Nat.eqb_eq in Z. rewrite (rep_nil Y cs Z). cbn. rewrite app_nil_r. destruct seg; reflexivity.
  - rewrite mask_fill_length. congruence.
  - rewrite LW, <- E2, map_map. reflexivity.
Qed.
End Shape.
