(** Charge, positions and histograms of one call, and runs. *)
From Coq Require Import Lra Lia Reals Psatz.
From Verif Require Import Num NumFacts Fort FortFacts MP SpecMP SpecFort MPFacts Push SpecPush PushFacts
  Geom Poly Sey SpecSey SeyFacts SeyFacts2 SeyFacts3 Impact SpecImpact ImpactFacts ImpactFacts2.

Section Call.
Context {S : Type}.
Variables (w : wall) (c : icfg) (em : R -> bool -> list imp -> S -> option (emis * S)) (time : R)
  (old : list R * list R * list R) (g : iman) (s : mpsys) (st : S) (g' : iman) (s' : mpsys) (st' : S).
Hypothesis HW : wall_ok w.
Hypothesis HE : emitter_ok w em.
Hypothesis W : wf s.
Hypothesis KL : k_life c = flag_lifetime_hist s.
Hypothesis OS : old_sized (N_mp s) old.
Hypothesis SP : 0 < nel_mp_split s.
Hypothesis H : backtrack_and_second_emiss w c em time old g s st = Some (g', s', st').
Hypothesis HN : (N_mp s' <= capacity s)%nat.

Lemma hits_sized hs : w_hit w (map2 mk_track (combine (combine (mask_get (lmask w s) (fst (fst old)))
       (mask_get (lmask w s) (snd (fst old)))) (mask_get (lmask w s) (snd old))) (hitters w s)) = Some hs ->
  length hs = length (hitters w s).
Proof.
  intros E. apply (proj1 HW) in E. rewrite E. destruct old as [[xo yo] zo]. destruct OS as (O1 & O2 & O3).
  rewrite map2_length, !combine_length. cbn [fst snd].
  rewrite !mask_get_length, hitters_count by (rewrite lmask_length; auto). lia.
Qed.

(** All that a call does, with the emission contract applied. *)
Lemma call_pieces :
  (hitters w s = [] /\ g' = zero_last g /\ s' = s /\ st' = st) \/
  (hitters w s <> [] /\ exists hs ps e lh g1 g2, wall_step w c em time old g s st g' s' st' hs ps e lh g1 g2 /\
     length hs = length (hitters w s) /\ length ps = length (hitters w s) /\
     Forall2 (fun hm q => impact_of c (fst hm) (snd hm) q) (combine hs (hitters w s)) ps /\
     emission_ok w (k_seg c) ps e /\
     live s' = mask_put (lmask w s) (live s) (reps e (length (hitters w s)) (tval s time)) ++ news e (tval s time) /\
     wf s' /\ (tail_zero s -> tail_zero s') /\ same_cfg s s' /\
     nel_mp_ref s' = nel_mp_ref s /\ nel_mp_split s' = nel_mp_split s /\ nel_mp_cl_th s' = nel_mp_cl_th s).
Proof.
  destruct (backtrack_pieces w c em time old g s st g' s' st' W KL OS H) as [A|(A & hs & ps & e & lh & g1 & g2 & B)]; [left; auto|].
  right. split; auto. exists hs, ps, e, lh, g1, g2. split; auto. destruct B as [B1 B2 B3 B4 B5 B6 B7 B8].
  assert (LH := hits_sized hs B1). destruct (B3 LH) as [LP F]. assert (EO := HE _ _ _ _ _ _ SP B5).
  assert (SZ : emis_sized (length (hitters w s)) (k_seg c) e) by (rewrite <- LP; apply EO).
  destruct (B8 SZ HN) as (L & W' & TZ & SC & R1 & R2 & R3). repeat (split; [solve [auto]|]). auto.
Qed.

Lemma call_untouched : forall i, (i < N_mp s)%nat -> beyond_wall w (mp_at s i) = false ->
  (i < N_mp s')%nat /\ mp_at s' i = mp_at s i.
Proof.
  intros i Hi Hb. destruct call_pieces as [(_ & _ & -> & _)|(_ & hs & ps & e & lh & g1 & g2 & _ & _ & _ & _ & _ & L & _)]; auto.
  assert (NS : nth_error (live s) i = Some (mp_at s i)).
  { unfold live. rewrite (map_nth_error (mp_at s) i _ (d := i)); auto.
    rewrite (nth_error_nth' _ 0%nat) by (rewrite seq_length; auto). rewrite seq_nth; auto. }
  assert (ML : nth i (lmask w s) false = false).
  { unfold lmask. destruct (nth_error (live s) i) eqn:E; [|discriminate]. injection NS as ->.
    rewrite (nth_error_nth (map (beyond_wall w) (live s)) i false (x := false)); auto.
    rewrite (map_nth_error _ _ _ E). congruence. }
  assert (NS' : nth_error (live s') i = Some (mp_at s i)).
  { rewrite L. rewrite nth_error_app1 by (rewrite mask_put_length, live_length; auto).
    rewrite mask_put_nth_false by auto. auto. }
  assert (LI : (i < N_mp s')%nat).
  { rewrite <- (live_length s'). apply nth_error_Some. congruence. }
  split; auto. assert (NS2 : nth_error (live s') i = Some (mp_at s' i)).
  { unfold live. rewrite (map_nth_error (mp_at s') i _ (d := i)); auto.
    rewrite (nth_error_nth' _ 0%nat) by (rewrite seq_length; auto). rewrite seq_nth; auto. }
  congruence.
Qed.

Lemma call_wf : wf s' /\ (tail_zero s -> tail_zero s') /\ same_cfg s s' /\ (N_mp s <= N_mp s')%nat /\
  nel_mp_ref s' = nel_mp_ref s /\ nel_mp_split s' = nel_mp_split s /\ nel_mp_cl_th s' = nel_mp_cl_th s.
Proof.
  destruct call_pieces as [(_ & _ & -> & _)|(_ & hs & ps & e & lh & g1 & g2 & _ & _ & _ & _ & _ & L & W' & TZ & SC & R)].
  - repeat (split; [auto; unfold same_cfg; auto|]). auto.
  - split; [auto|]. split; auto. split; auto. split; auto.
    rewrite <- (live_length s'), L, app_length, mask_put_length, live_length. lia.
Qed.

(** * Charge *)
Lemma count_impacts_last gg ps gg' : count_impacts c gg ps = Some gg' ->
  l_nimp gg' = rsum (map i_nel ps) /\ l_eimp gg' = rsum (map (fun p => i_E p * i_nel p) ps).
Proof.
  unfold count_impacts, bind. intros E.
  repeat match type of E with match ?x with _ => _ end = _ => destruct x; [|discriminate] end.
  injection E as <-. auto.
Qed.

Lemma count_emitted_last gg nel x vx vy vz seg add gg' : count_emitted c gg nel x vx vy vz seg add = Some gg' ->
  l_nimp gg' = l_nimp gg /\ l_nemit gg' = l_nemit gg /\ l_eimp gg' = l_eimp gg.
Proof.
  unfold count_emitted, bind. intros E. destruct (compute_hist _ _ _ _); [|discriminate]. injection E as <-. auto.
Qed.

Lemma imps_nel hs ps : Forall2 (fun hm q => impact_of c (fst hm) (snd hm) q) (combine hs (hitters w s)) ps ->
  length hs = length (hitters w s) -> map i_nel ps = map m_nel (hitters w s).
Proof.
  generalize (hitters w s) as l. intros l F. remember (combine hs l) as z eqn:Z. revert hs l Z.
  induction F as [|[h m] q z ps I F IH]; intros [|h' hs] [|m' l] Z L; try discriminate; auto.
  cbn in Z. injection Z as -> -> Z. cbn. f_equal; [apply I|]. eapply IH; eauto.
Qed.

Lemma step_last hs ps e lh g1 g2 : wall_step w c em time old g s st g' s' st' hs ps e lh g1 g2 ->
  l_nimp g' = rsum (map i_nel ps) /\ l_nemit g' = rsum (o_tot e) /\
  l_eimp g' = rsum (map (fun p => i_E p * i_nel p) ps).
Proof.
  intros [B1 B2 B3 B4 B5 B6 B7 B8]. apply count_impacts_last in B4. destruct B4 as [A1 A2].
  apply count_emitted_last in B6. cbn [set_last l_nimp l_nemit l_eimp] in B6. destruct B6 as (A3 & A4 & A5).
  destruct B7 as [[_ ->]|[_ B7]]; [repeat split; congruence|].
  apply count_emitted_last in B7. destruct B7 as (A6 & A7 & A8). repeat split; congruence.
Qed.

Lemma call_charge :
  charge s' = charge s - l_nimp g' + l_nemit g' /\ l_nimp g' = charge_of (hitters w s).
Proof.
  destruct call_pieces as [(A & -> & -> & _)|(_ & hs & ps & e & lh & g1 & g2 & WS & LH & LP & F & EO & L & _)].
  - cbn. rewrite A. unfold charge_of; cbn. change (rsum []) with 0. lra.
  - destruct (step_last _ _ _ _ _ _ WS) as (A1 & A2 & _). rewrite A1, A2, (imps_nel hs ps F LH).
    split; [|reflexivity]. unfold charge at 1. rewrite L, map_app, rsum_app.
    assert (SZ := eo_sized _ _ _ _ EO). rewrite LP in SZ.
    assert (RL := reps_lens e _ _ (tval s time) SZ). assert (NL := news_lens e _ _ (tval s time) SZ).
    rewrite put_charge; [|rewrite lmask_length, live_length; auto|unfold reps; rewrite (zip8_length _ _ _ _ _ _ _ _ _ RL); apply hitters_count].
    unfold reps, news. rewrite (zip8_nel _ _ _ _ _ _ _ _ _ RL), (zip8_nel _ _ _ _ _ _ _ _ _ NL).
    rewrite <- hitters_mask. rewrite <- (eo_charge _ _ _ _ EO). unfold charge. lra.
Qed.

(** The emitted charge is the output of the emission model for impacts that
    describe the MPs that hit the wall. *)
Lemma call_emission : hitters w s <> [] -> exists hs ps e,
  Forall2 (fun hm q => impact_of c (fst hm) (snd hm) q) (combine hs (hitters w s)) ps /\ length hs = length (hitters w s) /\
  em (nel_mp_split s) (k_seg c) ps st = Some (e, st') /\ l_nemit g' = rsum (o_tot e).
Proof.
  intros NE. destruct call_pieces as [(A & _)|(_ & hs & ps & e & lh & g1 & g2 & WS & LH & LP & F & EO & L & _)]; [easy|].
  exists hs, ps, e. repeat (split; [solve [auto]|]). split; [exact (ws_emit _ _ _ _ _ _ _ _ _ _ _ _ _ _ _ _ _ WS)|]. apply (step_last _ _ _ _ _ _ WS).
Qed.

(** * Positions *)
Lemma put_Forall {A} (P : A -> Prop) (f : A -> bool) l v :
  (forall x, In x l -> f x = false -> P x) -> Forall P v -> length v = count_true (map f l) ->
  Forall P (mask_put (map f l) l v).
Proof.
  revert v. induction l as [|x l IH]; intros v Hl Hv L; cbn; [constructor|].
  destruct (f x) eqn:Fx; cbn in L; fold (count_true (map f l)) in L; rewrite ?Fx in L.
  - destruct v as [|y v]; [discriminate|]. inversion Hv; subst. constructor; auto. apply IH; auto.
    intros z Hz; apply Hl; right; auto.
  - constructor; [apply Hl; auto; left; auto|]. apply IH; auto. intros z Hz; apply Hl; right; auto.
Qed.

Lemma zip8_Forall_xy (Q : R -> R -> Prop) n : forall a b d e f g h i, lens8 n a b d e f g h i ->
  Forall2 Q a b -> Forall (fun p => Q (m_x p) (m_y p)) (zip8 a b d e f g h i).
Proof.
  induction n as [|n IH]; intros a b d e f g0 h i (Ha & Hb & Hc & Hd & He & Hf & Hg & Hh) F; dl8; [constructor|].
  inversion F; subst. cbn. constructor; auto. apply IH; auto. repeat split; auto.
Qed.

Lemma Forall2_maps {A} (Q : R -> R -> Prop) (f h : A -> R) l : Forall (fun x => Q (f x) (h x)) l -> Forall2 Q (map f l) (map h l).
Proof. induction 1; cbn; constructor; auto. Qed.

Lemma tracks_inside : old_inside w old ->
  Forall (fun k => w_out w (t_xin k) (t_yin k) = false)
    (map2 mk_track (combine (combine (mask_get (lmask w s) (fst (fst old)))
       (mask_get (lmask w s) (snd (fst old)))) (mask_get (lmask w s) (snd old))) (hitters w s)).
Proof using OS.
  clear H. destruct old as [[xo yo] zo]. destruct OS as (O1 & O2 & O3). cbn [fst snd]. intros OI. unfold old_inside in OI.
  assert (F2 : Forall2 (fun x y => w_out w x y = false) xo yo).
  { clear - OI O1 O2. assert (L : length xo = length yo) by congruence. clear O1 O2. revert yo L OI.
    induction xo as [|x xo IH]; intros [|y yo] L OI; try discriminate; constructor.
    - apply (OI 0%nat). cbn; lia.
    - apply IH; auto. intros i Hi. apply (OI (Datatypes.S i)). cbn; lia. }
  assert (F3 : Forall2 (fun x y => w_out w x y = false) (mask_get (lmask w s) xo) (mask_get (lmask w s) yo)).
  { generalize (lmask w s). clear - F2. induction F2; intros [|b m]; cbn; try constructor. destruct b; auto. }
  revert F3. generalize (mask_get (lmask w s) xo) (mask_get (lmask w s) yo) (mask_get (lmask w s) zo) (hitters w s). clear.
  intros a b z l F. revert z l. induction F as [|x y a b HQ F IH]; intros [|c z] [|p l]; cbn; constructor; auto.
Qed.

Lemma imps_inside hs ps : Forall2 (fun hm q => impact_of c (fst hm) (snd hm) q) (combine hs (hitters w s)) ps ->
  Forall (fun hi => w_out w (h_x (fst hi)) (h_y (fst hi)) = false) hs ->
  Forall (fun p => w_out w (i_x p) (i_y p) = false) ps.
Proof.
  generalize (hitters w s) as l. intros l F. remember (combine hs l) as z eqn:Z. revert hs l Z.
  induction F as [|[h m] q z ps I F IH]; intros [|h' hs] [|m' l] Z L; try discriminate; auto.
  cbn in Z. injection Z as -> -> Z. inversion L; subst. constructor; [|eapply IH; eauto].
  destruct I as (_ & X & Y & _). cbn in *. rewrite X, Y. auto.
Qed.

Lemma Forall2_snd {A B} (P : B -> Prop) (a : list A) b : Forall2 (fun _ y => P y) a b -> Forall P b.
Proof. induction 1; constructor; auto. Qed.

Lemma step_imps_inside hs ps e lh g1 g2 : old_inside w old ->
  wall_step w c em time old g s st g' s' st' hs ps e lh g1 g2 ->
  Forall2 (fun hm q => impact_of c (fst hm) (snd hm) q) (combine hs (hitters w s)) ps ->
  Forall (fun p => w_out w (i_x p) (i_y p) = false) ps.
Proof.
  intros OI WS F. apply (imps_inside hs ps F).
  destruct (proj2 HW _ (tracks_inside OI)) as (hs' & E & FH). rewrite (ws_hits _ _ _ _ _ _ _ _ _ _ _ _ _ _ _ _ _ WS) in E.
  injection E as <-. apply Forall2_snd in FH. auto.
Qed.

Lemma nth_F2 (P : R -> R -> Prop) : forall a b, length a = length b -> (forall i, (i < length a)%nat -> P (nth i a 0) (nth i b 0)) -> Forall2 P a b.
Proof.
  induction a as [|x a IH]; intros [|y b] L HH; try discriminate; constructor.
  - apply (HH 0%nat). cbn. lia.
  - apply IH; [auto|]. intros i Hi. apply (HH (Datatypes.S i)). cbn. lia.
Qed.

Lemma F2_left (P : R -> R -> Prop) (Q : R -> Prop) a b : (forall x y, P x y -> Q x) -> Forall2 P a b -> Forall Q a.
Proof. intros HH F. induction F; constructor; eauto. Qed.

Lemma eo_inside seg ps e : emission_ok w seg ps e -> Forall (fun p => w_out w (i_x p) (i_y p) = false) ps ->
  Forall2 (fun x y => w_out w x y = false) (o_x e) (o_y e).
Proof.
  intros EO PI. assert (SZ := eo_sized _ _ _ _ EO). destruct SZ as (_ & _ & _ & S4 & S5 & _).
  apply nth_F2; [congruence|]. intros i Hi. rewrite S4 in Hi.
  destruct (eo_at _ _ _ _ EO i Hi) as [E|(E & O)]; injection E as -> ->; [|exact O].
  rewrite Forall_forall in PI. apply PI. apply nth_In. auto.
Qed.

Lemma call_inside : old_inside w old -> Forall (fun p => beyond_wall w p = false) (live s').
Proof.
  intros OI. destruct call_pieces as [(A & _ & -> & _)|(_ & hs & ps & e & lh & g1 & g2 & WS & LH & LP & F & EO & L & _)].
  - apply Forall_forall. intros p Hp. destruct (beyond_wall w p) eqn:B; auto. exfalso.
    assert (In p (hitters w s)) by (apply filter_In; auto). rewrite A in *. auto.
  - assert (PI := step_imps_inside _ _ _ _ _ _ OI WS F). rewrite L. apply Forall_app.
    assert (SZ := eo_sized _ _ _ _ EO). rewrite LP in SZ.
    assert (RL := reps_lens e _ _ (tval s time) SZ). assert (NL := news_lens e _ _ (tval s time) SZ).
    split.
    + apply put_Forall; auto.
      * unfold reps. eapply (zip8_Forall_xy (fun x y => w_out w x y = false)); [exact RL|].
        apply eo_inside with (seg := k_seg c) (ps := ps); auto.
      * unfold reps. rewrite (zip8_length _ _ _ _ _ _ _ _ _ RL). apply hitters_count.
    + unfold news. eapply (zip8_Forall_xy (fun x y => w_out w x y = false)); [exact NL|].
      destruct (eo_new _ _ _ _ EO) as (cs & NX & NY & _). rewrite NX, NY. apply Forall2_maps.
      apply Forall_forall. intros p Hp. apply repeat_each_In in Hp. rewrite Forall_forall in PI. auto.
Qed.
End Call.
