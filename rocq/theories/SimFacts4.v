(** Soundness of the macroparticles over a time step. *)
From Coq Require Import String Lra Lia.
From Verif Require Import Num NumFacts MP SpecMP MPFacts MPFacts2 SpecRegen RegenFacts RegenFacts2 SpecTrig TrigFacts Push SpecPush PushFacts Geom Poly
  Sey SpecSey Impact SpecImpact ImpactFacts ImpactFacts2 ImpactFacts3 ImpactFacts5 Beam SpecBeam BeamFacts
  Source SpecSource SourceFacts2 SourceFacts3 SourceFacts4 CrossIon SpecCrossIon CrossIonFacts2 CrossIonFacts3 Sim SpecSim SimFacts SimFacts3.
Local Open Scope list_scope.
Local Open Scope R_scope.

(** * Motion *)
Definition moved (s s' : mpsys) : Prop := exists g, moves_each g s s'.

Lemma moved_refl s : moved s s.
Proof. exists (fun _ p => p). unfold moves_each. do 3 (split; [auto|]). split; [intros W; split; auto; apply same_cfg_refl|]. auto 10. Qed.

Lemma moved_trans a b c : moved a b -> moved b c -> moved a c.
Proof.
  intros [f (F1 & F2 & F3 & F4 & F5 & F6 & F7 & F8 & F9)] [g (G1 & G2 & G3 & G4 & G5 & G6 & G7 & G8 & G9)].
  exists (fun i p => g i (f i p)). unfold moves_each. do 3 (split; [congruence|]). split.
  - intros W. destruct (F4 W) as [W1 (A1 & A2 & A3 & A4 & A5)]. destruct (G4 W1) as [W2 (B1 & B2 & B3 & B4 & B5)]. split; auto.
    unfold same_cfg. repeat split; congruence.
  - do 3 (split; [congruence|]). split.
    + intros i Hi. rewrite G8 by congruence. rewrite F8 by auto. auto.
    + intros W i Hi. destruct (F4 W) as [W1 _]. rewrite G9 by (auto; congruence). apply F9; auto.
Qed.

Lemma loop_moved (st : (nat -> R * R) -> mpsys -> mpsys) sc kick main secs : (forall E, motion (st E)) ->
  forall n s s', motion_loop n st sc kick main secs s = Some s' -> moved s s'.
Proof.
  intros M. induction n as [|n IH]; intros s s' H; cbn [motion_loop] in H; [injection H as <-; apply moved_refl|].
  destruct (gather_field _ _ _ _ _) as [E|]; [|discriminate]. cbn [bind] in H. eapply moved_trans; [apply (M E)|eauto].
Qed.

Lemma motion_moved e a main secs sc c s s' : (forall E, motion (d_step (a_dyn c) E)) -> (forall E h n, motion (d_custom (a_dyn c) E h n)) ->
  cloud_motion e a main secs sc c s = Some s' -> moved s s'.
Proof.
  intros M1 M2 H. unfold cloud_motion in H. destruct (sub_steps _ _ _ _) as [sub|]; [|discriminate]. cbn [bind] in H.
  match type of H with bind ?x _ = _ => destruct x as [s1|] eqn:EK end; [|discriminate]. cbn [bind] in H.
  assert (K : moved s s1).
  { destruct (s_kick a); [|injection EK as <-; apply moved_refl]. destruct (s_Nsub a); [|discriminate]. destruct (s_Dtsub a); [|discriminate].
    unfold apply_kick in EK. destruct (field_from_beams _ _ _) as [[ex ey]|]; [|discriminate]. cbn [bind] in EK. injection EK as <-.
    eexists. apply push_moves. }
  eapply moved_trans; [exact K|]. destruct (e_reinterp e || s_force_re a).
  - destruct sub as [[h n]|]; [|discriminate]. eapply loop_moved; [|exact H]. intros E. apply M2.
  - destruct sub as [[h n]|]; (eapply loop_moved; [|exact H]); intros E; [apply M2|apply M1].
Qed.

Lemma get_positions_live s : wf s -> get_positions s = positions s.
Proof. intros W. unfold get_positions, positions. destruct (live_cols s W) as (A & B & C & _). rewrite A, B, C. auto. Qed.

(** * Wall *)
Lemma mask_set_length {A} m (a v r : list A) : mask_set m a v = Some r -> List.length r = List.length a.
Proof.
  unfold mask_set. intros H. repeat match type of H with context [match ?x with _ => _ end] => destruct x; try discriminate end;
    injection H as <-; rewrite ?mask_put_length, ?mask_fill_length; auto.
Qed.

Lemma call_capacity {S : Type} w c (em : R -> bool -> list imp -> S -> option (emis * S)) time old g s st g' s' st' : wf s ->
  backtrack_and_second_emiss w c em time old g s st = Some (g', s', st') -> List.length (x_mp s') = List.length (x_mp s).
Proof.
  intros W. unfold backtrack_and_second_emiss. destruct old as [[xo yo] zo]. cbv zeta.
  destruct (Nat.eqb _ 0); [intros E; injection E; intros; subst; auto|].
  destruct (Nat.eqb _ 0); [intros E; injection E; intros; subst; auto|].
  unfold bind. destruct (w_hit _ _); [|discriminate]. destruct (life_part _ _ _ _ _ _) as [[lh tl]|]; [|discriminate].
  destruct (zip_imps _ _ _ _ _ _); [|discriminate]. destruct (count_impacts _ _ _); [|discriminate].
  destruct (em _ _ _ _) as [[e st1]|]; [|discriminate].
  destruct (replace_MPs _ _ _ _) as [s1|] eqn:ER; [|discriminate].
  assert (N1 : List.length (x_mp s1) = List.length (x_mp s) /\ N_mp s1 = N_mp s).
  { clear - ER. unfold replace_MPs, bind in ER.
    match type of ER with match ?x with _ => _ end = _ => destruct x as [x1|] eqn:EX; [|discriminate] end.
    repeat match type of ER with match ?x with _ => _ end = _ => destruct x; [|discriminate] end. injection ER as <-. cbn. split; auto.
    eapply mask_set_length; eauto. }
  destruct (count_emitted _ _ _ _ _ _ _ _ _); [|discriminate].
  destruct (Nat.eqb _ 0); [intros E; injection E; intros; subst; tauto|].
  destruct (add_new_MPs _ _ _) as [s2|] eqn:EA; [|discriminate].
  assert (N2 : List.length (x_mp s2) = List.length (x_mp s1)).
  { clear - EA N1 W. unfold add_new_MPs, bind in EA.
    match type of EA with match ?x with _ => _ end = _ => destruct x as [x1|] eqn:EX; [|discriminate] end.
    repeat match type of EA with match ?x with _ => _ end = _ => destruct x; [|discriminate] end. injection EA as <-. cbn.
    eapply slice_set_length; [|exact EX]. destruct N1 as [A ->]. rewrite A. apply W. }
  destruct (count_emitted _ _ _ _ _ _ _ _ _); [|discriminate].
  intros E; injection E; intros; subst. rewrite N2. tauto.
Qed.

Lemma put_Forall_any {A} (P : A -> Prop) : forall m l v, Forall P l -> Forall P v -> Forall P (mask_put m l v).
Proof.
  induction m as [|b m IH]; intros [|a l] v Hl Hv; cbn [mask_put]; auto. inversion Hl; subst.
  destruct b; [destruct v; inversion Hv; subst|]; constructor; auto.
Qed.

(** The cosine of the angle of incidence is at most one when the normal is at
    most a unit vector. *)
Lemma fair_impact c hi m q : 0 < k_qe c -> 0 < k_mass c ->
  h_nx (fst hi) * h_nx (fst hi) + h_ny (fst hi) * h_ny (fst hi) <= 1 -> 0 <= m_nel m -> impact_of c hi m q -> fair q.
Proof.
  intros Q M U N (A1 & _ & _ & _ & _ & _ & _ & A8 & A9 & _ & A11 & A12 & A13 & A14 & A15).
  set (vv := m_vx m * m_vx m + m_vy m * m_vy m + m_vz m * m_vz m) in *.
  split; [rewrite A1; auto|]. split.
  - rewrite A11. unfold mp_eV, kin_eV. fold vv. apply Rmult_le_pos; [|lra]. unfold Rdiv. apply Rmult_le_pos; [lra|].
    left. apply Rinv_0_lt_compat. auto.
  - split; auto. assert (SP : 0 < sqrt vv) by (apply sqrt_lt_R0; auto).
    assert (B : Rabs (i_vn q) <= sqrt vv).
    { rewrite <- (sqrt_Rsqr_abs (i_vn q)). apply sqrt_le_1_alt. unfold Rsqr. rewrite A12. unfold normal_comp. rewrite A8, A9.
      set (a := h_nx (fst hi)) in *. set (b := h_ny (fst hi)) in *. unfold vv.
      assert (0 <= (m_vx m * b - m_vy m * a) * (m_vx m * b - m_vy m * a)) by apply Rle_0_sqr.
      assert (0 <= (m_vx m * m_vx m + m_vy m * m_vy m) * (1 - (a * a + b * b))) by (apply Rmult_le_pos; nra).
      nra. }
    rewrite <- A14 in B. apply (Rmult_le_reg_r (sqrt vv)); lra.
Qed.

Lemma call_pos {S : Type} w c (em : R -> bool -> list imp -> S -> option (emis * S)) time old g s st g' s' st' :
  wall_ok w -> emitter_ok w em -> emitter_pos em -> wf s -> k_life c = flag_lifetime_hist s -> old_sized (N_mp s) old ->
  (forall ks hs, w_hit w ks = Some hs -> Forall (fun hi => h_nx (fst hi) * h_nx (fst hi) + h_ny (fst hi) * h_ny (fst hi) <= 1) hs) ->
  0 < k_qe c /\ 0 < k_mass c ->
  0 < nel_mp_split s -> backtrack_and_second_emiss w c em time old g s st = Some (g', s', st') ->
  (N_mp s' <= capacity s)%nat -> Forall (fun p => 0 <= m_nel p) (live s) -> Forall (fun p => 0 <= m_nel p) (live s').
Proof.
  intros HW HE HP W KL OS HU [KQ KM] SP BT HN PO.
  destruct (call_pieces w c em time old g s st g' s' st' HW HE W KL OS SP BT HN)
    as [(_ & _ & -> & _)|(_ & hs & ps & e & lh & g1 & g2 & WS & LH & LP & F & EO & L & _)]; auto.
  rewrite L. destruct WS as [B1 B2 B3 B4 B5 B6 B7 B8]. destruct EO as [ES _ _ _ _ _].
  assert (PI : Forall fair ps).
  { assert (HH : Forall (fun p => 0 <= m_nel p) (hitters w s)).
    { unfold hitters. rewrite Forall_forall in *. intros p Hp. apply filter_In in Hp. apply PO. tauto. }
    apply HU in B1. clear - F HH LH B1 KQ KM. revert HH ps F LH B1. generalize (hitters w s). intros l. revert hs.
    induction l as [|m l IH]; intros [|h hs] HH ps F LH B1; cbn in *; try discriminate; inversion F; subst; auto.
    inversion HH; subst. inversion B1; subst. constructor; [|eapply IH; eauto].
    eapply fair_impact; eauto. }
  destruct (HP _ _ _ _ _ _ SP PI B5) as [P1 P2].
  assert (NN : forall l (q : list R), map m_nel l = q -> Forall (fun q => 0 <= q) q -> Forall (fun p => 0 <= m_nel p) l).
  { intros l q <- Fq. apply (Forall_map m_nel (fun q => 0 <= q)). exact Fq. }
  rewrite LP in ES. apply Forall_app. split.
  - apply put_Forall_any; auto. apply (NN _ (o_nel e)); auto.
    destruct (zip8_cols _ _ _ _ _ _ _ _ _ (reps_lens e _ _ (tval s time) ES)) as (_ & _ & _ & _ & _ & _ & Q & _). exact Q.
  - apply (NN _ (Sey.n_nel e)); auto.
    destruct (zip8_cols _ _ _ _ _ _ _ _ _ (news_lens e _ _ (tval s time) ES)) as (_ & _ & _ & _ & _ & _ & Q & _). exact Q.
Qed.

Lemma not_full s : is_full s = false -> (N_mp s < capacity s)%nat.
Proof. unfold is_full, capacity. intros H. apply Nat.leb_gt in H. auto. Qed.

(** Motion and wall handling. *)
Lemma wall_sound e c time g s s1 st g' s' st' : chamber_ok e -> set_ok e c -> sound e c s -> moved s s1 ->
  backtrack_and_second_emiss (e_wall e) (a_icfg c) (a_em c) time (get_positions s) g s1 st = Some (g', s', st') -> is_full s' = false ->
  sound e c s' /\ nel_mp_ref s' = nel_mp_ref s /\ same_cfg s s' /\ charge s' = charge s - l_nimp g' + l_nemit g'.
Proof.
  intros [HW _ _ _ HU] [HE HP _ _ _ _ _ _ _ _ HK] [W TZ KL [SZ1 SZ2] FS FC R0 IN PO] [gm MV] BT NF. rewrite get_positions_live in BT by auto.
  destruct (moves_facts gm s s1 W MV) as (W1 & (C1 & C2 & C3 & C4 & C5) & N1 & NL & Q1 & Q2 & Q3).
  assert (KL1 : k_life (a_icfg c) = flag_lifetime_hist s1) by congruence.
  assert (OS := positions_sized s s1 N1). assert (OI := positions_inside (e_wall e) s IN).
  assert (SP : 0 < nel_mp_split s1) by (rewrite Q2, SZ1; apply Rmult_lt_0_compat; lra).
  assert (CP := call_capacity _ _ _ _ _ _ _ _ _ _ _ W1 BT). apply not_full in NF.
  assert (HN1 : (N_mp s' <= capacity s1)%nat) by (unfold capacity in *; rewrite <- CP; lia).
  destruct (call_wf _ _ _ _ _ _ _ _ _ _ _ HW HE W1 KL1 OS SP BT HN1) as (W' & TZ' & (D1 & D2 & D3 & D4 & D5) & _ & P1 & P2 & P3).
  destruct (call_charge _ _ _ _ _ _ _ _ _ _ _ HW HE W1 KL1 OS SP BT HN1) as [CH _].
  assert (PO1 : Forall (fun p => 0 <= m_nel p) (live s1)).
  { apply (Forall_map m_nel (fun q => 0 <= q)). rewrite NL. apply Forall_map. exact PO. }
  assert (TZ1 : tail_zero s1).
  { destruct MV as (M1 & M2 & _). intros i Hi. rewrite M2. apply TZ. rewrite <- M1, <- C1. auto. }
  split; [|split; [congruence|split]].
  - constructor; auto.
    + congruence.
    + unfold sizes_ok. rewrite P1, P2, P3, D4, D5, Q1, Q2, Q3, C4, C5. auto.
    + congruence.
    + congruence.
    + rewrite D3, P1, Q1, C3. auto.
    + apply (call_inside _ _ _ _ _ _ _ _ _ _ _ HW HE W1 KL1 OS SP BT HN1 OI).
    + apply (call_pos _ _ _ _ _ _ _ _ _ _ _ HW HE HP W1 KL1 OS HU HK SP BT HN1 PO1).
  - unfold same_cfg. repeat split; congruence.
  - rewrite CH. unfold charge. rewrite NL. auto.
Qed.

(** * Primary generation *)
Lemma generated_sound e c s s' new out : (forall x y, out x y = w_out (e_wall e) x y) -> sound e c s -> generated out s s' new -> sound e c s'.
Proof.
  intros HO [W TZ KL [SZ1 SZ2] FS FC R0 IN PO] [GL GS _ GI GW GT (D1 & D2 & D3 & D4 & D5) (P1 & P2 & P3)]. constructor; auto.
  - congruence.
  - unfold sizes_ok. rewrite P1, P2, P3, D4, D5. auto.
  - congruence.
  - congruence.
  - rewrite D3, P1. auto.
  - rewrite GL. apply Forall_app. split; auto. revert GI. apply Forall_impl. intros p. rewrite HO. auto.
  - rewrite GL. apply Forall_app. split; auto. revert GS. apply Forall_impl. intros p ->. lra.
Qed.

Definition added (s s' : mpsys) (new : list mp) (req : R) (n : nat) : Prop :=
  live s' = live s ++ new /\ Forall (fun p => m_nel p = nel_mp_ref s) new /\ nel_mp_ref s' = nel_mp_ref s /\ same_cfg s s' /\
  Rabs (rsum (map m_nel new) - req) <= INR n * nel_mp_ref s.

Lemma added_nil s : added s s [] 0 0.
Proof.
  unfold added. rewrite app_nil_r. split; auto. split; auto. split; auto. split; [apply same_cfg_refl|].
  change (rsum (map m_nel [])) with 0. replace (0 - 0) with 0 by ring. rewrite Rabs_R0. cbn. lra.
Qed.

Lemma added_app s s1 s2 a b ra rb na nb : added s s1 a ra na -> added s1 s2 b rb nb -> added s s2 (a ++ b) (ra + rb) (na + nb).
Proof.
  intros (A1 & A2 & A3 & (A4 & A5 & A6 & A7 & A8) & A9) (B1 & B2 & B3 & (B4 & B5 & B6 & B7 & B8) & B9). rewrite A3 in *. unfold added.
  split; [rewrite B1, A1, app_assoc; auto|]. split; [apply Forall_app; auto|]. split; [congruence|]. split; [unfold same_cfg; repeat split; congruence|].
  rewrite map_app, rsum_app, plus_INR.
  replace (rsum (map m_nel a) + rsum (map m_nel b) - (ra + rb)) with ((rsum (map m_nel a) - ra) + (rsum (map m_nel b) - rb)) by ring.
  eapply Rle_trans; [apply Rabs_triang|]. lra.
Qed.

Lemma generated_added out s s' new req : generated out s s' new -> close_charge req s s' -> added s s' new req 1.
Proof.
  intros [GL GS _ _ _ _ GC (P1 & _)] CC. unfold added. split; auto. split; auto. split; auto. split; auto.
  unfold close_charge in CC. replace (charge s' - charge s - req) with (rsum (map m_nel new) - req) in CC.
  - cbn [INR]. lra.
  - unfold charge. rewrite GL, map_app, rsum_app. ring.
Qed.

Lemma gas_loop_sound e c g : chamber_ok e -> gas_ok (e_kc e) g -> gs_life g = k_life (a_icfg c) -> forall bs k full s s' k' full',
  Forall beam_ok bs -> sound e c s -> is_full s = false ->
  gas_loop e g (a_mass c) bs k full s = Some (s', k', full') -> full' = false ->
  full = false /\ sound e c s' /\ is_full s' = false /\ exists new, added s s' new (rsum (map (gas_rate (e_kc e) g) bs)) (List.length bs).
Proof.
  intros CO (G1 & G2 & G3 & G4 & G5) GL. induction bs as [|b bs IH]; intros k full s s' k' full' BO SO NF H HF; cbn [gas_loop] in H.
  - injection H as <- _ <-. split; auto. split; auto. split; auto. exists []. apply added_nil.
  - destruct (gas_generate _ _ _ _ _ _ _ _ _ _ _ _ _ _) as [[s1 k1]|] eqn:EG; [|discriminate]. cbn [bind] in H.
    inversion BO as [|? ? [L0 D0] BO']; subst. assert (SO' := SO). destruct SO' as [W TZ KL SZ FS FC R0 IN PO].
    destruct CO as [HW HS HA HR].
    apply gas_thm in EG; auto; [|apply not_full; auto|lra|apply HR|congruence].
    destruct EG as (new & GE & _ & _ & CC).
    assert (S1 : sound e c s1) by (eapply generated_sound; [exact HS|exact SO|exact GE]).
    destruct (is_full s1) eqn:F1.
    { exfalso. clear - H. revert H. generalize k1 s1 (Bool.orb_true_r full). generalize (full || true)%bool. intros f0 k0 s0 E0 H. subst f0.
      revert k0 s0 H. induction bs as [|b bs IH]; intros k0 s0 H; cbn [gas_loop] in H; [congruence|].
      destruct (gas_generate _ _ _ _ _ _ _ _ _ _ _ _ _ _) as [[s3 k3]|]; [|discriminate]. cbn [bind] in H. eapply IH. exact H. }
    rewrite Bool.orb_false_r in H. destruct (IH _ _ _ _ _ _ BO' S1 F1 H eq_refl) as (A1 & A2 & A3 & new2 & A4).
    split; auto. split; auto. split; auto. exists (new ++ new2). cbn [map List.length].
    change (rsum (gas_rate (e_kc e) g b :: map (gas_rate (e_kc e) g) bs)) with (gas_rate (e_kc e) g b + rsum (map (gas_rate (e_kc e) g) bs)).
    change (S (List.length bs)) with (1 + List.length bs)%nat. eapply added_app; [|exact A4].
    eapply generated_added; [exact GE|exact CC].
Qed.

Definition photo_charge (e : env) (p : phsrc) (lam Dt : R) : R :=
  match p with
  | NoPhoto => 0
  | Photo1 p => photo_rate (e_kc e) (p1_ph p) lam Dt
  | Photo2 ph _ => photo_rate (e_kc e) ph lam Dt
  | Photo3 ph _ => photo_rate (e_kc e) ph lam Dt
  end.

Lemma photo_rate_nonneg kc mass ph lam Dt : photo_conf kc mass ph -> 0 <= lam -> 0 <= Dt -> 0 <= photo_DNel kc (ph_k ph) (ph_mean ph) lam Dt.
Proof.
  intros (A1 & A2 & A3 & A4 & A5 & A6) L D. rewrite photo_DNel_is. unfold photoemitted.
  destruct (ph_mean ph) as [m|] eqn:E; [specialize (A6 m eq_refl)|]; repeat apply Rmult_le_pos; auto.
Qed.

Lemma photo_step_sound e c lam Dt k s s' k' : chamber_ok e -> set_ok e c -> 0 <= lam -> 0 <= Dt -> sound e c s -> is_full s = false ->
  photo_step e (a_photo c) (a_mass c) lam Dt k s = Some (s', k') ->
  sound e c s' /\ exists new, added s s' new (photo_charge e (a_photo c) lam Dt) (match a_photo c with NoPhoto => 0 | _ => 1 end).
Proof.
  intros [HW HS HA HR] SE L0 D0 SO NF H. assert (PH := so_photo _ _ SE). clear SE.
  assert (SO' := SO). destruct SO' as [W TZ KL SZ FS FC R0 IN PO]. apply not_full in NF. assert (RF : 0 < nel_mp_ref s) by lra.
  unfold photo_step in H. destruct (a_photo c) as [|p|ph cdf|ph pc]; cbn [photo_ok photo_charge] in *.
  - injection H as <- _. split; auto. exists []. apply added_nil.
  - destruct PH as (PC & O0 & refl & al & x0 & y0 & cdf & CT). assert (PN := photo_rate_nonneg _ _ _ _ _ PC L0 D0).
    destruct PC as (P1 & P2 & P3 & P4 & P5 & P6).
    eapply photo1_main in H; eauto.
    destruct H as (new & GE & _ & _ & CC & _). rewrite photo_DNel_is in CC.
    split; [eapply generated_sound; [|exact SO|exact GE]; auto|]. exists new. eapply generated_added; [exact GE|exact CC].
  - destruct PH as (PC & O0). assert (PN := photo_rate_nonneg _ _ _ _ _ PC L0 D0). destruct PC as (P1 & P2 & P3 & P4 & P5 & P6).
    eapply photo2_main in H; eauto. destruct H as (new & GE & _ & _ & CC & _). rewrite photo_DNel_is in CC.
    split; [eapply generated_sound; [|exact SO|exact GE]; auto|]. exists new. eapply generated_added; [exact GE|exact CC].
  - destruct PH as (PC & O0 & vxs & vys & cx & cy & cdf & CT & LV). assert (PN := photo_rate_nonneg _ _ _ _ _ PC L0 D0).
    destruct PC as (P1 & P2 & P3 & P4 & P5 & P6).
    eapply photo3_main in H; eauto. destruct H as (new & GE & _ & _ & CC & _). rewrite photo_DNel_is in CC.
    split; [eapply generated_sound; [|exact SO|exact GE]; auto|]. exists new. eapply generated_added; [exact GE|exact CC].
Qed.

Lemma fold_lam secs : forall l, fold_left (fun l b => l + ti_lam b) secs l = l + rsum (map ti_lam secs).
Proof.
  induction secs as [|b secs IH]; intros l; cbn [fold_left map]; [change (rsum []) with 0; lra|].
  rewrite IH. change (rsum (ti_lam b :: map ti_lam secs)) with (ti_lam b + rsum (map ti_lam secs)). lra.
Qed.

Lemma lam_nonneg l secs : 0 <= l -> Forall beam_ok secs -> 0 <= l + rsum (map ti_lam secs).
Proof.
  intros L F. assert (0 <= rsum (map ti_lam secs)); [|lra]. apply rsum_nonneg. apply Forall_map. revert F. apply Forall_impl. intros b []. auto.
Qed.

Lemma primary_sound e main secs c k full s s' k' full' : chamber_ok e -> set_ok e c -> Forall beam_ok (main :: secs) -> sound e c s -> is_full s = false ->
  primary_generation e main secs c k full s = Some (s', k', full') -> full' = false ->
  full = false /\ sound e c s' /\ is_full s' = false /\ exists new, added s s' new (expected e main secs c) (n_sources main secs c).
Proof.
  intros CO SE BO SO NF H HF. unfold primary_generation in H.
  match type of H with bind ?x _ = _ => destruct x as [[[s1 k1] f1]|] eqn:EG end; [|discriminate]. cbn [bind] in H.
  destruct (photo_step _ _ _ _ _ _ _) as [[s2 k2]|] eqn:EP; [|discriminate]. cbn [bind] in H. injection H as <- _ <-.
  apply Bool.orb_false_iff in HF. destruct HF as [HF1 HF2]. subst f1.
  assert (G : full = false /\ sound e c s1 /\ is_full s1 = false /\
    exists new, added s s1 new (match gas_on main c with Some g => rsum (map (gas_rate (e_kc e) g) (main :: secs)) | None => 0 end)
                      (match gas_on main c with Some _ => S (List.length secs) | None => 0 end)).
  { unfold gas_on. destruct (a_gas c) as [g|] eqn:EA.
    - unfold Rltb in EG. destruct (Rlt_dec (ti_t main) (a_tion c)).
      + destruct (so_gas _ _ SE g EA) as [GO GL]. apply (gas_loop_sound e c g CO GO GL) in EG; auto.
      + assert (full = false) by congruence. assert (s1 = s) by congruence. subst s1. split; [auto|]. split; [auto|]. split; [auto|]. exists []. apply added_nil.
    - assert (full = false) by congruence. assert (s1 = s) by congruence. subst s1. split; [auto|]. split; [auto|]. split; [auto|]. exists []. apply added_nil. }
  destruct G as (G1 & G2 & G3 & n1 & G4). rewrite fold_lam in EP. inversion BO as [|? ? [L0 D0] BS]; subst.
  apply (photo_step_sound e c) in EP; auto using lam_nonneg. destruct EP as (P1 & n2 & P2).
  split; auto. split; auto. split; auto. exists (n1 ++ n2). eapply added_app; [exact G4|exact P2].
Qed.

Lemma step_cloud_sound e a main secs sc k full c c' k' full' : chamber_ok e -> Forall beam_ok (main :: secs) -> sound_cloud e c ->
  step_cloud e a main secs sc k full c = Some (c', k', full') -> full' = false ->
  full = false /\ sound_cloud e c' /\ is_full (o_mp c') = false /\ o_set c' = o_set c /\ nel_mp_ref (o_mp c') = nel_mp_ref (o_mp c) /\
  exists prim mid, live (o_mp c') = mid ++ prim /\
    charge (o_mp c') = charge (o_mp c) - l_nimp (o_iman c') + l_nemit (o_iman c') + rsum (map m_nel prim) /\
    Forall (fun p => m_nel p = nel_mp_ref (o_mp c)) prim /\
    Rabs (rsum (map m_nel prim) - expected e main secs (o_set c)) <= INR (n_sources main secs (o_set c)) * nel_mp_ref (o_mp c).
Proof.
  intros CO BO [SE SO] H HF. unfold step_cloud in H. destruct (cloud_motion _ _ _ _ _ _ _) as [s1|] eqn:EM; [|discriminate]. cbn [bind] in H.
  destruct (backtrack_and_second_emiss _ _ _ _ _ _ _ _) as [[[g s2] kq]|] eqn:EB; [|discriminate]. cbn [bind] in H.
  destruct (primary_generation _ _ _ _ _ _ _) as [[[s3 k3] f3]|] eqn:EP; [|discriminate]. cbn [bind] in H. injection H as <- _ <-.
  cbn [o_mp o_set o_iman]. apply motion_moved in EM; [|apply SE|apply SE].
  assert (F0 : full || is_full s2 = false).
  { clear - EP HF CO SE BO. unfold primary_generation in EP.
    match type of EP with bind ?x _ = _ => destruct x as [[[s1 k1] f1]|] eqn:EG end; [|discriminate]. cbn [bind] in EP.
    destruct (photo_step _ _ _ _ _ _ _) as [[s4 k4]|]; [|discriminate]. cbn [bind] in EP. injection EP as _ _ E.
    assert (f1 = false) by (destruct f1; [cbn in E; congruence|auto]). subst f1.
    assert (GM : forall g mass bs k full s s' k' full', gas_loop e g mass bs k full s = Some (s', k', full') -> full' = false -> full = false).
    { clear. induction bs as [|b bs IH]; intros k full s s' k' full' H HF; cbn [gas_loop] in H; [congruence|].
      destruct (gas_generate _ _ _ _ _ _ _ _ _ _ _ _ _ _) as [[s3 k3]|]; [|discriminate]. cbn [bind] in H. apply IH in H; auto.
      apply Bool.orb_false_iff in H. tauto. }
    destruct (a_gas (o_set c)); [|congruence]. destruct (Rltb _ _); [eapply GM; eauto|congruence]. }
  apply Bool.orb_false_iff in F0. destruct F0 as [F1 F2].
  destruct (wall_sound _ _ _ _ _ _ _ _ _ _ CO SE SO EM EB F2) as (W1 & W2 & W3 & W4).
  destruct (primary_sound _ _ _ _ _ _ _ _ _ _ CO SE BO W1 F2 EP HF) as (_ & P2 & P3 & prim & A1 & A2 & A3 & A4 & A5).
  split; auto. split; [split; auto|]. split; auto. split; auto. split; [congruence|]. exists prim, (live s2). split; auto.
  split; [|rewrite W2 in *; auto]. unfold charge in *. rewrite A1, map_app, rsum_app, W4. auto.
Qed.
