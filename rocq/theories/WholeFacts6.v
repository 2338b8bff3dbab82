(** Recording never stops a run. *)
From Coq Require Import String Lra Lia.
From Verif Require Import Num NumFacts MP SpecMP MPFacts TrigFacts Impact SpecImpact CrossIon SpecCrossIon Sim SpecSim SimFacts3 SimFacts5
  Saver SpecSaver SaverFacts6 SaverFacts8 SaverFacts9 Whole SpecWhole WholeFacts WholeFacts2 WholeFacts3 WholeFacts4 WholeFacts5.
Local Open Scope list_scope.
Local Open Scope R_scope.

Definition going (e : env) (k : cloud) (r : option recorder) : Prop :=
  match r with
  | None => True
  | Some r => exists n w past, (0 < n)%nat /\ cfg_ok (r_cfg r) /\ widths_ok (r_cfg r) w /\
      (forall x y, w_out (e_wall e) x y = false -> k_bias (c_ic (r_cfg r)) <= x) /\
      started (r_cfg r) w n past = Some (r_st r, o_iman k, r_file r) /\ Forall (step_ok (r_cfg r) w) past /\ same_shape w (o_iman k)
  end.

Lemma ready_going e k r : ready e k r -> going e k r.
Proof.
  destruct r as [r|]; [|auto]. intros (n & w & E & N & IM & CF & WO & BI). exists n, w, []. split; [exact N|]. split; [exact CF|]. split; [exact WO|]. split; [exact BI|].
  unfold started. cbn [record_run]. rewrite E at 2 3. cbn [r_st r_file]. rewrite E at 1. cbn [r_cfg]. rewrite IM. split; [reflexivity|]. split; [constructor|apply blank_shape].
Qed.

Lemma record_run_app c : forall l l' g s f, record_run c (l ++ l') g s f =
  do (s1, g1, f1) <- record_run c l g s f ; record_run c l' g1 s1 f1.
Proof.
  induction l as [|[ob d] l IH]; intros l' g s f; cbn [app record_run bind]; [reflexivity|].
  destruct (witness c ob (feed g d) s) as [[[s1 g1] f1]|]; cbn [bind]; [apply IH|reflexivity].
Qed.

Lemma feed_shape g d : same_shape g d -> same_shape g (feed g d).
Proof.
  intros SH. shape SH. unfold same_shape, feed. cbn. rewrite !ladd_len by auto. repeat (split; [auto|]).
  clear - S10. revert S10. generalize (g_seglines d). generalize (g_seglines g). intros a. induction a as [|u a IH]; intros [|v b] L; cbn [map map2] in *; try discriminate; [reflexivity|].
  injection L as L0 L. rewrite ladd_len by auto. f_equal; [auto|apply IH; exact L].
Qed.

Definition grown (c0 c : cloud) : Prop := exists d, o_iman c = feed (o_iman c0) d /\ same_shape (o_iman c0) d.

Lemma save_going e y main pass m : forall cl0 cl rs, Forall2 grown cl0 cl -> Forall (sound_cloud e) cl -> Forall2 (going e) cl0 rs ->
  exists rs' cl', save_output y main pass m rs cl = Some (rs', cl') /\ Forall2 (going e) cl' rs'.
Proof.
  intros cl0 cl rs F. revert rs. induction F as [|c0 c cl0 cl (d & D1 & D2) F IH]; intros rs SO G; inversion G as [|? r ? rs0 G1 G2]; subst; cbn [save_output].
  - exists [], []. split; [reflexivity|constructor].
  - inversion SO as [|? ? [_ SD] SO']; subst. destruct (IH rs0 SO' G2) as (rs' & cl' & E & G').
    assert (X : exists r' c', save_cloud y main pass m r c = Some (r', c') /\ going e c' r').
    { destruct r as [r|]; [|exists None, c; split; [reflexivity|exact I]]. destruct G1 as (n & w & past & N & CF & WO & BI & ST & OK & SH).
      set (st := (observe y main pass m c, d)).
      assert (SK : step_ok (r_cfg r) w st).
      { split; [exact (sd_wf _ _ _ SD)|]. split; [|eapply shape_trans; [exact SH|exact D2]]. eapply Forall_impl; [|exact (sd_in _ _ _ SD)]. intros p P. eapply BI; exact P. }
      destruct (started_inv (r_cfg r) w n (past ++ [st]) CF WO N) as (s1 & g1 & f1 & E1 & _); [apply Forall_app; split; [exact OK|constructor; [exact SK|constructor]]|].
      assert (E2 := E1). unfold started in E1. rewrite record_run_app in E1. unfold started in ST. rewrite ST in E1. cbn [bind st record_run] in E1.
      unfold save_cloud. rewrite D1. destruct (witness (r_cfg r) (observe y main pass m c) (feed (o_iman c0) d) (r_st r)) as [[[s2 g2] f2]|] eqn:W; cbn [bind] in E1 |- *; [|discriminate].
      injection E1 as -> -> E1. eexists _, _. split; [reflexivity|]. cbn [going r_cfg r_st r_file with_iman o_iman]. exists n, w, (past ++ [st]). repeat (split; [assumption|]).
      split; [rewrite E1; exact E2|]. split; [apply Forall_app; split; [exact OK|constructor; [exact SK|constructor]]|].
      apply witness_shape in W. eapply shape_trans; [exact SH|]. eapply shape_trans; [|exact W]. apply feed_shape. exact D2. }
    destruct X as (r' & c' & E1 & G3). rewrite E1. cbn [bind]. rewrite E. cbn [bind]. eexists _, _. split; [reflexivity|]. constructor; assumption.
Qed.

Lemma main_grown e a main secs m m1 : step_main e a main secs m = Some m1 -> Forall2 grown (m_clouds m) (m_clouds m1).
Proof.
  intros H. rewrite step_main_lin in H. destruct (step_main e a main secs (emptied m)) as [m2|] eqn:E; cbn [option_map] in H; [|discriminate]. injection H as <-.
  apply step_main_kept in E. cbn [emptied m_clouds fed_sim] in E |- *. revert E. generalize (m_clouds m2). induction (m_clouds m) as [|c cl IH]; intros dl F; inversion F as [|? d ? dl' [_ P] F']; subst; cbn [map map2]; constructor.
  - exists (o_iman d). split; [reflexivity|]. eapply shape_trans; [apply blank_shape|exact P].
  - apply IH. exact F'.
Qed.

Lemma clean_going e a new : forall cl rs k cl' k', clean_loop e a new k cl = Some (cl', k') -> Forall2 (going e) cl rs -> Forall2 (going e) cl' rs.
Proof.
  induction cl as [|c cl IH]; intros rs k cl' k' H G; cbn [clean_loop] in H; inversion G as [|? r ? rs0 G1 G2]; subst; [injection H as <- <-; constructor|].
  destruct (clean_one e a new (o_set c) k (o_mp c)) as [[s j]|]; cbn [bind] in H; [|discriminate].
  destruct (clean_loop e a new j cl) as [[r' k2]|] eqn:E; cbn [bind] in H; [|discriminate]. injection H as <- <-. constructor; [exact G1|]. eapply IH; eassumption.
Qed.

Lemma whole_step_going e y a main secs pass m n rs n1 : chamber_ok e -> Forall beam_ok (main :: secs) -> xion_ok m -> sound_sim e m -> Forall2 (going e) (m_clouds m) rs ->
  emptied m = emptied n -> sim_time_step e a main secs n = Some n1 -> m_full n1 = false ->
  exists mid m1 rs1, whole_step e y a main secs pass m rs = Some (mid, m1, rs1) /\ emptied m1 = emptied n1 /\ Forall2 (going e) (m_clouds m1) rs1.
Proof.
  intros CO BO XO SS G EQ H NF. unfold sim_time_step in H. destruct (step_main e a main secs n) as [n0|] eqn:E0; cbn [bind] in H; [|discriminate].
  destruct (clean_loop e a (ti_new main) (m_k n0) (m_clouds n0)) as [[cl k]|] eqn:C; cbn [bind] in H; [|discriminate]. injection H as <-. cbn [m_full] in NF.
  destruct (step_main_emptied _ _ _ _ _ _ _ (eq_sym EQ) E0) as (m0 & E1 & EQ1). apply emptied_split in EQ1. destruct EQ1 as (TW & B1 & B2 & B3 & B4).
  destruct (step_main_sound _ _ _ _ _ _ CO BO XO SS E1 ltac:(congruence)) as (_ & [S1 _] & _).
  destruct (save_going e y main pass m0 _ _ _ (main_grown _ _ _ _ _ _ E1) S1 G) as (rs' & cl' & SV & G').
  assert (TC : Forall2 twin (m_clouds n0) cl').
  { assert (KP := save_kept _ _ _ _ _ _ _ _ SV). assert (SM := save_output_same _ _ _ _ _ _ _ _ SV). clear - TW KP SM. revert KP SM. revert cl'.
    induction TW as [|u v l l' [T1 [T2 T3]] F IH]; intros cl' KP SM; inversion KP as [|? d ? ? [K1 K2] K3]; subst; inversion SM as [|? ? ? ? M1 M2]; subst; constructor; [|auto].
    split; [eapply same_cloud_trans; eassumption|]. split; [congruence|eapply shape_trans; eassumption]. }
  destruct (clean_twin _ _ _ _ _ _ _ _ TC C) as (dl & C2 & TD).
  unfold whole_step. rewrite E1. cbn [bind]. rewrite SV. cbn [bind]. rewrite <- B3, C2. cbn [bind]. eexists _, _, _. split; [reflexivity|]. split.
  - symmetry. apply emptied_split. cbn [m_clouds m_sc m_xion m_k m_full]. auto.
  - cbn [m_clouds]. eapply clean_going; eassumption.
Qed.

Lemma whole_run_going e y : chamber_ok e -> forall l m n rs ns, Forall (fun q => args_ok (q_args q) /\ Forall beam_ok (q_main q :: q_secs q)) l -> sound_sim e m ->
  Forall2 (going e) (m_clouds m) rs -> emptied m = emptied n -> sim_run e (map tuple l) n = Some ns -> Forall xion_ok (n :: ns) -> Forall (fun n' => m_full n' = false) ns ->
  exists tr rs1, whole_run e y l m rs = Some (tr, rs1) /\ Forall2 (fun p n' => emptied (snd p) = emptied n') tr ns.
Proof.
  intros CO. induction l as [|q l IH]; intros m n rs ns OK SS G EQ H XO NF; cbn [map tuple sim_run] in H; [injection H as <-; exists [], rs; split; [reflexivity|constructor]|].
  destruct (sim_time_step e (q_args q) (q_main q) (q_secs q) n) as [n1|] eqn:E1; cbn [bind] in H; [|discriminate].
  destruct (sim_run e (map tuple l) n1) as [ns1|] eqn:E2; cbn [bind] in H; [|discriminate]. injection H as <-.
  inversion OK as [|? ? [AO BO] OK']; subst. inversion XO as [|? ? X1 X2]; subst. inversion NF as [|? ? N1 N2]; subst.
  assert (XM : forall a b, emptied a = emptied b -> xion_ok b -> xion_ok a).
  { intros a b K X x Hx. apply emptied_split in K. destruct K as (_ & _ & K & _). apply X. congruence. }
  destruct (whole_step_going e y _ _ _ (q_pass q) _ _ _ _ CO BO (XM _ _ EQ X1) SS G EQ E1 N1) as (mid & m1 & rs1 & W & EQ1 & G1).
  assert (S1 : sound_sim e m1).
  { assert (WR : whole_run e y [q] m rs = Some ([(mid, m1)], rs1)) by (cbn [whole_run]; rewrite W; reflexivity).
    assert (Z := whole_sound e y CO [q] m rs _ _ ltac:(constructor; [auto|constructor]) SS WR). cbn [map snd] in Z.
    assert (M1 : m_full m1 = false) by (apply emptied_split in EQ1; destruct EQ1 as (_ & _ & _ & _ & K); congruence).
    specialize (Z ltac:(constructor; [exact (XM _ _ EQ X1)|constructor; [inversion X2; subst; eapply XM; eassumption|constructor]]) ltac:(constructor; [exact M1|constructor])).
    inversion Z as [|? ? [_ Y] _]; subst. exact Y. }
  destruct (IH _ _ _ _ OK' S1 G1 EQ1 E2 X2 N2) as (tr & rs2 & W2 & F2). cbn [whole_run]. rewrite W. cbn [bind]. rewrite W2. cbn [bind].
  eexists _, _. split; [reflexivity|]. constructor; [exact EQ1|exact F2].
Qed.

Lemma whole_run_succeeds e y l m rs ms : chamber_ok e -> Forall (fun q => args_ok (q_args q) /\ Forall beam_ok (q_main q :: q_secs q)) l -> sound_sim e m ->
  Forall2 (ready e) (m_clouds m) rs -> sim_run e (map tuple l) m = Some ms -> Forall xion_ok (m :: ms) -> Forall (fun m' => m_full m' = false) ms ->
  exists tr rs1, whole_run e y l m rs = Some (tr, rs1) /\ Forall2 (fun p m' => emptied (snd p) = emptied m') tr ms.
Proof.
  intros CO OK SS G H XO NF. eapply whole_run_going; eauto. clear - G. induction G; constructor; auto using ready_going.
Qed.
