(** Runs without recorders, continued runs, and the whole output. *)
From Coq Require Import String Lra Lia.
From Verif Require Import Num NumFacts MP SpecMP MPFacts TrigFacts Impact CrossIon Sim SpecSim SimFacts3 SimFacts5 Saver SpecSaver SaverFacts6 Whole SpecWhole WholeFacts WholeFacts2 WholeFacts3.
Local Open Scope list_scope.
Local Open Scope R_scope.

(** * Without recorders *)
Lemma zeros_eq : forall a b, List.length a = List.length b -> zeros a = zeros b.
Proof. unfold zeros. induction a as [|x a IH]; intros [|y b] L; cbn in *; try discriminate; [reflexivity|]. rewrite (IH b) by lia. f_equal. lra. Qed.
Lemma lines_zeros_eq : forall a b, map (@List.length R) a = map (@List.length R) b -> map zeros a = map zeros b.
Proof. induction a as [|x a IH]; intros [|y b] L; cbn [map] in *; try discriminate; [reflexivity|]. injection L as L0 L. rewrite (IH b L), (zeros_eq x y L0). reflexivity. Qed.
Lemma blank_eq a b : same_shape a b -> blank a = blank b.
Proof.
  intros SH. shape SH. unfold blank. rewrite (zeros_eq (g_tot a) (g_tot b)), (zeros_eq (g_scrub a) (g_scrub b)), (zeros_eq (g_en a) (g_en b)), (zeros_eq (g_line a) (g_line b)),
    (zeros_eq (g_cos a) (g_cos b)), (zeros_eq (g_life a) (g_life b)), (zeros_eq (g_seg a) (g_seg b)), (zeros_eq (g_segemit a) (g_segemit b)), (zeros_eq (g_segen a) (g_segen b)),
    (lines_zeros_eq (g_seglines a) (g_seglines b)); auto.
Qed.
Lemma shape_blank a b : blank a = blank b -> same_shape a b.
Proof.
  intros E. eapply shape_trans; [apply blank_shape|]. rewrite E. apply shape_sym, blank_shape.
Qed.

Lemma zlen l : List.length (zeros l) = List.length l.
Proof. apply zeros_len. Qed.
Lemma shape_pass c g : same_shape g (reset_pass c g).
Proof. unfold same_shape, reset_pass. cbn. rewrite !zlen. destruct (k_seg (c_ic c)); rewrite ?zlen; auto 12. Qed.
Lemma shape_en c g : same_shape g (reset_en c g).
Proof.
  unfold same_shape, reset_en. cbn. rewrite !zlen. destruct (c_cos c), (k_seg (c_ic c) && k_segline (c_ic c)); rewrite ?zlen; repeat (split; [reflexivity|]); auto;
  rewrite map_map; apply map_ext; intros; apply zlen.
Qed.
Lemma shape_life g : same_shape g (reset_life g).
Proof. unfold same_shape, reset_life. cbn. rewrite !zlen. auto 12. Qed.

Ltac crush_bind H := repeat match type of H with
  | bind ?o _ = Some _ => let E := fresh "E" in destruct o eqn:E; cbn [bind] in H; [|discriminate H]
  | (let '(_, _) := ?p in _) = Some _ => destruct p
  | (match ?p with (_, _) => _ end) = Some _ => destruct p
  end.

Lemma energy_shape c ob g s s1 g1 : energy_save c ob g s = Some (s1, g1) -> same_shape g g1.
Proof.
  unfold energy_save. cbv zeta. intros H. destruct (_ || _); [|injection H as _ <-; apply shape_refl]. crush_bind H. injection H as _ <-. apply shape_en.
Qed.
Lemma lifetime_shape c ob g s s1 g1 : lifetime_save c ob g s = Some (s1, g1) -> same_shape g g1.
Proof.
  unfold lifetime_save. cbv zeta. intros H. destruct (c_life c); [|injection H as _ <-; apply shape_refl].
  destruct (_ || _); [|injection H as _ <-; apply shape_refl]. crush_bind H. injection H as _ <-. apply shape_life.
Qed.
Lemma pass_shape c ob g s s1 g1 : pass_by_pass_data_save c ob g s = Some (s1, g1) -> same_shape g g1.
Proof. unfold pass_by_pass_data_save. intros H. crush_bind H. injection H as _ <-. apply shape_pass. Qed.
Lemma witness_shape c ob g s s1 g1 f : witness c ob g s = Some (s1, g1, f) -> same_shape g g1.
Proof.
  unfold witness, energy_hist_save. intros H.
  destruct (energy_save c ob g s) as [[sa ga]|] eqn:E1; cbn [bind] in H; [|discriminate]. apply energy_shape in E1.
  destruct (lifetime_save c ob ga sa) as [[sb gb]|] eqn:E2; cbn [bind] in H; [|discriminate]. apply lifetime_shape in E2.
  assert (G : same_shape g gb) by (eapply shape_trans; eassumption).
  destruct (sc_energy_save ob sb) as [sc|]; cbn [bind] in H; [|discriminate].
  destruct (stepbystep_data_save c ob gb sc) as [sd|]; cbn [bind] in H; [|discriminate].
  destruct (ob_new ob); [|injection H as _ <- _; exact G].
  destruct (pass_by_pass_data_save c ob gb sd) as [[se ge]|] eqn:E3; cbn [bind] in H; [|discriminate]. apply pass_shape in E3.
  assert (G2 : same_shape g ge) by (eapply shape_trans; eassumption).
  destruct (_ =? 0)%Z; [discriminate|]. destruct (_ =? 0)%Z; [|injection H as _ <- _; exact G2].
  destruct (build_outp_dict c se); cbn [bind] in H; [|discriminate]. injection H as _ <- _. exact G2.
Qed.

Definition kept (c c' : cloud) : Prop := o_set c' = o_set c /\ same_shape (o_iman c) (o_iman c').
Lemma kept_refl c : kept c c.
Proof. split; [reflexivity|apply shape_refl]. Qed.
Lemma kept_trans a b c : kept a b -> kept b c -> kept a c.
Proof. intros [A B] [C D]. split; [congruence|eapply shape_trans; eassumption]. Qed.

Lemma step_cloud_kept e a main secs sc k full c c1 k1 f1 : step_cloud e a main secs sc k full c = Some (c1, k1, f1) -> kept c c1.
Proof.
  unfold step_cloud. intros H. destruct (cloud_motion _ _ _ _ _ _ _); cbn [bind] in H; [|discriminate].
  destruct (backtrack_and_second_emiss _ _ _ _ _ _ _ _) as [[[g s1] q]|] eqn:B; cbn [bind] in H; [|discriminate]. apply back_shape in B.
  destruct (primary_generation _ _ _ _ _ _ _) as [[[s2 k2] f2]|]; cbn [bind] in H; [|discriminate]. injection H as <- _ _. split; [reflexivity|exact B].
Qed.
Lemma clouds_loop_kept e a main secs sc : forall cl k full r k1 f1, clouds_loop e a main secs sc k full cl = Some (r, k1, f1) -> Forall2 kept cl r.
Proof.
  induction cl as [|c cl IH]; intros k full r k1 f1 H; cbn [clouds_loop] in H; [injection H as <- _ _; constructor|].
  destruct (step_cloud e a main secs sc k full c) as [[[c1 ka] fa]|] eqn:E1; cbn [bind] in H; [|discriminate].
  destruct (clouds_loop e a main secs sc ka fa cl) as [[[ra kc] fc]|] eqn:E2; cbn [bind] in H; [|discriminate]. injection H as <- _ _.
  constructor; [eapply step_cloud_kept; exact E1|eapply IH; exact E2].
Qed.
Lemma kept_maps : forall cl cl', map o_set cl' = map o_set cl -> map o_iman cl' = map o_iman cl -> Forall2 kept cl cl'.
Proof.
  induction cl as [|c cl IH]; intros [|d cl'] A B; cbn [map] in *; try discriminate; constructor.
  - injection A as A _. injection B as B _. split; [exact A|rewrite B; apply shape_refl].
  - apply IH; congruence.
Qed.
Lemma step_main_kept e a main secs m m1 : step_main e a main secs m = Some m1 -> Forall2 kept (m_clouds m) (m_clouds m1).
Proof.
  unfold step_main. destruct (check_for_recomputation (ti_t main) (m_sc m)) as [fl sc]. intros H.
  destruct (clouds_loop e a main secs sc (m_k m) (m_full m) (m_clouds m)) as [[[c1 k1] f1]|] eqn:E1; cbn [bind] in H; [|discriminate].
  destruct (cross_step e (ti_Dt main) (m_xion m) k1 c1) as [[[x1 d1] j1]|] eqn:E2; cbn [bind] in H; [|discriminate].
  destruct (recompute_cloud_spacecharge _ _ _ _ d1 _) as [u1 v1] eqn:E3. injection H as <-. cbn [m_clouds].
  apply clouds_loop_kept in E1. apply cross_step_frame in E2. destruct E2 as (A & _ & B). apply recompute_all_frame in E3.
  eapply F2_trans; [exact kept_trans|exact E1|]. eapply F2_trans; [exact kept_trans|apply kept_maps; eassumption|].
  clear - E3. induction E3 as [|x y l l' (P & _ & Q) F IH]; constructor; auto. split; [exact P|rewrite Q; apply shape_refl].
Qed.
Lemma save_kept y main pass m : forall rs cl rs' cl', save_output y main pass m rs cl = Some (rs', cl') -> Forall2 kept cl cl'.
Proof.
  assert (RF : forall cl, Forall2 kept cl cl) by (induction cl; constructor; auto using kept_refl).
  induction rs as [|r rs IH]; intros [|c cl] rs' cl'; cbn [save_output]; try (intros [= <- <-]; apply RF).
  unfold save_cloud. intros H. destruct r as [r|].
  - destruct (witness (r_cfg r) _ (o_iman c) (r_st r)) as [[[s g] f]|] eqn:W; cbn [bind] in H; [|discriminate].
    destruct (save_output y main pass m rs cl) as [[ra ca]|] eqn:E; cbn [bind] in H; [|discriminate]. injection H as <- <-.
    constructor; [split; [reflexivity|eapply witness_shape; exact W]|]. eapply IH; exact E.
  - cbn [bind] in H. destruct (save_output y main pass m rs cl) as [[ra ca]|] eqn:E; cbn [bind] in H; [|discriminate]. injection H as <- <-.
    constructor; [apply kept_refl|]. eapply IH; exact E.
Qed.

Definition twin (c d : cloud) : Prop := same_cloud c d /\ kept c d.
Lemma twins_emptied cl dl : Forall2 twin cl dl -> map emptied_c cl = map emptied_c dl.
Proof.
  induction 1 as [|c d cl dl [(_ & M & R0 & Q) [S SH]] F IH]; cbn [map]; [reflexivity|]. rewrite IH. f_equal. unfold emptied_c, with_iman.
  rewrite S, M, R0, Q, (blank_eq _ _ SH). reflexivity.
Qed.
Lemma emptied_twins : forall cl dl, map emptied_c cl = map emptied_c dl -> Forall2 twin cl dl.
Proof.
  induction cl as [|c cl IH]; intros [|d dl] H; cbn [map] in H; try discriminate; constructor.
  - assert (E : emptied_c c = emptied_c d) by congruence. pose proof (f_equal o_set E) as S. pose proof (f_equal o_mp E) as M. pose proof (f_equal o_rho E) as R0.
    pose proof (f_equal o_iman E) as B. pose proof (f_equal o_Q E) as Q. cbn [emptied_c with_iman o_set o_mp o_rho o_iman o_Q] in *.
    split; [split; [rewrite S; apply same_set_refl|auto]|]. split; [auto|]. apply shape_blank. exact B.
  - apply IH. congruence.
Qed.
Lemma emptied_split m n : emptied m = emptied n <-> Forall2 twin (m_clouds m) (m_clouds n) /\ m_sc m = m_sc n /\ m_xion m = m_xion n /\ m_k m = m_k n /\ m_full m = m_full n.
Proof.
  unfold emptied. split.
  - intros H. pose proof (f_equal m_clouds H) as A. pose proof (f_equal m_sc H) as B. pose proof (f_equal m_xion H) as C. pose proof (f_equal m_k H) as D. pose proof (f_equal m_full H) as E.
    cbn [m_clouds m_sc m_xion m_k m_full] in *. split; [apply emptied_twins; exact A|auto].
  - intros (A & -> & -> & -> & ->). f_equal. exact (twins_emptied _ _ A).
Qed.
Lemma emptied_same m n : emptied m = emptied n -> same_sim m n.
Proof.
  intros H. apply emptied_split in H. destruct H as (F & A & B & C & D). split; [|auto]. clear - F. induction F as [|c d cl dl [P _] F IH]; constructor; auto.
Qed.
Lemma twin_of : forall cl dl cl' dl', Forall2 twin cl dl -> Forall2 kept cl cl' -> Forall2 kept dl dl' -> Forall2 same_cloud cl' dl' -> Forall2 twin cl' dl'.
Proof.
  intros cl dl cl' dl' F. revert cl' dl'. induction F as [|c d cl dl [_ [S SH]] F IH]; intros cl' dl' K L M; inversion K; subst; inversion L; subst; inversion M; subst; constructor; auto.
  destruct H1 as [A1 A2], H2 as [B1 B2]. split; [assumption|]. split; [congruence|].
  eapply shape_trans; [apply shape_sym; exact A2|]. eapply shape_trans; [exact SH|exact B2].
Qed.

Lemma step_main_emptied e a main secs m n m1 : emptied m = emptied n -> step_main e a main secs m = Some m1 ->
  exists n1, step_main e a main secs n = Some n1 /\ emptied m1 = emptied n1.
Proof.
  intros EQ H. assert (E : exists n1, step_main e a main secs n = Some n1).
  { rewrite step_main_lin in H |- *. rewrite EQ in H. destruct (step_main e a main secs (emptied n)); [|discriminate]. eexists. reflexivity. }
  destruct E as [n1 E]. exists n1. split; [exact E|]. pose proof (step_main_same _ _ _ _ _ _ _ _ (emptied_same _ _ EQ) H E) as (F & A & B & C & D).
  apply emptied_split. apply emptied_split in EQ. split; [|auto].
  eapply twin_of; [exact (proj1 EQ)|eapply step_main_kept; exact H|eapply step_main_kept; exact E|exact F].
Qed.

Lemma clean_twin e a new : forall cl dl k cl' k', Forall2 twin cl dl -> clean_loop e a new k cl = Some (cl', k') ->
  exists dl', clean_loop e a new k dl = Some (dl', k') /\ Forall2 twin cl' dl'.
Proof.
  induction cl as [|c cl IH]; intros dl k cl' k' F H; inversion F as [|? d ? dl0 [SC KP] B]; subst; cbn [clean_loop] in H |- *.
  - injection H as <- <-. exists []. split; [reflexivity|constructor].
  - destruct KP as [S SH]. pose proof SC as (ST & M & R0 & Q). rewrite S, <- M. destruct (clean_one e a new (o_set c) k (o_mp c)) as [[s j]|]; cbn [bind] in H |- *; [|discriminate].
    destruct (clean_loop e a new j cl) as [[r k2]|] eqn:E; cbn [bind] in H; [|discriminate]. injection H as <- <-.
    destruct (IH _ _ _ _ B E) as (r' & E' & F'). rewrite E'. cbn [bind]. eexists. split; [reflexivity|]. constructor; [|exact F'].
    split; [split; [cbn [o_set]; apply same_set_refl|cbn; auto]|]. split; [reflexivity|exact SH].
Qed.

Lemma twin_swap : forall cl ca dl, Forall2 same_cloud cl ca -> Forall2 kept cl ca -> Forall2 twin cl dl -> Forall2 twin ca dl.
Proof.
  induction cl as [|c cl IH]; intros ca dl S1 S2 F.
  - inversion S1; subst. inversion F; subst. constructor.
  - inversion S1 as [|? c' ? ca' A1 A2]; subst. inversion S2 as [|? ? ? ? [B1 B2] B3]; subst. inversion F as [|? d ? dl' [C1 [C2 C3]] C4]; subst. constructor; [|apply IH; auto].
    split; [eapply same_cloud_trans; [apply same_cloud_sym; exact A1|exact C1]|]. split; [congruence|]. eapply shape_trans; [apply shape_sym; exact B2|exact C3].
Qed.

Lemma whole_step_unrec e y a main secs p m n rs mid m1 rs1 : emptied m = emptied n -> whole_step e y a main secs p m rs = Some (mid, m1, rs1) ->
  exists n1, sim_time_step e a main secs n = Some n1 /\ emptied m1 = emptied n1.
Proof.
  intros EQ H. unfold whole_step in H. destruct (step_main e a main secs m) as [m0|] eqn:E0; cbn [bind] in H; [|discriminate].
  destruct (save_output y main p m0 rs (m_clouds m0)) as [[ra ca]|] eqn:E; cbn [bind] in H; [|discriminate].
  destruct (clean_loop e a (ti_new main) (m_k m0) ca) as [[cb k]|] eqn:C; cbn [bind] in H; [|discriminate]. injection H as <- <- <-.
  destruct (step_main_emptied _ _ _ _ _ _ _ EQ E0) as (n0 & N0 & EQ0). unfold sim_time_step. rewrite N0. cbn [bind].
  apply emptied_split in EQ0. destruct EQ0 as (F & A & B & K & D). rewrite <- K.
  assert (T : Forall2 twin ca (m_clouds n0)).
  { eapply twin_swap; [eapply save_output_same; exact E|eapply save_kept; exact E|exact F]. }
  destruct (clean_twin _ _ _ _ _ _ _ _ T C) as (dl & E2 & F2). rewrite E2. cbn [bind]. eexists. split; [reflexivity|]. apply emptied_split. cbn. auto.
Qed.

Lemma whole_run_unrec e y : forall l m n rs tr rs1, emptied m = emptied n -> whole_run e y l m rs = Some (tr, rs1) ->
  exists ms, sim_run e (map tuple l) n = Some ms /\ Forall2 (fun p m' => emptied (snd p) = emptied m') tr ms.
Proof.
  induction l as [|q l IH]; intros m n rs tr rs1 EQ H; cbn [whole_run] in H.
  - injection H as <- <-. exists []. split; [reflexivity|constructor].
  - destruct (whole_step e y (q_args q) (q_main q) (q_secs q) (q_pass q) m rs) as [[[mid m1] ra]|] eqn:E1; cbn [bind] in H; [|discriminate].
    destruct (whole_run e y l m1 ra) as [[t1 r1]|] eqn:E3; cbn [bind] in H; [|discriminate]. injection H as <- <-.
    destruct (whole_step_unrec _ _ _ _ _ _ _ _ _ _ _ _ EQ E1) as (n1 & A & B). destruct (IH _ _ _ _ _ B E3) as (ms & C & D).
    exists (n1 :: ms). cbn [map tuple sim_run]. rewrite A. cbn [bind]. rewrite C. split; [reflexivity|]. constructor; auto.
Qed.

(** Without recorders at all it is the step of Sim.v. *)
Lemma save_none y main pass m : forall rs cl, Forall (fun r => r = None) rs -> save_output y main pass m rs cl = Some (rs, cl).
Proof.
  intros rs cl F. revert cl. induction F as [|r rs -> F IH]; intros [|c cl]; cbn [save_output]; try reflexivity.
  cbn [save_cloud bind]. rewrite IH. reflexivity.
Qed.
Lemma whole_run_none e y rs : Forall (fun r => r = None) rs -> forall l m,
  option_map (fun r => map snd (fst r)) (whole_run e y l m rs) = sim_run e (map tuple l) m.
Proof.
  intros F. induction l as [|q l IH]; intros m; cbn [whole_run map sim_run tuple]; [reflexivity|].
  unfold whole_step, sim_time_step. destruct (step_main e (q_args q) (q_main q) (q_secs q) m) as [m0|]; cbn [bind]; [|reflexivity].
  rewrite save_none by exact F. cbn [bind]. destruct (clean_loop e (q_args q) (ti_new (q_main q)) (m_k m0) (m_clouds m0)) as [[cl k]|]; cbn [bind]; [|reflexivity].
  rewrite <- IH. destruct (whole_run e y l _ rs) as [[tr r1]|]; reflexivity.
Qed.
