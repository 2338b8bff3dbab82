(** The recorders see every step once. *)
From Coq Require Import String Lra Lia.
From Verif Require Import Num NumFacts MP SpecMP Impact CrossIon Sim SpecSim SimFacts3 SimFacts5 Saver SpecSaver SaverFacts6 Whole SpecWhole WholeFacts WholeFacts2.
Local Open Scope list_scope.
Local Open Scope R_scope.

Definition fed (g : iman) (c : cloud) : cloud := with_iman c (feed g (o_iman c)).
Definition emptied_c (c : cloud) : cloud := with_iman c (blank (o_iman c)).

Lemma step_cloud_lin e a main secs sc k full c :
  step_cloud e a main secs sc k full c = option_map (fun r => (fed (o_iman c) (fst (fst r)), snd (fst r), snd r)) (step_cloud e a main secs sc k full (emptied_c c)).
Proof.
  unfold step_cloud, emptied_c, with_iman. cbn [o_set o_mp o_rho o_iman o_Q].
  destruct (cloud_motion e a main secs sc (o_set c) (o_mp c)) as [s|]; cbn [bind option_map]; [|reflexivity].
  rewrite back_lin. destruct (backtrack_and_second_emiss _ _ _ _ _ (blank (o_iman c)) _ _) as [[[g s1] kq]|]; cbn [bind option_map]; [|reflexivity].
  unfold feed3. cbn [fst snd]. destruct (primary_generation _ _ _ _ _ _ _) as [[[s2 k2] f2]|]; reflexivity.
Qed.

Lemma clouds_loop_lin e a main secs sc : forall cl k full,
  clouds_loop e a main secs sc k full cl =
  option_map (fun r => (map2 fed (map o_iman cl) (fst (fst r)), snd (fst r), snd r)) (clouds_loop e a main secs sc k full (map emptied_c cl)).
Proof.
  induction cl as [|c cl IH]; intros k full; cbn [clouds_loop map]; [reflexivity|]. rewrite step_cloud_lin.
  destruct (step_cloud e a main secs sc k full (emptied_c c)) as [[[c1 k1] f1]|]; cbn [bind option_map fst snd]; [|reflexivity].
  rewrite IH. destruct (clouds_loop e a main secs sc k1 f1 (map emptied_c cl)) as [[[r k2] f2]|]; reflexivity.
Qed.

Lemma to_x_fed : forall gs cl, List.length gs = List.length cl -> map to_x (map2 fed gs cl) = map to_x cl.
Proof. induction gs as [|g gs IH]; intros [|c cl] L; cbn in *; try discriminate; [reflexivity|]. rewrite IH by lia. reflexivity. Qed.
Lemma put_fed : forall gs cl xs, map2 put_mp (map2 fed gs cl) xs = map2 fed gs (map2 put_mp cl xs).
Proof. induction gs as [|g gs IH]; intros [|c cl] [|x xs]; cbn; try reflexivity. f_equal. apply IH. Qed.
Lemma cross_fed e Dt x k gs cl : List.length gs = List.length cl ->
  cross_step e Dt x k (map2 fed gs cl) = option_map (fun r => (fst (fst r), map2 fed gs (snd (fst r)), snd r)) (cross_step e Dt x k cl).
Proof.
  intros L. unfold cross_step. destruct x as [x|]; [|reflexivity]. rewrite (to_x_fed _ _ L).
  destruct (cross_generate _ _ _ _ _ _) as [[[x' xs] k']|]; cbn [bind option_map fst snd]; [|reflexivity]. rewrite put_fed. reflexivity.
Qed.
Lemma full_fed : forall gs cl, List.length gs = List.length cl -> existsb (fun c => is_full (o_mp c)) (map2 fed gs cl) = existsb (fun c => is_full (o_mp c)) cl.
Proof. induction gs as [|g gs IH]; intros [|c cl] L; cbn in *; try discriminate; [reflexivity|]. rewrite IH by lia. reflexivity. Qed.
Lemma recompute_loop_fed p : forall gs cl before sc, List.length gs = List.length cl ->
  recompute_loop p before (map2 fed gs cl) sc = (map2 fed gs (fst (recompute_loop p before cl sc)), snd (recompute_loop p before cl sc)).
Proof.
  induction gs as [|g gs IH]; intros [|c cl] before sc L; cbn in L; try discriminate; [reflexivity|]. cbn [map2 recompute_loop]. cbv zeta.
  cbn [fed with_iman o_set o_mp o_rho o_iman o_Q].
  assert (E : match map2 fed gs cl with [] => true | _ => false end = match cl with [] => true | _ => false end).
  { destruct gs, cl; cbn in L |- *; try discriminate; reflexivity. }
  rewrite E. rewrite IH by lia. destruct (recompute_loop p _ cl _) as [r s]. reflexivity.
Qed.
Lemma recompute_fed e t fl fo gs cl sc : List.length gs = List.length cl ->
  recompute_cloud_spacecharge e t fl fo (map2 fed gs cl) sc =
  (map2 fed gs (fst (recompute_cloud_spacecharge e t fl fo cl sc)), snd (recompute_cloud_spacecharge e t fl fo cl sc)).
Proof. intros L. unfold recompute_cloud_spacecharge. destruct (_ || fo); [apply recompute_loop_fed; exact L|reflexivity]. Qed.

Lemma loop_len e a main secs sc cl k full r k' f : clouds_loop e a main secs sc k full cl = Some (r, k', f) -> List.length r = List.length cl.
Proof. intros H. destruct (clouds_loop_frame _ _ _ _ _ _ _ _ _ _ _ H) as [A _]. apply (f_equal (@List.length _)) in A. rewrite !map_length in A. exact A. Qed.
Lemma cross_len e Dt x k cl x' cl' k' : cross_step e Dt x k cl = Some (x', cl', k') -> List.length cl' = List.length cl.
Proof. intros H. destruct (cross_step_frame _ _ _ _ _ _ _ _ H) as [A _]. apply (f_equal (@List.length _)) in A. rewrite !map_length in A. exact A. Qed.

Definition fed_sim (m n : sim) : sim := mkSim (map2 fed (map o_iman (m_clouds m)) (m_clouds n)) (m_sc n) (m_xion n) (m_k n) (m_full n).

Lemma step_main_lin e a main secs m : step_main e a main secs m = option_map (fed_sim m) (step_main e a main secs (emptied m)).
Proof.
  unfold step_main, emptied. cbn [m_clouds m_sc m_xion m_k m_full]. destruct (check_for_recomputation (ti_t main) (m_sc m)) as [fl sc].
  rewrite clouds_loop_lin. change (map (fun c => with_iman c (blank (o_iman c))) (m_clouds m)) with (map emptied_c (m_clouds m)).
  destruct (clouds_loop e a main secs sc (m_k m) (m_full m) (map emptied_c (m_clouds m))) as [[[r k] f]|] eqn:E; cbn [bind option_map fst snd]; [|reflexivity].
  apply loop_len in E. rewrite map_length in E.
  rewrite cross_fed by (rewrite map_length; auto). destruct (cross_step e (ti_Dt main) (m_xion m) k r) as [[[x cl] k2]|] eqn:E2; cbn [bind option_map fst snd]; [|reflexivity].
  apply cross_len in E2. rewrite full_fed, recompute_fed by (rewrite map_length; congruence).
  destruct (recompute_cloud_spacecharge e (ti_t main) fl (s_force_sc a) cl sc) as [cl3 sc3]. reflexivity.
Qed.

Lemma nth_map2 {A B C} (f : A -> B -> C) : forall l l' j c, nth_error (map2 f l l') j = Some c -> exists a b, nth_error l j = Some a /\ nth_error l' j = Some b /\ c = f a b.
Proof.
  induction l as [|a l IH]; intros [|b l'] [|j] c H; cbn in H; try discriminate; [injection H as <-; exists a, b; auto|].
  apply IH in H. exact H.
Qed.

(** One step for the cloud number [j]. *)
Lemma save_output_nth y main pass m : forall rs cl rs' cl' j r c, save_output y main pass m rs cl = Some (rs', cl') ->
  nth_error rs j = Some (Some r) -> nth_error cl j = Some c ->
  exists s g f, witness (r_cfg r) (observe y main pass m c) (o_iman c) (r_st r) = Some (s, g, f) /\
    nth_error rs' j = Some (Some (mkRecorder (r_cfg r) s (match f with Some d => Some d | None => r_file r end))) /\ nth_error cl' j = Some (with_iman c g).
Proof.
  induction rs as [|r0 rs IH]; intros [|c0 cl] rs' cl' [|j] r c H R C; cbn [nth_error] in R, C; try discriminate; cbn [save_output] in H.
  - injection R as ->. injection C as ->. unfold save_cloud in H. destruct (witness (r_cfg r) _ (o_iman c) (r_st r)) as [[[s g] f]|]; cbn [bind] in H; [|discriminate].
    destruct (save_output y main pass m rs cl) as [[ra ca]|]; cbn [bind] in H; [|discriminate]. injection H as <- <-. exists s, g, f. auto.
  - destruct (save_cloud y main pass m r0 c0) as [[r1 c1]|]; cbn [bind] in H; [|discriminate].
    destruct (save_output y main pass m rs cl) as [[ra ca]|] eqn:E; cbn [bind] in H; [|discriminate]. injection H as <- <-. cbn [nth_error].
    eapply IH; eauto.
Qed.

Lemma clean_nth e a new : forall cl k cl' k' j c, clean_loop e a new k cl = Some (cl', k') -> nth_error cl j = Some c ->
  exists c', nth_error cl' j = Some c' /\ o_iman c' = o_iman c.
Proof.
  induction cl as [|c0 cl IH]; intros k cl' k' [|j] c H N; cbn [nth_error] in N; try discriminate; cbn [clean_loop] in H.
  - injection N as ->. destruct (clean_one _ _ _ _ _ _) as [[s k1]|]; cbn [bind] in H; [|discriminate].
    destruct (clean_loop e a new k1 cl) as [[r k2]|]; cbn [bind] in H; [|discriminate]. injection H as <- _. eexists. split; reflexivity.
  - destruct (clean_one _ _ _ _ _ _) as [[s k1]|]; cbn [bind] in H; [|discriminate].
    destruct (clean_loop e a new k1 cl) as [[r k2]|] eqn:E; cbn [bind] in H; [|discriminate]. injection H as <- _. cbn [nth_error]. eapply IH; eauto.
Qed.

Lemma whole_step_nth e y a main secs pass m rs mid m1 rs1 j r c : whole_step e y a main secs pass m rs = Some (mid, m1, rs1) ->
  nth_error rs j = Some (Some r) -> nth_error (m_clouds m) j = Some c ->
  exists st s g f c1 cm, shown e y j (mkCall a main secs pass) m = Some st /\ witness (r_cfg r) (fst st) (feed (o_iman c) (snd st)) (r_st r) = Some (s, g, f) /\
    nth_error rs1 j = Some (Some (mkRecorder (r_cfg r) s (match f with Some d => Some d | None => r_file r end))) /\
    nth_error (m_clouds m1) j = Some c1 /\ o_iman c1 = g /\ nth_error (m_clouds mid) j = Some cm /\ o_mp cm = ob_mp (fst st) /\ o_set cm = o_set c.
Proof.
  unfold whole_step, shown. cbn [q_args q_main q_secs q_pass]. rewrite step_main_lin. intros H R C.
  destruct (step_main e a main secs (emptied m)) as [n|] eqn:E; cbn [bind option_map] in H |- *; [|discriminate].
  destruct (save_output y main pass (fed_sim m n) rs (m_clouds (fed_sim m n))) as [[ra ca]|] eqn:E1; cbn [bind] in H; [|discriminate].
  destruct (clean_loop e a (ti_new main) (m_k (fed_sim m n)) ca) as [[cb k]|] eqn:E2; cbn [bind] in H; [|discriminate]. injection H as <- <- <-.
  assert (SE : map o_set (m_clouds n) = map o_set (m_clouds m)).
  { destruct (clouds_loop e a main secs (snd (check_for_recomputation (ti_t main) (m_sc m))) (m_k m) (m_full m) (m_clouds (emptied m))) as [[[r1 k1] f1]|] eqn:E3;
    unfold step_main, emptied in E, E3; cbn [m_clouds m_sc m_xion m_k m_full] in E, E3;
    destruct (check_for_recomputation (ti_t main) (m_sc m)) as [fl sc]; cbn [snd] in E3; rewrite E3 in E; cbn [bind] in E; [|discriminate].
    destruct (cross_step _ _ _ _ _) as [[[x cl] k2]|] eqn:E4; cbn [bind] in E; [|discriminate].
    destruct (recompute_cloud_spacecharge _ _ _ _ _ _) as [cl3 sc3] eqn:E5. injection E as <-. cbn [m_clouds].
    assert (G : map o_set cl3 = map o_set cl).
    { apply recompute_all_frame in E5. clear - E5. induction E5 as [|u u' l l' (A & _) F IH]; cbn; auto. congruence. }
    rewrite G. destruct (cross_step_frame _ _ _ _ _ _ _ _ E4) as [-> _]. destruct (clouds_loop_frame _ _ _ _ _ _ _ _ _ _ _ E3) as [-> _].
    rewrite map_map. reflexivity. }
  assert (D : exists d, nth_error (m_clouds n) j = Some d /\ o_set d = o_set c).
  { assert (X : nth_error (map o_set (m_clouds n)) j = Some (o_set c)) by (rewrite SE; apply map_nth_error; exact C).
    destruct (nth_error (m_clouds n) j) as [d|] eqn:ED; [|rewrite nth_error_map, ED in X; discriminate].
    rewrite nth_error_map, ED in X. injection X as X. eauto. }
  destruct D as (d & D & DS).
  assert (F : nth_error (m_clouds (fed_sim m n)) j = Some (fed (o_iman c) d)).
  { unfold fed_sim. cbn [m_clouds]. clear - C D. revert C D. generalize (m_clouds n). generalize (m_clouds m). intros l l' C D. revert l l' C D.
    induction j as [|j IH]; intros [|a l] [|b l'] C D; cbn in *; try discriminate; [congruence|]. apply IH; auto. }
  destruct (save_output_nth _ _ _ _ _ _ _ _ _ _ _ E1 R F) as (s & g & f & W & R1 & C1).
  destruct (clean_nth _ _ _ _ _ _ _ _ _ E2 C1) as (c1 & C2 & I2).
  rewrite F. cbn [bind]. rewrite D. cbn [bind]. eexists (_, _), s, g, f, c1, (with_iman (fed (o_iman c) d) g). split; [reflexivity|]. cbn [fst snd].
  split; [exact W|]. split; [exact R1|]. split; [exact C2|]. split; [exact I2|]. split; [exact C1|]. split; [reflexivity|exact DS].
Qed.

Lemma whole_run_nth e y j : forall l m rs tr rs1 r c, whole_run e y l m rs = Some (tr, rs1) ->
  nth_error rs j = Some (Some r) -> nth_error (m_clouds m) j = Some c ->
  exists steps r1 c1, shown_run e y j l (m :: map snd tr) = Some steps /\ nth_error rs1 j = Some (Some r1) /\ r_cfg r1 = r_cfg r /\
    nth_error (m_clouds (last (map snd tr) m)) j = Some c1 /\
    record_run (r_cfg r) steps (o_iman c) (r_st r) (r_file r) = Some (r_st r1, o_iman c1, r_file r1) /\
    Forall2 (fun p st => exists cm, nth_error (m_clouds (fst p)) j = Some cm /\ o_mp cm = ob_mp (fst st) /\ o_set cm = o_set c) tr steps.
Proof.
  induction l as [|q l IH]; intros m rs tr rs1 r c H R C; cbn [whole_run] in H.
  - injection H as <- <-. exists [], r, c. cbn. repeat (split; [auto|]). constructor.
  - destruct (whole_step e y (q_args q) (q_main q) (q_secs q) (q_pass q) m rs) as [[[mid m1] ra]|] eqn:E1; cbn [bind] in H; [|discriminate].
    destruct (whole_run e y l m1 ra) as [[t1 r1]|] eqn:E2; cbn [bind] in H; [|discriminate]. injection H as <- <-.
    destruct (whole_step_nth _ _ _ _ _ _ _ _ _ _ _ _ _ _ E1 R C) as (st & s & g & f & c1 & cm & A & W & RA & CA & I & CM & OM & OS).
    destruct (IH _ _ _ _ _ _ E2 RA CA) as (steps & r2 & c2 & B1 & B2 & B3 & B4 & B5 & B6). cbn [r_cfg r_st r_file] in *.
    assert (SC : o_set c1 = o_set c).
    { destruct (whole_step_mid _ _ _ _ _ _ _ _ _ _ _ E1) as (m0 & _ & _ & _ & _ & cl & k & CL & ->). cbn [m_clouds] in CA.
      destruct (clean_loop_frame _ _ _ _ _ _ _ CL) as [X _].
      assert (Y : nth_error (map o_set cl) j = nth_error (map o_set (m_clouds mid)) j) by (rewrite X; reflexivity).
      rewrite !nth_error_map, CA, CM in Y. cbn in Y. congruence. }
    exists (st :: steps), r2, c2. cbn [map snd]. split.
    { cbn [shown_run]. replace (shown e y j q m) with (Some st) by (destruct q; symmetry; exact A). cbn [bind]. rewrite B1. reflexivity. }
    split; [exact B2|]. split; [exact B3|]. split.
    { destruct t1 as [|p t1]; [exact B4|]. cbn [map] in B4 |- *. change (last (m1 :: snd p :: map snd t1) m) with (last (snd p :: map snd t1) m).
      replace (last (snd p :: map snd t1) m) with (last (snd p :: map snd t1) m1); [exact B4|].
      clear. generalize (snd p). induction (map snd t1) as [|x t IH]; intros z; cbn; [reflexivity|]. destruct t; [reflexivity|apply (IH x)]. }
    split.
    { destruct st as [ob d]. cbn [record_run fst snd] in W |- *. rewrite W. cbn [bind]. rewrite <- I. exact B5. }
    constructor; [exists cm; auto|]. clear - B6 SC. induction B6 as [|p x t u (cx & X1 & X2 & X3) F IH]; constructor; auto. exists cx. rewrite X3, SC. auto.
Qed.
