(** The electromagnetic mode. *)
From Coq Require Import String Lra Lia.
From Verif Require Import Num NumFacts MP SpecMP MPFacts Push SpecPush PushFacts PushFacts2 Beam SpecBeam BeamFacts Sim SpecSim SimFacts SimFacts7 SimFacts9 Em SpecEm.
Local Open Scope list_scope.
Local Open Scope R_scope.

Lemma cur_live_x k0 s : mp_currents k0 vx_mp s = map (fun m => (m_x m, m_y m, curx k0 m)) (live s).
Proof. unfold mp_currents, live. rewrite map_map. reflexivity. Qed.
Lemma cur_live_y k0 s : mp_currents k0 vy_mp s = map (fun m => (m_x m, m_y m, cury k0 m)) (live s).
Proof. unfold mp_currents, live. rewrite map_map. reflexivity. Qed.

Lemma em_loop_sc p phi k0 : forall cl before em, let '(cl', em') := em_loop p phi k0 before cl em in recompute_loop p before cl (em_sc em) = (cl', em_sc em').
Proof.
  induction cl as [|c cl IH]; intros before em; cbn [em_loop recompute_loop]; [reflexivity|].
  set (em1 := recompute_spchg_emfield _ _ _ _ _ _ _ em). specialize (IH (before ++ [sub_earlier (sc_rho (em_sc em1)) before]) em1).
  destruct (em_loop p phi k0 _ cl em1) as [r em2]. change (em_sc em1) with (recompute_spchg_efield p (a_charge (o_set c)) (o_mp c) match cl with [] => true | _ => false end match before with [] => true | _ => false end (em_sc em)) in IH at 2.
  change (sc_rho (em_sc em1)) with (sc_rho (recompute_spchg_efield p (a_charge (o_set c)) (o_mp c) match cl with [] => true | _ => false end match before with [] => true | _ => false end (em_sc em))) in *.
  rewrite IH. reflexivity.
Qed.

Lemma is_sum_all n p w cl r : grid_size p n -> is_sum n (map (deposits p w) cl) r -> r = all_deposits p n w cl.
Proof.
  intros G [L S]. apply (nth_ext _ _ 0 0); [unfold all_deposits; rewrite map_length, seq_length; exact L|].
  intros j Hj. rewrite S, map_map. unfold all_deposits. set (f := fun j => rsum _). rewrite (nth_indep _ 0 (f 0%nat)) by (rewrite map_length, seq_length; lia).
  rewrite (map_nth f), seq_nth by lia. reflexivity.
Qed.

Lemma scatter_sum n p w c done st reset : grid_size p n -> reset = (match done with [] => true | _ => false end) ->
  (done <> [] -> is_sum n (map (deposits p w) done) (ps_rho st)) ->
  is_sum n (map (deposits p w) (done ++ [c])) (ps_rho (scatter p (a_charge (o_set c)) (map (fun m => (m_x m, m_y m, w m)) (live (o_mp c))) reset st)).
Proof.
  intros G -> B. unfold scatter. cbn [ps_rho]. fold (deposits p w c). assert (Ld : List.length (deposits p w c) = n) by apply G.
  destruct done as [|b bs].
  - split; [exact Ld|]. intros j. cbn [app map]. change (nth j (deposits p w c) 0 = nth j (deposits p w c) 0 + 0). lra.
  - destruct (B ltac:(discriminate)) as [L1 L2]. split; [rewrite map2_length; lia|]. intros j.
    rewrite map2_nth0 by (lra || congruence). rewrite L2, map_app, map_app, rsum_app. cbn [map].
    change (rsum [nth j (deposits p w c) 0]) with (nth j (deposits p w c) 0 + 0). lra.
Qed.

(** The loop over the clouds; [done] are those already scattered. *)
Lemma em_loop_states n p phi k0 : grid_size p n -> forall cl before done em cl' em', (before = [] <-> done = []) -> cl <> [] ->
  (done <> [] -> is_sum n (map (deposits p (curx k0)) done) (ps_rho (em_ax em)) /\ is_sum n (map (deposits p (cury k0)) done) (ps_rho (em_ay em))) ->
  em_loop p phi k0 before cl em = (cl', em') ->
  is_sum n (map (deposits p (curx k0)) (done ++ cl)) (ps_rho (em_ax em')) /\ is_sum n (map (deposits p (cury k0)) (done ++ cl)) (ps_rho (em_ay em')) /\
  em_ax em' = solved p phi (em_ax em') /\ em_ay em' = solved p phi (em_ay em') /\ em_beta em' = em_beta em /\
  exists ox oy, em_old em' = Some (ox, oy) /\ ps_phi ox = ps_phi (em_ax em) /\ ps_phi oy = ps_phi (em_ay em).
Proof.
  intros G. induction cl as [|c cl IH]; intros before done em cl' em' BD NE B H; [contradiction|]. cbn [em_loop] in H.
  set (reset := match before with [] => true | _ => false end) in *.
  assert (RE : reset = match done with [] => true | _ => false end).
  { unfold reset. destruct before, done; auto; destruct BD as [X Y]; [discriminate (X eq_refl)|discriminate (Y eq_refl)]. }
  set (em1 := recompute_spchg_emfield _ _ _ _ _ _ _ em) in *. set (solve := match cl with [] => true | _ => false end) in *.
  assert (SX : is_sum n (map (deposits p (curx k0)) (done ++ [c])) (ps_rho (em_ax em1))).
  { unfold em1, recompute_spchg_emfield. cbn [em_ax]. rewrite cur_live_x.
    pose proof (scatter_sum n p (curx k0) c done (em_ax em) reset G RE (fun X => proj1 (B X))) as S. destruct solve; [exact S|exact S]. }
  assert (SY : is_sum n (map (deposits p (cury k0)) (done ++ [c])) (ps_rho (em_ay em1))).
  { unfold em1, recompute_spchg_emfield. cbn [em_ay]. rewrite cur_live_y.
    pose proof (scatter_sum n p (cury k0) c done (em_ay em) reset G RE (fun X => proj2 (B X))) as S. destruct solve; [exact S|exact S]. }
  destruct (em_loop p phi k0 (before ++ [_]) cl em1) as [r em2] eqn:E. injection H as <- <-.
  destruct cl as [|c2 cl].
  - cbn [em_loop] in E. injection E as <- <-. split; [exact SX|]. split; [exact SY|].
    unfold em1, recompute_spchg_emfield, solve. cbn [em_ax em_ay em_old em_beta]. do 3 (split; [reflexivity|]). eauto.
  - apply (IH _ (done ++ [c])) in E; [|split; intros K; destruct before, done; discriminate K|discriminate|auto].
    rewrite <- app_assoc in E. cbn [app] in E. destruct E as (A1 & A2 & A3 & A4 & A5 & ox & oy & A6 & A7 & A8).
    do 4 (split; [assumption|]). split; [rewrite A5; reflexivity|]. exists ox, oy. split; [exact A6|].
    rewrite A7, A8. split; reflexivity.
Qed.

Ltac pe := repeat match goal with |- Some _ = Some _ => f_equal | |- (_, _) = (_, _) => f_equal end; try ring.

(** * A step *)
Lemma check_eq t sc : check_for_recomputation t sc = (fst (check_for_recomputation t sc), snd (check_for_recomputation t sc)).
Proof. destruct (check_for_recomputation t sc); reflexivity. Qed.

Lemma renews_iff tsc q em : renews tsc q em <-> (Rgtb (e_time q) tsc && fst (check_for_recomputation (e_time q) (em_sc em))) || snd (fst q) = true.
Proof.
  unfold renews. rewrite Bool.orb_true_iff, Bool.andb_true_iff, Rgtb_true. unfold check_for_recomputation. cbn [fst].
  destruct (sc_Dt (em_sc em)) as [D|]; [rewrite Rgeb_true; intuition lra|]. intuition.
Qed.

Definition keeps (em em' : emsc) : Prop :=
  em_ax em' = em_ax em /\ em_ay em' = em_ay em /\ em_old em' = em_old em /\ em_beta em' = em_beta em /\
  sc_Dt (em_sc em') = sc_Dt (em_sc em) /\ sc_fld (em_sc em') = sc_fld (em_sc em).

Lemma em_step_idle p phi k0 tsc q em : ~ renews tsc q em -> keeps em (em_step p phi k0 tsc (e_time q) (snd (fst q)) (e_clouds q) em).
Proof.
  rewrite renews_iff. unfold em_step. rewrite (check_eq (e_time q)). intros H. apply Bool.not_true_is_false in H. cbn [fst snd] in *. rewrite H.
  unfold keeps. cbn. auto 10.
Qed.

Lemma idle_keeps p phi k0 tsc : forall l em, idle p phi k0 tsc l em -> keeps em (em_steps p phi k0 tsc l em).
Proof.
  induction l as [|q l IH]; intros em; cbn [idle em_steps]; [intros _; unfold keeps; auto 10|].
  intros [H1 H2]. apply IH in H2. apply (em_step_idle p phi k0) in H1. unfold keeps in *.
  destruct H1 as (A1 & A2 & A3 & A4 & A5 & A6), H2 as (B1 & B2 & B3 & B4 & B5 & B6). rewrite B1, B2, B3, B4, B5, B6. auto 10.
Qed.

(** What a recomputation leaves behind. *)
Definition made (p : pic) (phi : list R -> R -> R -> R) (k0 : R) (n : nat) (cl : list cloud) (em : emsc) : Prop :=
  ps_phi (em_ax em) = phi (all_deposits p n (curx k0) cl) /\ ps_fld (em_ax em) = pi_solve p (all_deposits p n (curx k0) cl) /\
  ps_phi (em_ay em) = phi (all_deposits p n (cury k0) cl) /\ ps_fld (em_ay em) = pi_solve p (all_deposits p n (cury k0) cl) /\
  sc_fld (em_sc em) = pi_solve p (all_deposits p n chg cl).

Lemma em_step_renews n p phi k0 tsc q em : grid_size p n -> e_clouds q <> [] -> renews tsc q em ->
  let em' := em_step p phi k0 tsc (e_time q) (snd (fst q)) (e_clouds q) em in
  made p phi k0 n (e_clouds q) em' /\ em_beta em' = em_beta em /\ sc_Dt (em_sc em') = sc_Dt (em_sc em) /\
  exists ox oy, em_old em' = Some (ox, oy) /\ ps_phi ox = ps_phi (em_ax em) /\ ps_phi oy = ps_phi (em_ay em).
Proof.
  intros G NE H. apply renews_iff in H. unfold em_step. rewrite (check_eq (e_time q)). cbn [fst snd] in *. rewrite H.
  set (em0 := mkEm _ _ _ _ _). pose proof (em_loop_sc p phi k0 (e_clouds q) [] em0) as S. destruct (em_loop p phi k0 [] (e_clouds q) em0) as [cl' em'] eqn:E. cbn [snd].
  apply (em_loop_states n p phi k0 G _ _ []) in E; [|tauto|exact NE|intros []; reflexivity].
  cbn [app] in E. destruct E as (A1 & A2 & A3 & A4 & A5 & A6). apply (is_sum_all n) in A1; [|exact G]. apply (is_sum_all n) in A2; [|exact G].
  pose proof (recompute_ok n p G _ _ _ _ _ (Forall_nil _) (fun K => False_ind _ (K eq_refl)) S) as (R1 & R2 & R3 & _ & _ & R4 & R5 & _).
  destruct (R4 NE) as [R6 R7]. cbn [app] in R6. rewrite R1 in R6.
  change (map (own_density p) (e_clouds q)) with (map (deposits p chg) (e_clouds q)) in R6. apply (is_sum_all n) in R6; [|exact G].
  split.
  - unfold made. rewrite A3, A4, R7. cbn [solved ps_phi ps_fld ps_rho]. rewrite A1, A2, R6. auto 10.
  - split; [exact A5|]. split; [|exact A6]. rewrite R5. reflexivity.
Qed.

Lemma em_steps_app p phi k0 tsc l1 : forall l2 em, em_steps p phi k0 tsc (l1 ++ l2) em = em_steps p phi k0 tsc l2 (em_steps p phi k0 tsc l1 em).
Proof. induction l1 as [|q l1 IH]; intros l2 em; cbn [app em_steps]; [reflexivity|apply IH]. Qed.

Lemma em_step_const n p phi k0 tsc q em : grid_size p n -> let em' := em_step p phi k0 tsc (e_time q) (snd (fst q)) (e_clouds q) em in
  em_beta em' = em_beta em /\ sc_Dt (em_sc em') = sc_Dt (em_sc em).
Proof.
  intros G. cbv zeta. destruct (Rgtb (e_time q) tsc && fst (check_for_recomputation (e_time q) (em_sc em)) || snd (fst q)) eqn:B.
  - destruct (e_clouds q) as [|c cl] eqn:C.
    + unfold em_step. rewrite (check_eq (e_time q)). cbn [fst snd] in *. rewrite B. cbn. auto.
    + rewrite <- C. assert (N : e_clouds q <> []) by (rewrite C; discriminate). destruct (em_step_renews n p phi k0 tsc q em G N) as (_ & X & Y & _); [apply renews_iff; exact B|auto].
  - assert (N : ~ renews tsc q em) by (rewrite renews_iff; congruence). apply (em_step_idle p phi k0) in N. unfold keeps in N. intuition.
Qed.
Lemma em_steps_const n p phi k0 tsc : grid_size p n -> forall l em, em_beta (em_steps p phi k0 tsc l em) = em_beta em /\ sc_Dt (em_sc (em_steps p phi k0 tsc l em)) = sc_Dt (em_sc em).
Proof.
  intros G. induction l as [|q l IH]; intros em; cbn [em_steps]; [auto|]. destruct (IH (em_step p phi k0 tsc (e_time q) (snd (fst q)) (e_clouds q) em)) as [A B].
  destruct (em_step_const n p phi k0 tsc q em G) as [C D]. rewrite A, B. auto.
Qed.

Lemma two_recomputations n p phi k0 tsc D gamma sc pre q1 mid q2 post : grid_size p n -> sc_Dt sc = Some D -> e_clouds q1 <> [] -> e_clouds q2 <> [] ->
  let em0 := em_ctor n sc gamma in
  let em1 := em_steps p phi k0 tsc pre em0 in let em2 := em_steps p phi k0 tsc [q1] em1 in
  let em3 := em_steps p phi k0 tsc mid em2 in let em4 := em_steps p phi k0 tsc [q2] em3 in
  renews tsc q1 em1 -> idle p phi k0 tsc mid em2 -> renews tsc q2 em3 -> idle p phi k0 tsc post em4 ->
  forall x y, let A k q := phi (all_deposits p n k (e_clouds q)) x y in
  let G k := pi_solve p (all_deposits p n k (e_clouds q2)) x y in
  em_at (em_steps p phi k0 tsc (pre ++ [q1] ++ mid ++ [q2] ++ post) em0) x y =
  Some (induced (G chg) ((A (curx k0) q2 - A (curx k0) q1) / D) ((A (cury k0) q2 - A (cury k0) q1) / D)
        (snd (G (curx k0)) - fst (G (cury k0))) (sqrt (1 - 1 / (gamma * gamma)))).
Proof.
  intros GS HD N1 N2 em0 em1 em2 em3 em4 R1 I1 R2 I2 x y A G.
  rewrite em_steps_app. rewrite (em_steps_app _ _ _ _ [q1]). rewrite (em_steps_app _ _ _ _ mid). rewrite (em_steps_app _ _ _ _ [q2]). fold em1 em2 em3 em4.
  destruct (em_step_renews n p phi k0 tsc q1 em1 GS N1 R1) as ((M1 & M2 & M3 & M4 & M5) & B1 & D1 & _). fold em2 in M1, M2, M3, M4, M5, B1, D1.
  change (em_step p phi k0 tsc (e_time q1) (snd (fst q1)) (e_clouds q1) em1) with em2 in *.
  pose proof (idle_keeps _ _ _ _ _ _ I1) as (K1 & K2 & K3 & K4 & K5 & K6). fold em3 in K1, K2, K3, K4, K5, K6.
  destruct (em_step_renews n p phi k0 tsc q2 em3 GS N2 R2) as ((P1 & P2 & P3 & P4 & P5) & B2 & D2 & ox & oy & O1 & O2 & O3).
  change (em_step p phi k0 tsc (e_time q2) (snd (fst q2)) (e_clouds q2) em3) with em4 in *.
  pose proof (idle_keeps _ _ _ _ _ _ I2) as (Q1 & Q2 & Q3 & Q4 & Q5 & Q6). set (em5 := em_steps p phi k0 tsc post em4) in *.
  destruct (em_steps_const n p phi k0 tsc GS pre em0) as [C1 C2]. fold em1 in C1, C2.
  unfold em_at. rewrite Q1, Q2, Q3, Q4, Q5, Q6, O1, D2, K5, D1, C2. cbn [em0 em_ctor em_sc]. rewrite HD. cbn [bind].
  rewrite P1, P2, P3, P4, P5, O2, O3, K1, K2, M1, M3, B2, K4, B1, C1. cbn [em0 em_ctor em_beta].
  unfold A, G. destruct (pi_solve p (all_deposits p n chg (e_clouds q2)) x y) as [mx my]. cbn [bind]. unfold induced. cbn [fst snd].
  unfold Rdiv. pe.
Qed.

Lemma first_recomputation n p phi k0 tsc D gamma sc pre q1 post : grid_size p n -> sc_Dt sc = Some D -> e_clouds q1 <> [] ->
  let em0 := em_ctor n sc gamma in
  let em1 := em_steps p phi k0 tsc pre em0 in let em2 := em_steps p phi k0 tsc [q1] em1 in
  idle p phi k0 tsc pre em0 -> renews tsc q1 em1 -> idle p phi k0 tsc post em2 ->
  forall x y, let A k q := phi (all_deposits p n k (e_clouds q)) x y in
  let G k := pi_solve p (all_deposits p n k (e_clouds q1)) x y in
  em_at em1 x y = Some (sc_fld sc x y, (0, 0, 0)) /\
  em_at (em_steps p phi k0 tsc (pre ++ [q1] ++ post) em0) x y =
  Some (induced (G chg) (A (curx k0) q1 / D) (A (cury k0) q1 / D) (snd (G (curx k0)) - fst (G (cury k0))) (sqrt (1 - 1 / (gamma * gamma)))).
Proof.
  intros GS HD N1 em0 em1 em2 I0 R1 I1 x y A G.
  rewrite em_steps_app. rewrite (em_steps_app _ _ _ _ [q1]). fold em1 em2.
  pose proof (idle_keeps _ _ _ _ _ _ I0) as (K1 & K2 & K3 & K4 & K5 & K6). fold em1 in K1, K2, K3, K4, K5, K6.
  destruct (em_step_renews n p phi k0 tsc q1 em1 GS N1 R1) as ((M1 & M2 & M3 & M4 & M5) & B1 & D1 & ox & oy & O1 & O2 & O3).
  change (em_step p phi k0 tsc (e_time q1) (snd (fst q1)) (e_clouds q1) em1) with em2 in *.
  pose proof (idle_keeps _ _ _ _ _ _ I1) as (Q1 & Q2 & Q3 & Q4 & Q5 & Q6). set (em5 := em_steps p phi k0 tsc post em2) in *.
  split.
  - unfold em_at. rewrite K1, K2, K3, K6. cbn [em0 em_ctor em_ax em_ay em_old em_sc no_state ps_fld fst snd]. destruct (sc_fld sc x y) as [mx my]. cbn [bind].
    unfold Rdiv. pe.
  - unfold em_at. rewrite Q1, Q2, Q3, Q4, Q5, Q6, O1, D1, K5. cbn [em0 em_ctor em_sc]. rewrite HD. cbn [bind].
    rewrite M1, M2, M3, M4, M5, O2, O3, K1, K2, B1, K4. cbn [em0 em_ctor em_beta em_ax em_ay no_state ps_phi].
    unfold A, G. destruct (pi_solve p (all_deposits p n chg (e_clouds q1)) x y) as [mx my]. cbn [bind]. unfold induced. cbn [fst snd].
    unfold Rdiv. pe.
Qed.

Lemma rest_deposits n p phi k0 cl : silent p phi n -> at_rest cl -> all_deposits p n (curx k0) cl = repeat 0 n /\ all_deposits p n (cury k0) cl = repeat 0 n.
Proof.
  intros (_ & _ & Q) AR.
  assert (Z : forall w : mp -> R, Forall (fun c => Forall (fun m => w m = 0) (live (o_mp c))) cl -> all_deposits p n w cl = repeat 0 n).
  { intros w F. unfold all_deposits. assert (E : forall j, rsum (map (fun c => nth j (deposits p w c) 0) cl) = 0).
    { intros j. induction F as [|c cl H F IH]; [reflexivity|]. inversion AR; subst. cbn [map].
      change (nth j (deposits p w c) 0 + rsum (map (fun c => nth j (deposits p w c) 0) cl) = 0). rewrite IH by assumption.
      unfold deposits. rewrite Q.
      - rewrite nth_repeat. lra.
      - apply Forall_forall. intros t Ht. apply in_map_iff in Ht. destruct Ht as (m & <- & Hm). cbn [snd]. rewrite Forall_forall in H. apply H. exact Hm. }
    rewrite (map_ext _ (fun _ => 0)) by exact E. clear. generalize 0%nat. induction n as [|m IH]; intros k; cbn [seq map repeat]; [reflexivity|f_equal; apply IH]. }
  split; apply Z; eapply Forall_impl; try exact AR; intros c H; eapply Forall_impl; try exact H; intros m [H1 H2]; unfold curx, cury; [rewrite H1|rewrite H2]; ring.
Qed.

Lemma rest_field n p phi k0 tsc D gamma sc pre q1 mid q2 post : grid_size p n -> silent p phi n -> sc_Dt sc = Some D -> D <> 0 -> 1 < gamma -> e_clouds q1 <> [] -> e_clouds q2 <> [] ->
  at_rest (e_clouds q1) -> at_rest (e_clouds q2) ->
  let em0 := em_ctor n sc gamma in
  let em1 := em_steps p phi k0 tsc pre em0 in let em2 := em_steps p phi k0 tsc [q1] em1 in
  let em3 := em_steps p phi k0 tsc mid em2 in let em4 := em_steps p phi k0 tsc [q2] em3 in
  renews tsc q1 em1 -> idle p phi k0 tsc mid em2 -> renews tsc q2 em3 -> idle p phi k0 tsc post em4 ->
  forall x y, em_at (em_steps p phi k0 tsc (pre ++ [q1] ++ mid ++ [q2] ++ post) em0) x y =
  Some (pi_solve p (all_deposits p n chg (e_clouds q2)) x y, (0, 0, 0)).
Proof.
  intros GS Q HD D0 GM N1 N2 AR1 AR2 em0 em1 em2 em3 em4 R1 I1 R2 I2 x y.
  rewrite (two_recomputations n p phi k0 tsc D gamma sc pre q1 mid q2 post GS HD N1 N2 R1 I1 R2 I2).
  destruct (rest_deposits n p phi k0 _ Q AR1) as [X1 Y1]. destruct (rest_deposits n p phi k0 _ Q AR2) as [X2 Y2]. rewrite X1, Y1, X2, Y2.
  destruct Q as (P0 & F0 & _). rewrite F0. cbn [fst snd]. unfold induced. destruct (pi_solve p (all_deposits p n chg (e_clouds q2)) x y) as [mx my]. cbn [fst snd].
  unfold Rdiv. pe.
Qed.

(** Without a time between recomputations. *)
Lemma em_all_none em pos : em_old em <> None -> sc_Dt (em_sc em) = None -> em_all em pos = None.
Proof.
  intros HO HD. destruct pos as [|q pos]; cbn [em_all].
  - destruct (em_old em); [|contradiction]. rewrite HD. reflexivity.
  - unfold em_at. destruct (em_old em) as [[ox oy]|]; [|contradiction]. rewrite HD. cbn [bind]. destruct (sc_fld (em_sc em) (fst q) (snd q)). reflexivity.
Qed.

Lemma old_stays n p phi k0 tsc : grid_size p n -> forall l em, em_old em <> None -> Forall (fun q => e_clouds q <> []) l -> em_old (em_steps p phi k0 tsc l em) <> None.
Proof.
  intros G. induction l as [|q l IH]; intros em HO F; cbn [em_steps]; [exact HO|]. inversion F; subst. apply IH; [|assumption].
  destruct (Rgtb (e_time q) tsc && fst (check_for_recomputation (e_time q) (em_sc em)) || snd (fst q)) eqn:B.
  - destruct (em_step_renews n p phi k0 tsc q em G H1) as (_ & _ & _ & ox & oy & -> & _); [apply renews_iff; exact B|discriminate].
  - assert (N : ~ renews tsc q em) by (rewrite renews_iff; congruence). apply (em_step_idle p phi k0) in N. destruct N as (_ & _ & -> & _). exact HO.
Qed.

Lemma no_interval n p phi k0 tsc gamma sc pre q1 post s e a main secs chargeq m bf bs b0 Dt N : grid_size p n -> sc_Dt sc = None -> e_clouds q1 <> [] -> Forall (fun q => e_clouds q <> []) post -> tsc < e_time q1 ->
  s_kick a = false -> e_reinterp e = false -> s_force_re a = false ->
  em_motion e a main secs (em_steps p phi k0 tsc (pre ++ [q1] ++ post) (em_ctor n sc gamma)) chargeq m bf bs b0 Dt N s = None.
Proof.
  intros GS HD N1 NP T K R1 R2. rewrite em_steps_app. rewrite (em_steps_app _ _ _ _ [q1]). set (em1 := em_steps p phi k0 tsc pre _).
  destruct (em_steps_const n p phi k0 tsc GS pre (em_ctor n sc gamma)) as [_ C]. fold em1 in C. cbn [em_ctor em_sc] in C. rewrite HD in C.
  assert (RN : renews tsc q1 em1) by (left; split; [exact T|]; rewrite C; exact I).
  destruct (em_step_renews n p phi k0 tsc q1 em1 GS N1 RN) as (_ & _ & D1 & ox & oy & O & _).
  cbn [em_steps]. set (em2 := em_step p phi k0 tsc (e_time q1) (snd (fst q1)) (e_clouds q1) em1) in *.
  assert (A1 : em_old (em_steps p phi k0 tsc post em2) <> None) by (apply (old_stays n); auto; rewrite O; discriminate).
  assert (A2 : sc_Dt (em_sc (em_steps p phi k0 tsc post em2)) = None) by (destruct (em_steps_const n p phi k0 tsc GS post em2) as [_ ->]; rewrite D1; exact C).
  unfold em_motion. destruct (sub_steps _ _ _ _) as [sub|]; [|reflexivity]. cbn [bind]. rewrite K, R1, R2. cbn [bind orb].
  destruct sub as [[h k]|]; cbn [em_motion_loop]; unfold em_gather; rewrite (em_all_none _ _ A1 A2); reflexivity.
Qed.

(** * Motion *)
Lemma em_all_get em : forall pos fs, em_all em pos = Some fs -> List.length fs = List.length pos /\
  forall i d, (i < List.length pos)%nat -> em_at em (fst (nth i pos (0, 0))) (snd (nth i pos (0, 0))) = Some (nth i fs d).
Proof.
  induction pos as [|q pos IH]; intros fs H; cbn [em_all] in H.
  - assert (fs = []) as -> by (destruct (em_old em), (sc_Dt (em_sc em)); congruence). split; [reflexivity|]. intros i d Hi. cbn in Hi. lia.
  - destruct (em_at em (fst q) (snd q)) as [f|] eqn:F; [|discriminate]. cbn [bind] in H. destruct (em_all em pos) as [r|] eqn:A; [|discriminate]. cbn [bind] in H. injection H as <-.
    destruct (IH _ eq_refl) as [L V]. split; [cbn; rewrite L; reflexivity|]. intros [|i] d Hi; cbn [nth]; [exact F|]. apply V. cbn in Hi. lia.
Qed.

Lemma em_gather_is em main secs f0 fs s E B : acts main f0 -> Forall2 acts secs fs -> em_gather em false main secs s = Some (E, B) ->
  forall i, (i < N_mp s)%nat -> exists e b, em_at em (px (get6 s i)) (py (get6 s i)) = Some (e, b) /\
    E i = (fst e + rsum (map (fun f => fst (f (px (get6 s i), py (get6 s i)))) (f0 :: fs)), snd e + rsum (map (fun f => snd (f (px (get6 s i), py (get6 s i)))) (f0 :: fs))) /\
    B i = (Some (fst (fst b)), Some (snd (fst b)), Some (snd b)).
Proof.
  intros A0 AS H i Hi. unfold em_gather in H. destruct (em_all em (mp_pos s)) as [l|] eqn:EA; [|discriminate]. cbn [bind] in H.
  destruct (em_all_get em _ _ EA) as [LL V].
  assert (LP : List.length (mp_pos s) = N_mp s) by (unfold mp_pos; rewrite map_length, seq_length; reflexivity).
  assert (NP : nth i (mp_pos s) (0, 0) = (px (get6 s i), py (get6 s i))).
  { unfold mp_pos. rewrite (nth_indep _ (0, 0) ((fun i => (nth i (x_mp s) 0, nth i (y_mp s) 0)) 0%nat)) by (rewrite map_length, seq_length; exact Hi).
    rewrite (map_nth (fun i => (nth i (x_mp s) 0, nth i (y_mp s) 0))), seq_nth by exact Hi. reflexivity. }
  specialize (V i ((0, 0), (0, 0, 0))). rewrite NP in V. cbn [fst snd] in V. specialize (V ltac:(lia)).
  unfold total_field, field_from_beams in H. destruct (A0 (mp_pos s)) as [B1 B2]. destruct (ti_f main (mp_pos s)) as [ex ey]. cbn [fst snd] in B1, B2.
  destruct (beams_is _ _ _ AS _ _ _ _ B1 B2) as (rx & ry & EQ & RX & RY). rewrite EQ in H. cbn [bind] in H.
  set (g := fun q => match em_at em (fst q) (snd q) with Some f => fst f | None => (0, 0) end).
  assert (MG : map fst l = map g (mp_pos s)).
  { apply (nth_ext _ _ (0, 0) (g (0, 0))); [rewrite !map_length; exact LL|]. intros j Hj. rewrite map_length in Hj. rewrite (map_nth g).
    rewrite (nth_indep _ (0, 0) (fst ((0, 0), (0, 0, 0)))) by (rewrite map_length; exact Hj). rewrite (map_nth fst).
    destruct (em_all_get em _ _ EA) as [_ V']. unfold g. rewrite (V' j ((0, 0), (0, 0, 0))) by lia. reflexivity. }
  assert (VV : forall k : R * R -> R, fld_is (mp_pos s) (Vec (map k (map fst l))) (fun q => k (g q))) by (intros k; cbn; rewrite MG; apply map_map).
  destruct (fadd_is _ _ _ _ _ (VV fst) RX) as (cx & EX & CX). destruct (fadd_is _ _ _ _ _ (VV snd) RY) as (cy & EY & CY). rewrite EX, EY in H. cbn [bind] in H.
  assert (HE : E = fun i => (fld_at cx i, fld_at cy i)) by congruence. assert (HB : B = fun i => let '(bx, by_, bz) := snd (nth i l ((0, 0), (0, 0, 0))) in (Some bx, Some by_, Some bz)) by congruence.
  subst E B. cbv beta. destruct (nth i l ((0, 0), (0, 0, 0))) as [e [[b1 b2] b3]] eqn:NI. try rewrite NI in V. exists e, (b1, b2, b3). split; [exact V|]. split; [|reflexivity].
  rewrite (fld_is_at _ _ _ i (0, 0) CX), (fld_is_at _ _ _ i (0, 0) CY) by lia. rewrite NP. unfold g. cbn [fst snd]. rewrite V. cbn [map fst snd]. rewrite !map_map. reflexivity.
Qed.

Lemma em_moves e a main secs em chargeq m bf bs b0 Dt N s f0 fs s' : bf <> [] -> s_kick a = false -> e_reinterp e = false -> s_force_re a = false -> acts main f0 -> Forall2 acts secs fs ->
  em_motion e a main secs em chargeq m bf bs b0 Dt N s = Some s' ->
  exists h n, pieces a main (multipole_dyn chargeq m bf bs b0 Dt N) h n /\ forall i, (i < N_mp s)%nat -> 
  let x := px (get6 s i) in let y := py (get6 s i) in exists ec bc, em_at em x y = Some (ec, bc) /\
    get6 s' i = get6 (boris_stepcustomDt chargeq m (fun u v =>
      (snd (harmonic bf bs (u, v)) + given (fst (fst b0)) + fst (fst bc), fst (harmonic bf bs (u, v)) + given (snd (fst b0)) + snd (fst bc), given (snd b0) + snd bc))
      (fun _ => (fst ec + rsum (map (fun f => fst (f (x, y))) (f0 :: fs)), snd ec + rsum (map (fun f => snd (f (x, y))) (f0 :: fs)))) h n s) i.
Proof.
  intros BF K R1 R2 A0 AS H. unfold em_motion in H. destruct (sub_steps _ _ _ _) as [sub|] eqn:SB; [|discriminate]. cbn [bind] in H. rewrite K, R1, R2 in H. cbn [bind orb] in H.
  pose proof (pieces_of _ _ _ _ _ SB) as PC. 
  assert (G : exists h n E B, pieces a main (multipole_dyn chargeq m bf bs b0 Dt N) h n /\ em_gather em false main secs s = Some (E, B) /\ s' = multipole_stepcustomDt chargeq m bf bs b0 B E h n s).
  { destruct sub as [[h n]|]; cbn [em_motion_loop] in H; destruct (em_gather em false main secs s) as [[E B]|] eqn:GA; try discriminate; cbn [bind] in H; injection H as <-.
    - exists h, n, E, B. auto.
    - destruct PC as (_ & _ & PC). discriminate PC. }
  destruct G as (h & n & E & B & P & GA & ->). exists h, n. split; [exact P|]. intros i Hi x y.
  destruct (em_gather_is em main secs f0 fs s E B A0 AS GA i Hi) as (ec & bc & EA & EE & EB). exists ec, bc. split; [exact EA|].
  rewrite multipole_step_adds by auto. rewrite EB. cbn [fst snd given]. unfold boris_stepcustomDt. rewrite !push_get by exact Hi. rewrite EE. reflexivity.
Qed.

Lemma em_gather_ok em main secs f0 fs s l : acts main f0 -> Forall2 acts secs fs -> em_all em (mp_pos s) = Some l -> exists G, em_gather em false main secs s = Some G.
Proof.
  intros A0 AS EA. unfold em_gather. rewrite EA. cbn [bind]. destruct (em_all_get em _ _ EA) as [LL _].
  unfold total_field, field_from_beams. destruct (A0 (mp_pos s)) as [B1 B2]. destruct (ti_f main (mp_pos s)) as [ex ey]. cbn [fst snd] in B1, B2.
  destruct (beams_is _ _ _ AS _ _ _ _ B1 B2) as (rx & ry & EQ & RX & RY). rewrite EQ. cbn [bind].
  set (g := fun q => match em_at em (fst q) (snd q) with Some f => fst f | None => (0, 0) end).
  assert (MG : map fst l = map g (mp_pos s)).
  { apply (nth_ext _ _ (0, 0) (g (0, 0))); [rewrite !map_length; exact LL|]. intros j Hj. rewrite map_length in Hj. rewrite (map_nth g).
    rewrite (nth_indep _ (0, 0) (fst ((0, 0), (0, 0, 0)))) by (rewrite map_length; exact Hj). rewrite (map_nth fst).
    destruct (em_all_get em _ _ EA) as [_ V']. unfold g. rewrite (V' j ((0, 0), (0, 0, 0))) by lia. reflexivity. }
  assert (VV : forall k : R * R -> R, fld_is (mp_pos s) (Vec (map k (map fst l))) (fun q => k (g q))) by (intros k; cbn; rewrite MG; apply map_map).
  destruct (fadd_is _ _ _ _ _ (VV fst) RX) as (cx & EX & CX). destruct (fadd_is _ _ _ _ _ (VV snd) RY) as (cy & EY & CY). rewrite EX, EY. cbn [bind]. eauto.
Qed.
