(** Charge on insulating surfaces over a run. *)
From Coq Require Import String Lra Lia.
From Verif Require Import Num NumFacts Fort MP SpecMP MPFacts Push Geom Poly Sey SpecSey SeyFacts SeyFacts2 SeyFacts3 Impact SpecImpact Beam
  Source SpecSource SourceFacts SourceFacts2 SourceFacts3 SourceFacts4 SourceFacts5 CrossIon SpecCrossIon Sim SpecSim SimFacts SimFacts2 SimFacts3 SimFacts4 SimFacts5 SimFacts6.
Local Open Scope list_scope.
Local Open Scope R_scope.

Lemma emit_tot c th seg sr k ps pr e k' : emit_surface c th seg sr k ps pr = Some (e, k') -> o_tot e = map fst pr.
Proof.
  unfold emit_surface. intros H. cbv zeta in H.
  repeat match type of H with
  | bind ?x _ = _ => let E := fresh "E" in destruct x eqn:E; [|discriminate]; cbn [bind] in H
  | (let '(_, _) := ?x in _) = _ => destruct x
  | (if ?b then _ else _) = _ => destruct b
  end; injection H as <- _; reflexivity.
Qed.

Lemma mapM2_length {A B C} (f : A -> B -> option C) : forall l m r, mapM2 f l m = Some r -> List.length l = List.length m -> List.length r = List.length m.
Proof.
  induction l as [|a l IH]; intros [|b m] r H L; cbn in *; try discriminate; [injection H as <-; reflexivity|].
  destruct (f a b); [|discriminate]. cbn in H. destruct (mapM2 f l m) eqn:E; [|discriminate]. cbn in H. injection H as <-. cbn. f_equal. eapply IH; eauto.
Qed.

Lemma wall_call_charge segs E0 gs cf sr w ic tt old g s k Q g' s' k' Q' Dt : List.length Q = List.length gs ->
  backtrack_and_second_emiss w ic (charging_emitter segs E0 gs cf sr) tt old g s (k, Q) = Some (g', s', (k', Q')) ->
  exists evs, charging_step (List.length gs) Dt g' evs /\ List.length (charging_evol gs Dt Q') = List.length gs /\
    forall i, (i < List.length gs)%nat -> nth i (charging_evol gs Dt Q') 0 = edge_charge (c_qe cf) (nth i gs g0) i (nth i Q 0) evs.
Proof.
  intros LQ H. unfold backtrack_and_second_emiss in H. destruct old as [[xo yo] zo]. cbv zeta in H.
  assert (NH : forall g1, g' = zero_last g1 -> Q' = Q -> exists evs, charging_step (List.length gs) Dt g' evs /\ List.length (charging_evol gs Dt Q') = List.length gs /\
    forall i, (i < List.length gs)%nat -> nth i (charging_evol gs Dt Q') 0 = edge_charge (c_qe cf) (nth i gs g0) i (nth i Q 0) evs).
  { intros g1 -> ->. exists [Decay Dt]. split; [left; auto|].
    assert (WR : wall_run (c_qe cf) segs E0 gs sr 0 Q [CallEvol Dt] = Some (charging_evol gs Dt Q, [Decay Dt])) by reflexivity.
    exact (wall_run_ok _ _ _ _ _ _ _ _ _ _ LQ WR). }
  destruct (Nat.eqb (N_mp s) 0); [injection H as H1 _ _ H2; eapply NH; eauto|].
  destruct (Nat.eqb _ 0); [injection H as H1 _ _ H2; eapply NH; eauto|]. clear NH.
  destruct (w_hit w _) as [hs|]; [|discriminate]. cbn [bind] in H.
  destruct (life_part _ _ _ _ _ _) as [[lh tl]|]; [|discriminate]. cbn [bind] in H.
  destruct (zip_imps _ _ _ _ _ _) as [ps|]; [|discriminate]. cbn [bind] in H.
  destruct (count_impacts ic (set_life (zero_last g) lh) ps) as [g1|] eqn:CI; [|discriminate]. cbn [bind] in H.
  destruct (charging_emitter segs E0 gs cf sr (nel_mp_split s) (k_seg ic) ps (k, Q)) as [[e [k2 Q2]]|] eqn:EM; [|discriminate]. cbn [bind] in H.
  unfold charging_emitter, impacts_on_surface_charging in EM. cbn [fst snd] in EM.
  destruct (charging_process (c_qe cf) segs E0 gs sr k ps Q) as [[[pr Q3] k3]|] eqn:CP; [|discriminate]. cbn [bind] in EM.
  destruct (emit_surface cf _ _ sr k3 ps pr) as [[e1 k4]|] eqn:ES; [|discriminate]. cbn [bind] in EM. injection EM as <- <- <-.
  assert (LG : l_nimp g' = l_nimp g1 /\ l_nemit g' = rsum (o_tot e1) /\ Q' = Q3).
  { destruct (replace_MPs _ _ _ _) as [s1|]; [|discriminate]. cbn [bind] in H.
    destruct (count_emitted ic _ (o_nel e1) _ _ _ _ _ _) as [g2|] eqn:CE; [|discriminate]. cbn [bind] in H.
    assert (X : l_nimp g2 = l_nimp g1 /\ l_nemit g2 = rsum (o_tot e1)).
    { unfold count_emitted in CE. destruct (compute_hist _ _ _ _); [|discriminate]. cbn [bind] in CE. injection CE as <-. auto. }
    destruct (Nat.eqb _ 0); [injection H as <- _ _ <-; intuition|].
    destruct (add_new_MPs _ _ _) as [s2|]; [|discriminate]. cbn [bind] in H.
    destruct (count_emitted ic g2 _ _ _ _ _ _ _) as [g3|] eqn:CE2; [|discriminate]. cbn [bind] in H. injection H as <- _ _ <-.
    unfold count_emitted in CE2. destruct (compute_hist _ _ _ _); [|discriminate]. cbn [bind] in CE2. injection CE2 as <-. cbn. intuition. }
  destruct LG as (L1 & L2 & ->). apply emit_tot in ES.
  assert (L3 : l_nimp g1 = rsum (map i_nel ps)).
  { unfold count_impacts in CI. repeat match type of CI with bind ?x _ = _ => destruct x; [|discriminate]; cbn [bind] in CI end. injection CI as <-. reflexivity. }
  exists [Hits ps (map fst pr); Decay Dt]. split.
  - right. exists ps, (map fst pr). split; [reflexivity|]. split; [congruence|]. split; [congruence|]. rewrite map_length.
    unfold charging_process in CP. destruct (mapM2 _ _ _) as [l|] eqn:MM; [|discriminate]. cbn [bind] in CP. injection CP as <- _ _.
    assert (LD := draw_length (s_uni sr) k (List.length ps)). split; [eapply mapM2_length; [exact MM|exact LD]|].
    clear - MM LD. revert l MM LD. generalize (draw (s_uni sr) k (List.length ps)). induction ps as [|p ps IH]; intros [|u us] l MM LD; cbn [List.length] in *; try discriminate; constructor.
    + cbn [mapM2] in MM. destruct (charging_one _ _ _ _ u p) as [x|] eqn:C1; [|discriminate]. unfold charging_one in C1.
      destruct (nth_error segs _) as [[[a b] d]|]; [|discriminate]. cbn [bind] in C1. apply nth_error_Some. destruct (nth_error gs _); [discriminate|discriminate].
    + cbn [mapM2] in MM. destruct (charging_one _ _ _ _ u p) as [x|] eqn:C1; [|discriminate]. cbn [bind] in MM.
      destruct (mapM2 _ us ps) as [l1|] eqn:M1; [|discriminate]. eapply IH; [exact M1|lia].
  - assert (WR : wall_run (c_qe cf) segs E0 gs sr k Q [CallHits ps; CallEvol Dt] = Some (charging_evol gs Dt Q3, [Hits ps (map fst pr); Decay Dt])).
    { cbn [wall_run]. rewrite CP. reflexivity. }
    exact (wall_run_ok _ _ _ _ _ _ _ _ _ _ LQ WR).
Qed.

Lemma last_indep {A} : forall (r : list A) b c d, last (b :: r) c = last (b :: r) d.
Proof. induction r as [|x r IH]; intros b c d; [reflexivity|]. change (last (x :: r) c = last (x :: r) d). apply IH. Qed.
Lemma last_cons {A} (r : list A) a b : last (a :: r) b = last r a.
Proof. destruct r as [|x r]; [reflexivity|]. change (last (x :: r) b = last (x :: r) a). apply last_indep. Qed.

Section Run.
Context (segs : list (R * R * R)) (E0 : R) (gs : list chseg) (cf : ecfg) (sr : src).

Definition charged_to (Dt : R) (c c' : cloud) : Prop :=
  charging_cloud segs E0 gs cf sr (o_set c) -> List.length (o_Q c) = List.length gs ->
  o_set c' = o_set c /\ exists evs, charging_step (List.length gs) Dt (o_iman c') evs /\ List.length (o_Q c') = List.length gs /\
    forall i, (i < List.length gs)%nat -> nth i (o_Q c') 0 = edge_charge (c_qe cf) (nth i gs g0) i (nth i (o_Q c) 0) evs.

Lemma step_cloud_charged e a main secs sc k full c c' k' full' : step_cloud e a main secs sc k full c = Some (c', k', full') -> charged_to (ti_Dt main) c c'.
Proof.
  intros H [EM EV] LQ. split; [apply (step_cloud_frame _ _ _ _ _ _ _ _ _ _ _ H)|]. unfold step_cloud in H. rewrite EM, EV in H.
  destruct (cloud_motion _ _ _ _ _ _ _) as [s|]; [|discriminate]. cbn [bind] in H.
  destruct (backtrack_and_second_emiss _ _ _ _ _ _ _ _) as [[[g s1] [k1 Q1]]|] eqn:BT; [|discriminate]. cbn [bind fst snd] in H.
  destruct (primary_generation _ _ _ _ _ _ _) as [[[s2 k2] f2]|]; [|discriminate]. cbn [bind] in H. injection H as <- _ _. cbn [o_iman o_Q].
  exact (wall_call_charge _ _ _ _ _ _ _ _ _ _ _ _ _ _ _ _ _ (ti_Dt main) LQ BT).
Qed.

Lemma clouds_loop_charged e a main secs sc cl : forall k full cl' k' full', clouds_loop e a main secs sc k full cl = Some (cl', k', full') ->
  Forall2 (charged_to (ti_Dt main)) cl cl'.
Proof.
  induction cl as [|c cl IH]; intros k full cl' k' full' H; cbn [clouds_loop] in H; [injection H as <- _ _; constructor|].
  destruct (step_cloud _ _ _ _ _ _ _ _) as [[[c1 k1] f1]|] eqn:E; [|discriminate]. cbn [bind] in H.
  destruct (clouds_loop e a main secs sc k1 f1 cl) as [[[r k2] f2]|] eqn:EL; [|discriminate]. cbn [bind] in H. injection H as <- _ _.
  constructor; [eapply step_cloud_charged; eauto|eapply IH; eauto].
Qed.

Lemma recompute_Q e t flag force cl sc cl' sc' : recompute_cloud_spacecharge e t flag force cl sc = (cl', sc') -> map o_Q cl' = map o_Q cl.
Proof.
  unfold recompute_cloud_spacecharge. assert (X : forall p cl before sc cl' sc', recompute_loop p before cl sc = (cl', sc') -> map o_Q cl' = map o_Q cl).
  { intros p. clear. induction cl as [|c cl IH]; intros before sc cl' sc' H; cbn [recompute_loop] in H; [injection H as <- _; auto|].
    destruct (recompute_loop p _ cl _) as [r sc2] eqn:E. injection H as <- _. cbn [map]. f_equal. eapply IH; eauto. }
  destruct (_ || force); [apply X|]. intros H. injection H as <- _. reflexivity.
Qed.

Definition alike (c c' : cloud) : Prop := o_set c' = o_set c /\ o_iman c' = o_iman c /\ o_Q c' = o_Q c.
Lemma alike_maps : forall cl cl', map o_set cl' = map o_set cl -> map o_iman cl' = map o_iman cl -> map o_Q cl' = map o_Q cl -> Forall2 alike cl cl'.
Proof.
  induction cl as [|c cl IH]; intros [|c' cl'] A B C; cbn [map] in *; try discriminate; constructor.
  - split; [|split]; congruence.
  - apply IH; congruence.
Qed.
Lemma alike_all : forall l m, Forall2 alike l m -> forall n, Forall2 alike m n -> Forall2 alike l n.
Proof.
  induction 1 as [|x y l m (A1 & A2 & A3) F IH]; intros n G; inversion G as [|? z ? n' (B1 & B2 & B3) G']; subst; constructor; auto. split; [|split]; congruence.
Qed.
Lemma charged_alike Dt : forall l m, Forall2 (charged_to Dt) l m -> forall n, Forall2 alike m n -> Forall2 (charged_to Dt) l n.
Proof.
  induction 1 as [|x y l m P F IH]; intros n G; inversion G as [|? z ? n' (B1 & B2 & B3) G']; subst; constructor; auto.
  unfold charged_to in *. rewrite B1, B2, B3. exact P.
Qed.

Lemma cross_alike e Dt x k cl x' cl' k' : cross_step e Dt x k cl = Some (x', cl', k') -> Forall2 alike cl cl'.
Proof.
  intros H. pose proof (cross_step_frame _ _ _ _ _ _ _ _ H) as (A & _ & B). apply alike_maps; auto.
  unfold cross_step in H. destruct x as [x|]; [|injection H as _ <- _; auto]. unfold cross_generate in H.
  destruct (proj_loop _ _ _ _ _ _ _ _) as [[[[procs d] cnt] k1]|]; [|discriminate]. cbn [bind] in H.
  destruct (add_loop _ _ _ _) as [[xs cnt1]|] eqn:AL; [|discriminate]. cbn [bind] in H. injection H as _ <- _.
  apply add_loop_length in AL. rewrite map_length in AL. apply map2_put; auto.
Qed.

Lemma step_charged e a main secs m m' : sim_time_step e a main secs m = Some m' -> Forall2 (charged_to (ti_Dt main)) (m_clouds m) (m_clouds m').
Proof.
  unfold sim_time_step, step_main. intros H. destruct (check_for_recomputation _ _) as [flag sc].
  destruct (clouds_loop _ _ _ _ _ _ _ _) as [[[cl1 k1] f1]|] eqn:CL; [|discriminate]. cbn [bind] in H.
  destruct (cross_step _ _ _ _ _) as [[[x2 cl2] k2]|] eqn:CS; [|discriminate]. cbn [bind] in H.
  destruct (recompute_cloud_spacecharge _ _ _ _ _ _) as [cl3 sc3] eqn:RC. cbn [bind m_k m_clouds m_sc m_xion m_full] in H.
  destruct (clean_loop _ _ _ _ _) as [[cl4 k4]|] eqn:CN; [|discriminate]. cbn [bind] in H. injection H as <-. cbn [m_clouds].
  apply clouds_loop_charged in CL. apply cross_alike in CS. pose proof (recompute_Q _ _ _ _ _ _ _ _ RC) as RQ. apply recompute_all_frame in RC. apply clean_loop_frame in CN. destruct CN as (A & _ & B & C).
  eapply charged_alike; [exact CL|]. eapply alike_all; [exact CS|]. eapply alike_all; [|apply alike_maps; eauto].
  clear - RC RQ. induction RC as [|u u' l l' (P & Q & S) F IH]; [constructor|]. cbn [map] in RQ. injection RQ as R1 R2. constructor; auto. split; [|split]; auto.
Qed.

(** The history of a wall over a run. *)
Lemma run_charged e : forall l m ms j c c', sim_run e l m = Some ms -> nth_error (m_clouds m) j = Some c ->
  nth_error (m_clouds (last ms m)) j = Some c' -> charging_cloud segs E0 gs cf sr (o_set c) -> List.length (o_Q c) = List.length gs ->
  exists evss, Forall2 (wall_history (List.length gs) j) (combine l ms) evss /\
    List.length (o_Q c') = List.length gs /\
    forall i, (i < List.length gs)%nat -> nth i (o_Q c') 0 = edge_charge (c_qe cf) (nth i gs g0) i (nth i (o_Q c) 0) (concat evss).
Proof.
  induction l as [|[[a main] secs] l IH]; intros m ms j c c' H NC NC' CH LQ; cbn [sim_run] in H.
  - injection H as <-. cbn [last] in NC'. assert (c' = c) by congruence. subst c'. exists []. split; [constructor|]. split; [exact LQ|]. reflexivity.
  - destruct (sim_time_step e a main secs m) as [m1|] eqn:ST; [|discriminate]. cbn [bind] in H.
    destruct (sim_run e l m1) as [r|] eqn:SR; [|discriminate]. cbn [bind] in H. injection H as <-.
    apply step_charged in ST. assert (X : exists c1, nth_error (m_clouds m1) j = Some c1 /\ charged_to (ti_Dt main) c c1).
    { clear - ST NC. revert j NC. induction ST as [|u v l1 l2 P F IH]; intros [|j] N; cbn in *; try discriminate; [injection N as <-; eauto|eauto]. }
    destruct X as (c1 & N1 & P). destruct (P CH LQ) as (S1 & evs & WS & L1 & V).
    assert (LA : last (m1 :: r) m = last r m1).
    { apply last_cons. }
    rewrite LA in NC'. destruct (IH m1 r j c1 c' SR N1 NC') as (evss & F1 & L2 & V2); [rewrite S1; exact CH|exact L1|].
    exists (evs :: evss). split; [cbn [combine]; constructor; [exists c1; auto|exact F1]|]. split; [exact L2|].
    intros i Hi. rewrite V2, V by exact Hi. cbn [concat]. unfold edge_charge. rewrite fold_left_app. reflexivity.
Qed.
End Run.

(** The balance of an insulating wall without decay. *)
Lemma one_edge (k n : nat) w : rsum (map (fun i => if Nat.eqb n i then w else 0) (seq 0 k)) = if Nat.ltb n k then w else 0.
Proof.
  induction k as [|k IH]; [reflexivity|]. rewrite seq_S, map_app, rsum_app, IH. cbn [plus map]. rewrite rsum_cons. change (rsum []) with 0.
  destruct (Nat.ltb_spec n k), (Nat.eqb_spec n k), (Nat.ltb_spec n (Datatypes.S k)); try lia; try lra.
Qed.
Lemma edges_sum k : forall ps ws, List.length ws = List.length ps -> Forall (fun p => (i_seg p < k)%nat) ps ->
  rsum (map (fun i => seg_sum i ps ws) (seq 0 k)) = rsum ws.
Proof.
  induction ps as [|p ps IH]; intros [|w ws] L F; try discriminate.
  - unfold seg_sum. cbn [map2]. clear. induction (seq 0 k) as [|a l IH]; [reflexivity|]. cbn [map]. rewrite rsum_cons, IH. unfold rsum. cbn. ring.
  - inversion F; subst. rewrite rsum_cons, <- (IH ws) by (auto; cbn in L; lia).
    replace (map (fun i => seg_sum i (p :: ps) (w :: ws)) (seq 0 k))
      with (map (fun i => (if Nat.eqb (i_seg p) i then w else 0) + seg_sum i ps ws) (seq 0 k)) by reflexivity.
    rewrite rsum_map_plus, one_edge. rewrite (proj2 (Nat.ltb_lt _ _)) by auto. reflexivity.
Qed.
Lemma step_dep n Dt g evs : charging_step n Dt g evs ->
  rsum (map (fun i => rsum (map (dep i) evs)) (seq 0 n)) = l_nemit g - l_nimp g.
Proof.
  intros [(-> & -> & ->)|(ps & em & -> & -> & -> & L & F)].
  - cbn [map dep]. replace (0 - 0) with (rsum (map (fun _ : nat => 0) (seq 0 n))); [f_equal; apply map_ext; intros; unfold rsum; cbn; ring|].
    induction (seq 0 n) as [|a l IH]; [unfold rsum; cbn; ring|]. cbn [map]. rewrite rsum_cons, IH. ring.
  - cbn [map dep]. rewrite <- (edges_sum n ps em), <- (edges_sum n ps (map i_nel ps)) by (auto; apply map_length). rewrite <- rsum_map_minus.
    f_equal. apply map_ext. intros i. unfold rsum. cbn. ring.
Qed.
Lemma map2_seq {A B C} (f : A -> B -> C) a0 b0 : forall l m, List.length l = List.length m ->
  map2 f l m = map (fun i => f (nth i l a0) (nth i m b0)) (seq 0 (List.length l)).
Proof.
  induction l as [|a l IH]; intros [|b m] L; try discriminate; [reflexivity|]. cbn [map2 List.length seq map nth]. f_equal.
  rewrite <- seq_shift, map_map. apply IH. cbn in L. lia.
Qed.

Lemma run_length e : forall l m ms, sim_run e l m = Some ms -> List.length ms = List.length l.
Proof.
  induction l as [|[[a main] secs] l IH]; intros m ms H; cbn [sim_run] in H; [injection H as <-; reflexivity|].
  destruct (sim_time_step e a main secs m) as [m1|]; [|discriminate]. cbn [bind] in H.
  destruct (sim_run e l m1) as [r|] eqn:SR; [|discriminate]. cbn [bind] in H. injection H as <-. cbn. f_equal. eapply IH; eauto.
Qed.

Lemma history_dep n j : forall l ms evss, List.length ms = List.length l -> Forall2 (wall_history n j) (combine l ms) evss ->
  rsum (map (fun i => rsum (map (dep i) (concat evss))) (seq 0 n)) = rsum (map (wall_gain j) ms).
Proof.
  induction l as [|q l IH]; intros [|m ms] evss L F; try discriminate; cbn [combine] in F; inversion F as [|? evs ? evss' (c & N & CS) F']; subst.
  - cbn [concat map]. change (rsum []) with 0. clear. induction (seq 0 n) as [|a l IH]; [reflexivity|]. cbn [map]. rewrite rsum_cons, IH. ring.
  - cbn [map]. rewrite rsum_cons, <- (IH ms evss') by (auto; cbn in L; lia). unfold wall_gain at 1. cbn [snd] in N. rewrite N. rewrite <- (step_dep _ _ _ _ CS), <- rsum_map_plus.
    f_equal. apply map_ext. intros i. cbn [concat]. rewrite map_app, rsum_app. reflexivity.
Qed.

Lemma run_balance segs E0 gs cf sr e l m ms j c c' : sim_run e l m = Some ms -> nth_error (m_clouds m) j = Some c ->
  nth_error (m_clouds (last ms m)) j = Some c' -> charging_cloud segs E0 gs cf sr (o_set c) -> List.length (o_Q c) = List.length gs ->
  Forall (fun g => g_flag g = true /\ g_tau g <= 0 /\ g_L g <> 0) gs ->
  wall_charge gs (o_Q c') = wall_charge gs (o_Q c) + c_qe cf * rsum (map (wall_gain j) ms).
Proof.
  intros H N N' CH LQ FG. destruct (run_charged segs E0 gs cf sr e l m ms j c c' H N N' CH LQ) as (evss & F & L' & V).
  rewrite <- (history_dep (List.length gs) j l ms evss (run_length _ _ _ _ H) F). unfold wall_charge.
  rewrite (map2_seq _ g0 0 gs (o_Q c')), (map2_seq _ g0 0 gs (o_Q c)) by auto. rewrite <- rsum_map_scal, <- rsum_map_plus. f_equal.
  apply map_ext_in. intros i Hi. apply in_seq in Hi. rewrite V by lia. rewrite Forall_forall in FG.
  destruct (FG (nth i gs g0)) as (G1 & G2 & G3); [apply nth_In; lia|]. rewrite insulator_sum by auto. field. exact G3.
Qed.

Lemma run_metal segs E0 gs cf sr e l m ms j c c' i : sim_run e l m = Some ms -> nth_error (m_clouds m) j = Some c ->
  nth_error (m_clouds (last ms m)) j = Some c' -> charging_cloud segs E0 gs cf sr (o_set c) -> List.length (o_Q c) = List.length gs ->
  (i < List.length gs)%nat -> g_flag (nth i gs g0) = false -> nth i (o_Q c') 0 = nth i (o_Q c) 0.
Proof.
  intros H N N' CH LQ Hi G. destruct (run_charged segs E0 gs cf sr e l m ms j c c' H N N' CH LQ) as (evss & _ & _ & V).
  rewrite V by auto. apply metal_neutral. exact G.
Qed.

(** * Where the electrons freed from the gas start *)
Lemma NoDup_front {A} (a b : list A) : NoDup (a ++ b) -> NoDup a.
Proof. induction a as [|x a IH]; intros H; [constructor|]. inversion H; subst. constructor; [|auto]. intros K. apply H2. apply in_or_app. auto. Qed.

Lemma gas_loop_born e c g : chamber_ok e -> gas_ok (e_kc e) g -> gs_life g = k_life (a_icfg c) -> forall bs k full s s' k' full',
  Forall beam_ok bs -> sound e c s -> is_full s = false ->
  gas_loop e g (a_mass c) bs k full s = Some (s', k', full') -> full' = false ->
  exists news, live s' = live s ++ concat news /\ Forall2 (gas_born e g (nel_mp_ref s)) bs news.
Proof.
  intros CO (G1 & G2 & G3 & G4 & G5) GL. induction bs as [|b bs IH]; intros k full s s' k' full' BO SO NF H HF; cbn [gas_loop] in H.
  - injection H as <- _ <-. exists []. cbn. rewrite app_nil_r. auto.
  - destruct (gas_generate _ _ _ _ _ _ _ _ _ _ _ _ _ _) as [[s1 k1]|] eqn:EG; [|discriminate]. cbn [bind] in H.
    inversion BO as [|? ? [L0 D0] BO']; subst. assert (SO' := SO). destruct SO' as [W TZ KL SZ FS FC R0 IN PO].
    destruct CO as [HW HS HA HR]. assert (NF' : (N_mp s < capacity s)%nat) by (apply not_full; auto).
    assert (ND : 0 <= gas_DNel (e_kc e) g (ti_lam b) (ti_Dt b)) by (apply gas_DNel_nonneg; auto).
    pose proof EG as EP. apply gas_places in EP; auto; [|lra|apply HR|congruence].
    apply gas_thm in EG; auto; [|lra|apply HR|congruence].
    destruct EG as (new & GE & _ & RN & _). destruct EP as (new' & ix & iy & iv & GE' & L1 & L2 & N1 & _ & PL & _).
    assert (new' = new) by (apply (app_inv_head (live s)); rewrite <- (ge_live _ _ _ _ GE), <- (ge_live _ _ _ _ GE'); reflexivity). subst new'.
    assert (S1 : sound e c s1) by (eapply generated_sound; [exact HS|exact SO|exact GE]).
    assert (F1 : is_full s1 = false) by (apply gas_loop_full in H; auto; apply Bool.orb_false_iff in H; tauto).
    destruct (IH _ _ _ _ _ _ BO' S1 F1 H eq_refl) as (news & A1 & A2). exists (new :: news). cbn [concat]. split; [rewrite A1, (ge_live _ _ _ _ GE), app_assoc; reflexivity|].
    assert (RF : nel_mp_ref s1 = nel_mp_ref s) by (destruct GE as [_ _ _ _ _ _ _ (P & _)]; exact P).
    constructor; [|rewrite <- RF; exact A2]. exists k. split; [exact RN|]. split; [destruct GE as [_ GS _ _ _ _ _ _]; exact GS|].
    exists ix, iy. split; [rewrite app_assoc in N1; eapply NoDup_front; exact N1|]. split; [exact L1|]. split; [exact L2|]. exact PL.
Qed.

Lemma step_gas e a main secs sc k full c c' k' full' g : chamber_ok e -> Forall beam_ok (main :: secs) -> sound_cloud e c ->
  step_cloud e a main secs sc k full c = Some (c', k', full') -> full' = false -> a_gas (o_set c) = Some g -> ti_t main < a_tion (o_set c) ->
  exists mid news ph, live (o_mp c') = mid ++ concat news ++ ph /\ Forall2 (gas_born e g (nel_mp_ref (o_mp c))) (main :: secs) news /\
    (a_photo (o_set c) = NoPhoto -> ph = []).
Proof.
  intros CO BO [SE SO] H HF GS TI. unfold step_cloud in H. destruct (cloud_motion _ _ _ _ _ _ _) as [s1|] eqn:EM; [|discriminate]. cbn [bind] in H.
  destruct (backtrack_and_second_emiss _ _ _ _ _ _ _ _) as [[[g1 s2] kq]|] eqn:EB; [|discriminate]. cbn [bind] in H.
  destruct (primary_generation _ _ _ _ _ _ _) as [[[s3 k3] f3]|] eqn:EP; [|discriminate]. cbn [bind] in H. injection H as <- _ <-. cbn [o_mp].
  apply motion_moved in EM; [|apply SE|apply SE]. unfold primary_generation in EP. rewrite GS in EP.
  rewrite (proj2 (Rltb_true _ _)) in EP by exact TI.
  destruct (gas_loop _ _ _ _ _ _ _) as [[[s4 k4] f4]|] eqn:EG; [|discriminate]. cbn [bind] in EP.
  destruct (photo_step _ _ _ _ _ _ _) as [[s5 k5]|] eqn:PS; [|discriminate]. cbn [bind] in EP. injection EP as <- _ K.
  assert (F4 : f4 = false) by (destruct f4; [cbn in K; congruence|reflexivity]). subst f4.
  pose proof (gas_loop_full _ _ _ _ _ _ _ _ _ _ EG eq_refl) as F2. apply Bool.orb_false_iff in F2. destruct F2 as [F1 F2].
  destruct (wall_sound _ _ _ _ _ _ _ _ _ _ CO SE SO EM EB F2) as (W1 & W2 & _ & _).
  destruct (so_gas _ _ SE g GS) as [GO GL].
  destruct (gas_loop_born e (o_set c) g CO GO GL _ _ _ _ _ _ _ BO W1 F2 EG eq_refl) as (news & A1 & A2).
  destruct (gas_loop_sound e (o_set c) g CO GO GL _ _ _ _ _ _ _ BO W1 F2 EG eq_refl) as (_ & S4 & F5 & _).
  rewrite fold_lam in PS. inversion BO as [|? ? [L0 D0] BS]; subst. pose proof PS as PS'.
  apply (photo_step_sound e (o_set c)) in PS; auto using lam_nonneg. destruct PS as (_ & ph & (P1 & _)).
  exists (live s2), news, ph. split; [rewrite P1, A1, <- app_assoc; reflexivity|]. split; [rewrite W2 in A2; exact A2|].
  intros NP. rewrite NP in PS'. cbn in PS'. injection PS' as <- _. symmetry. apply (app_inv_head (live s4)). rewrite <- P1, app_nil_r. reflexivity.
Qed.

Lemma tim_is g b t : tim_of g b = Some t -> of_run g b t.
Proof. unfold tim_of. destruct (b_now b) as [w|] eqn:E; [|discriminate]. cbn [bind]. intros H. injection H as <-. exists w. split; [exact E|]. repeat split; reflexivity. Qed.
Lemma tims_are : forall gs ss l, tims_of gs ss = Some l -> List.length gs = List.length ss -> Forall2 (fun gb t => of_run (fst gb) (snd gb) t) (combine gs ss) l.
Proof.
  induction gs as [|g gs IH]; intros [|b ss] l H L; cbn in L; try discriminate; cbn [tims_of] in H; [injection H as <-; constructor|].
  destruct (tim_of g b) as [t|] eqn:T; [|discriminate]. cbn [bind] in H. destruct (tims_of gs ss) as [r|] eqn:R; [|discriminate]. cbn [bind] in H. injection H as <-.
  cbn [combine]. constructor; [apply tim_is, T|]. apply IH; [exact R|congruence].
Qed.
Lemma run_step_is e g gs b ss m m' : run_step e g gs b ss m = Some m' -> List.length gs = List.length ss ->
  exists a main l, sim_time_step e a main l m = Some m' /\ unforced a /\ of_run g b main /\ Forall2 (fun gb t => of_run (fst gb) (snd gb) t) (combine gs ss) l.
Proof.
  unfold run_step. intros H L. destruct (tim_of g b) as [t|] eqn:T; [|discriminate]. cbn [bind] in H. destruct (tims_of gs ss) as [r|] eqn:R; [|discriminate]. cbn [bind] in H.
  exists no_args, t, r. split; [exact H|]. split; [repeat split; reflexivity|]. split; [apply tim_is, T|apply tims_are; assumption].
Qed.
