(** What is recorded does not change the simulation. *)
From Coq Require Import String Lra Lia.
From Verif Require Import Num MP SpecMP Impact CrossIon Sim SpecSim Saver SpecSaver Whole SpecWhole.
Local Open Scope list_scope.
Local Open Scope R_scope.

Lemma zip_imps_same c d : k_mass c = k_mass d -> k_qe c = k_qe d -> forall hs n a b z, zip_imps c hs n a b z = zip_imps d hs n a b z.
Proof.
  intros M Q. assert (E : forall h n a b z, mk_imp c h n a b z = mk_imp d h n a b z) by (intros; unfold mk_imp; rewrite M, Q; reflexivity).
  induction hs as [|h hs IH]; intros [|n0 n] [|a0 a] [|b0 b] [|z0 z]; cbn [zip_imps]; auto. rewrite E, IH. reflexivity.
Qed.

Lemma life_same c d tt mask nel tl h h' p q : k_life c = k_life d -> life_part c tt mask nel tl h = Some p -> life_part d tt mask nel tl h' = Some q -> snd p = snd q.
Proof.
  intros K. unfold life_part. rewrite <- K. destruct (k_life c).
  - destruct (Fort.compute_hist _ _ _ h); cbn [bind]; [|discriminate]. destruct (Fort.compute_hist _ _ _ h'); cbn [bind]; [|discriminate].
    intros [= <-] [= <-]. reflexivity.
  - intros [= <-] [= <-]. reflexivity.
Qed.

Lemma back_same {S : Type} w c d (em : R -> bool -> list Sey.imp -> S -> option (Sey.emis * S)) tt old g g' s st g1 s1 t1 g2 s2 t2 :
  same_icfg c d -> backtrack_and_second_emiss w c em tt old g s st = Some (g1, s1, t1) -> backtrack_and_second_emiss w d em tt old g' s st = Some (g2, s2, t2) ->
  s1 = s2 /\ t1 = t2.
Proof.
  intros (M & Q & L & G). unfold backtrack_and_second_emiss. destruct old as [[xo yo] zo].
  destruct (Nat.eqb (N_mp s) 0); [intros [= _ <- <-] [= _ <- <-]; auto|].
  destruct (Nat.eqb (count_true (impact_mask w s)) 0); [intros [= _ <- <-] [= _ <- <-]; auto|]. cbv zeta.
  destruct (w_hit w _) as [hs|]; cbn [bind]; [|discriminate].
  match goal with |- context[life_part c ?a ?b ?x ?y ?z] => destruct (life_part c a b x y z) as [[lh tl]|] eqn:E1; cbn [bind]; [|discriminate] end.
  rewrite (zip_imps_same c d M Q). match goal with |- context[zip_imps d ?a ?b ?x ?y ?z] => destruct (zip_imps d a b x y z) as [ps|] end; [cbn [bind]|intros; discriminate].
  match goal with |- context[count_impacts c ?a ?b] => destruct (count_impacts c a b) as [ga|]; cbn [bind]; [|discriminate] end.
  rewrite G. destruct (em _ _ ps st) as [[e st']|]; [cbn [bind]|intros; discriminate].
  destruct (replace_MPs s _ e tl) as [sr|] eqn:R1; cbn [bind]; [|discriminate].
  match goal with |- context[count_emitted c ?a ?b ?x ?y ?z ?u ?v ?h] => destruct (count_emitted c a b x y z u v h) as [gb|]; cbn [bind]; [|discriminate] end.
  intros H1 H2.
  match type of H2 with context[life_part d ?a ?b ?x ?y ?z] => destruct (life_part d a b x y z) as [[lh' tl']|] eqn:E2; cbn [bind] in H2; [|discriminate H2] end.
  pose proof (life_same _ _ _ _ _ _ _ _ _ _ L E1 E2) as T. cbn [snd] in T. subst tl'.
  match type of H2 with context[count_impacts d ?a ?b] => destruct (count_impacts d a b) as [gc|]; cbn [bind] in H2; [|discriminate H2] end.
  rewrite R1 in H2. cbn [bind] in H2.
  match type of H2 with context[count_emitted d ?a ?b ?x ?y ?z ?u ?v ?h] => destruct (count_emitted d a b x y z u v h) as [gd|]; cbn [bind] in H2; [|discriminate H2] end.
  destruct (Nat.eqb (Datatypes.length (Sey.n_nel e)) 0); [injection H1 as _ <- <-; injection H2 as _ <- <-; auto|].
  destruct (add_new_MPs _ _ sr) as [sa|]; cbn [bind] in H1, H2; [|discriminate].
  match type of H1 with context[count_emitted c ?a ?b ?x ?y ?z ?u ?v ?h] => destruct (count_emitted c a b x y z u v h); cbn [bind] in H1; [|discriminate H1] end.
  match type of H2 with context[count_emitted d ?a ?b ?x ?y ?z ?u ?v ?h] => destruct (count_emitted d a b x y z u v h); cbn [bind] in H2; [|discriminate H2] end.
  injection H1 as _ <- <-. injection H2 as _ <- <-. auto.
Qed.

Lemma step_cloud_same e a main secs sc k full c d c1 k1 f1 d1 k2 f2 :
  same_cloud c d -> step_cloud e a main secs sc k full c = Some (c1, k1, f1) -> step_cloud e a main secs sc k full d = Some (d1, k2, f2) ->
  same_cloud c1 d1 /\ k1 = k2 /\ f1 = f2.
Proof.
  intros (ST & MP & RH & Q). pose proof ST as ST0. destruct ST as (N & MA & CH & DY & IC & EM & EV & GA & TI & PH & RE & SO & AS).
  unfold step_cloud. rewrite <- MP.
  assert (E1 : cloud_motion e a main secs sc (o_set d) (o_mp c) = cloud_motion e a main secs sc (o_set c) (o_mp c)).
  { unfold cloud_motion. rewrite <- DY, <- CH, <- MA. reflexivity. }
  rewrite E1. destruct (cloud_motion e a main secs sc (o_set c) (o_mp c)) as [s|]; cbn [bind]; [|discriminate].
  rewrite <- EM, <- Q. intros H1 H2.
  match type of H1 with context[backtrack_and_second_emiss ?w ?u ?em ?t ?o ?g ?x ?st] => destruct (backtrack_and_second_emiss w u em t o g x st) as [[[g1 s1] q1]|] eqn:B1; cbn [bind] in H1; [|discriminate H1] end.
  match type of H2 with context[backtrack_and_second_emiss ?w ?u ?em ?t ?o ?g ?x ?st] => destruct (backtrack_and_second_emiss w u em t o g x st) as [[[g2 s2] q2]|] eqn:B2; cbn [bind] in H2; [|discriminate H2] end.
  destruct (back_same _ _ _ _ _ _ _ _ _ _ _ _ _ _ _ _ IC B1 B2) as [<- <-].
  assert (E2 : forall k f s, primary_generation e main secs (o_set d) k f s = primary_generation e main secs (o_set c) k f s).
  { intros. unfold primary_generation. rewrite <- GA, <- TI, <- PH, <- MA. reflexivity. }
  rewrite E2 in H2. destruct (primary_generation e main secs (o_set c) (fst q1) (full || is_full s1) s1) as [[[s3 k3] f3]|]; cbn [bind] in H1, H2; [|discriminate].
  injection H1 as <- <- <-. injection H2 as <- <- <-. split; [|auto]. split; [exact ST0|]. cbn. rewrite EV. auto.
Qed.

Lemma clouds_loop_same e a main secs sc : forall cl dl k full r1 k1 f1 r2 k2 f2,
  Forall2 same_cloud cl dl -> clouds_loop e a main secs sc k full cl = Some (r1, k1, f1) -> clouds_loop e a main secs sc k full dl = Some (r2, k2, f2) ->
  Forall2 same_cloud r1 r2 /\ k1 = k2 /\ f1 = f2.
Proof.
  induction cl as [|c cl IH]; intros dl k full r1 k1 f1 r2 k2 f2 F; inversion F as [|? d ? dl' A B]; subst; cbn [clouds_loop].
  - intros [= <- <- <-] [= <- <- <-]. auto.
  - intros H1 H2. destruct (step_cloud e a main secs sc k full c) as [[[c1 ka] fa]|] eqn:E1; cbn [bind] in H1; [|discriminate].
    destruct (step_cloud e a main secs sc k full d) as [[[d1 kb] fb]|] eqn:E2; cbn [bind] in H2; [|discriminate].
    destruct (step_cloud_same _ _ _ _ _ _ _ _ _ _ _ _ _ _ _ A E1 E2) as (C & <- & <-).
    destruct (clouds_loop e a main secs sc ka fa cl) as [[[ra kc] fc]|] eqn:E3; cbn [bind] in H1; [|discriminate].
    destruct (clouds_loop e a main secs sc ka fa dl') as [[[rb kd] fd]|] eqn:E4; cbn [bind] in H2; [|discriminate].
    destruct (IH _ _ _ _ _ _ _ _ _ B E3 E4) as (D & <- & <-). injection H1 as <- <- <-. injection H2 as <- <- <-. auto.
Qed.

Lemma to_x_same cl dl : Forall2 same_cloud cl dl -> map to_x cl = map to_x dl.
Proof.
  induction 1 as [|c d cl dl (ST & MP & _) F IH]; cbn [map]; auto. rewrite IH. f_equal. unfold to_x.
  destruct ST as (-> & -> & _). rewrite MP. reflexivity.
Qed.

Lemma put_same : forall cl dl xs, Forall2 same_cloud cl dl -> Forall2 same_cloud (map2 put_mp cl xs) (map2 put_mp dl xs).
Proof.
  intros cl dl xs F. revert xs. induction F as [|c d cl dl (A & B & C & D) F IH]; intros [|x xs]; cbn; constructor; auto.
  unfold put_mp. split; [exact A|]. cbn. auto.
Qed.

Lemma cross_same e Dt x k cl dl x1 c1 k1 x2 c2 k2 : Forall2 same_cloud cl dl -> cross_step e Dt x k cl = Some (x1, c1, k1) -> cross_step e Dt x k dl = Some (x2, c2, k2) ->
  x1 = x2 /\ k1 = k2 /\ Forall2 same_cloud c1 c2.
Proof.
  intros F. unfold cross_step. destruct x as [x|]; [|intros [= <- <- <-] [= <- <- <-]; auto].
  rewrite (to_x_same _ _ F). destruct (cross_generate _ _ _ _ _ _) as [[[x' xs] k']|]; cbn [bind]; [|discriminate].
  intros [= <- <- <-] [= <- <- <-]. split; [auto|]. split; [auto|]. apply put_same; exact F.
Qed.

Lemma full_same cl dl : Forall2 same_cloud cl dl -> existsb (fun c => is_full (o_mp c)) cl = existsb (fun c => is_full (o_mp c)) dl.
Proof. induction 1 as [|c d cl dl (_ & M & _) F IH]; cbn [existsb]; auto. rewrite M, IH. reflexivity. Qed.

Lemma recompute_loop_same p : forall cl dl before sc r1 s1 r2 s2, Forall2 same_cloud cl dl ->
  recompute_loop p before cl sc = (r1, s1) -> recompute_loop p before dl sc = (r2, s2) -> Forall2 same_cloud r1 r2 /\ s1 = s2.
Proof.
  induction cl as [|c cl IH]; intros dl before sc r1 s1 r2 s2 F; inversion F as [|? d ? dl' A B]; subst; cbn [recompute_loop].
  - intros [= <- <-] [= <- <-]. auto.
  - cbv zeta. pose proof A as (ST & MP & RH & Q). destruct ST as (N & MA & CH & ST'). rewrite <- CH, <- MP.
    assert (E : match cl with [] => true | _ => false end = match dl' with [] => true | _ => false end) by (inversion B; reflexivity).
    rewrite <- E. set (sc' := recompute_spchg_efield p (a_charge (o_set c)) (o_mp c) _ _ sc).
    destruct (recompute_loop p _ cl sc') as [ra sa] eqn:E1. destruct (recompute_loop p _ dl' sc') as [rb sb] eqn:E2.
    destruct (IH _ _ _ _ _ _ _ B E1 E2) as [F' <-]. intros [= <- <-] [= <- <-]. split; [|reflexivity]. constructor; [|exact F'].
    split; [exact (proj1 A)|]. cbn. auto.
Qed.

Lemma recompute_same e t fl fo cl dl sc r1 s1 r2 s2 : Forall2 same_cloud cl dl ->
  recompute_cloud_spacecharge e t fl fo cl sc = (r1, s1) -> recompute_cloud_spacecharge e t fl fo dl sc = (r2, s2) -> Forall2 same_cloud r1 r2 /\ s1 = s2.
Proof.
  intros F. unfold recompute_cloud_spacecharge. destruct (_ || fo); [apply recompute_loop_same; exact F|].
  intros [= <- <-] [= <- <-]. auto.
Qed.

Lemma step_main_same e a main secs m n m1 n1 : same_sim m n -> step_main e a main secs m = Some m1 -> step_main e a main secs n = Some n1 -> same_sim m1 n1.
Proof.
  intros (F & SC & X & K & FU). unfold step_main. rewrite <- SC, <- X, <- K, <- FU. destruct (check_for_recomputation (ti_t main) (m_sc m)) as [fl sc].
  intros H1 H2.
  destruct (clouds_loop e a main secs sc (m_k m) (m_full m) (m_clouds m)) as [[[c1 k1] f1]|] eqn:E1; cbn [bind] in H1; [|discriminate].
  destruct (clouds_loop e a main secs sc (m_k m) (m_full m) (m_clouds n)) as [[[c2 k2] f2]|] eqn:E2; cbn [bind] in H2; [|discriminate].
  destruct (clouds_loop_same _ _ _ _ _ _ _ _ _ _ _ _ _ _ _ F E1 E2) as (G & <- & <-).
  destruct (cross_step e (ti_Dt main) (m_xion m) k1 c1) as [[[x1 d1] j1]|] eqn:E3; cbn [bind] in H1; [|discriminate].
  destruct (cross_step e (ti_Dt main) (m_xion m) k1 c2) as [[[x2 d2] j2]|] eqn:E4; cbn [bind] in H2; [|discriminate].
  destruct (cross_same _ _ _ _ _ _ _ _ _ _ _ _ G E3 E4) as (<- & <- & I).
  destruct (recompute_cloud_spacecharge e (ti_t main) fl (s_force_sc a) d1 sc) as [u1 v1] eqn:E5.
  destruct (recompute_cloud_spacecharge e (ti_t main) fl (s_force_sc a) d2 sc) as [u2 v2] eqn:E6.
  destruct (recompute_same _ _ _ _ _ _ _ _ _ _ _ I E5 E6) as [J <-].
  injection H1 as <-. injection H2 as <-. unfold same_sim. cbn. rewrite (full_same _ _ I). auto.
Qed.

Lemma clean_same e a new : forall cl dl k r1 k1 r2 k2, Forall2 same_cloud cl dl -> clean_loop e a new k cl = Some (r1, k1) -> clean_loop e a new k dl = Some (r2, k2) ->
  Forall2 same_cloud r1 r2 /\ k1 = k2.
Proof.
  induction cl as [|c cl IH]; intros dl k r1 k1 r2 k2 F; inversion F as [|? d ? dl' A B]; subst; cbn [clean_loop].
  - intros [= <- <-] [= <- <-]. auto.
  - pose proof A as (ST & MP & RH & Q). destruct ST as (N & MA & CH & DY & IC & EM & EV & GA & TI & PH & RE & SO & AS).
    assert (E : clean_one e a new (o_set d) k (o_mp d) = clean_one e a new (o_set c) k (o_mp c)).
    { unfold clean_one. rewrite <- MP, <- RE, <- SO, <- AS. reflexivity. }
    rewrite E. destruct (clean_one e a new (o_set c) k (o_mp c)) as [[s j]|]; cbn [bind]; [|discriminate]. intros H1 H2.
    destruct (clean_loop e a new j cl) as [[ra ka]|] eqn:E1; cbn [bind] in H1; [|discriminate].
    destruct (clean_loop e a new j dl') as [[rb kb]|] eqn:E2; cbn [bind] in H2; [|discriminate].
    destruct (IH _ _ _ _ _ _ B E1 E2) as [G <-]. injection H1 as <- <-. injection H2 as <- <-. split; [|reflexivity]. constructor; [|exact G].
    split; [exact (proj1 A)|]. cbn. auto.
Qed.

Lemma same_icfg_refl c : same_icfg c c.
Proof. repeat split. Qed.
Lemma same_set_refl c : same_set c c.
Proof. unfold same_set, same_icfg. intuition. Qed.
Lemma same_cloud_refl c : same_cloud c c.
Proof. split; [apply same_set_refl|auto]. Qed.
Lemma same_clouds_refl cl : Forall2 same_cloud cl cl.
Proof. induction cl; constructor; auto using same_cloud_refl. Qed.
Lemma same_sim_refl m : same_sim m m.
Proof. split; [apply same_clouds_refl|auto]. Qed.
Lemma same_cloud_sym c d : same_cloud c d -> same_cloud d c.
Proof. unfold same_cloud, same_set, same_icfg. intuition congruence. Qed.
Lemma same_cloud_trans c d f : same_cloud c d -> same_cloud d f -> same_cloud c f.
Proof. unfold same_cloud, same_set, same_icfg. intuition congruence. Qed.
Lemma F2_sym {A} (P : A -> A -> Prop) l l' : (forall a b, P a b -> P b a) -> Forall2 P l l' -> Forall2 P l' l.
Proof. intros S F. induction F; constructor; auto. Qed.
Lemma F2_trans {A} (P : A -> A -> Prop) : (forall a b c, P a b -> P b c -> P a c) -> forall l1 l2 l3, Forall2 P l1 l2 -> Forall2 P l2 l3 -> Forall2 P l1 l3.
Proof. intros T l1 l2 l3 F. revert l3. induction F; intros l3 G; inversion G; subst; constructor; eauto. Qed.
Lemma same_sim_sym m n : same_sim m n -> same_sim n m.
Proof. intros (F & A & B & C & D). split; [apply F2_sym; auto using same_cloud_sym|auto]. Qed.
Lemma same_sim_trans m n p : same_sim m n -> same_sim n p -> same_sim m p.
Proof.
  intros (F & A & B & C & D) (G & A' & B' & C' & D'). split; [eapply F2_trans; eauto using same_cloud_trans|].
  repeat split; congruence.
Qed.

Lemma save_output_same y main pass m : forall rs cl rs' cl', save_output y main pass m rs cl = Some (rs', cl') -> Forall2 same_cloud cl cl'.
Proof.
  induction rs as [|r rs IH]; intros [|c cl] rs' cl'; cbn [save_output]; try (intros [= <- <-]; apply same_clouds_refl).
  unfold save_cloud. intros H. destruct r as [r|].
  - destruct (witness (r_cfg r) _ (o_iman c) (r_st r)) as [[[s g] f]|]; cbn [bind] in H; [|discriminate].
    destruct (save_output y main pass m rs cl) as [[ra ca]|] eqn:E; cbn [bind] in H; [|discriminate]. injection H as <- <-.
    constructor; [split; [apply same_set_refl|auto]|]. eapply IH; exact E.
  - cbn [bind] in H. destruct (save_output y main pass m rs cl) as [[ra ca]|] eqn:E; cbn [bind] in H; [|discriminate]. injection H as <- <-.
    constructor; [apply same_cloud_refl|]. eapply IH; exact E.
Qed.

(** One step with its recorders against the step without. *)
Lemma whole_step_mid e y a main secs pass m rs mid m1 rs1 : whole_step e y a main secs pass m rs = Some (mid, m1, rs1) ->
  exists m0, step_main e a main secs m = Some m0 /\ same_sim m0 mid /\ m_full mid = m_full m0 /\ m_full m1 = m_full mid /\
  exists cl k, clean_loop e a (ti_new main) (m_k mid) (m_clouds mid) = Some (cl, k) /\ m1 = mkSim cl (m_sc mid) (m_xion mid) k (m_full mid).
Proof.
  unfold whole_step. intros H. destruct (step_main e a main secs m) as [m0|]; cbn [bind] in H; [|discriminate].
  destruct (save_output y main pass m0 rs (m_clouds m0)) as [[ra ca]|] eqn:E; cbn [bind] in H; [|discriminate].
  destruct (clean_loop e a (ti_new main) (m_k m0) ca) as [[cb k]|] eqn:C; cbn [bind] in H; [|discriminate]. injection H as <- <- <-.
  exists m0. split; [reflexivity|]. split; [split; [eapply save_output_same; exact E|cbn; auto]|]. split; [reflexivity|]. split; [reflexivity|].
  exists cb, k. split; [exact C|reflexivity].
Qed.

Lemma whole_step_same e y y' a main secs p p' m n rs rs' mid m1 rs1 nid n1 rs2 : same_sim m n ->
  whole_step e y a main secs p m rs = Some (mid, m1, rs1) -> whole_step e y' a main secs p' n rs' = Some (nid, n1, rs2) -> same_sim mid nid /\ same_sim m1 n1.
Proof.
  intros SM H1 H2. destruct (whole_step_mid _ _ _ _ _ _ _ _ _ _ _ H1) as (m0 & A & B & _ & _ & cl & k & C & ->).
  destruct (whole_step_mid _ _ _ _ _ _ _ _ _ _ _ H2) as (n0 & A' & B' & _ & _ & dl & k' & C' & ->).
  assert (D : same_sim mid nid).
  { eapply same_sim_trans; [apply same_sim_sym; exact B|]. eapply same_sim_trans; [|exact B']. exact (step_main_same _ _ _ _ _ _ _ _ SM A A'). }
  split; [exact D|]. destruct D as (F & SC & X & K & FU). rewrite <- K in C'. destruct (clean_same _ _ _ _ _ _ _ _ _ _ F C C') as [G <-].
  split; [exact G|cbn; auto].
Qed.

Lemma whole_run_same e y y' : forall l l' m n rs rs' tr rs1 tr' rs2, same_sim m n ->
  Forall2 (fun q q' => q_args q = q_args q' /\ q_main q = q_main q' /\ q_secs q = q_secs q') l l' ->
  whole_run e y l m rs = Some (tr, rs1) -> whole_run e y' l' n rs' = Some (tr', rs2) ->
  Forall2 (fun p p' => same_sim (fst p) (fst p') /\ same_sim (snd p) (snd p')) tr tr'.
Proof.
  intros l l' m n rs rs' tr rs1 tr' rs2 S F. revert m n rs rs' tr rs1 tr' rs2 S.
  induction F as [|q q' l l' (A & B & C) F IH]; intros m n rs rs' tr rs1 tr' rs2 S; cbn [whole_run].
  - intros [= <- <-] [= <- <-]. constructor.
  - intros H1 H2. rewrite <- A, <- B, <- C in H2.
    destruct (whole_step e y (q_args q) (q_main q) (q_secs q) (q_pass q) m rs) as [[[mid m1] ra]|] eqn:E1; cbn [bind] in H1; [|discriminate].
    destruct (whole_step e y' (q_args q) (q_main q) (q_secs q) (q_pass q') n rs') as [[[nid n1] rb]|] eqn:E2; cbn [bind] in H2; [|discriminate].
    destruct (whole_step_same _ _ _ _ _ _ _ _ _ _ _ _ _ _ _ _ _ _ S E1 E2) as [D1 D2].
    destruct (whole_run e y l m1 ra) as [[t1 r1]|] eqn:E3; cbn [bind] in H1; [|discriminate].
    destruct (whole_run e y' l' n1 rb) as [[t2 r2]|] eqn:E4; cbn [bind] in H2; [|discriminate].
    injection H1 as <- <-. injection H2 as <- <-. constructor; [auto|]. eapply IH; [exact D2|exact E3|exact E4].
Qed.
