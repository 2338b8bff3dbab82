(** Facts about simulations that share a communicator. *)
From Coq Require Import Lra Lia.
From Verif Require Import Num NumFacts MP BeamFacts Sim SpecSim SimFacts SimFacts3 Mpi SpecMpi MpiFacts.
Local Open Scope list_scope.
Local Open Scope R_scope.

(** * The loop over the clouds *)
Lemma comm_link p : forall cl before sc b k, cl <> [] -> comm_loop p before cl sc = (b, k) -> recompute_loop p before cl sc = k b.
Proof.
  induction cl as [|c cl IH]; intros before sc b k NE H; [congruence|]. destruct cl as [|d cl].
  - cbn [comm_loop] in H. injection H as <- <-. cbn [recompute_loop]. reflexivity.
  - cbn [comm_loop] in H. change (match cl with [] => _ | _ :: _ => _ end) with (comm_loop p (before ++ [sub_earlier (sc_rho (recompute_spchg_efield p (a_charge (o_set c)) (o_mp c) false match before with [] => true | _ :: _ => false end sc)) before]) (d :: cl)
      (recompute_spchg_efield p (a_charge (o_set c)) (o_mp c) false match before with [] => true | _ :: _ => false end sc)) in H.
    set (sc1 := recompute_spchg_efield p (a_charge (o_set c)) (o_mp c) false _ sc) in *. set (rho := sub_earlier (sc_rho sc1) before) in *.
    destruct (comm_loop p (before ++ [rho]) (d :: cl) sc1) as [b1 k1] eqn:E. injection H as <- <-.
    change (recompute_loop p before (c :: d :: cl) sc) with (let '(r, sc2) := recompute_loop p (before ++ [rho]) (d :: cl) sc1 in (mkCloud (o_set c) (o_mp c) rho (o_iman c) (o_Q c) :: r, sc2)).
    rewrite (IH _ _ _ _ ltac:(discriminate) E). reflexivity.
Qed.

Definition kept (cl cl' : list cloud) : Prop := map o_mp cl' = map o_mp cl /\ map o_set cl' = map o_set cl /\ map o_iman cl' = map o_iman cl /\ map o_Q cl' = map o_Q cl.

Lemma comm_cons p before c d cl sc : comm_loop p before (c :: d :: cl) sc =
  (let sc1 := recompute_spchg_efield p (a_charge (o_set c)) (o_mp c) false (match before with [] => true | _ => false end) sc in
   let rho := sub_earlier (sc_rho sc1) before in
   let '(b, k) := comm_loop p (before ++ [rho]) (d :: cl) sc1 in
   (b, fun avg => let '(r, sc) := k avg in (mkCloud (o_set c) (o_mp c) rho (o_iman c) (o_Q c) :: r, sc))).
Proof. reflexivity. Qed.

Lemma comm_ok n p : grid_size p n -> forall cl before sc b k, cl <> [] ->
  Forall (fun a => List.length a = n) before -> (before <> [] -> is_sum n before (sc_rho sc)) -> comm_loop p before cl sc = (b, k) ->
  is_sum n (before ++ map (own_density p) cl) b /\
  forall avg, exists cs c cl' sc', k avg = (cl', sc') /\ cl' = cs ++ [c] /\ kept cl cl' /\ sc_rho sc' = avg /\ sc_fld sc' = pi_solve p avg /\
    sc_Dt sc' = sc_Dt sc /\ sc_last sc' = sc_last sc /\ sc_check sc' = sc_check sc /\
    map o_rho cs = map (own_density p) (removelast cl) /\ o_rho c = sub_earlier avg (before ++ map (own_density p) (removelast cl)).
Proof.
  intros G. induction cl as [|c cl IH]; intros before sc b k NE F B H; [congruence|].
  set (dn := own_density p c). assert (Ld : List.length dn = n) by apply G.
  assert (S1 : is_sum n (before ++ [dn]) (sc_rho (recompute_spchg_efield p (a_charge (o_set c)) (o_mp c) false (match before with [] => true | _ => false end) sc))).
  { unfold recompute_spchg_efield. cbn [sc_rho]. rewrite mp_points_live. fold (own_density p c). fold dn. destruct before as [|b0 bs].
    - split; [exact Ld|]. intros j. cbn [app map]. change (nth j dn 0 = nth j dn 0 + 0). lra.
    - destruct (B ltac:(discriminate)) as [L1 L2]. split; [rewrite map2_length; lia|]. intros j.
      rewrite map2_nth0 by (lra || congruence). rewrite L2, map_app, rsum_app. cbn [map]. change (rsum [nth j dn 0]) with (nth j dn 0 + 0). lra. }
  destruct cl as [|d cl].
  - cbn [comm_loop] in H. injection H as <- <-. split; [exact S1|]. intros avg. exists []. eexists _, _, _. split; [reflexivity|]. split; [reflexivity|]. cbn [removelast map app]. rewrite app_nil_r.
    repeat split.
  - rewrite comm_cons in H. cbv zeta in H. set (sc1 := recompute_spchg_efield p (a_charge (o_set c)) (o_mp c) false _ sc) in *.
    rewrite (sub_earlier_ok n before (sc_rho sc1) dn F (proj1 S1) Ld S1) in H.
    destruct (comm_loop p (before ++ [dn]) (d :: cl) sc1) as [b1 k1] eqn:E. injection H as <- <-.
    destruct (IH _ _ _ _ ltac:(discriminate) ltac:(apply Forall_app; split; [exact F|constructor; [exact Ld|constructor]]) (fun _ => S1) E) as [I1 I2].
    split; [rewrite <- app_assoc in I1; exact I1|]. intros avg. destruct (I2 avg) as (cs & c1 & cl' & sc' & K1 & K2 & (K3 & K4 & K5 & K6) & K7 & K8 & K9 & K10 & K11 & K12 & K13).
    exists (mkCloud (o_set c) (o_mp c) dn (o_iman c) (o_Q c) :: cs), c1, (mkCloud (o_set c) (o_mp c) dn (o_iman c) (o_Q c) :: cl'), sc'.
    rewrite K1. split; [reflexivity|]. split; [rewrite K2; reflexivity|]. split; [unfold kept; cbn [map o_mp o_set o_iman o_Q]; rewrite K3, K4, K5, K6; auto|].
    split; [exact K7|]. split; [exact K8|]. split; [rewrite K9; reflexivity|]. split; [rewrite K10; reflexivity|]. split; [rewrite K11; reflexivity|].
    change (removelast (c :: d :: cl)) with (c :: removelast (d :: cl)). cbn [map o_rho]. rewrite K12. split; [reflexivity|]. rewrite K13, <- app_assoc. reflexivity.
Qed.

(** * The two parts of a step *)
Lemma step_split e a main secs m : sim_time_step e a main secs m =
  match step_before e a main secs m with
  | None => None
  | Some (m1, flag) => step_after e a main
      (if flag then let '(cl, sc) := recompute_loop (e_pic e) [] (m_clouds m1) (m_sc m1) in mkSim cl sc (m_xion m1) (m_k m1) (m_full m1) else m1)
  end.
Proof.
  unfold sim_time_step, step_main, step_before. destruct (check_for_recomputation (ti_t main) (m_sc m)) as [flag sc].
  destruct (clouds_loop e a main secs sc (m_k m) (m_full m) (m_clouds m)) as [[[cl k] full]|]; cbn [bind]; [|reflexivity].
  destruct (cross_step e (ti_Dt main) (m_xion m) k cl) as [[[x cl1] k1]|]; cbn [bind]; [|reflexivity].
  unfold recompute_cloud_spacecharge. cbn [m_clouds m_sc m_xion m_k m_full]. destruct (_ || s_force_sc a)%bool; [|reflexivity].
  destruct (recompute_loop (e_pic e) [] cl1 sc) as [cl2 sc2]. reflexivity.
Qed.

Lemma before_frame e a main secs m m1 flag : step_before e a main secs m = Some (m1, flag) ->
  (flag = true <-> recomputes e a (ti_t main) m) /\ sc_Dt (m_sc m1) = sc_Dt (m_sc m) /\ map o_set (m_clouds m1) = map o_set (m_clouds m) /\
  sc_last (m_sc m1) = (if fst (check_for_recomputation (ti_t main) (m_sc m)) then ti_t main else sc_last (m_sc m)) /\
  flag = ((Rgtb (ti_t main) (e_tsc e) && fst (check_for_recomputation (ti_t main) (m_sc m))) || s_force_sc a)%bool.
Proof.
  intros H. unfold step_before in H. destruct (check_for_recomputation (ti_t main) (m_sc m)) as [fl sc] eqn:EC. cbn [fst].
  assert (FS := flag_spec (ti_t main) (m_sc m)). rewrite EC in FS. cbn [fst] in FS. unfold check_for_recomputation in EC. injection EC as EF ES.
  destruct (clouds_loop _ _ _ _ _ _ _ _) as [[[cl k] full]|] eqn:EL; [|discriminate]. cbn [bind] in H.
  destruct (cross_step _ _ _ _ _) as [[[x cl2] k2]|] eqn:EX; [|discriminate]. cbn [bind] in H. injection H as <- <-.
  apply clouds_loop_frame in EL. apply cross_step_frame in EX. destruct EL as [L1 L2], EX as (X1 & X2 & _). cbn [m_sc m_clouds]. subst sc. cbn [sc_Dt sc_last].
  split; [|split; [reflexivity|split; [congruence|split; [rewrite EF; reflexivity|reflexivity]]]].
  unfold recomputes. rewrite Bool.orb_true_iff, Bool.andb_true_iff, Rgtb_true, FS. split; (intros [[? ?]|?]; [left; split; auto; lra|right; auto]).
Qed.
Lemma after_frame e a main m m1 : step_after e a main m = Some m1 -> m_sc m1 = m_sc m /\ map o_set (m_clouds m1) = map o_set (m_clouds m).
Proof.
  unfold step_after. destruct (clean_loop _ _ _ _ _) as [[cl k]|] eqn:E; cbn [bind]; [|discriminate]. intros H. injection H as <-. apply clean_loop_frame in E. split; [reflexivity|apply E].
Qed.
Lemma same_nonempty {A} (f : cloud -> A) cl cl' : map f cl' = map f cl -> cl <> [] -> cl' <> [].
Proof. intros H N ->. destruct cl; [congruence|discriminate]. Qed.

(** The next exchange of a rank whose first step does not exchange. *)
Lemma next_skip e a main secs l m m1 m2 flag : step_before e a main secs m = Some (m1, flag) -> (flag = false \/ m_clouds m1 = []) -> step_after e a main m1 = Some m2 ->
  next_exchange (mkProc e ((a, main, secs) :: l) (Some m)) = next_exchange (mkProc e l (Some m2)).
Proof.
  intros B F A. unfold next_exchange. cbn [p_sim p_env p_todo advance]. rewrite B. destruct F as [->| E]; [rewrite A; reflexivity|]. rewrite E, A. destruct flag; reflexivity.
Qed.
Lemma next_ask e a main secs l m m1 b k : step_before e a main secs m = Some (m1, true) -> m_clouds m1 <> [] -> comm_loop (e_pic e) [] (m_clouds m1) (m_sc m1) = (b, k) ->
  next_exchange (mkProc e ((a, main, secs) :: l) (Some m)) =
  Ask b (fun avg => let '(cl, sc) := k avg in mkProc e l (step_after e a main (mkSim cl sc (m_xion m1) (m_k m1) (m_full m1)))).
Proof.
  intros B N C. unfold next_exchange. cbn [p_sim p_env p_todo advance]. rewrite B. destruct (m_clouds m1) as [|c cl]; [congruence|]. rewrite C. reflexivity.
Qed.

(** * Identical ranks *)
Lemma three_repeat (s : proc) b k n : next_exchange s = Ask b k -> three next_exchange b (repeat s n) (repeat b n) (repeat (k b) n).
Proof. intros H. induction n; cbn [repeat]; constructor; assumption. Qed.
Lemma repeat_same {A} (P : A -> A -> Prop) x y n : P x y -> Forall2 P (repeat x n) (repeat y n).
Proof. intros H. induction n; cbn [repeat]; constructor; assumption. Qed.
Lemma last_cons {A} (l : list A) : forall x d, last (x :: l) d = last l x.
Proof. induction l as [|y l IH]; intros x d; [reflexivity|]. change (last (y :: l) d = last (y :: l) x). rewrite !IH. reflexivity. Qed.

Lemma identical e n : forall l m ms, sim_run e l m = Some ms ->
  exists r, together next_exchange r (repeat (mkProc e l (Some m)) (S n)) (repeat (mkProc e [] (Some (last ms m))) (S n)).
Proof.
  induction l as [|[[a main] secs] l IH]; intros m ms H; cbn [sim_run] in H.
  - injection H as <-. exists 0%nat. constructor. unfold ends. apply repeat_same. reflexivity.
  - destruct (sim_time_step e a main secs m) as [m'|] eqn:ES; cbn [bind] in H; [|discriminate]. destruct (sim_run e l m') as [r|] eqn:ER; cbn [bind] in H; [|discriminate]. injection H as <-.
    rewrite step_split in ES. destruct (step_before e a main secs m) as [[m1 flag]|] eqn:EB; [|discriminate]. rewrite last_cons. destruct (IH _ _ ER) as (r0 & TG).
    assert (D : (flag = true /\ m_clouds m1 <> []) \/ (flag = false \/ m_clouds m1 = [])).
    { destruct flag; [|tauto]. destruct (m_clouds m1); [tauto|]. left. split; [reflexivity|discriminate]. }
    destruct D as [[-> NE]|D].
    + destruct (comm_loop (e_pic e) [] (m_clouds m1) (m_sc m1)) as [b k] eqn:EC. pose proof (next_ask e a main secs l m m1 b k EB NE EC) as NA.
      exists (S r0). econstructor; [|exact TG]. apply round_three. exists (repeat b (S n)), b. split; [apply average_repeat|]. rewrite (comm_link _ _ _ _ _ _ NE EC) in ES.
      pose proof (three_repeat _ _ _ (S n) NA) as TH. cbv beta in TH. destruct (k b) as [cl sc]. rewrite ES in TH. exact TH.
    + exists r0. eapply together_same; [exact TG|]. apply repeat_same. apply next_skip with (m1 := m1) (flag := flag); [exact EB|exact D|].
      destruct flag; [|exact ES]. destruct D as [D|D]; [discriminate|]. rewrite D in ES. cbn [recompute_loop] in ES. destruct m1 as [cl1 sc1 x1 k1 f1]. cbn in *. subst cl1. exact ES.
Qed.

(** * One exchange *)
Lemma exchange n : forall L X, L <> [] -> Forall (fun p => grid_size (e_pic (p_env p)) n) L ->
  Forall2 (fun p x => let '(a, main, l, m1) := x in at_exchange p a main l m1) L X ->
  exists avg L', round next_exchange L L' /\ List.length avg = n /\
    (forall i, (i < n)%nat -> INR (List.length L) * nth i avg 0 = rsum (map2 (fun p x => density_at (e_pic (p_env p)) (m_clouds (snd x)) i) L X)) /\
    Forall2 (fun (px : proc * _) p' => let '(p, (a, main, l, m1)) := px in
      exists cs c sc, p' = mkProc (p_env p) l (step_after (p_env p) a main (mkSim (cs ++ [c]) sc (m_xion m1) (m_k m1) (m_full m1))) /\
        sc_rho sc = avg /\ sc_fld sc = pi_solve (e_pic (p_env p)) avg /\ sc_Dt sc = sc_Dt (m_sc m1) /\ sc_last sc = sc_last (m_sc m1) /\ map o_mp (cs ++ [c]) = map o_mp (m_clouds m1) /\ map o_set (cs ++ [c]) = map o_set (m_clouds m1) /\ map o_iman (cs ++ [c]) = map o_iman (m_clouds m1) /\ map o_Q (cs ++ [c]) = map o_Q (m_clouds m1) /\
        map o_rho cs = map (own_density (e_pic (p_env p))) (removelast (m_clouds m1)) /\
        o_rho c = sub_earlier avg (map (own_density (e_pic (p_env p))) (removelast (m_clouds m1)))) (combine L X) L'.
Proof.
  intros L X NE GR F.
  assert (G : exists bufs, List.length bufs = List.length L /\ Forall (fun b => List.length b = n) bufs /\
    (forall i, (i < n)%nat -> rsum (map (fun b => nth i b 0) bufs) = rsum (map2 (fun p x => density_at (e_pic (p_env p)) (m_clouds (snd x)) i) L X)) /\
    forall avg, exists L', three next_exchange avg L bufs L' /\ Forall2 (fun (px : proc * _) p' => let '(p, (a, main, l, m1)) := px in
      exists cs c sc, p' = mkProc (p_env p) l (step_after (p_env p) a main (mkSim (cs ++ [c]) sc (m_xion m1) (m_k m1) (m_full m1))) /\
        sc_rho sc = avg /\ sc_fld sc = pi_solve (e_pic (p_env p)) avg /\ sc_Dt sc = sc_Dt (m_sc m1) /\ sc_last sc = sc_last (m_sc m1) /\ map o_mp (cs ++ [c]) = map o_mp (m_clouds m1) /\ map o_set (cs ++ [c]) = map o_set (m_clouds m1) /\ map o_iman (cs ++ [c]) = map o_iman (m_clouds m1) /\ map o_Q (cs ++ [c]) = map o_Q (m_clouds m1) /\
        map o_rho cs = map (own_density (e_pic (p_env p))) (removelast (m_clouds m1)) /\
        o_rho c = sub_earlier avg (map (own_density (e_pic (p_env p))) (removelast (m_clouds m1)))) (combine L X) L').
  { clear NE. induction F as [|p [[[a main] l] m1] L X P F IH].
    - exists []. repeat split; [constructor|]. intros avg. exists []. split; constructor.
    - inversion GR as [|? ? G0 GR']; subst. destruct (IH GR') as (bufs & B1 & B2 & B3 & B4). destruct P as (secs & m & flag & P1 & P2 & P3 & P4 & P5).
      destruct (before_frame _ _ _ _ _ _ _ P4) as (FL & _ & FS & _). apply FL in P3. subst flag. assert (NE1 : m_clouds m1 <> []) by (eapply same_nonempty; [exact FS|exact P5]).
      destruct (comm_loop (e_pic (p_env p)) [] (m_clouds m1) (m_sc m1)) as [b k] eqn:EC. pose proof (next_ask (p_env p) a main secs l m m1 b k P4 NE1 EC) as NA.
      assert (EP : p = mkProc (p_env p) ((a, main, secs) :: l) (Some m)) by (destruct p; cbn in *; congruence). rewrite <- EP in NA.
      destruct (comm_ok n _ G0 _ _ _ _ _ NE1 (Forall_nil _) ltac:(congruence) EC) as [[C1 C2] C3]. exists (b :: bufs).
      split; [cbn; congruence|]. split; [constructor; assumption|]. split.
      + intros i Hi. cbn [map map2]. rewrite !rsum_cons, B3 by exact Hi. f_equal. rewrite C2. cbn [app snd]. unfold density_at. rewrite map_map. reflexivity.
      + intros avg. destruct (B4 avg) as (L' & T1 & T2). destruct (C3 avg) as (cs & c & cl' & sc' & K1 & K2 & (K3 & K4 & K5 & K6) & K7 & K8 & K9 & K10 & K11 & K12 & K13).
        eexists. split; [econstructor; [exact NA|exact T1]|]. cbn [combine]. constructor; [|exact T2]. cbv beta. rewrite K1. exists cs, c, sc'. rewrite <- K2. cbn [app] in K13. repeat split; assumption. }
  destruct G as (bufs & B1 & B2 & B3 & B4). assert (NB : bufs <> []) by (destruct bufs, L; [congruence|discriminate|discriminate|discriminate]).
  destruct (average_some n bufs NB B2) as [avg AV]. destruct (average_ok _ _ AV) as (n' & N1 & _ & [M1 M2]).
  assert (EN : n' = n) by (destruct bufs; [congruence|]; inversion N1; inversion B2; congruence). rewrite EN in *. destruct (B4 avg) as (L' & T1 & T2). exists avg, L'.
  split; [apply round_three; exists bufs, avg; auto|]. split; [exact M1|]. split; [|exact T2]. intros i Hi. rewrite <- B1, M2, B3 by exact Hi. reflexivity.
Qed.

Lemma sub_earlier_nth n before r : Forall (fun a => List.length a = n) before -> List.length r = n ->
  List.length (sub_earlier r before) = n /\ forall i, nth i (sub_earlier r before) 0 = nth i r 0 - rsum (map (fun a => nth i a 0) before).
Proof.
  intros F L. destruct before as [|b bs]; cbn [sub_earlier].
  - split; [exact L|]. intros i. cbn [map]. change (rsum []) with 0. lra.
  - inversion F as [|? ? F1 F2]; subst. destruct (fold_sum _ bs F2 b F1) as [A B]. split; [rewrite map2_length; lia|]. intros i. rewrite map2_nth0 by (lra || congruence). rewrite B. reflexivity.
Qed.
Lemma split_last {A} (cs : list A) c : removelast (cs ++ [c]) = cs.
Proof. rewrite removelast_app by discriminate. cbn. apply app_nil_r. Qed.
Lemma removelast_map {A B} (f : A -> B) : forall l, removelast (map f l) = map f (removelast l).
Proof. induction l as [|a [|b l] IH]; [reflexivity|reflexivity|]. change (map f (removelast (a :: b :: l))) with (f a :: map f (removelast (b :: l))). rewrite <- IH. reflexivity. Qed.
Lemma own_same p : forall cl cl', map o_mp cl' = map o_mp cl -> map o_set cl' = map o_set cl -> map (own_density p) cl' = map (own_density p) cl.
Proof.
  induction cl as [|c cl IH]; intros [|c' cl'] H1 H2; try discriminate; [reflexivity|]. cbn [map] in *. injection H1 as H3 H4. injection H2 as H5 H6. rewrite (IH _ H4 H6). unfold own_density. rewrite H3, H5. reflexivity.
Qed.

Lemma exchange_spec n L X : L <> [] -> Forall (fun p => grid_size (e_pic (p_env p)) n) L ->
  Forall2 (fun p x => let '(a, main, l, m1) := x in at_exchange p a main l m1) L X ->
  exists avg L', round next_exchange L L' /\ List.length avg = n /\
    (forall i, (i < n)%nat -> INR (List.length L) * nth i avg 0 = rsum (map2 (fun p x => density_at (e_pic (p_env p)) (m_clouds (snd x)) i) L X)) /\
    Forall2 (fun px p' => resumes n avg (fst px) (snd px) p') (combine L X) L'.
Proof.
  intros NE GR F. destruct (exchange n L X NE GR F) as (avg & L' & RD & LA & SU & TH). exists avg, L'. split; [exact RD|]. split; [exact LA|]. split; [exact SU|].
  clear - TH GR F LA. revert L' TH. induction F as [|p [[[a main] l] m1] L X P F IH]; intros L' TH; cbn [combine] in *; inversion TH as [|? p' ? L2 T1 T2]; subst; [constructor|].
  inversion GR as [|? ? G0 GR']; subst. constructor; [|apply IH; assumption]. clear IH T2 TH. cbn [fst snd resumes]. destruct T1 as (cs & c & sc & E & S1 & S2 & S3 & S4 & S5 & S6 & S7 & S8 & S9 & S10).
  exists (mkSim (cs ++ [c]) sc (m_xion m1) (m_k m1) (m_full m1)). split; [exact E|].
  assert (OW : map (own_density (e_pic (p_env p))) cs = map (own_density (e_pic (p_env p))) (removelast (m_clouds m1))).
  { apply own_same; rewrite <- !removelast_map, <- ?S5, <- ?S6, removelast_map, split_last; reflexivity. }
  constructor; cbn [m_sc m_clouds m_xion m_k m_full]; auto. exists cs, c. split; [reflexivity|]. split; [congruence|].
  destruct (sub_earlier_nth (List.length avg) (map (own_density (e_pic (p_env p))) (removelast (m_clouds m1))) avg) as [U1 U2]; [|reflexivity|].
  - apply Forall_map. apply Forall_forall. intros d _. apply G0.
  - rewrite S10. split; [exact U1|]. intros i. rewrite U2, <- OW, map_map. reflexivity.
Qed.

(** * Ranks that keep pace *)
Lemma crash_same L L2 : crash_now L -> Forall2 (fun s s' => next_exchange s' = next_exchange s) L L2 -> crash_now L2.
Proof.
  intros (s & f & IN & N & P) F. revert IN. induction F as [|u v L L2 E F IH]; intros IN; [contradiction|]. destruct IN as [->|IN].
  - exists v, f. split; [left; reflexivity|]. split; [congruence|exact P].
  - destruct (IH IN) as (s' & f' & I' & E' & P'). exists s', f'. split; [right; exact I'|]. auto.
Qed.
Lemma crashed_same L L2 : crashed L -> Forall2 (fun s s' => next_exchange s' = next_exchange s) L L2 -> crashed L2.
Proof.
  intros (L' & LA & C) F. destruct LA as [L|L L1 L3 RD LA].
  - exists L2. split; [constructor|]. eapply crash_same; eassumption.
  - exists L3. split; [|exact C]. econstructor; [eapply round_same; [exact RD|exact F]|exact LA].
Qed.
Lemma crash_cons p L : crash_now L -> crash_now (p :: L).
Proof. intros (s & f & I & C). exists s, f. split; [right; exact I|exact C]. Qed.

Lemma check_same t sc sc' : sc_Dt sc' = sc_Dt sc -> sc_last sc' = sc_last sc -> fst (check_for_recomputation t sc') = fst (check_for_recomputation t sc).
Proof. intros A B. unfold check_for_recomputation. cbn [fst]. rewrite A, B. reflexivity. Qed.

Definition here (n : nat) (ts : list (R * bool)) (tsc : R) (D : option R) (last : R) (fl : bool) (p : proc) (x : sargs * tim * list (sargs * tim * list tim) * sim) : Prop :=
  let '(a, main, l, m1) := x in
  (exists secs m, p = mkProc (p_env p) ((a, main, secs) :: l) (Some m) /\ step_before (p_env p) a main secs m = Some (m1, fl) /\ m_clouds m <> []) /\
  map (fun q => (step_time q, s_force_sc (fst (fst q)))) l = ts /\ e_tsc (p_env p) = tsc /\ grid_size (e_pic (p_env p)) n /\ m_clouds m1 <> [] /\ sc_Dt (m_sc m1) = D /\ sc_last (m_sc m1) = last.

Lemma keep_pace n : forall ts tsc D last L, L <> [] -> Forall (in_pace n ts tsc D last) L ->
  (exists r F, together next_exchange r L F /\ Forall (fun f => p_sim f <> None /\ p_todo f = []) F) \/ crashed L.
Proof.
  induction ts as [|[t fc] ts IH]; intros tsc D last L NE F.
  - left. exists 0%nat, L. split.
    + constructor. unfold ends. clear NE. induction F as [|p L P F IH']; constructor; [|exact IH']. destruct P as (P1 & _ & _ & m & P2 & _). destruct p as [e l o]. cbn in *. subst o. destruct l; [reflexivity|discriminate].
    + eapply Forall_impl; [|exact F]. intros p (P1 & _ & _ & m & P2 & _). split; [congruence|]. destruct (p_todo p); [reflexivity|discriminate].
  - set (chk := fst (check_for_recomputation t (mkSpch D last false [] (fun _ _ => (0, 0))))).
    set (fl := ((Rgtb t tsc && chk) || fc)%bool). set (last' := if chk then t else last).
    assert (G : crash_now L \/ exists X, Forall2 (here n ts tsc D last' fl) L X).
    { clear NE IH. induction F as [|p L P F IH']; [right; exists []; constructor|]. destruct P as (P1 & P2 & P3 & m & P4 & P5 & P6 & P7). destruct p as [e l o]. cbn [p_todo p_env p_sim] in *. subst o.
      destruct l as [|[[a main] secs] l]; [discriminate|]. cbn [map fst snd] in P1. injection P1 as Q1 Q2 Q3.
      destruct (step_before e a main secs m) as [[m1 f1]|] eqn:EB.
      - destruct (before_frame _ _ _ _ _ _ _ EB) as (_ & B1 & B2 & B3 & B4). unfold step_time in Q1. cbn [fst snd] in Q1.
        assert (CK : fst (check_for_recomputation (ti_t main) (m_sc m)) = chk) by (unfold chk; rewrite <- Q1; apply check_same; cbn; congruence).
        destruct IH' as [C|(X & FX)]; [left; apply crash_cons; exact C|right]. exists ((a, main, l, m1) :: X). constructor; [|exact FX]. cbn [here p_env].
        assert (E1 : f1 = fl) by (unfold fl; rewrite <- P2, <- Q2, <- CK, <- Q1; exact B4). rewrite E1 in EB.
        split; [exists secs, m; auto|]. split; [exact Q3|]. split; [exact P2|]. split; [exact P3|]. split; [eapply same_nonempty; eassumption|]. split; [congruence|]. unfold last'. rewrite <- CK, <- Q1, <- P6. exact B3.
      - left. exists (mkProc e ((a, main, secs) :: l) (Some m)), (mkProc e ((a, main, secs) :: l) None).
        split; [left; reflexivity|]. split; [|reflexivity]. unfold next_exchange. cbn [p_sim p_env p_todo advance]. rewrite EB. reflexivity. }
    destruct G as [C|(X & FX)]; [right; exists L; split; [constructor|exact C]|].
    destruct fl eqn:EF.
    + destruct (exchange n L X NE) as (avg & L' & RD & _ & _ & TH).
      { clear - F. eapply Forall_impl; [|exact F]. intros p (_ & _ & P & _). exact P. }
      { clear - FX. induction FX as [|p [[[a main] l] m1] L X H FX IH']; constructor; [|exact IH']. cbn [here] in H. destruct H as ((secs & m & E & B & N) & _). exists secs, m, true.
        split; [rewrite E; reflexivity|]. split; [rewrite E; reflexivity|]. split; [|auto]. apply (before_frame _ _ _ _ _ _ _ B). reflexivity. }
      assert (G2 : crash_now L' \/ Forall (in_pace n ts tsc D last') L').
      { clear - FX TH. revert L' TH. induction FX as [|p [[[a main] l] m1] L X H FX IH']; intros L' TH; cbn [combine] in TH; inversion TH as [|? p' ? L2 T1 T2]; subst; [right; constructor|].
        destruct (IH' _ T2) as [C|C]; [left; apply crash_cons; exact C|]. cbn [here] in H. destruct H as (_ & H1 & H2 & H3 & H4 & H5 & H6). destruct T1 as (cs & c & sc & -> & S1 & S2 & S3 & S4 & _).
        destruct (step_after _ _ _ _) as [m2|] eqn:EA.
        - right. constructor; [|exact C]. apply after_frame in EA. cbn [m_sc m_clouds] in EA. destruct EA as [A1 A2]. split; [exact H1|]. split; [exact H2|]. split; [exact H3|]. exists m2. split; [reflexivity|].
          rewrite A1. split; [congruence|]. split; [congruence|]. apply (same_nonempty _ _ _ A2). destruct cs; discriminate.
        - left. eexists _, _. split; [left; reflexivity|]. split; [unfold next_exchange; cbn [p_sim]; reflexivity|reflexivity]. }
      destruct G2 as [C|FP]; [right; exists L'; split; [econstructor; [exact RD|constructor]|exact C]|].
      assert (NE' : L' <> []). { destruct RD as (bufs & av & _ & _ & LL & _). intros ->. destruct L; [congruence|discriminate]. }
      destruct (IH _ _ _ _ NE' FP) as [(r & FF & TG & OK)|(L2 & LA & C)].
      * left. exists (S r), FF. split; [econstructor; eassumption|exact OK].
      * right. exists L2. split; [econstructor; eassumption|exact C].
    + assert (G2 : crash_now L \/ exists L2, Forall2 (fun s s' => next_exchange s' = next_exchange s) L2 L /\ Forall (in_pace n ts tsc D last') L2 /\ List.length L2 = List.length L).
      { clear - FX. induction FX as [|p [[[a main] l] m1] L X H FX IH']; [right; exists []; repeat constructor|].
        destruct IH' as [C|(L2 & C1 & C2 & C3)]; [left; apply crash_cons; exact C|]. cbn [here] in H. destruct H as ((secs & m & E & B & N) & H1 & H2 & H3 & H4 & H5 & H6).
        destruct (step_after (p_env p) a main m1) as [m2|] eqn:EA.
        - right. exists (mkProc (p_env p) l (Some m2) :: L2). split; [|split].
          + constructor; [|exact C1]. rewrite E at 1. apply next_skip with (m1 := m1) (flag := false); auto.
          + constructor; [|exact C2]. apply after_frame in EA. destruct EA as [A1 A2]. split; [exact H1|]. split; [exact H2|]. split; [exact H3|]. exists m2. split; [reflexivity|]. rewrite A1. split; [exact H5|]. split; [exact H6|]. eapply same_nonempty; eassumption.
          + cbn; congruence.
        - left. exists p, (mkProc (p_env p) ((a, main, secs) :: l) None). split; [left; reflexivity|]. split; [|reflexivity]. rewrite E. unfold next_exchange. cbn [p_sim p_env p_todo advance]. rewrite B. rewrite EA. reflexivity. }
      destruct G2 as [C|(L2 & S1 & S2 & S3)]; [right; exists L; split; [constructor|exact C]|].
      assert (NE' : L2 <> []) by (intros ->; destruct L; [congruence|discriminate]).
      destruct (IH _ _ _ _ NE' S2) as [(r & FF & TG & OK)|C].
      * left. exists r, FF. split; [eapply together_same; eassumption|exact OK].
      * right. eapply crashed_same; eassumption.
Qed.

(** Every schedule of ranks that keep pace. *)
Lemma pace_schedule n ts tsc D last s0 ss : Forall (in_pace n ts tsc D last) (s0 :: ss) -> ~ crashed (s0 :: ss) ->
  exists F, Forall (fun f => p_sim f <> None /\ p_todo f = []) F /\
    (forall l w, path next_exchange l (start_world s0 ss) w -> (forall i, move next_exchange i w = None) -> ended_in w F) /\
    (exists N, forall l w, path next_exchange l (start_world s0 ss) w -> (List.length l <= N)%nat).
Proof.
  intros P NC. destruct (keep_pace n ts tsc D last (s0 :: ss) ltac:(discriminate) P) as [(r & F & TG & OK)|C]; [|contradiction]. exists F. split; [exact OK|]. split.
  - intros l w PA ST. apply (schedule next_exchange r s0 ss F l w TG PA). exact ST.
  - exists (S (List.length ss) * (2 * r + 1))%nat. intros l w PA. apply (schedule next_exchange r s0 ss F l w TG PA).
Qed.
