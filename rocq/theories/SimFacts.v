(** Space charge and sub-steps. *)
From Coq Require Import String Lra Lia.
From Verif Require Import Num NumFacts MP SpecMP MPFacts RegenFacts Push SpecPush PushFacts Geom Poly Sey Impact SpecImpact Beam SpecBeam BeamFacts
  Source SpecSource CrossIon SpecCrossIon Sim SpecSim.
Local Open Scope list_scope.
Local Open Scope R_scope.

(** * Densities *)
Lemma mp_points_live s : mp_points s = map (fun m => (m_x m, m_y m, m_nel m)) (live s).
Proof. unfold mp_points, live. rewrite map_map. reflexivity. Qed.
Lemma mp_pos_live s : mp_pos s = map (fun m => (m_x m, m_y m)) (live s).
Proof. unfold mp_pos, live. rewrite map_map. reflexivity. Qed.

Definition is_sum (n : nat) (rs : list (list R)) (r : list R) : Prop :=
  List.length r = n /\ forall j, nth j r 0 = rsum (map (fun a => nth j a 0) rs).

Lemma fold_sum n rs : Forall (fun a => List.length a = n) rs -> forall r, List.length r = n -> is_sum n (r :: rs) (fold_left (map2 Rplus) rs r).
Proof.
  induction 1 as [|a rs L F IH]; intros r Lr.
  - split; [exact Lr|]. intros j. cbn [map fold_left]. change (nth j r 0 = nth j r 0 + 0). lra.
  - cbn [fold_left]. assert (L2 : List.length (map2 Rplus r a) = n) by (rewrite map2_length; lia).
    destruct (IH _ L2) as [A B]. split; [exact A|]. intros j. rewrite B. cbn [map].
    change (nth j (map2 Rplus r a) 0 + rsum (map (fun a => nth j a 0) rs) = nth j r 0 + (nth j a 0 + rsum (map (fun a => nth j a 0) rs))).
    rewrite map2_nth0 by (lra || congruence). lra.
Qed.

Lemma nth_eq (a b : list R) : List.length a = List.length b -> (forall j, nth j a 0 = nth j b 0) -> a = b.
Proof. intros L H. apply (nth_ext a b 0 0); auto. Qed.

Lemma sub_earlier_ok n before r d : Forall (fun a => List.length a = n) before -> List.length r = n -> List.length d = n ->
  is_sum n (before ++ [d]) r -> sub_earlier r before = d.
Proof.
  intros F Lr Ld [_ S]. destruct before as [|b bs].
  - cbn [sub_earlier]. apply nth_eq; [congruence|]. intros j. rewrite S. cbn [app map]. change (nth j d 0 + 0 = nth j d 0). lra.
  - cbn [sub_earlier]. inversion F; subst. destruct (fold_sum _ bs H2 b H1) as [A B].
    apply nth_eq; [rewrite map2_length; lia|]. intros j. rewrite map2_nth0 by (lra || congruence).
    rewrite S, B, map_app, rsum_app. cbn [map]. change (rsum [nth j d 0]) with (nth j d 0 + 0). lra.
Qed.

Lemma recompute_ok n p : grid_size p n -> forall cl before sc cl' sc',
  Forall (fun a => List.length a = n) before -> (before <> [] -> is_sum n before (sc_rho sc)) ->
  recompute_loop p before cl sc = (cl', sc') ->
  map o_rho cl' = map (own_density p) cl /\ map o_mp cl' = map o_mp cl /\ map o_set cl' = map o_set cl /\ map o_iman cl' = map o_iman cl /\ map o_Q cl' = map o_Q cl /\
  (cl <> [] -> is_sum n (before ++ map o_rho cl') (sc_rho sc') /\ sc_fld sc' = pi_solve p (sc_rho sc')) /\
  sc_Dt sc' = sc_Dt sc /\ sc_last sc' = sc_last sc /\ sc_check sc' = sc_check sc.
Proof.
  intros G. induction cl as [|c cl IH]; intros before sc cl' sc' F B H; cbn [recompute_loop] in H.
  - injection H as <- <-. repeat split; auto; contradiction.
  - set (d := own_density p c). assert (Ld : List.length d = n) by apply G.
    set (sc1 := recompute_spchg_efield p _ _ _ _ sc) in *.
    assert (S1 : is_sum n (before ++ [d]) (sc_rho sc1)).
    { unfold sc1, recompute_spchg_efield. cbn [sc_rho]. rewrite mp_points_live. fold (own_density p c). fold d.
      destruct before as [|b bs].
      - split; [exact Ld|]. intros j. cbn [app map]. change (nth j d 0 = nth j d 0 + 0). lra.
      - destruct (B ltac:(discriminate)) as [L1 L2]. split; [rewrite map2_length; lia|]. intros j.
        rewrite map2_nth0 by (lra || congruence). rewrite L2, map_app, rsum_app. cbn [map].
        change (rsum [nth j d 0]) with (nth j d 0 + 0). lra. }
    rewrite (sub_earlier_ok n before (sc_rho sc1) d F (proj1 S1) Ld S1) in H.
    destruct (recompute_loop p (before ++ [d]) cl sc1) as [r sc2] eqn:E. injection H as <- <-. pose proof E as E0.
    apply IH in E; [|apply Forall_app; split; auto|intros _; exact S1].
    destruct E as (E1 & E2 & E3 & E4 & E4' & E5 & E6 & E7 & E8).
    cbn [map o_rho o_mp o_set o_iman o_Q]. rewrite E1, E2, E3, E4, E4'. fold d.
    split; [reflexivity|]. split; [reflexivity|]. split; [reflexivity|]. split; [reflexivity|]. split; [reflexivity|]. split.
    + intros _. destruct cl as [|c2 cl].
      * cbn [recompute_loop] in E0. injection E0 as <- <-. split; [exact S1|reflexivity].
      * destruct E5 as [E9 E10]; [discriminate|]. rewrite E1 in E9. rewrite <- app_assoc in E9. cbn [app] in E9. auto.
    + rewrite E6, E7, E8. auto.
Qed.

(** * Schedule of the recomputations *)
Lemma checks_app ts1 ts2 : forall sc, checks (ts1 ++ ts2) sc =
  let '(b1, sc1) := checks ts1 sc in let '(b2, sc2) := checks ts2 sc1 in (b1 ++ b2, sc2).
Proof.
  induction ts1 as [|t ts1 IH]; intros sc; cbn [app checks].
  - destruct (checks ts2 sc); auto.
  - destruct (check_for_recomputation t sc) as [b sc1]. rewrite IH. destruct (checks ts1 sc1) as [b1 sc2]. destruct (checks ts2 sc2); auto.
Qed.

Lemma checks_length ts : forall sc bs sc', checks ts sc = (bs, sc') -> List.length bs = List.length ts.
Proof.
  induction ts as [|t ts IH]; intros sc bs sc' H; cbn [checks] in H; [injection H as <- <-; auto|].
  destruct (check_for_recomputation t sc) as [b sc1]. destruct (checks ts sc1) as [b1 sc2] eqn:E. injection H as <- <-.
  cbn. f_equal. eauto.
Qed.

Lemma checks_last ts : forall sc bs sc', checks ts sc = (bs, sc') -> sc_last sc' = last_yes (sc_last sc) ts bs /\ sc_Dt sc' = sc_Dt sc.
Proof.
  induction ts as [|t ts IH]; intros sc bs sc' H; cbn [checks] in H; [injection H as <- <-; auto|].
  unfold check_for_recomputation in H. set (f := match sc_Dt sc with Some _ => _ | None => _ end) in *.
  destruct (checks ts _) as [b1 sc2] eqn:E. injection H as <- <-. apply IH in E. cbn [sc_last sc_Dt] in E. cbn [last_yes]. auto.
Qed.

Lemma checks_step ts : forall sc bs sc' D i, checks ts sc = (bs, sc') -> sc_Dt sc = Some D -> (i < List.length ts)%nat ->
  let prev := last_yes (sc_last sc) (firstn i ts) (firstn i bs) in
  (nth i bs false = true <-> D <= nth i ts 0 - prev) /\
  last_yes (sc_last sc) (firstn (S i) ts) (firstn (S i) bs) = (if nth i bs false then nth i ts 0 else prev).
Proof.
  induction ts as [|t ts IH]; intros sc bs sc' D i H HD Hi; [cbn in Hi; lia|]. cbn [checks] in H.
  unfold check_for_recomputation in H. rewrite HD in H. set (f := Rgeb (t - sc_last sc) D) in *.
  destruct (checks ts _) as [b1 sc2] eqn:E. injection H as <- <-. destruct i as [|i].
  - cbn [firstn last_yes nth]. split; [|destruct f; auto]. unfold f. rewrite Rgeb_true. split; intros; lra.
  - cbn in Hi. eapply (IH _ _ _ D i) in E; [|reflexivity|lia]. exact E.
Qed.

Lemma yes_below D : 0 <= D -> forall ts sc bs sc' i, checks ts sc = (bs, sc') -> sc_Dt sc = Some D -> (i < List.length ts)%nat ->
  nth i bs false = true -> nth i ts 0 <= sc_last sc'.
Proof.
  intros D0. induction ts as [|t ts IH]; intros sc bs sc' i H HD Hi Hb; [cbn in Hi; lia|]. cbn [checks] in H.
  unfold check_for_recomputation in H. rewrite HD in H. set (f := Rgeb (t - sc_last sc) D) in *.
  destruct (checks ts _) as [b1 sc2] eqn:E. injection H as <- <-.
  assert (M : forall ts sc bs sc', checks ts sc = (bs, sc') -> sc_Dt sc = Some D -> sc_last sc <= sc_last sc').
  { clear -D0. induction ts as [|t ts IH]; intros sc bs sc' H HD; cbn [checks] in H; [injection H as <- <-; lra|].
    unfold check_for_recomputation in H. rewrite HD in H. destruct (Rgeb (t - sc_last sc) D) eqn:Q.
    - destruct (checks ts _) as [b1 sc2] eqn:E. injection H as <- <-. apply IH in E; [|reflexivity]. cbn [sc_last] in E. apply Rgeb_true in Q. lra.
    - destruct (checks ts _) as [b1 sc2] eqn:E. injection H as <- <-. apply IH in E; [|reflexivity]. exact E. }
  destruct i as [|i].
  - cbn [nth] in Hb. subst f. rewrite Hb in E. apply M in E; [|reflexivity]. exact E.
  - cbn in Hi. apply (IH _ _ _ i E); auto. lia.
Qed.

Lemma checks_apart ts : forall sc bs sc' D i j, checks ts sc = (bs, sc') -> sc_Dt sc = Some D -> 0 <= D ->
  (i < j < List.length ts)%nat -> nth i bs false = true -> nth j bs false = true -> D <= nth j ts 0 - nth i ts 0.
Proof.
  intros sc bs sc' D i j H HD D0 Hij Bi Bj.
  destruct (checks_step ts sc bs sc' D j H HD ltac:(lia)) as [S1 _]. cbv zeta in S1. apply S1 in Bj. clear S1.
  rewrite <- (firstn_skipn j ts) in H. rewrite checks_app in H. destruct (checks (firstn j ts) sc) as [b1 sc1] eqn:E1.
  destruct (checks (skipn j ts) sc1) as [b2 sc2]. injection H as <- <-.
  pose proof (checks_length _ _ _ _ E1) as L1. rewrite firstn_length_le in L1 by lia.
  replace (firstn j (b1 ++ b2)) with b1 in Bj by (rewrite firstn_app, L1, Nat.sub_diag, firstn_O, app_nil_r, <- L1, firstn_all; auto).
  rewrite app_nth1 in Bi by lia. destruct (checks_last _ _ _ _ E1) as [E2 _]. rewrite <- E2 in Bj.
  pose proof (yes_below D D0 _ _ _ _ i E1 HD) as Y. rewrite firstn_length_le in Y by lia. specialize (Y ltac:(lia) Bi).
  assert (N : nth i (firstn j ts) 0 = nth i ts 0).
  { rewrite <- (firstn_skipn j ts) at 2. rewrite app_nth1; auto. rewrite firstn_length_le; lia. }
  rewrite N in Y. lra.
Qed.

(** Soon after the last one. *)
Lemma checks_soon ts : forall sc bs sc' D i, checks ts sc = (bs, sc') -> sc_Dt sc = Some D -> 0 < D -> (i < List.length ts)%nat ->
  nth i ts 0 - last_yes (sc_last sc) (firstn (S i) ts) (firstn (S i) bs) < D.
Proof.
  intros sc bs sc' D i H HD D0 Hi. destruct (checks_step ts sc bs sc' D i H HD Hi) as [S1 S2]. rewrite S2.
  destruct (nth i bs false) eqn:Q; [lra|]. set (pr := last_yes _ (firstn i ts) _) in *.
  destruct (Rle_dec D (nth i ts 0 - pr)) as [L|L]; [|lra]. apply S1 in L. discriminate.
Qed.
