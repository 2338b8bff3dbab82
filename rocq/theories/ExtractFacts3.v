(** Extracted yields of the Furman-Pivi model, of absorbing and of charging
    surfaces, and extracted cross sections. *)
From Coq Require Import Lra Lia Reals Psatz String.
From Verif Require Import Num NumFacts MP SpecMP MPFacts Fort SpecFort FortFacts CrossIon SpecCrossIon CrossIonFacts CrossIonFacts5 Sey SpecSey SeyFacts SeyFacts2 SeyFacts3 ExSey Furman SpecFurman FurmanFacts4 FurmanFacts6 Impact SpecImpact Extract SpecExtract ExtractFacts.
Local Open Scope list_scope.
Local Open Scope R_scope.

Lemma outcome_same f p q u t n : i_E p = i_E q -> i_ct p = i_ct q -> fp_outcome f p u t n -> fp_outcome f q u t n.
Proof.
  intros E1 E2 H. assert (D : de_of f p = de_of f q) by (unfold de_of; rewrite E1, E2; reflexivity). assert (D2 : dr_of f p = dr_of f q) by (unfold dr_of; rewrite E1, E2; reflexivity).
  destruct H as [H|X H|n H N|H]; rewrite ?D, ?D2 in H; [apply Out_back|apply Out_rediff|apply Out_true|apply Out_absorbed]; assumption.
Qed.

Lemma fp_table cfuel sp f fs qe mass n Es cts st D st' : sp_ok sp -> fp_energy_sane f -> src_ok (f_src fs) ->
  (forall E, In E Es -> 0 <= E) -> (forall ct, In ct cts -> 0 <= ct <= 1) ->
  extract_sey_curves (fp_em cfuel sp f fs) types_furman_pivi qe mass n Es cts st = Some (D, st') ->
  forall i j ct E p, nth_error cts i = Some ct -> nth_error Es j = Some E -> lands p E ct ->
  exists k (ty ns : nat -> nat), (forall a, (a < n)%nat -> fp_outcome f p (s_uni (f_src fs) (k + a)) (ty a) (ns a)) /\
  at2 D i j (map (fun t => total_over n (fun a => if Nat.eqb (ty a) t then INR (ns a) else 0) / INR n) [0; 1; 2; 3]%nat).
Proof.
  intros SPK FE HS HE Hc H i j ct E p Qc QE (L1 & L2 & _). unfold extract_sey_curves in H. apply loopO_spec in H. destruct H as (_ & sts & _ & _ & SI).
  destruct (SI i ct Qc) as (row & R1 & RD). apply loopO_spec in R1. destruct R1 as (_ & q & _ & _ & QI). destruct (QI j E QE) as (ys & Y & G).
  unfold yield_node, fp_em in Y. set (p0 := test_imp qe mass E ct) in *. destruct (fp_impacts _ _ _ _ _ _ _ _) as [[e k1]|] eqn:I; [|discriminate]. cbn [bind] in Y.
  apply fp_all in I; auto. 2:{ apply test_all. split; [apply test_unit|]. split; [apply HE|apply Hc]; eapply nth_error_In; eauto. }
  destruct I as (ns & B & _). destruct B as [BL BS BO BT _ _ _ _]. rewrite repeat_length in *.
  unfold types_furman_pivi, mapO, type_yield in Y. destruct (Nat.eqb n 0) eqn:N; [discriminate|]. cbn [bind] in Y. injection Y as Y _.
  exists (fst (q j)), (fun a => nth a (o_type e) 9%nat), (fun a => nth a ns 0%nat). split.
  - intros a Ha. pose proof (BO a Ha) as Q. rewrite (test_nth p0 n a Ha) in Q. apply (outcome_same f p0 p); [cbn; auto|cbn; auto|exact Q].
  - exists row. split; [exact RD|]. rewrite G. apply f_equal. rewrite <- Y. destruct BS as (Z1 & Z2 & _). rewrite !(mask_sum _ _ n) by assumption. rewrite rsum_repeat, Rmult_1_r. cbn [map].
    assert (Q : forall t, total_over n (fun i => if Nat.eqb (nth i (o_type e) 9%nat) t then nth i (o_tot e) 0 else 0) = total_over n (fun a => if Nat.eqb (nth a (o_type e) 9%nat) t then INR (nth a ns 0%nat) else 0)).
    { intros t. apply total_ext. intros a Ha. rewrite (BT a Ha), (test_nth p0 n a Ha). change (i_nel p0) with 1. rewrite Rmult_1_l. reflexivity. }
    rewrite !Q. reflexivity.
Qed.

Lemma absorber_table qe mass n Es cts D : extract_sey_curves absorber types_absorber qe mass n Es cts tt = Some (D, tt) ->
  forall i j, (i < length cts)%nat -> (j < length Es)%nat -> at2 D i j [0].
Proof.
  intros H i j Hi Hj. unfold extract_sey_curves in H. apply loopO_spec in H. destruct H as (_ & sts & _ & _ & SI).
  destruct (nth_error cts i) as [ct|] eqn:Qc; [|apply nth_error_None in Qc; lia]. destruct (nth_error Es j) as [E|] eqn:QE; [|apply nth_error_None in QE; lia].
  destruct (SI i ct Qc) as (row & R1 & RD). apply loopO_spec in R1. destruct R1 as (_ & q & _ & _ & QI). destruct (QI j E QE) as (ys & Y & G).
  exists row. split; [exact RD|]. rewrite G. apply f_equal. unfold yield_node, absorber in Y. cbn [bind] in Y. unfold types_absorber, mapO, type_yield in Y. destruct (Nat.eqb n 0) eqn:N; [discriminate|]. cbn [bind] in Y.
  injection Y as <- _. f_equal. cbn [o_type o_tot absorb_surface]. set (p := test_imp qe mass E ct).
  assert (Z : rsum (mask_get (map (fun t => Nat.eqb t 0) (map (fun _ : imp => 0%nat) (repeat p n))) (map (fun p => i_nel p * 0) (repeat p n))) = 0).
  { clear. induction n as [|n IH]; [reflexivity|]. cbn [repeat map mask_get Nat.eqb]. rewrite rsum_cons, IH. ring. }
  rewrite Z. unfold Rdiv. ring.
Qed.

(** * Cross sections *)
Lemma mean_le cl B n prods r : 0 < n -> n = INR (length prods) -> (forall c, In c cl -> nel_mp_ref (xc_mp c) <= B) -> mean_ref cl n prods 0 = Some r -> r <= B.
Proof.
  intros Hn E HB H. assert (Q : forall prods acc r, mean_ref cl n prods acc = Some r -> r <= acc + INR (length prods) * (B / n)).
  { clear H E r prods. induction prods as [|a l IH]; intros acc r H; cbn [mean_ref] in H; [injection H as <-; cbn; lra|].
    destruct (find_cloud a cl) as [c|] eqn:F; [|discriminate]. cbn [bind] in H. apply find_cloud_In in F. apply IH in H. cbn [length]. rewrite S_INR.
    assert (nel_mp_ref (xc_mp c) / n <= B / n) by (apply Rmult_le_compat_r; [left; apply Rinv_0_lt_compat; exact Hn|apply HB; apply F]). lra. }
  apply Q in H. rewrite <- E in H. replace (n * (B / n)) with B in H by (field; lra). lra.
Qed.

Lemma sigma_table qe Dt cl mass ref n Es p rng k rows k' B : 0 < qe -> 0 < mass -> 0 < Dt -> 0 < ref -> n <> 0%nat -> 0 < x_dens p -> table_ok p ->
  (forall c, In c cl -> 0 < nel_mp_ref (xc_mp c) <= B) -> (forall j, 0 <= rng j) -> (forall E, In E Es -> 0 <= E) ->
  extract_sigma qe Dt cl mass ref n Es p rng k = Some (rows, k') ->
  forall i E, nth_error Es i = Some E -> exists sg ests, get_sigma (x_tab p) E = Some sg /\ nth_error rows i = Some (sg * 10 ^ 4, ests) /\ map fst ests = x_prods p /\
  forall name s, In (name, s) ests -> (E = 0 -> s = 0) /\ (0 < E -> Rabs (s - sg * 10 ^ 4) <= 10 ^ 4 * B / (ref * x_dens p * sqrt (2 * E * qe / mass) * Dt)).
Proof.
  intros Hq Hm HD Hr Hn HX HT HB HU HE H i E QE. unfold extract_sigma in H. apply loopO_spec in H. destruct H as (_ & sts & _ & _ & SI). destruct (SI i E QE) as (row & F & G). clear SI.
  assert (E0 : 0 <= E) by (apply HE; eapply nth_error_In; eauto). unfold sigma_node in F.
  destruct (get_sigma (x_tab p) E) as [sg|] eqn:SG; [|discriminate]. cbn [bind] in F. set (v := sqrt (2 * E * qe / mass)) in *. set (nel := repeat (1 * ref) n) in *. set (pr := map (fun q => mkPj q 0 0 0 (v * 1)) nel) in *.
  destruct (process_generate _ _ _ _ _ _ _ _) as [[[[p' infos] DNt] k1]|] eqn:PG; [|discriminate]. cbn [bind] in F.
  destruct (mapO _ infos) as [es|] eqn:M; [|discriminate]. cbn [bind] in F. injection F as <- _. exists sg, es. split; [reflexivity|]. split; [exact G|].
  assert (V0 : 0 <= v) by apply sqrt_pos.
  assert (NN : 0 < INR n) by (apply lt_0_INR; lia).
  assert (RP : refs_pos cl) by (apply Forall_forall; intros c Hc; apply (HB c Hc)).
  apply process_ok in PG; auto; [|lra|lra|]. 2:{ apply Forall_forall. intros x Hx. apply in_map_iff in Hx. destruct Hx as (q & <- & Hx). apply repeat_spec in Hx. subst q. cbn. lra. }
  destruct PG as (DN & F2 & DP & _ & _ & NM & FI).
  assert (VV : v * v = 2 * E * qe / mass). { apply sqrt_def. apply Rmult_le_pos; [apply Rmult_le_pos; lra|left; apply Rinv_0_lt_compat; lra]. }
  assert (DNs : DN = repeat (sg * x_dens p * v * Dt * ref) n).
  { assert (Q : forall a d, In a pr -> DN_one qe p Dt mass a = Some d -> d = sg * x_dens p * v * Dt * ref).
    { intros a d Ha Hd. apply in_map_iff in Ha. destruct Ha as (q & <- & Hx). apply repeat_spec in Hx. subst q. unfold DN_one in Hd. cbn [j_v j_nel] in Hd. rewrite Rmult_1_r in Hd.
      replace (1/2 * mass / qe * v * v) with E in Hd by (replace (1/2 * mass / qe * v * v) with (1/2 * mass / qe * (v * v)) by ring; rewrite VV; field; lra).
      rewrite SG in Hd. cbn [bind] in Hd. injection Hd as <-. ring. }
    assert (LP : length pr = n) by (unfold pr, nel; rewrite map_length, repeat_length; reflexivity). rewrite <- LP. clear - F2 Q.
    induction F2 as [|a d l l' Fa F2 IH]; [reflexivity|]. cbn. f_equal; [apply (Q a d); [left; reflexivity|exact Fa]|apply IH; intros b e Hb; apply Q; right; exact Hb]. }
  pose proof (mapO_nth _ _ _ M) as (LM & MI).
  assert (NM2 : map fst es = map fst infos).
  { apply nth_ext with (d := ""%string) (d' := ""%string); rewrite !map_length; [exact LM|]. intros a Ha. rewrite LM in Ha. destruct (nth_error infos a) as [q|] eqn:Qa; [|apply nth_error_None in Qa; lia].
    destruct (MI a q Qa) as (b & F & Gb). destruct (if Rgtb v 0 then _ else _); [|discriminate]. cbn [bind] in F. injection F as <-.
    change ""%string with (fst (""%string, 0)) at 1. rewrite map_nth. erewrite nth_error_nth by exact Gb. cbn [fst].
    change ""%string with (fst (""%string, empty_info)) at 1. rewrite map_nth. erewrite nth_error_nth by exact Qa. reflexivity. }
  split; [rewrite NM2; exact NM|]. intros name s Hin. apply In_nth_error in Hin. destruct Hin as (a & Ha).
  destruct (nth_error infos a) as [q|] eqn:Qa. 2:{ apply nth_error_None in Qa. assert (a < length es)%nat by (apply nth_error_Some; congruence). lia. }
  destruct (MI a q Qa) as (b & F & Gb). rewrite Ha in Gb. injection Gb as <-. rewrite Forall_forall in FI. destruct (FI q (nth_error_In _ _ Qa)) as (size & src & HS & IF & jj & SRC & SZ).
  split.
  - intros ->. assert (v = 0) by (unfold v; replace (2 * 0 * qe / mass) with 0 by (field; lra); apply sqrt_0). rewrite H in F. rewrite (proj2 (Rgtb_false 0 0)) in F by lra. cbn [bind] in F. injection F as _ <-. ring.
  - intros EP. assert (VP : 0 < v). { apply sqrt_lt_R0. apply Rdiv_lt_0_compat; [|exact Hm]. apply Rmult_lt_0_compat; lra. }
    rewrite (proj2 (Rgtb_true v 0)) in F by exact VP. assert (RQ : Reqb (x_dens p) 0 = false) by (destruct (Reqb (x_dens p) 0) eqn:RE; [apply Reqb_true in RE; lra|reflexivity]). rewrite RQ in F. cbn [bind] in F. injection F as _ <-.
    assert (SB : size <= B).
    { destruct (x_equal p).
      - destruct SZ as [SZ _]. destruct (x_prods p) as [|x0 xs] eqn:XP; [rewrite <- NM in XP; destruct infos; [destruct a; discriminate|discriminate]|]. eapply mean_le; [|reflexivity| |exact SZ]; [apply lt_0_INR; cbn; lia|intros c Hc; apply (HB c Hc)].
      - destruct SZ as (c & Hc & _ & ->). apply (HB c Hc). }
    destruct IF as [_ IN _ _ _ _ _ _ _]. rewrite IN, rsum_repeat, SRC. rewrite repeat_each_length by (rewrite map_length; unfold counts_of; rewrite map2_length, draw_length; rewrite (Forall2_length F2); lia).
    pose proof (counts_close DN size rng jj HS HU DP) as CC. set (x := INR (nsum (map Z.to_nat (counts_of DN size rng jj)))) in *.
    assert (LDN : length DN = n) by (rewrite DNs; apply repeat_length). rewrite LDN in CC. rewrite DNs, rsum_repeat in CC. unfold nel. rewrite rsum_repeat, Rmult_1_l.
    set (K := x_dens p * v * Dt * (INR n * ref)). assert (KP : 0 < K) by (unfold K; repeat apply Rmult_lt_0_compat; assumption).
    change (10 * (10 * (10 * (10 * 1)))) with (10 ^ 4).
    replace (x * size / x_dens p / v / Dt / (INR n * ref) * 10 ^ 4 - sg * 10 ^ 4) with ((x * size - INR n * (sg * x_dens p * v * Dt * ref)) * (10 ^ 4 / K)) by (unfold K; field; lra).
    assert (P4 : 0 < 10 ^ 4) by lra. assert (KI : 0 < 10 ^ 4 / K) by (apply Rdiv_lt_0_compat; lra).
    rewrite Rabs_mult, (Rabs_right (10 ^ 4 / K)) by lra. apply Rle_trans with (INR n * B * (10 ^ 4 / K)).
    + apply Rmult_le_compat_r; [lra|]. apply Rle_trans with (INR n * size); [exact CC|]. apply Rmult_le_compat_l; lra.
    + right. unfold K. field. lra.
Qed.
