(** Concrete extractions. *)
From Coq Require Import Lra Lia Reals Psatz String.
From Verif Require Import Num NumFacts MP SpecMP CrossIon SpecCrossIon CrossIonFacts CrossIonFacts3 CrossIonFacts4 Sey SpecSey SeyFacts SeyFacts2 SeyFacts3 ExSey Impact SpecImpact Extract SpecExtract ExtractFacts ExCrossIon.
Local Open Scope list_scope.
Local Open Scope R_scope.

Definition tp : imp := test_imp 1 1 300 1.
Lemma tp_yield : sey_one ex_mod (1/2) tp = Some (2, false).
Proof. exact ex_yield. Qed.

Lemma emit_2 k : exists e k', emit_surface ex_cfg 1 true ex_sr k [tp] [(2, false)] = Some (e, k') /\ o_tot e = [2] /\ o_type e = [1%nat].
Proof.
  unfold emit_surface. cbn -[gen_vel n_clones tp ex_sr ex_cfg].
  assert (N : n_clones 2 1 = 1%nat) by (unfold n_clones; rewrite (rceil_unique _ 2); [reflexivity|lra]). rewrite N.
  unfold mask_set. cbn -[gen_vel n_clones tp ex_sr ex_cfg]. rewrite ex_gen.
  cbn -[gen_vel n_clones tp ex_sr ex_cfg]. rewrite ex_gen. eexists _, _. split; [reflexivity|]. split; reflexivity.
Qed.

(** Yield 2 at the peak, without reflection. *)
Lemma curve_2 : exists k', extract_sey_curves (std_emitter ex_mod ex_cfg ex_sr) types_ecloud 1 1 1 [300] [1] 0%nat = Some ([[[0; 2]]], k').
Proof.
  unfold extract_sey_curves. cbn [loopO]. unfold yield_node, std_emitter, impacts_on_surface, SEY_process. cbn [repeat length]. fold tp.
  change (draw (s_uni ex_sr) 0 1) with [1/2]. cbn [mapM2]. rewrite tp_yield. cbn [bind].
  destruct (emit_2 (0 + 1)) as (e & k' & E & T1 & T2). rewrite E. cbn [bind]. unfold types_ecloud, mapO, type_yield. rewrite T1, T2. cbn. unfold rsum. cbn. replace (0 / (1 + 0)) with 0 by field. replace ((2 + 0) / (1 + 0)) with 2 by field. eexists. reflexivity.
Qed.

(** On an insulating edge. *)
Definition csegs : list (R * R * R) := [(300, 2, 0); (300, 2, 0)].
Definition cgs : list chseg := [ex_seg; ex_seg].
Lemma cone : charging_one csegs 150 cgs [0; 0] (1/2) tp = Some (2, false).
Proof.
  unfold charging_one. change (i_seg tp) with 1%nat. cbn [nth_error bind csegs cgs].
  pose proof tp_yield as Y. unfold sey_one, ex_mod in Y. destruct (yield_ECLOUD _ _ _ _ _ _ _ _ _) as [d f]. change (g_flag ex_seg) with true. cbv iota.
  assert (D : i_nel tp * d = 2 /\ Rltb (1/2) f = false) by (split; congruence). destruct D as [D ->]. f_equal. f_equal. rewrite <- D. f_equal.
  destruct (charged_yield_ok ex_seg 0 d (i_E tp)) as (_ & Q & _); cbn in *; try lra.
Qed.

Lemma charged_after : exists D k', extract_sey_curves (charging_emitter csegs 150 cgs ex_cfg ex_sr) types_ecloud 1 1 1 [300] [1] (0%nat, [0; 0]) = Some (D, (k', [0; 1])).
Proof.
  unfold extract_sey_curves. cbn [loopO]. unfold yield_node, charging_emitter, impacts_on_surface_charging, charging_process. cbn [repeat length fst snd]. fold tp.
  change (draw (s_uni ex_sr) 0 1) with [1/2]. cbn [mapM2]. rewrite cone. cbn [bind map fst].
  assert (U : charge_update (c_qe ex_cfg) cgs [tp] [2] [0; 0] = [0; 1]). { unfold charge_update, on_seg, cgs. cbn. unfold rsum. cbn. f_equal; [field|f_equal; field]. }
  rewrite U. destruct (emit_2 (0 + 1)) as (e & k' & E & T1 & T2). rewrite E. cbn [bind]. unfold types_ecloud, mapO, type_yield. rewrite T1, T2. cbn. eexists _, _. reflexivity.
Qed.

Lemma less_after : charging_one csegs 150 cgs [0; 1] (1/2) tp <> charging_one csegs 150 cgs [0; 0] (1/2) tp.
Proof.
  rewrite cone. unfold charging_one. change (i_seg tp) with 1%nat. cbn [nth_error bind csegs cgs].
  pose proof tp_yield as Y. unfold sey_one, ex_mod in Y. destruct (yield_ECLOUD _ _ _ _ _ _ _ _ _) as [d f]. change (g_flag ex_seg) with true. cbv iota.
  assert (D : i_nel tp * d = 2) by congruence. change (i_nel tp) with 1 in *. intros Q. injection Q as Q _. rewrite Rmult_1_l in D, Q. subst d.
  unfold charged_yield in Q. change (g_Qmax ex_seg) with 10 in Q. rewrite (proj2 (Rltb_false 1 0)) in Q by lra. rewrite (proj2 (Rgtb_false 1 10)) in Q by lra.
  pose proof (exp_pos (- (300) / g_EQ ex_seg)) as P. unfold Rdiv in *. lra.
Qed.
