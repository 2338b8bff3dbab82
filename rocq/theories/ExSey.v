(** Concrete surfaces and impacts. *)
From Coq Require Import Lra Lia Reals Psatz.
From Verif Require Import Num NumFacts Sey SpecSey SeyFacts SeyFacts2 SeyFacts3.

(** One electron MP of charge 1 hits the right wall at the peak energy 300 eV
    under normal incidence; yield 2, no reflection, threshold 3/2. *)
Definition ex_imp : imp := mkImp 1 (1/10) 0 0 1 0 0 (-1) 0 0 1 300 1.
Definition ex_sr : src := mkSrc (fun _ => 1/2) (fun _ => 5) (fun _ => 0).
Definition ex_cfg : ecfg := mkEcfg 0 35 0 (Some NormalEmission) 1 1 10.
Definition ex_mod : seymod := MEcloud 300 2 0 150 s135 true true.

Lemma ex_src_ok : src_ok ex_sr.
Proof. split; intros k; cbn; lra. Qed.

Lemma ex_yield : sey_one ex_mod (1/2) ex_imp = Some (2, false).
Proof.
  unfold sey_one, ex_mod, yield_ECLOUD. cbn [i_E i_ct i_nel ex_imp].
  assert (T : true_sec 300 2 s135 true true 300 1 = 2).
  { rewrite true_sec_peak; unfold dm_tilde, Em_tilde, s135; try lra. rewrite Rminus_eq_0, Rmult_0_r, exp_0. lra. }
  assert (Rf : reflected 0 150 300 = 0) by (unfold reflected; ring).
  rewrite T, Rf. unfold total_frac. replace (2 + 0) with 2 by ring. rewrite (proj2 (Rgtb_true 2 0)) by lra.
  replace (0 / 2) with 0 by field. rewrite (proj2 (Rltb_false _ _)) by lra. rewrite Rmult_1_l. auto.
Qed.

Lemma ex_clones : n_clones 2 (3/2) = 1%nat.
Proof. unfold n_clones. rewrite (rceil_unique _ 2); [reflexivity|]. lra. Qed.

Lemma redraw_done f sr k lim en : count_true (above lim en) = 0%nat -> redraw f sr k lim en = Some (en, k).
Proof. intros H. destruct f; cbn; rewrite H; auto. Qed.

Lemma ex_gen k E nx ny : gen_vel ex_cfg ex_sr k 1 [E] [nx] [ny] = Some ([vel_normal 1 1 5 nx ny], (k + 1)%nat).
Proof.
  unfold gen_vel, sec_energy_hilleret_model2. change (c_switch ex_cfg =? 0)%Z with true. cbv iota.
  change (draw (s_logn ex_sr) k 1) with [5]. change (repeat (Some (c_Eth ex_cfg)) 1) with [Some 35].
  rewrite redraw_done; [reflexivity|]. cbn. rewrite (proj2 (Rgtb_false 5 35)) by lra. auto.
Qed.

Lemma ex_run : exists e k, impacts_on_surface ex_mod ex_cfg (3/2) false ex_sr 0 [ex_imp] = Some (e, k) /\
  o_nel e = [2 / (1 + 1)] /\ n_nel e = [2 / (1 + 1)] /\ n_x e = [1/10].
Proof.
  unfold impacts_on_surface, SEY_process. change (draw (s_uni ex_sr) 0 (length [ex_imp])) with [1/2].
  cbn [mapM2]. rewrite ex_yield. cbn [bind].
  unfold emit_surface. cbn -[gen_vel n_clones ex_imp ex_sr ex_cfg]. rewrite ex_clones.
  unfold mask_set. cbn -[gen_vel n_clones ex_imp ex_sr ex_cfg]. rewrite ex_gen.
  cbn -[gen_vel n_clones ex_imp ex_sr ex_cfg]. rewrite ex_gen.
  eexists _, _. split; [reflexivity|]. cbn. auto.
Qed.

(** The same impact on an insulating edge: one more electron leaves than
    arrives. *)
Definition ex_seg : chseg := mkChseg true 10 1 0 1.
Lemma ex_wall : exists evs,
  wall_run 1 [(300, 2, 0)] 150 [ex_seg] ex_sr 0 [0] [CallHits [ex_imp]; CallEvol 1] = Some ([1], evs).
Proof.
  unfold wall_run, charging_process. change (draw (s_uni ex_sr) 0 (length [ex_imp])) with [1/2].
  assert (C : charging_one [(300, 2, 0)] 150 [ex_seg] [0] (1/2) ex_imp = Some (2, false)).
  { unfold charging_one. change (i_seg ex_imp) with 0%nat. cbn [nth_error bind].
    pose proof ex_yield as Y. unfold sey_one, ex_mod in Y. destruct (yield_ECLOUD _ _ _ _ _ _ _ _ _) as [d f].
    change (g_flag ex_seg) with true. cbv iota.
    assert (D : i_nel ex_imp * d = 2 /\ Rltb (1/2) f = false) by (split; congruence). destruct D as [D ->].
    f_equal. f_equal. rewrite <- D. f_equal.
    destruct (charged_yield_ok ex_seg 0 d (i_E ex_imp)) as (_ & Q & _); cbn in *; try lra. }
  cbn [mapM2]. rewrite C. cbn [bind map fst].
  assert (U : charge_update 1 [ex_seg] [ex_imp] [2] [0] = [1]).
  { unfold charge_update, on_seg. cbn. unfold rsum. cbn. f_equal. field. }
  rewrite U. cbn [charging_evol map2]. change (g_flag ex_seg) with true. change (g_tau ex_seg) with 0.
  rewrite (proj2 (Rgtb_false 0 0)) by lra. cbn. eexists. reflexivity.
Qed.
