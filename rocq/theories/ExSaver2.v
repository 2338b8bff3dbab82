(** A run with lifetime histograms that continues from a checkpoint. *)
From Coq Require Import String Lia Lra.
From Verif Require Import Num NumFacts MP SpecMP Impact Saver SpecSaver SaverFacts SaverFacts3 SaverFacts7 SaverFacts11 ExMP ExImpact ExSaver.
Local Open Scope string_scope.
Local Open Scope list_scope.
Local Open Scope R_scope.

(** A lifetime histogram every second; other data are due later than the steps below. *)
Definition vLife : scfg := mkScfg 1 100 1 true false true [] 100 true (Some 1) None 1 [] ["mine"] [] [("b_spac", VNum 25)] None 3 2 exC 0.
(** An output with lifetime histograms at the times 1, 2 and 3. *)
Definition vFile : dict := [("t", VArr [1; 2]); ("t_hist", VArr [1; 2]); ("t_sc_video", VArr [1; 2]); ("Nel_timep", VArr [3; 4]);
  ("lam_t_array", VArr [0; 0]); ("Nel_imp_time", VArr [0; 0]); ("Nel_emit_time", VArr [0; 0]); ("En_imp_eV_time", VArr [0; 0]); ("En_emit_eV_time", VArr [0; 0]);
  ("En_kin_eV_time", VArr [0; 0]); ("cen_density", VArr [0; 0]); ("N_mp_time", VArr [0; 0]); ("nel_mp_ref_time", VArr [0; 0]); ("En_electric_eV_time", VArr [0; 0]);
  ("t_lifetime_hist", VArr [1; 2; 3]); ("lifetime_hist", VMat [[1]; [2]; [3]])].
Definition vLq (t : R) : step := (mkObs t 1 (vS 0) 0 (0, 0, 0) (fun _ => 7) false 3 false 0 1 2, vD).

Lemma vNear : argmin_from 2 [2] 1 0 (Rabs (1 - 2)) = 1%nat.
Proof.
  cbn [argmin_from]. rewrite (proj2 (Rltb_true (Rabs (2 - 2)) (Rabs (1 - 2)))); [reflexivity|].
  rewrite Rminus_diag_eq, Rabs_R0 by reflexivity. rewrite Rabs_left; lra.
Qed.

Lemma vLife_step t g s m ts : v_tEn s = 2 -> v_tlast s = -1 -> 2 < t < 50 -> v_tlife s + 1 <= t ->
  get (v_at s) "lifetime_hist" = Some (VMat m) -> get (v_at s) "t_lifetime_hist" = Some (VArr ts) ->
  exists s' g', witness vLife (fst (vLq t)) g s = Some (s', g', None) /\ v_tEn s' = 2 /\ v_tlast s' = -1 /\ v_tlife s' = t /\ v_i s' = v_i s /\ v_sbs s' = v_sbs s /\ v_pbp s' = v_pbp s /\
    v_at s' = put (put (v_at s) "lifetime_hist" (VMat (m ++ [g_life g]))) "t_lifetime_hist" (VArr (ts ++ [t])).
Proof.
  intros A B C D M T. unfold witness, energy_hist_save, energy_save. cbn [vLq fst ob_t vLife c_DtEn].
  assert (D1 : Rgeb t (v_tEn s + 100) = false) by (rewrite A; apply Rleb_false; lra).
  assert (D2 : isclose t (v_tEn s + 100) = false).
  { rewrite A. unfold isclose. apply Rleb_false. rewrite (Rabs_right (2 + 100)), (Rabs_left (t - (2 + 100))) by lra. lra. }
  rewrite D1, D2. cbn [orb bind]. unfold lifetime_save. cbn [c_life ob_t vLq fst vLife].
  assert (D3 : Rgeb t (v_tlife s + 1) = true) by (apply Rleb_true; lra). rewrite D3. cbn [orb append_rows append_nums].
  unfold append_row, append_num. cbn [fst snd]. rewrite M. cbn [bind]. rewrite get_put_other, T by discriminate. cbn [bind].
  unfold sc_energy_save. cbn [ob_check bind vLq fst vLife]. unfold stepbystep_data_save, Dt_save. cbn [ob_t v_tlast c_dec c_Dtref vLq fst vLife].
  assert (D4 : Rgeb (t - v_tlast s) ((100 - 1 / 10000) * 1) = false) by (rewrite B; apply Rleb_false; lra). rewrite D4. cbn [bind ob_new].
  eexists _, _. split; [reflexivity|]. cbn. auto 10.
Qed.

Lemma vLifeRun : exists sL s g f d, resumed vLife 8 vFile 2 2 = Some sL /\ record_run vLife [vLq 5; vLq 6] exG sL None = Some (s, g, f) /\ build_outp_dict vLife s = Some d /\
  get d "t_lifetime_hist" = Some (VArr [5; 6]).
Proof.
  destruct (load_get vLife vFile 2 (start_observing vLife 8) 1 1 1 [3; 4]) as (s0 & E & I & TL & _ & _ & _ & _ & SB & PB & _ & TF & _ & KEYS & STEP & PASS & SC & CONST & OTHER).
  { reflexivity. }
  1-3: change (Some (argmin_from 2 [2] 1 0 (Rabs (1 - 2))) = Some 1%nat); rewrite vNear; reflexivity.
  { intros r H. change (Some (VArr [1; 2]) = Some (VNum r)) in H. discriminate H. }
  { reflexivity. }
  set (sL := mkSst (v_i s0) (v_tlast s0) (v_nimp s0) (v_nemit s0) (v_eimp s0) (v_eemit s0) (v_at s0) (v_sbs s0) (v_pbp s0) 2 (v_tlife s0) (v_dline s0)).
  assert (R : resumed vLife 8 vFile 2 2 = Some sL) by (unfold resumed; rewrite E; reflexivity).
  destruct (resumed_held vLife 1 8 vFile 2 2 sL eq_refl R) as (_ & Z & P & T & (H1 & m & H2 & H3)).
  destruct m; [|discriminate H3].
  destruct (vLife_step 5 (feed exG vD) sL [] []) as (s1 & g1 & W1 & A1 & B1 & C1 & I1 & S1 & P1 & V1); auto; try lra.
  destruct (vLife_step 6 (feed g1 vD) s1 [g_life (feed exG vD)] [5]) as (s2 & g2 & W2 & A2 & B2 & C2 & I2 & S2 & P2 & V2); auto; try lra.
  { rewrite V1, get_put_other, get_put_same by discriminate. reflexivity. } { rewrite V1, get_put_same. reflexivity. }
  assert (RR : record_run vLife [vLq 5; vLq 6] exG sL None = Some (s2, g2, None)).
  { cbn [record_run vLq]. change (mkObs 5 1 (vS 0) 0 (0, 0, 0) (fun _ => 7) false 3 false 0 1 2) with (fst (vLq 5)). rewrite W1. cbn [bind].
    change (mkObs 6 1 (vS 0) 0 (0, 0, 0) (fun _ => 7) false 3 false 0 1 2) with (fst (vLq 6)). rewrite W2. cbn [bind]. reflexivity. }
  assert (B : exists d, build_outp_dict vLife s2 = Some d).
  { unfold build_outp_dict.
    destruct (get_all_spec (outp_names vLife) (v_at s2)) as (a & EA & _).
    { intros k K. apply In_get. rewrite V2, V1.
      assert (I0 : In k (map fst (v_at s0))).
      { apply KEYS. revert k K. apply inclb_ok. reflexivity. }
      assert (PI : forall d n v, In k (map fst d) -> In k (map fst (put d n v))).
      { intros d n v H. apply (update_in [(n, v)]). exact H. }
      do 4 apply PI. exact I0. }
    rewrite EA. cbn [bind]. unfold stepbystep_get_dict. rewrite S2, S1, Z. cbn [map cut_all c_probes vLife].
    destruct (cut_all_spec (sbs_members vLife) (v_at s2) (v_i s2 + 1)) as (b & EB & _).
    { intros k K. rewrite V2, V1.
      assert (NK : k <> "lifetime_hist" /\ k <> "t_lifetime_hist").
      { split; intros ->; revert K; apply (apartb_ok lnames); try reflexivity; cbn; tauto. }
      rewrite !get_put_other by tauto. cbn [v_at sL].
      assert (Q : forall k, In k (sbs_members vLife) -> exists l, get (v_at s0) k = Some (VArr l)); [|apply Q; exact K]. clear k K NK. intros k K.
      destruct (get vFile k) as [v|] eqn:G.
      - assert (TK : In k timestep_list) by (revert k K G; intros k K _; revert k K; apply inclb_ok; reflexivity).
        rewrite (STEP k v G TK). cbn in K. repeat (destruct K as [<-|K]; [try discriminate G; injection G as <-; eexists; reflexivity|]). destruct K.
      - cbn in K. repeat (destruct K as [<-|K]; [discriminate G|]). destruct K. }
    rewrite EB. cbn [bind]. eexists. reflexivity. }
  destruct B as (d & B). exists sL, s2, g2, None, d. split; [exact R|]. split; [exact RR|]. split; [exact B|].
  rewrite (outp_life vLife 1 s2 d "t_lifetime_hist" eq_refl eq_refl) by (try exact B; try congruence; try (cbn; tauto); cbn; intuition discriminate).
  rewrite V2, get_put_same. reflexivity.
Qed.
