(** C25: what the output holds for data that were not asked for; C27: the
    entries that do not depend on time after a reload; C58: the chamber. *)
From Coq Require Import String Lia Lra.
From Verif Require Import Num NumFacts MP SpecMP Impact Saver SpecSaver SaverFacts SaverFacts3 SaverFacts4 SaverFacts5 SaverFacts6 SaverFacts7.
Local Open Scope string_scope.
Local Open Scope list_scope.
Local Open Scope R_scope.

(** ** Only the named entries change *)
Lemma setitems_other : forall ws d i d' k, setitems d i ws = Some d' -> ~ In k (map fst ws) -> get d' k = get d k.
Proof.
  induction ws as [|[k1 v] ws IH]; intros d i d' k E N; cbn in E; [injection E as <-; reflexivity|].
  unfold setitem in E. cbn [fst snd] in E. destruct (get d k1) as [[| | |]|]; try discriminate. destruct (py_set l i v); [|discriminate]. cbn [bind] in E.
  rewrite (IH _ _ _ k E) by (intros H; apply N; right; exact H). apply get_put_other. intros ->. apply N. left. reflexivity.
Qed.
Lemma nums_other : forall ls d d' k, append_nums d ls = Some d' -> ~ In k (map fst ls) -> get d' k = get d k.
Proof.
  induction ls as [|[k1 v] ls IH]; intros d d' k E N; cbn in E; [injection E as <-; reflexivity|].
  unfold append_num in E. cbn [fst snd] in E. destruct (get d k1) as [[| | |]|]; try discriminate. cbn [bind] in E.
  rewrite (IH _ _ k E) by (intros H; apply N; right; exact H). apply get_put_other. intros ->. apply N. left. reflexivity.
Qed.
Lemma rows_other : forall ls d d' k, append_rows d ls = Some d' -> ~ In k (map fst ls) -> get d' k = get d k.
Proof.
  induction ls as [|[k1 v] ls IH]; intros d d' k E N; cbn in E; [injection E as <-; reflexivity|].
  unfold append_row in E. cbn [fst snd] in E. destruct (get d k1) as [[| | |]|]; try discriminate. cbn [bind] in E.
  rewrite (IH _ _ k E) by (intros H; apply N; right; exact H). apply get_put_other. intros ->. apply N. left. reflexivity.
Qed.
Lemma double_other : forall ks d d' k, double_all d ks = Some d' -> ~ In k ks -> get d' k = get d k.
Proof.
  induction ks as [|k1 ks IH]; intros d d' k E N; cbn in E; [injection E as <-; reflexivity|].
  unfold double_at in E. destruct (get d k1) as [[| | |]|]; try discriminate. cbn [bind] in E.
  rewrite (IH _ _ k E) by (intros H; apply N; right; exact H). apply get_put_other. intros ->. apply N. left. reflexivity.
Qed.

Lemma off_S c k : In k (off_names c) -> ~ In k ("el_dens_at_probes" :: sbs_members c).
Proof.
  intros H. assert (X : In k ["cos_angle_hist"; "nel_hist_impact_seg"; "nel_hist_emit_seg"; "energ_eV_impact_seg"; "En_hist_seg"; "nel_hist_det"]).
  { revert k H. apply inclb_ok. unfold off_names. destruct (c_cos c), (k_seg (c_ic c)), (k_segline (c_ic c)), (c_hdet c); reflexivity. }
  clear H; revert k X. apply apartb_ok. unfold sbs_members. destruct (c_det c), (c_cross c), (c_elec c); reflexivity.
Qed.

Lemma lines_other c g d d' k : In k (off_names c) -> append_lines c g d = Some d' -> get d' k = get d k.
Proof.
  intros H E. unfold append_lines in E. destruct (k_seg (c_ic c) && k_segline (c_ic c)) eqn:B; [|injection E as <-; reflexivity].
  destruct (get d "En_hist_seg") as [[| | |]|]; try discriminate. injection E as <-. apply get_put_other. intros ->.
  apply andb_true_iff in B. destruct B as (B1 & B2). revert H. unfold off_names. rewrite B1, B2. cbn [andb].
  change (In "En_hist_seg" ((if c_cos c then [] else ["cos_angle_hist"]) ++ match c_hdet c with Some _ => [] | None => ["nel_hist_det"] end) -> False).
  destruct (c_cos c), (c_hdet c); cbn; intros; repeat match goal with H : _ \/ _ |- _ => destruct H end; try contradiction; discriminate.
Qed.

Lemma off_energy c ob g s s' g' k : In k (off_names c) -> energy_save c ob g s = Some (s', g') -> get (v_at s') k = get (v_at s) k.
Proof.
  intros H E. assert (AP : forall m, apartb (off_names c) m = true -> ~ In k m) by (intros m A; exact (apartb_ok _ _ A k H)).
  unfold energy_save in E. destruct (_ || _); [|injection E as <- <-; reflexivity].
  destruct (ekin_hist c (ob_mp ob)); [|discriminate]. cbn [bind] in E.
  match type of E with context [append_rows (v_at s) ?rs] => destruct (append_rows (v_at s) rs) as [a|] eqn:A1; [|discriminate] end. cbn [bind] in E.
  match type of E with context [append_nums a ?rs] => destruct (append_nums a rs) as [a2|] eqn:A2; [|discriminate] end. cbn [bind] in E.
  destruct (append_lines c g a2) as [a3|] eqn:A3; [|discriminate]. cbn [bind] in E. injection E as <- _. cbn [v_at].
  rewrite (lines_other _ _ _ _ _ H A3), (nums_other _ _ _ k A2), (rows_other _ _ _ k A1); [reflexivity| |]; apply AP; unfold off_names;
    destruct (c_cos c), (k_seg (c_ic c)), (k_segline (c_ic c)), (c_hdet c); reflexivity.
Qed.
Lemma off_life c ob g s s' g' k : In k (off_names c) -> lifetime_save c ob g s = Some (s', g') -> get (v_at s') k = get (v_at s) k.
Proof.
  intros H E. assert (AP : forall m, apartb (off_names c) m = true -> ~ In k m) by (intros m A; exact (apartb_ok _ _ A k H)).
  unfold lifetime_save in E. destruct (c_life c); [|injection E as <- <-; reflexivity]. destruct (_ || _); [|injection E as <- <-; reflexivity].
  match type of E with context [append_rows (v_at s) ?rs] => destruct (append_rows (v_at s) rs) as [a|] eqn:A1; [|discriminate] end. cbn [bind] in E.
  match type of E with context [append_nums a ?rs] => destruct (append_nums a rs) as [a2|] eqn:A2; [|discriminate] end. cbn [bind] in E.
  injection E as <- _. cbn [v_at]. rewrite (nums_other _ _ _ k A2), (rows_other _ _ _ k A1); [reflexivity| |]; apply AP; unfold off_names;
    destruct (c_cos c), (k_seg (c_ic c)), (k_segline (c_ic c)), (c_hdet c); reflexivity.
Qed.
Lemma off_sc c ob s s' k : In k (off_names c) -> sc_energy_save ob s = Some s' -> get (v_at s') k = get (v_at s) k.
Proof.
  intros H E. assert (AP : forall m, apartb (off_names c) m = true -> ~ In k m) by (intros m A; exact (apartb_ok _ _ A k H)).
  unfold sc_energy_save in E. destruct (ob_check ob); [|injection E as <-; reflexivity].
  match type of E with context [append_nums (v_at s) ?rs] => destruct (append_nums (v_at s) rs) as [a2|] eqn:A2; [|discriminate] end. cbn [bind] in E.
  injection E as <-. cbn [v_at]. rewrite (nums_other _ _ _ k A2); [reflexivity|]; apply AP; unfold off_names;
    destruct (c_cos c), (k_seg (c_ic c)), (k_segline (c_ic c)), (c_hdet c); reflexivity.
Qed.
Lemma off_sbs c ob g s s' k : In k (off_names c) -> stepbystep_data_save c ob g s = Some s' -> get (v_at s') k = get (v_at s) k.
Proof.
  intros H E. assert (HS := off_S c k H). unfold stepbystep_data_save in E. cbv zeta in E. destruct (Rgeb _ _); [|injection E as <-; reflexivity].
  destruct (check_for_data_resize c s) as [[a sb]|] eqn:E1; [|discriminate]. cbn [bind] in E.
  match type of E with context [setitems a ?i ?w] => destruct (setitems a i w) as [a1|] eqn:A1; [|discriminate] end. cbn [bind] in E.
  match type of E with context [probe_writes c ?i ?w a1] => destruct (probe_writes c i w a1) as [a2|] eqn:A2; [|discriminate] end. cbn [bind] in E.
  match type of E with context [setitems sb ?i ?w] => destruct (setitems sb i w) as [sb1|]; [|discriminate] end. cbn [bind] in E.
  injection E as <-. cbn [v_at].
  assert (X2 : get a2 k = get a1 k).
  { unfold probe_writes in A2. destruct (c_probes c); [injection A2 as <-; reflexivity|]. destruct (get a1 _) as [[| | |]|]; try discriminate.
    destruct (probe_rows _ _ _ _); [|discriminate]. cbn [bind] in A2. injection A2 as <-. apply get_put_other. intros ->. apply HS. left. reflexivity. }
  rewrite X2, (setitems_other _ _ _ _ k A1) by (intros X; apply HS; right; eapply writes_names, X).
  unfold check_for_data_resize in E1. destruct (get (v_at s) "t") as [[| | |]|]; try discriminate. destruct (_ <=? _)%Z; [|injection E1 as <- <-; reflexivity].
  destruct (double_all (v_sbs s) _); [|discriminate]. cbn [bind] in E1. destruct (double_all (v_at s) _) as [b|] eqn:DA; [|discriminate]. cbn [bind] in E1.
  assert (XB : get b k = get (v_at s) k) by (apply (double_other _ _ _ k DA); intros X; apply HS; right; exact X).
  destruct (c_probes c); [injection E1 as <- <-; exact XB|]. destruct (get b _) as [[| | |]|]; try discriminate. injection E1 as <- <-.
  rewrite get_put_other; [exact XB|]. intros ->. apply HS. left. reflexivity.
Qed.
Lemma off_pass c ob g s s' g' k : In k (off_names c) -> pass_by_pass_data_save c ob g s = Some (s', g') -> get (v_at s') k = get (v_at s) k.
Proof.
  intros H E. assert (AP : forall m, apartb (off_names c) m = true -> ~ In k m) by (intros m A; exact (apartb_ok _ _ A k H)).
  unfold pass_by_pass_data_save in E. destruct (position_hist _ _); [|discriminate]. cbn [bind] in E. destruct (detail_line _ _ _); [|discriminate]. cbn [bind] in E.
  match type of E with context [append_rows (v_at s) ?rs] => destruct (append_rows (v_at s) rs) as [a|] eqn:A1; [|discriminate] end. cbn [bind] in E.
  match type of E with context [append_nums a ?rs] => destruct (append_nums a rs) as [a2|] eqn:A2; [|discriminate] end. cbn [bind] in E.
  destruct (append_nums (v_pbp s) _); [|discriminate]. cbn [bind] in E.
  injection E as <- _. cbn [v_at]. rewrite (nums_other _ _ _ k A2), (rows_other _ _ _ k A1); [reflexivity| |]; apply AP; unfold off_names;
    destruct (c_cos c), (k_seg (c_ic c)), (k_segline (c_ic c)), (c_hdet c); reflexivity.
Qed.

Lemma off_witness c ob g s s' g' f k : In k (off_names c) -> witness c ob g s = Some (s', g', f) -> get (v_at s') k = get (v_at s) k.
Proof.
  intros H E. unfold witness in E.
  destruct (energy_hist_save c ob g s) as [[s1 g1]|] eqn:E1; [|discriminate]. cbn [bind] in E.
  destruct (sc_energy_save ob s1) as [s2|] eqn:E2; [|discriminate]. cbn [bind] in E.
  destruct (stepbystep_data_save c ob g1 s2) as [s3|] eqn:E3; [|discriminate]. cbn [bind] in E.
  unfold energy_hist_save in E1. destruct (energy_save c ob g s) as [[sa ga]|] eqn:EA; [|discriminate]. cbn [bind] in E1.
  apply (off_energy _ _ _ _ _ _ k H) in EA. apply (off_life _ _ _ _ _ _ k H) in E1. apply (off_sc c _ _ _ k H) in E2. apply (off_sbs _ _ _ _ _ k H) in E3.
  destruct (ob_new ob); [|injection E as <- _ _; congruence].
  destruct (pass_by_pass_data_save c ob g1 s3) as [[s4 g4]|] eqn:E4; [|discriminate]. cbn [bind] in E. apply (off_pass _ _ _ _ _ _ k H) in E4.
  destruct (_ =? 0)%Z; [discriminate|]. destruct (_ =? 0)%Z; [|injection E as <- _ _; congruence].
  destruct (build_outp_dict c s4); [|discriminate]. cbn [bind] in E. injection E as <- _ _. congruence.
Qed.

Lemma off_run c k : In k (off_names c) -> forall l g s f s' g' f', record_run c l g s f = Some (s', g', f') -> get (v_at s') k = get (v_at s) k.
Proof.
  intros H. induction l as [|[ob d] l IH]; intros g s f s' g' f' E; cbn in E; [injection E as <- _ _; reflexivity|].
  destruct (witness c ob (feed g d) s) as [[[s1 g1] f1]|] eqn:W; [|discriminate]. cbn [bind] in E.
  rewrite (IH _ _ _ _ _ _ E). eapply off_witness; eassumption.
Qed.

Lemma off_start c n k : In k (off_names c) -> get (v_at (start_observing c n)) k = Some (VNum (-1)).
Proof.
  intros H. unfold start_observing. cbn [v_at].
  assert (HS := off_S c k H). rewrite get_app, get_None.
  2: { intros X. revert X. change (map fst (sbs_init c n)) with (["t"; "lam_t_array"; "Nel_timep"; "Nel_imp_time"; "Nel_emit_time"; "En_imp_eV_time"; "En_emit_eV_time"; "En_kin_eV_time"; "cen_density";
         "N_mp_time"; "nel_mp_ref_time"; "Nel_cross_ion"; "N_mp_cross_ion"; "DN_cross_ion"; "En_electric_eV_time"; "el_dens_at_probes"]).
       revert k H HS. intros k H _. revert k H. apply apartb_ok. unfold off_names. destruct (c_cos c), (k_seg (c_ic c)), (k_segline (c_ic c)), (c_hdet c); reflexivity. }
  unfold off_names in H. unfold pbp_init, hist_init.
  destruct (c_cos c), (k_seg (c_ic c)), (k_segline (c_ic c)), (c_hdet c); cbn [andb app In] in H;
    repeat match type of H with _ \/ _ => destruct H as [H|H] end; try contradiction; subst k; reflexivity.
Qed.

(** ** Names in the output *)
Lemma get_all_keys : forall ks d r, get_all d ks = Some r -> map fst r = ks.
Proof.
  induction ks as [|k ks IH]; intros d r E; cbn in E; [injection E as <-; reflexivity|]. destruct (get d k); [|discriminate]. cbn [bind] in E.
  destruct (get_all d ks) as [r'|] eqn:G; [|discriminate]. cbn [bind] in E. injection E as <-. cbn. f_equal. eapply IH, G.
Qed.
Lemma update_keys : forall e d k, In k (map fst (update d e)) -> In k (map fst d) \/ In k (map fst e).
Proof.
  assert (PK : forall d k v k', In k' (map fst (put d k v)) -> In k' (map fst d) \/ k' = k).
  { induction d as [|[a b] d IH]; intros k v k' H; cbn in H.
    - destruct H as [H|[]]; auto.
    - destruct (String.eqb k a) eqn:Q; cbn in H; cbn.
      + apply String.eqb_eq in Q. subst a. destruct H as [H|H]; auto.
      + destruct H as [H|H]; auto. destruct (IH _ _ _ H); auto. }
  induction e as [|[a b] e IH]; intros d k H; cbn in H; [auto|]. destruct (IH _ _ H) as [X|X]; [|cbn; auto].
  destruct (PK _ _ _ _ X) as [Y| ->]; cbn; auto.
Qed.

Lemma run_off c w n l : cfg_ok c -> widths_ok c w -> (0 < n)%nat -> Forall (step_ok c w) l ->
  exists s g file d, started c w n l = Some (s, g, file) /\ build_outp_dict c s = Some d /\
    (forall k, In k (off_names c) -> get d k = Some (VNum (-1))) /\ (forall k, In k (absent_names c) -> get d k = None).
Proof.
  intros CO WO Hn OK. destruct (started_inv c w n l CO WO Hn OK) as (s & g & f & E & R & _).
  destruct (r_sbs _ _ _ _ _ _ R) as (gs & rest & L & SS & SI & SA & ST).
  destruct (r_pass _ _ _ _ _ _ R) as (ps & prest & PS & (P1 & P2 & P3 & P4 & P5) & PP).
  destruct (build_spec c (b_gs fresh ++ gs) L s CO SI (r_names _ _ _ _ _ _ R) P4) as (d & B & D1 & D2 & D3 & D4).
  exists s, g, f, d. split; [exact E|]. split; [exact B|]. split.
  - intros k H. rewrite D3.
    + unfold started in E. rewrite (off_run c k H _ _ _ _ _ _ _ E). apply off_start, H.
    + revert k H. apply inclb_ok. unfold off_names, outp_names. destruct (c_cos c), (k_seg (c_ic c)), (k_segline (c_ic c)), (c_hdet c); reflexivity.
  - intros k H. apply get_None. intros X. destruct CO as (C1 & C2 & C3 & C4 & C5 & C6 & _ & _ & _ & _ & _ & _ & _ & _ & C7 & _).
    assert (OWN : In k (own_names c)).
    { clear X; revert k H. apply inclb_ok. unfold absent_names. destruct (c_det c), (c_cross c), (c_elec c), (c_probes c), (c_life c); reflexivity. }
    unfold build_outp_dict in B. rewrite C7 in B. destruct (get_all (v_at s) (outp_names c)) as [a|] eqn:GA; [|discriminate]. cbn [bind] in B.
    destruct (get_dict_spec c (b_gs fresh ++ gs) L s C1) as (b & E2 & _ & _ & K2).
    { intros k0 Hk. assert (Y := C3 k0 (or_introl Hk)). split; [intros Z; apply Y, sbs_names_own; right; exact Z|].
      intros ->. apply Y, sbs_names_own. left. reflexivity. }
    { exact SI. }
    rewrite E2 in B. cbn [bind] in B. injection B as <-.
    apply update_keys in X. destruct X as [X|X]; [apply update_keys in X; destruct X as [X|X]; [apply update_keys in X; destruct X as [X|X]; [apply update_keys in X; destruct X as [X|X]|]|]|].
    + rewrite (get_all_keys _ _ _ GA) in X. revert X. clear OWN; revert k H. apply apartb_ok. unfold absent_names, outp_names.
      destruct (c_det c), (c_cross c), (c_elec c), (c_probes c), (c_life c); reflexivity.
    + apply (C6 k); [rewrite map_app; apply in_app_iff; left; exact X|apply in_app_iff; left; exact OWN].
    + rewrite K2, !in_app_iff in X. destruct X as [X|[X|X]].
      * revert X. clear OWN; revert k H. apply apartb_ok. unfold absent_names, sbs_members. destruct (c_det c), (c_cross c), (c_elec c), (c_probes c), (c_life c); reflexivity.
      * revert X. clear OWN; revert k H. apply apartb_ok. unfold absent_names. destruct (c_det c), (c_cross c), (c_elec c), (c_probes c), (c_life c); reflexivity.
      * exact (C3 k (or_introl X) OWN).
    + rewrite P4 in X. exact (C3 k (or_intror X) OWN).
    + apply (C6 k); [rewrite map_app; apply in_app_iff; right; exact X|apply in_app_iff; left; exact OWN].
Qed.

(** ** C27 *)
Lemma load_unchanging c file t s s' k v : load_from_output c file t s = Some s' -> In k unchanging -> get file k = Some v -> get (v_at s') k = Some (squeeze v).
Proof.
  intros E H G. unfold load_from_output in E. destruct (c_custom c); [|discriminate].
  destruct (closest _ t) as [i|]; [|discriminate]. cbn [bind] in E. destruct (closest _ t) as [j|]; [|discriminate]. cbn [bind] in E.
  destruct (closest _ t) as [m|]; [|discriminate]. cbn [bind] in E. fold (consts c) in E.
  set (hist := loaded file) in *. set (d1 := restore hist (cut i) timestep_list []) in *.
  set (d2 := restore hist (cut (j + 1)) passage_list d1) in *. set (d3 := restore hist (fun v => v) (consts c) d2) in *. set (d4 := restore hist (cut (m + 1)) ["t_sc_video"] d3) in *.
  assert (ND : NoDup (map fst d4)) by (unfold d4, d3, d2, d1; repeat apply restore_nodup; constructor).
  assert (G4 : get d4 k = Some (squeeze v)).
  { unfold d4. rewrite restore_get. fold (in_list k ["t_sc_video"]).
    assert (N1 : in_list k ["t_sc_video"] = false).
    { destruct (in_list k ["t_sc_video"]) eqn:Q; [|reflexivity]. exfalso. apply existsb_exists in Q. destruct Q as (k' & Q & Q2). apply String.eqb_eq in Q2. subst k'.
      revert Q. clear G; revert k H. apply apartb_ok. reflexivity. }
    rewrite N1. unfold d3. rewrite restore_get. fold (in_list k (consts c)).
    assert (N2 : in_list k (consts c) = true).
    { apply existsb_exists. exists k. split; [|apply String.eqb_refl]. unfold consts. apply in_app_iff. left. clear G N1; revert k H. apply inclb_ok. reflexivity. }
    rewrite N2. unfold hist. rewrite loaded_get, G. reflexivity. }
  destruct (get d1 "Nel_timep") as [[| | |]|]; try (destruct (get hist "t_sc_video") as [[]|]; discriminate).
  destruct (get hist "t_sc_video") as [[]|]; try discriminate; injection E as <-; cbn [v_at]; rewrite update_get by exact ND; rewrite G4; reflexivity.
Qed.
