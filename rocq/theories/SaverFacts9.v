(** Checkpoints from which a run cannot be continued, and further consequences. *)
From Coq Require Import String Lia Lra Bool Sorted.
From Verif Require Import Num NumFacts MP SpecMP MPFacts Impact Saver SpecSaver SaverFacts SaverFacts2 SaverFacts3 SaverFacts4 SaverFacts5 SaverFacts6 SaverFacts7 SaverFacts8.
Local Open Scope string_scope.
Local Open Scope list_scope.
Local Open Scope R_scope.

Lemma append_row_other d kv d' k : append_row d kv = Some d' -> k <> fst kv -> get d' k = get d k.
Proof. unfold append_row. destruct (get d (fst kv)) as [[]|]; try discriminate. intros [= <-] N. apply get_put_other, N. Qed.
Lemma append_num_other d kv d' k : append_num d kv = Some d' -> k <> fst kv -> get d' k = get d k.
Proof. unfold append_num. destruct (get d (fst kv)) as [[]|]; try discriminate. intros [= <-] N. apply get_put_other, N. Qed.
Lemma append_rows_other : forall ls d d' k, append_rows d ls = Some d' -> ~ In k (map fst ls) -> get d' k = get d k.
Proof.
  induction ls as [|x ls IH]; intros d d' k H N; cbn in H; [injection H as <-; reflexivity|]. destruct (append_row d x) as [d1|] eqn:E; [|discriminate]. cbn [bind] in H.
  cbn in N. rewrite (IH _ _ _ H) by tauto. apply (append_row_other _ _ _ _ E). intros ->. tauto.
Qed.
Lemma append_nums_other : forall ls d d' k, append_nums d ls = Some d' -> ~ In k (map fst ls) -> get d' k = get d k.
Proof.
  induction ls as [|x ls IH]; intros d d' k H N; cbn in H; [injection H as <-; reflexivity|]. destruct (append_num d x) as [d1|] eqn:E; [|discriminate]. cbn [bind] in H.
  cbn in N. rewrite (IH _ _ _ H) by tauto. apply (append_num_other _ _ _ _ E). intros ->. tauto.
Qed.
Lemma setitems_other i : forall ws d d' k, setitems d i ws = Some d' -> ~ In k (map fst ws) -> get d' k = get d k.
Proof.
  induction ws as [|x ws IH]; intros d d' k H N; cbn in H; [injection H as <-; reflexivity|]. destruct (setitem d i x) as [d1|] eqn:E; [|discriminate]. cbn [bind] in H.
  cbn in N. rewrite (IH _ _ _ H) by tauto. unfold setitem in E. destruct (get d (fst x)) as [[]|]; try discriminate. destruct (py_set l i (snd x)); [|discriminate].
  cbn [bind] in E. injection E as <-. apply get_put_other. intros ->. tauto.
Qed.
Lemma double_all_other : forall ks d d' k, double_all d ks = Some d' -> ~ In k ks -> get d' k = get d k.
Proof.
  induction ks as [|x ks IH]; intros d d' k H N; cbn in H; [injection H as <-; reflexivity|]. destruct (double_at d x) as [d1|] eqn:E; [|discriminate]. cbn [bind] in H.
  cbn in N. rewrite (IH _ _ _ H) by tauto. unfold double_at in E. destruct (get d x) as [[]|]; try discriminate. injection E as <-. apply get_put_other. intros ->. tauto.
Qed.
Lemma double_all_empty : forall ks d d' k, double_all d ks = Some d' -> get d k = Some (VArr []) -> get d' k = Some (VArr []).
Proof.
  induction ks as [|x ks IH]; intros d d' k H N; cbn in H; [injection H as <-; exact N|]. destruct (double_at d x) as [d1|] eqn:E; [|discriminate]. cbn [bind] in H.
  apply (IH _ _ _ H). unfold double_at in E. destruct (get d x) as [[|l| |]|] eqn:G; try discriminate. injection E as <-.
  destruct (string_dec k x) as [->|X]; [rewrite N in G; injection G as <-; apply get_put_same|rewrite get_put_other by exact X; exact N].
Qed.

Definition names_E : list string := names_H ++ names_L ++ names_C.

(** The parts of a step before the step-by-step data leave everything else. *)
Lemma energy_hist_other c ob g s s' g' k : energy_hist_save c ob g s = Some (s', g') -> ~ In k names_E ->
  get (v_at s') k = get (v_at s) k /\ v_tlast s' = v_tlast s /\ v_i s' = v_i s.
Proof.
  unfold energy_hist_save. intros H N.
  assert (E1 : forall s1 g1, energy_save c ob g s = Some (s1, g1) -> get (v_at s1) k = get (v_at s) k /\ v_tlast s1 = v_tlast s /\ v_i s1 = v_i s).
  { intros s1 g1 E. unfold energy_save in E. destruct (Rgeb (ob_t ob) (v_tEn s + c_DtEn c) || isclose (ob_t ob) (v_tEn s + c_DtEn c)); [|injection E as <- <-; auto].
    destruct (ekin_hist c (ob_mp ob)); [|discriminate]. cbn [bind] in E.
    match type of E with bind (append_rows _ ?L) _ = _ => set (ls := L) in E; destruct (append_rows (v_at s) ls) as [a|] eqn:EA end; [|discriminate]. cbn [bind] in E.
    destruct (append_nums a _) as [a2|] eqn:EB in E; [|discriminate]. cbn [bind] in E. destruct (append_lines c g a2) as [a3|] eqn:EC; [|discriminate]. cbn [bind] in E. injection E as <- <-. cbn.
    split; [|auto]. assert (X : get a3 k = get a2 k).
    { unfold append_lines in EC. destruct (k_seg (c_ic c) && k_segline (c_ic c)); [|injection EC as <-; reflexivity]. destruct (get a2 "En_hist_seg") as [[]|]; try discriminate. injection EC as <-.
      apply get_put_other. intros ->. apply N. unfold names_E, names_H. cbn. tauto. }
    rewrite X, (append_nums_other _ _ _ _ EB), (append_rows_other _ _ _ _ EA); [reflexivity| |].
    - intros I. apply N. unfold names_E. apply in_app_iff. left. revert I. revert k N X. intros k _ _. revert k. apply inclb_ok. unfold ls. destruct (c_cos c); reflexivity.
    - intros I. apply N. unfold names_E, names_H. cbn in I |- *. tauto. }
  destruct (energy_save c ob g s) as [[s1 g1]|]; [|discriminate]. cbn [bind] in H. destruct (E1 s1 g1 eq_refl) as (A & B & C).
  unfold lifetime_save in H. destruct (c_life c) as [D|]; [|injection H as <- <-; auto].
  destruct (Rgeb (ob_t ob) (v_tlife s1 + D) || isclose (ob_t ob) (v_tlife s1 + D)); [|injection H as <- <-; auto].
  destruct (append_rows (v_at s1) _) as [a|] eqn:EA in H; [|discriminate]. cbn [bind] in H. destruct (append_nums a _) as [a2|] eqn:EB in H; [|discriminate]. cbn [bind] in H. injection H as <- <-.
  cbn. split; [|auto]. rewrite (append_nums_other _ _ _ _ EB), (append_rows_other _ _ _ _ EA), A; [reflexivity| |]; intros I; apply N; unfold names_E, names_H, names_L; cbn in I |- *; tauto.
Qed.

Lemma sc_other ob s s' k : sc_energy_save ob s = Some s' -> ~ In k names_E -> get (v_at s') k = get (v_at s) k /\ v_tlast s' = v_tlast s /\ v_i s' = v_i s.
Proof.
  unfold sc_energy_save. intros H N. destruct (ob_check ob); [|injection H as <-; auto]. destruct (append_nums (v_at s) _) as [a|] eqn:EA in H; [|discriminate]. cbn [bind] in H. injection H as <-.
  cbn. split; [|auto]. apply (append_nums_other _ _ _ _ EA). intros I. apply N. unfold names_E, names_H, names_L, names_C. cbn in I |- *. tauto.
Qed.

(** No room: arrays without entries cannot be doubled. *)
Lemma no_room c ob g s : get (v_at s) "t" = Some (VArr []) -> sample_due c (v_tlast s) (ob, g) = true -> stepbystep_data_save c ob g s = None.
Proof.
  intros G D. unfold stepbystep_data_save. unfold sample_due, s_time in D. cbn [fst] in D. change (Rgeb (ob_t ob - v_tlast s) (Dt_save c) = true) in D. rewrite D.
  destruct (check_for_data_resize c s) as [[a sb]|] eqn:E; [|reflexivity]. cbn [bind].
  assert (X : get a "t" = Some (VArr [])).
  { unfold check_for_data_resize in E. rewrite G in E. cbn [List.length] in E.
    destruct (Z.of_nat 0 - 1 <=? v_i s)%Z; [|injection E as <- _; exact G].
    destruct (double_all (v_sbs s) _) as [b|] eqn:E0; [|discriminate]. cbn [bind] in E. destruct (double_all (v_at s) _) as [a0|] eqn:E1; [|discriminate]. cbn [bind] in E.
    assert (X := double_all_empty _ _ _ _ E1 G). destruct (c_probes c); [injection E as <- _; exact X|]. destruct (get a0 "el_dens_at_probes") as [[]|]; try discriminate. injection E as <- _.
    rewrite get_put_other by discriminate. exact X. }
  unfold sbs_writes. cbn [app setitems]. unfold setitem at 1. cbn [fst snd]. rewrite X.
  assert (Y : forall i v, py_set [] i v = None).
  { intros i v. unfold py_set. cbn [List.length]. destruct (Z.leb_spec 0 i).
    - replace (((0 <=? i) && (i <? Z.of_nat 0))%Z) with false; [reflexivity|]. symmetry. apply andb_false_iff. right. apply Z.ltb_ge. cbn. lia.
    - replace (((0 <=? i + Z.of_nat 0) && (i + Z.of_nat 0 <? Z.of_nat 0))%Z) with false; [reflexivity|]. symmetry. apply andb_false_iff. left. apply Z.leb_gt. cbn. lia. }
  rewrite Y. reflexivity.
Qed.

Lemma sbs_other c ob g s s' k : stepbystep_data_save c ob g s = Some s' -> ~ In k names_S -> get (v_at s') k = get (v_at s) k.
Proof.
  unfold stepbystep_data_save. intros H N. destruct (Rgeb (ob_t ob - v_tlast s) (Dt_save c)); [|injection H as <-; reflexivity].
  destruct (check_for_data_resize c s) as [[a sb]|] eqn:E; [|discriminate]. cbn [bind] in H.
  match type of H with bind (setitems _ _ ?W) _ = _ => set (ws := W) in H; destruct (setitems a (v_i s + 1)%Z ws) as [a1|] eqn:E1 end; [|discriminate]. cbn [bind] in H.
  destruct (probe_writes c (v_i s + 1)%Z (ob_mp ob) a1) as [a2|] eqn:E2; [|discriminate]. cbn [bind] in H. destruct (setitems sb _ _) as [sb1|]; [|discriminate]. cbn [bind] in H. injection H as <-. cbn [v_at].
  assert (N1 : k <> "el_dens_at_probes") by (intros ->; apply N; left; reflexivity).
  assert (N2 : ~ In k (sbs_members c)) by (intros I; apply N; apply (in_S c); right; exact I).
  assert (X2 : get a2 k = get a1 k).
  { unfold probe_writes in E2. destruct (c_probes c); [injection E2 as <-; reflexivity|]. destruct (get a1 "el_dens_at_probes") as [[]|]; try discriminate. destruct (probe_rows _ _ _ _); [|discriminate].
    cbn [bind] in E2. injection E2 as <-. apply get_put_other, N1. }
  assert (X1 : get a1 k = get a k).
  { apply (setitems_other _ _ _ _ _ E1). intros I. apply N2. eapply writes_names. exact I. }
  assert (X0 : get a k = get (v_at s) k).
  { unfold check_for_data_resize in E. destruct (get (v_at s) "t") as [[|tt| |]|]; try discriminate. destruct (Z.of_nat (List.length tt) - 1 <=? v_i s)%Z; [|injection E as <- _; reflexivity].
    destruct (double_all (v_sbs s) _); [|discriminate]. cbn [bind] in E. destruct (double_all (v_at s) _) as [a0|] eqn:E3; [|discriminate]. cbn [bind] in E.
    assert (X := double_all_other _ _ _ _ E3 N2). destruct (c_probes c); [injection E as <- _; exact X|]. destruct (get a0 "el_dens_at_probes") as [[]|]; try discriminate. injection E as <- _.
    rewrite get_put_other by exact N1. exact X. }
  congruence.
Qed.

Lemma append_nums_stuck : forall ls d k x v, get d k = Some (VNum x) -> In (k, v) ls -> NoDup (map fst ls) -> append_nums d ls = None.
Proof.
  induction ls as [|[k' v'] ls IH]; intros d k x v G I ND; [contradiction|]. cbn [append_nums]. inversion_clear ND as [|? ? N1 N2].
  destruct I as [I|I].
  - injection I as -> ->. unfold append_num. cbn [fst]. rewrite G. reflexivity.
  - destruct (append_num d (k', v')) as [d1|] eqn:E; [|reflexivity]. cbn [bind]. eapply IH; [|exact I|exact N2].
    rewrite (append_num_other _ _ _ k E); [exact G|]. cbn. intros ->. apply N1. exact (in_map fst _ _ I).
Qed.

Lemma stuck_pass c ob g s x : get (v_at s) "N_mp_pass" = Some (VNum x) -> pass_by_pass_data_save c ob g s = None.
Proof.
  intros G. unfold pass_by_pass_data_save. destruct (position_hist c (ob_mp ob)); [|reflexivity]. cbn [bind]. destruct (detail_line c (ob_mp ob) (v_dline s)); [|reflexivity]. cbn [bind].
  match goal with |- context [append_rows _ ?L] => set (ls := L); destruct (append_rows (v_at s) ls) as [a|] eqn:EA end; [|reflexivity]. cbn [bind].
  assert (X : get a "N_mp_pass" = Some (VNum x)).
  { rewrite (append_rows_other _ _ _ _ EA); [exact G|]. intros I. revert I.
    assert (N : apartb ["N_mp_pass"] (map fst ls) = true) by (unfold ls; destruct (k_seg (c_ic c)), (c_hdet c); reflexivity). exact (apartb_ok _ _ N "N_mp_pass" (or_introl eq_refl)). }
  erewrite append_nums_stuck; [reflexivity|exact X| |apply nodupb_ok; reflexivity]. cbn. tauto.
Qed.

(** A run stops with an error at the first passage when [N_mp_pass] is a number. *)
Lemma stuck_run c : forall l g s file x, get (v_at s) "N_mp_pass" = Some (VNum x) -> Exists (fun q => ob_new (fst q) = true) l -> record_run c l g s file = None.
Proof.
  induction l as [|[ob d] l IH]; intros g s file x G E; [inversion E|]. cbn [record_run]. destruct (witness c ob (feed g d) s) as [[[s1 g1] f]|] eqn:W; [|reflexivity]. cbn [bind].
  unfold witness in W. destruct (energy_hist_save c ob (feed g d) s) as [[sa ga]|] eqn:E1; [|discriminate]. cbn [bind] in W.
  destruct (sc_energy_save ob sa) as [sb|] eqn:E2; [|discriminate]. cbn [bind] in W. destruct (stepbystep_data_save c ob ga sb) as [sc|] eqn:E3; [|discriminate]. cbn [bind] in W.
  assert (N1 : ~ In "N_mp_pass" names_E) by (apply (apartb_ok ["N_mp_pass"] names_E eq_refl "N_mp_pass" (or_introl eq_refl))).
  assert (N2 : ~ In "N_mp_pass" names_S) by (apply (apartb_ok ["N_mp_pass"] names_S eq_refl "N_mp_pass" (or_introl eq_refl))).
  assert (G3 : get (v_at sc) "N_mp_pass" = Some (VNum x)).
  { rewrite (sbs_other _ _ _ _ _ _ E3 N2), (proj1 (sc_other _ _ _ _ E2 N1)), (proj1 (energy_hist_other _ _ _ _ _ _ _ E1 N1)). exact G. }
  destruct (ob_new ob) eqn:NW.
  - rewrite (stuck_pass _ _ _ _ _ G3) in W. discriminate.
  - injection W as <- <- <-. eapply IH; [exact G3|]. inversion E; subst; [cbn in *; congruence|assumption].
Qed.

(** The same at the first sample when the arrays have no entries. *)
Lemma stuck_sample c : forall l g s file, get (v_at s) "t" = Some (VArr []) -> Exists (fun q => sample_due c (v_tlast s) q = true) l -> record_run c l g s file = None.
Proof.
  induction l as [|[ob d] l IH]; intros g s file G E; [inversion E|]. cbn [record_run]. destruct (witness c ob (feed g d) s) as [[[s1 g1] f]|] eqn:W; [|reflexivity]. cbn [bind].
  unfold witness in W. destruct (energy_hist_save c ob (feed g d) s) as [[sa ga]|] eqn:E1; [|discriminate]. cbn [bind] in W.
  destruct (sc_energy_save ob sa) as [sb|] eqn:E2; [|discriminate]. cbn [bind] in W. destruct (stepbystep_data_save c ob ga sb) as [sc|] eqn:E3; [|discriminate]. cbn [bind] in W.
  assert (N1 : ~ In "t" names_E) by (apply (apartb_ok ["t"] names_E eq_refl "t" (or_introl eq_refl))).
  destruct (energy_hist_other _ _ _ _ _ _ _ E1 N1) as (A1 & A2 & _). destruct (sc_other _ _ _ _ E2 N1) as (B1 & B2 & _).
  assert (G2 : get (v_at sb) "t" = Some (VArr [])) by congruence. assert (T2 : v_tlast sb = v_tlast s) by congruence.
  destruct (sample_due c (v_tlast s) (ob, d)) eqn:D.
  - rewrite no_room in E3; [discriminate|exact G2|]. unfold sample_due, s_time in *. cbn [fst] in *. rewrite T2. exact D.
  - assert (ES : sc = mkSst (v_i sb) (v_tlast sb) (v_nimp sb + l_nimp ga) (v_nemit sb + l_nemit ga) (v_eimp sb + l_eimp ga) (v_eemit sb + l_eemit ga) (v_at sb) (v_sbs sb) (v_pbp sb) (v_tEn sb) (v_tlife sb) (v_dline sb)).
    { unfold stepbystep_data_save in E3. unfold sample_due, s_time in D. cbn [fst] in D. change (Rgeb (ob_t ob - v_tlast s) (Dt_save c) = false) in D. rewrite T2, D in E3. injection E3 as <-. rewrite T2. reflexivity. }
    assert (X : get (v_at s1) "t" = Some (VArr []) /\ v_tlast s1 = v_tlast s).
    { assert (Y : get (v_at sc) "t" = Some (VArr []) /\ v_tlast sc = v_tlast s) by (rewrite ES; cbn; auto).
      destruct (ob_new ob); [|injection W as <- <- <-; exact Y]. destruct (pass_by_pass_data_save c ob ga sc) as [[s4 g4]|] eqn:E4; [|discriminate]. cbn [bind] in W.
      assert (Z : s4 = s1).
      { destruct (c_every c =? 0)%Z; [discriminate|]. destruct ((ob_pass ob + 1) mod c_every c =? 0)%Z; [|injection W as <- _ _; reflexivity]. destruct (build_outp_dict c s4); [|discriminate].
        injection W as <- _ _. reflexivity. }
      subst s4. unfold pass_by_pass_data_save in E4. destruct (position_hist c (ob_mp ob)); [|discriminate]. cbn [bind] in E4. destruct (detail_line _ _ _); [|discriminate]. cbn [bind] in E4.
      match type of E4 with bind (append_rows _ ?L) _ = _ => set (ls := L) in E4; destruct (append_rows (v_at sc) ls) as [a|] eqn:EA end; [|discriminate]. cbn [bind] in E4.
      destruct (append_nums a _) as [a2|] eqn:EB in E4; [|discriminate]. cbn [bind] in E4. destruct (append_nums (v_pbp sc) _); [|discriminate]. cbn [bind] in E4. injection E4 as <- <-. cbn [v_at v_tlast].
      split; [|exact (proj2 Y)]. rewrite (append_nums_other _ _ _ _ EB), (append_rows_other _ _ _ _ EA); [exact (proj1 Y)| |].
      - assert (N : apartb ["t"] (map fst ls) = true) by (unfold ls; destruct (k_seg (c_ic c)), (c_hdet c); reflexivity). exact (apartb_ok _ _ N "t" (or_introl eq_refl)).
      - cbn. intuition discriminate. }
    eapply IH; [apply X|]. rewrite (proj2 X). inversion E; subst; [congruence|assumption].
Qed.

(** The reload, from its success. *)
Lemma load_some c file t s s' : load_from_output c file t s = Some s' ->
  c_custom c = [] /\ exists i j m l0, closest (get (loaded file) "t") t = Some i /\ closest (get (loaded file) "t_hist") t = Some j /\
    closest (get (loaded file) "t_sc_video") t = Some m /\ (forall r, get (loaded file) "t_sc_video" <> Some (VNum r)) /\ get (loaded file) "Nel_timep" = Some (VArr l0).
Proof.
  unfold load_from_output. destruct (c_custom c); [|discriminate]. intros H. split; [reflexivity|].
  destruct (closest (get (loaded file) "t") t) as [i|]; [|discriminate]. cbn [bind] in H. destruct (closest (get (loaded file) "t_hist") t) as [j|]; [|discriminate]. cbn [bind] in H.
  destruct (closest (get (loaded file) "t_sc_video") t) as [m|]; [|discriminate]. cbn [bind] in H. exists i, j, m.
  rewrite restore_get in H. cbn [existsb timestep_list String.eqb Ascii.eqb Bool.eqb orb get] in H.
  destruct (get (loaded file) "Nel_timep") as [[|l0| |]|]; cbn [cut] in H; destruct (get (loaded file) "t_sc_video") as [[]|]; try discriminate; exists l0; repeat split; discriminate.
Qed.

Lemma resumed_some c n' file t tE sL : resumed c n' file t tE = Some sL ->
  exists s', load_from_output c file t (start_observing c n') = Some s' /\ v_at sL = v_at s' /\ v_tlast sL = v_tlast s'.
Proof. unfold resumed. destruct (load_from_output c file t (start_observing c n')) as [s'|]; [|discriminate]. intros [= <-]. exists s'. auto. Qed.

(** A checkpoint taken when the output holds one passage. *)
Lemma one_passage c w n n' lF sF gF fF d t tE sL g l2 :
  cfg_ok c -> widths_ok c w -> (0 < n)%nat -> Forall (step_ok c w) lF -> started c w n lF = Some (sF, gF, fF) -> build_outp_dict c sF = Some d ->
  List.length (filter (pass_ends 0) lF) = 1%nat -> resumed c n' d t tE = Some sL -> Exists (fun q => ob_new (fst q) = true) l2 ->
  record_run c l2 g sL None = None.
Proof.
  intros CO WO Hn OK R B L E X. destruct (run_passes c w n lF CO WO Hn OK) as (s0 & g0 & f0 & d0 & ps & rest & R0 & B0 & P1 & P2 & _ & Q & _).
  rewrite R in R0. injection R0 as <- <- <-. rewrite B in B0. injection B0 as <-.
  assert (LP : List.length ps = 1%nat).
  { rewrite <- L, P1. clear -P2. induction P2 as [last rest H|last g x gs rest F C S IH].
    - cbn. induction H as [|y r HY HR IHr]; [reflexivity|]. cbn [filter]. replace (pass_ends 0 y) with false by (symmetry; exact HY). exact IHr.
    - cbn [concat List.length]. rewrite IH, <- app_assoc, !filter_app, !app_length. cbn [filter]. replace (pass_ends 0 x) with true by (symmetry; exact C). cbn [List.length].
      replace (filter (pass_ends 0) g) with (@nil step); [cbn; lia|]. clear -F. induction g as [|y g IHg]; [reflexivity|]. inversion_clear F. cbn [filter].
      replace (pass_ends 0 y) with false by (symmetry; assumption). apply IHg. assumption. }
  destruct ps as [|p [|? ?]]; try discriminate. clear LP.
  assert (QP := Q "N_mp_pass" (now (fun ob => INR (N_mp (ob_mp ob)))) ltac:(unfold pass_nums; cbn; tauto)). cbn [map] in QP.
  destruct (resumed_some _ _ _ _ _ _ E) as (s' & E1 & V1 & _). destruct (load_some _ _ _ _ _ E1) as (NC & i & j & m & l0 & H1 & H2 & H3 & H4 & H5).
  destruct (load_get c d t (start_observing c n') i j m l0 NC H1 H2 H3 H4 H5) as (s'' & E2 & _ & _ & _ & _ & _ & _ & _ & _ & _ & _ & _ & _ & _ & VP & _).
  rewrite E1 in E2. injection E2 as <-. specialize (VP "N_mp_pass" _ QP ltac:(cbn; tauto)). cbn [squeeze cut] in VP. rewrite <- V1 in VP. eapply stuck_run; eauto.
Qed.

(** A checkpoint at the time of the first sample. *)
Lemma first_sample c w n n' lF sF gF fF d t tE sL g l2 q0 :
  cfg_ok c -> widths_ok c w -> (0 < n)%nat -> Forall (step_ok c w) lF -> started c w n lF = Some (sF, gF, fF) -> build_outp_dict c sF = Some d ->
  (exists a b, lF = a ++ q0 :: b /\ Forall (fun q => sample_due c (-1) q = false) a /\ sample_due c (-1) q0 = true /\ t = s_time q0) ->
  (exists col, get d "t" = Some (VArr col) /\ (2 <= List.length col)%nat) ->
  resumed c n' d t tE = Some sL -> Exists (fun q => sample_due c (-1) q = true) l2 ->
  record_run c l2 g sL None = None.
Proof.
  intros CO WO Hn OK R B (a & b & EL & FA & DQ & ->) (col & GT & LC) E X. destruct (run_samples c w n lF CO WO Hn OK) as (s0 & g0 & f0 & d0 & gs & rest & R0 & B0 & P1 & P2 & Q & _).
  rewrite R in R0. injection R0 as <- <- <-. rewrite B in B0. injection B0 as <-.
  assert (QT := Q "t" (now ob_t) (or_introl eq_refl)). rewrite GT in QT. injection QT as ->. rewrite map_length in LC.
  assert (EG : exists gs', gs = (a ++ [q0]) :: gs').
  { destruct (groups_app (sample_due c) (a ++ [q0]) (-1) b [a ++ [q0]] []) as (gs' & rest' & E3 & G3).
    - split; [cbn; rewrite !app_nil_r; reflexivity|]. constructor; [exact FA|exact DQ|constructor; constructor].
    - exists gs'. refine (proj1 (groups_unique _ _ _ _ _ _ P2 G3 _)). rewrite <- E3, <- P1, EL, <- app_assoc. reflexivity. }
  destruct EG as (gs' & ->). destruct (resumed_some _ _ _ _ _ _ E) as (s' & E1 & V1 & V2). destruct (load_some _ _ _ _ _ E1) as (NC & i & j & m & l0 & H1 & H2 & H3 & H4 & H5).
  destruct (load_get c d (s_time q0) (start_observing c n') i j m l0 NC H1 H2 H3 H4 H5) as (s'' & E2 & _ & VT & _ & _ & _ & _ & _ & _ & _ & _ & _ & _ & VL & _).
  rewrite E1 in E2. injection E2 as <-.
  assert (I0 : i = 0%nat).
  { rewrite loaded_get, GT, sq_arr in H1 by (rewrite map_length; lia). rewrite (closest_hit _ (s_time q0) 0) in H1; [congruence| |intros q x Hq; lia]. cbn. rewrite now_last. reflexivity. }
  subst i. specialize (VL "t" _ GT ltac:(cbn; tauto)). rewrite sq_arr in VL by (rewrite map_length; lia). cbn [cut firstn] in VL. rewrite <- V1 in VL.
  eapply stuck_sample; [exact VL|]. rewrite V2, VT. exact X.
Qed.

(** ** Sums of the histograms *)
Lemma pass_balance c w n l : cfg_ok c -> widths_ok c w -> (0 < n)%nat -> Forall (step_ok c w) l ->
  exists s g file d, started c w n l = Some (s, g, file) /\ build_outp_dict c s = Some d /\
    forall k f, In (k, f) [("nel_impact_hist_tot", g_tot); ("nel_impact_hist_scrub", g_scrub); ("energ_eV_impact_hist", g_en); ("En_hist", g_line)] ->
      exists rows, get d k = Some (VMat rows) /\
        row_sum (List.length (f w)) (rows ++ [f g]) = row_sum (List.length (f w)) (map (fun q => f (snd q)) l).
Proof.
  intros CO WO Hn OK. destruct (run_passes c w n l CO WO Hn OK) as (s & g & f & d & ps & rest & E & B & S1 & S2 & R & _ & T1 & T2 & T3).
  destruct (run_energy c w n l CO WO Hn OK) as (s' & g' & f' & d' & hs & hrest & E' & B' & S1' & S2' & R' & _ & T4 & _).
  rewrite E in E'. injection E' as <- <- <-. rewrite B in B'. injection B' as <-. exists s, g, f, d. split; [exact E|]. split; [exact B|].
  assert (SH : Forall (fun q : step => same_shape w (snd q)) l) by (eapply Forall_impl; [|exact OK]; intros q X; apply X).
  assert (FIN : forall fn gs r, l = concat gs ++ r -> (forall q : step, same_shape w (snd q) -> List.length (fn (snd q)) = List.length (fn w)) ->
    row_sum (List.length (fn w)) (map (row_total (List.length (fn w)) fn) gs ++ [row_total (List.length (fn w)) fn r]) = row_sum (List.length (fn w)) (map (fun q : step => fn (snd q)) l)).
  { intros fn gs r EL FL. rewrite EL in SH. rewrite EL. apply row_total_concat. eapply Forall_impl; [|exact SH]. exact FL. }
  intros k fn H. cbn [In] in H. destruct H as [H|[H|[H|[H|[]]]]]; injection H as <- <-.
  - eexists. split; [apply (R "nel_impact_hist_tot"); right; left; reflexivity|]. rewrite T1. apply FIN; [exact S1|intros q X; apply X].
  - eexists. split; [apply (R "nel_impact_hist_scrub"); right; right; left; reflexivity|]. rewrite T2. apply FIN; [exact S1|intros q X; apply X].
  - eexists. split; [apply (R "energ_eV_impact_hist"); right; right; right; left; reflexivity|]. rewrite T3. apply FIN; [exact S1|intros q X; apply X].
  - eexists. split; [apply (R' "En_hist"); left; reflexivity|]. rewrite T4. apply FIN; [exact S1'|intros q X; apply X].
Qed.
