(** Continuing a run from a checkpoint. *)
From Coq Require Import String Lia Lra Bool Sorted.
From Verif Require Import Num NumFacts MP SpecMP MPFacts Impact Saver SpecSaver SaverFacts SaverFacts2 SaverFacts3 SaverFacts4 SaverFacts5 SaverFacts6 SaverFacts7.
Local Open Scope string_scope.
Local Open Scope list_scope.
Local Open Scope R_scope.

Lemma firstn_app_length {A} (a b : list A) : firstn (List.length a) (a ++ b) = a.
Proof. rewrite firstn_app, Nat.sub_diag, firstn_all. apply app_nil_r. Qed.

Lemma groups_rest close last gs rest : groups close last gs rest -> Forall (fun q => close (end_time last gs) q = false) rest.
Proof. induction 1 as [last rest H|last g q gs rest F C S IH]; [exact H|]. rewrite end_time_cons. exact IH. Qed.

Lemma groups_tail close l1 q last gs : split_as close last (l1 ++ [q]) gs [] -> exists gs0 g, gs = gs0 ++ [g ++ [q]].
Proof.
  intros [E G]. rewrite app_nil_r in E. assert (NE := groups_ne _ _ _ _ G). destruct gs as [|g gs _] using rev_ind; [destruct l1; discriminate|].
  apply Forall_app in NE. destruct NE as [_ NE]. inversion_clear NE as [|? ? NG _]. rewrite concat_app in E. cbn in E. rewrite app_nil_r in E.
  destruct g as [|x g _] using rev_ind; [congruence|]. rewrite app_assoc in E. apply app_inj_tail in E. destruct E as [_ ->]. eauto.
Qed.

Lemma tail_closed close last l1 q gs rest : split_as close last (l1 ++ [q]) gs rest -> (forall t, close t q = true) -> rest = [].
Proof.
  intros [E G] C. destruct rest as [|x rest _] using rev_ind; [reflexivity|]. exfalso. rewrite app_assoc in E. apply app_inj_tail in E. destruct E as [_ <-].
  apply groups_rest in G. apply Forall_app in G. destruct G as [_ G]. inversion_clear G. rewrite C in H. discriminate.
Qed.

Lemma groups_cat close l1 l2 last gs1 rest1 gs2 rest2 :
  split_as close last l1 gs1 rest1 -> split_as close (end_time last gs1) (rest1 ++ l2) gs2 rest2 -> split_as close last (l1 ++ l2) (gs1 ++ gs2) rest2.
Proof.
  intros [E1 G1] [E2 G2]. split.
  - rewrite E1, concat_app, <- !app_assoc. f_equal. exact E2.
  - clear E1 E2. induction G1 as [last rest H|last g q gs rest F C S IH]; [exact G2|]. rewrite end_time_cons in G2. cbn [app]. constructor; auto.
Qed.

Lemma times_of close last l gs rest : split_as close last l gs rest -> increasing (map s_time l) -> increasing (map (now ob_t) gs).
Proof.
  intros [E G] I. rewrite E, map_app in I. apply ss_app in I. apply ends_sorted; [eapply groups_ne, G|apply I].
Qed.

Lemma tail_time (gs0 : list (list step)) g q more : nth_error (map (now ob_t) ((gs0 ++ [g ++ [q]]) ++ more)) (List.length gs0) = Some (s_time q).
Proof.
  rewrite <- app_assoc, map_app, nth_error_app2; rewrite map_length; [|lia]. rewrite Nat.sub_diag. cbn [app map nth_error]. rewrite now_last. reflexivity.
Qed.

Lemma det_line_len h line g : List.length line = hd_n h -> List.length (det_line h line g) = hd_n h.
Proof.
  intros H. unfold det_line, at_end. destruct (rev g) as [|q r]; [exact H|]. destruct (Nat.ltb 0 (N_mp (ob_mp (fst q)))); [apply histogram_length|exact H].
Qed.
Lemma det_lines_len h : forall gs line, List.length line = hd_n h -> Forall (fun r => List.length r = hd_n h) (det_lines h line gs).
Proof. induction gs as [|g gs IH]; intros line H; cbn; constructor; [apply det_line_len, H|apply IH, det_line_len, H]. Qed.
Lemma det_lines_length h : forall gs line, List.length (det_lines h line gs) = List.length gs.
Proof. induction gs as [|g gs IH]; intros line; cbn; auto. Qed.

Lemma closest_some x l t : exists i, closest (Some (VArr (x :: l))) t = Some i.
Proof. eexists. reflexivity. Qed.

Lemma cols_in c k f : In (k, f) (columns c) -> In k timestep_list.
Proof.
  intros H. apply (in_map fst) in H. cbn [fst] in H. revert k H. apply inclb_ok. unfold columns. destruct (c_det c), (c_cross c), (c_elec c); reflexivity.
Qed.
Lemma rows_in c w k f : In (k, f) (pass_rows c w ++ hist_rows c w) -> In k passage_list.
Proof.
  intros H. apply (in_map fst) in H. cbn [fst] in H. revert k H. apply inclb_ok. unfold pass_rows, hist_rows. destruct (k_seg (c_ic c)), (c_cos c); reflexivity.
Qed.

Lemma kept_in k f : In (k, f) kept_nums -> In k passage_list.
Proof. intros H. apply (in_map fst) in H. cbn [fst] in H. revert k H. apply inclb_ok. reflexivity. Qed.

Definition rows_of (s : sst) (k : string) : list (list R) := match get (v_at s) k with Some (VMat m) => m | _ => [] end.
Definition nums_of (s : sst) (k : string) : list R := match get (v_at s) k with Some (VArr l) => l | _ => [] end.

Lemma resumed_inv c w n n' l1 q l1' s1 g1 f1 sF gF fF d gs1 :
  cfg_ok c -> widths_ok c w -> big c w -> c_custom c = [] -> c_probes c = [] -> c_life c = None -> (0 < n)%nat -> (0 < n')%nat ->
  Forall (step_ok c w) ((l1 ++ [q]) ++ l1') -> ob_new (fst q) = true -> increasing (map s_time ((l1 ++ [q]) ++ l1')) ->
  started c w n (l1 ++ [q]) = Some (s1, g1, f1) -> started c w n ((l1 ++ [q]) ++ l1') = Some (sF, gF, fF) -> build_outp_dict c sF = Some d ->
  l1 ++ [q] = concat gs1 -> groups (sample_due c) (-1) gs1 [] -> (2 <= List.length gs1)%nat ->
  (2 <= List.length (filter (pass_ends 0) (l1 ++ [q])))%nat -> (2 <= List.length (sc_times ((l1 ++ [q]) ++ l1')))%nat ->
  (forall hs rest, (l1 ++ [q]) ++ l1' = concat hs ++ rest -> groups (hist_due (c_DtEn c)) (-1) hs rest -> (2 <= List.length hs)%nat) ->
  exists sL ps1 hs1 hrest1 hs' hrest',
    resumed c n' d (s_time q) (v_tEn s1) = Some sL /\
    split_as pass_ends (-1) (l1 ++ [q]) ps1 [] /\
    split_as (hist_due (c_DtEn c)) (-1) (l1 ++ [q]) hs1 hrest1 /\ v_tEn s1 = end_time (-1) hs1 /\
    split_as (hist_due (c_DtEn c)) (-1) ((l1 ++ [q]) ++ l1') (hs1 ++ hs') hrest' /\
    (forall k f, In (k, f) (pass_rows c w) -> rows_of sL k = map f ps1) /\
    (forall k f, In (k, f) kept_nums -> nums_of sL k = map f ps1) /\
    nums_of sL "t_hist" = [] /\
    (forall k f, In (k, f) (hist_rows c w) -> rows_of sL k = map f (firstn (List.length ps1) (hs1 ++ hs'))) /\
    nums_of sL "t_En_hist" = map (now ob_t) (firstn (List.length ps1) (hs1 ++ hs')) /\
    nums_of sL "U_sc_eV" = sc_energies ((l1 ++ [q]) ++ l1') /\
    rinv (mkBase (removelast gs1) (rows_of sL) (nums_of sL) (fun _ => []) hrest1 (v_tEn s1) [] (-1)) c w [] sL g1.
Proof.
  intros CO WO BG NC NP NL Hn Hn' OK NW INC R1 RF BF EG GG L2 LP LSC LH.
  set (lc := l1 ++ [q]) in *. assert (OK1 := proj1 (proj1 (Forall_app _ _ _) OK)).
  destruct (started_inv c w n lc CO WO Hn OK1) as (s1' & g1' & f1' & E1 & I1 & _). rewrite R1 in E1. injection E1 as <- <- <-.
  destruct (started_inv c w n (lc ++ l1') CO WO Hn OK) as (sF' & gF' & fF' & EF & IF & _). rewrite RF in EF. injection EF as <- <- <-.
  destruct (r_pass _ _ _ _ _ _ I1) as (ps1 & prest & PS & _ & PP).
  assert (PR : prest = []) by (eapply tail_closed; [exact PS|intros; exact NW]). subst prest.
  destruct (r_hist _ _ _ _ _ _ I1) as (hs1 & hrest1 & HS & _ & HP & HT). cbn [fresh b_hl b_th app] in HS, HT.
  destruct (groups_tail _ _ _ _ _ PS) as (ps0 & p & EP).
  assert (SS1 : split_as (sample_due c) (-1) lc gs1 []) by (split; [rewrite app_nil_r; exact EG|exact GG]).
  destruct (groups_tail _ _ _ _ _ SS1) as (gs0 & gl & EGS).
  destruct (groups_app _ lc (-1) l1' gs1 [] SS1) as (gs' & rest' & SSF).
  destruct (groups_app _ lc (-1) l1' ps1 [] PS) as (ps' & prest' & PSF).
  destruct (groups_app _ lc (-1) l1' hs1 hrest1 HS) as (hs' & hrest' & HSF).
  assert (LHF : (2 <= List.length (hs1 ++ hs'))%nat) by (destruct HSF as [X Y]; exact (LH _ _ X Y)).
  assert (LPS : (2 <= List.length ps1)%nat).
  { replace (List.length ps1) with (List.length (filter (pass_ends 0) lc)); [exact LP|]. destruct PS as [X Y]. rewrite X, app_nil_r. clear -Y.
    induction Y as [last rest H|last g x gs rest F C S IH]; [reflexivity|]. cbn [concat List.length]. rewrite filter_app, app_length, IH, filter_app, app_length.
    cbn [filter]. replace (pass_ends 0 x) with true by (symmetry; exact C).
    replace (filter (pass_ends 0) g) with (@nil step); [reflexivity|]. clear -F. induction g as [|y g IHg]; [reflexivity|]. inversion_clear F. cbn [filter].
    replace (pass_ends 0 y) with false by (symmetry; assumption). apply IHg. assumption. }
  destruct (inv_build fresh c w _ sF gF CO IF) as (gsF & restF & psF & prestF & hsF & hrestF & d0 & A1 & _ & A2 & _ & A3 & _ & B0 & C1 & _ & Q1 & Q2 & _ & Q4 & Q5 & _ & QD & _ & (Z1 & Z2)).
  rewrite BF in B0. injection B0 as <-. cbn [fresh b_hl b_th b_gs app] in *.
  assert (X : gsF = gs1 ++ gs') by (destruct A1 as [x1 x2], SSF as [y1 y2]; refine (proj1 (groups_unique _ _ _ _ _ _ x2 y2 _)); congruence). subst gsF.
  assert (X : psF = ps1 ++ ps') by (destruct A2 as [x1 x2], PSF as [y1 y2]; refine (proj1 (groups_unique _ _ _ _ _ _ x2 y2 _)); congruence). subst psF.
  assert (X : hsF = hs1 ++ hs') by (destruct A3 as [x1 x2], HSF as [y1 y2]; refine (proj1 (groups_unique _ _ _ _ _ _ x2 y2 _)); congruence). subst hsF.
  assert (L1 : (2 <= List.length (gs1 ++ gs'))%nat) by (rewrite app_length; lia).
  assert (LP1 : (2 <= List.length (ps1 ++ ps'))%nat) by (rewrite app_length; lia).
  (* the file as it is loaded *)
  assert (GC : forall k f, In (k, f) (columns c) -> get (loaded d) k = Some (VArr (map f (gs1 ++ gs')))).
  { intros k f H. rewrite loaded_get, (C1 k f) by (apply in_app_iff; left; exact H). rewrite sq_arr by (rewrite map_length; lia). reflexivity. }
  assert (Gt := GC "t" _ (or_introl eq_refl)). cbn [columns] in Gt.
  assert (GN := GC "Nel_timep" (now (fun ob => charge (ob_mp ob))) ltac:(unfold columns; cbn; tauto)).
  assert (Gh : get (loaded d) "t_hist" = Some (VArr (map (now ob_t) (ps1 ++ ps')))).
  { assert (QQ := Q2 "t_hist" _ (or_introl eq_refl)). cbn [fresh b_nums app] in QQ. rewrite loaded_get, QQ.
    rewrite sq_arr by (rewrite map_length; lia). reflexivity. }
  assert (Gs : get (loaded d) "t_sc_video" = Some (VArr (sc_times (lc ++ l1')))).
  { cbn [fresh b_nums app] in Z1. rewrite loaded_get, Z1. fold (sc_times (lc ++ l1')). rewrite sq_arr by lia. reflexivity. }
  assert (CT : closest (get (loaded d) "t") (s_time q) = Some (List.length gs0)).
  { rewrite Gt. apply closest_sorted; [eapply times_of; [exact SSF|exact INC]|]. rewrite EGS. apply tail_time. }
  assert (CH : closest (get (loaded d) "t_hist") (s_time q) = Some (List.length ps0)).
  { rewrite Gh. apply closest_sorted; [eapply times_of; [exact PSF|exact INC]|]. rewrite EP. apply tail_time. }
  assert (CS : exists m, closest (get (loaded d) "t_sc_video") (s_time q) = Some m).
  { rewrite Gs. destruct (sc_times (lc ++ l1')) as [|x y]; [cbn in LSC; lia|]. apply closest_some. }
  destruct CS as (m & CS).
  destruct (load_get c d (s_time q) (start_observing c n') _ _ m (map (now (fun ob => charge (ob_mp ob))) (gs1 ++ gs')) NC CT CH CS) as (sL0 & EL & V1 & V2 & V3 & V4 & V5 & V6 & V7 & V8 & V9 & V10 & V11 & VN & VT & VP & VS & VC & VO).
  { intros r. rewrite Gs. discriminate. }
  { exact GN. }
  unfold resumed. rewrite EL. cbn [bind].
  match goal with |- context [Some ?x] => set (sL := x) end.
  assert (AT : v_at sL = v_at sL0) by reflexivity.
  assert (LG0 : List.length gs1 = S (List.length gs0)) by (rewrite EGS, app_length; cbn; lia).
  assert (LP0 : List.length ps1 = S (List.length ps0)) by (rewrite EP, app_length; cbn; lia).
  assert (FG : firstn (List.length gs0) (gs1 ++ gs') = gs0) by (rewrite EGS, <- app_assoc; apply firstn_app_length).
  assert (FP : firstn (List.length ps0 + 1) (ps1 ++ ps') = ps1) by (replace (List.length ps0 + 1)%nat with (List.length ps1) by lia; apply firstn_app_length).
  assert (RL : removelast gs1 = gs0) by (rewrite EGS, removelast_app by discriminate; apply app_nil_r).
  assert (LPE : (List.length ps0 + 1)%nat = List.length ps1) by lia.
  assert (COL : forall k f, In (k, f) (columns c) -> get (v_at sL) k = Some (VArr (map f gs0))).
  { intros k f H. rewrite AT, (VT k (VArr (map f (gs1 ++ gs')))); [|apply C1, in_app_iff; left; exact H|eapply cols_in, H].
    rewrite sq_arr by (rewrite map_length; lia). cbn [cut]. rewrite firstn_map, FG. reflexivity. }
  assert (SHF : Forall (fun q : step => same_shape w (snd q)) (lc ++ l1')) by (eapply Forall_impl; [|exact OK]; intros x X; apply X).
  assert (ROWS : forall k f hh, In (k, f) (pass_rows c w ++ hist_rows c w) -> get d k = Some (VMat (map f hh)) -> (2 <= List.length hh)%nat ->
     Forall (fun g => g <> []) hh -> Forall (Forall (fun q : step => same_shape w (snd q))) hh -> get (v_at sL) k = Some (VMat (map f (firstn (List.length ps1) hh)))).
  { intros k f hh H GD LL NE SH. rewrite AT, (VP k _ GD) by (eapply rows_in, H). rewrite sq_mat.
    - cbn [cut]. rewrite firstn_map, LPE. reflexivity.
    - rewrite map_length. exact LL.
    - apply Forall_map, Forall_forall. intros g Hg. rewrite Forall_forall in NE, SH. eapply row_len; eauto. }
  assert (GSH : forall close last gs rest, split_as close last (lc ++ l1') gs rest -> Forall (Forall (fun q : step => same_shape w (snd q))) gs).
  { intros close last gs rest [X _]. rewrite X in SHF. apply Forall_app in SHF. destruct SHF as [Y _]. clear -Y. induction gs as [|g gs IH]; constructor; cbn in Y; apply Forall_app in Y; [apply Y|apply IH, Y]. }
  assert (PROW : forall k f, In (k, f) (pass_rows c w) -> get (v_at sL) k = Some (VMat (map f ps1))).
  { intros k f H. rewrite (ROWS k f (ps1 ++ ps')); [rewrite firstn_app_length; reflexivity|apply in_app_iff; left; exact H|exact (Q1 k f H)|exact LP1|eapply groups_ne, PSF|eapply GSH, PSF]. }
  assert (HROW : forall k f, In (k, f) (hist_rows c w) -> get (v_at sL) k = Some (VMat (map f (firstn (List.length ps1) (hs1 ++ hs'))))).
  { intros k f H. apply ROWS; [apply in_app_iff; right; exact H|exact (Q4 k f H)|exact LHF|eapply groups_ne, HSF|eapply GSH, HSF]. }
  assert (NUM : forall k f, In (k, f) kept_nums -> get (v_at sL) k = Some (VArr (map f ps1))).
  { intros k f H. rewrite AT, (VP k (VArr (map f (ps1 ++ ps')))); [|apply (Q2 k f); right; exact H|eapply kept_in, H].
    rewrite sq_arr by (rewrite map_length; lia). cbn [cut]. rewrite firstn_map, FP. reflexivity. }
  assert (TH : get (v_at sL) "t_hist" = Some (VArr [])) by (rewrite AT, VO by (unfold consts; destruct (c_life c); reflexivity); reflexivity).
  assert (TE : get (v_at sL) "t_En_hist" = Some (VArr (map (now ob_t) (firstn (List.length ps1) (hs1 ++ hs'))))).
  { rewrite AT, (VP "t_En_hist" (VArr (map (now ob_t) (hs1 ++ hs')))); [|exact (Q5 _ _ (or_introl eq_refl))|cbn; tauto].
    rewrite sq_arr by (rewrite map_length; lia). cbn [cut]. rewrite firstn_map, LPE. reflexivity. }
  assert (TS : get (v_at sL) "t_sc_video" = Some (VArr (firstn (m + 1) (sc_times (lc ++ l1'))))).
  { rewrite AT, (VS (VArr (sc_times (lc ++ l1')))) by exact Z1. rewrite sq_arr by lia. reflexivity. }
  assert (US : get (v_at sL) "U_sc_eV" = Some (VArr (sc_energies (lc ++ l1')))).
  { rewrite AT, (VC "U_sc_eV" (VArr (sc_energies (lc ++ l1')))); [|exact Z2|unfold consts; cbn; tauto].
    rewrite sq_arr; [reflexivity|]. unfold sc_energies. unfold sc_times in LSC. rewrite map_length in LSC |- *. unfold step in *. lia. }
  assert (ES : get (v_at sL) "En_hist_seg" = Some (if seg_on c then VCube (repeat [] (c_nvert c)) else VNum (-1))).
  { rewrite AT, VO by (unfold consts; destruct (c_life c); reflexivity). reflexivity. }
  assert (DET : forall h, c_hdet c = Some h -> exists mm, get (v_at sL) "nel_hist_det" = Some (VMat mm)).
  { intros h Hh. rewrite AT, (VP "nel_hist_det" _ (QD h Hh)) by (cbn; tauto). cbn [fresh b_rows app]. eexists. rewrite sq_mat; [reflexivity|rewrite det_lines_length; exact LP1|].
    eapply Forall_impl; [|apply det_lines_len, repeat_length]. intros r Hr. cbv beta in Hr. rewrite Hr. apply BG, Hh. }
  exists sL, ps1, hs1, hrest1, hs', hrest'. split; [reflexivity|]. split; [exact PS|]. split; [exact HS|]. split; [exact HT|]. split; [exact HSF|].
  split; [intros k f H; unfold rows_of; rewrite (PROW k f H); reflexivity|].
  split; [intros k f H; unfold nums_of; rewrite (NUM k f H); reflexivity|].
  split; [unfold nums_of; rewrite TH; reflexivity|].
  split; [intros k f H; unfold rows_of; rewrite (HROW k f H); reflexivity|].
  split; [unfold nums_of; rewrite TE; reflexivity|]. split; [unfold nums_of; rewrite US; reflexivity|].
  rewrite RL.
  assert (GR : forall close last, split_as close last [] [] []) by (intros; split; [reflexivity|constructor; constructor]).
  assert (RO : forall k x, get (v_at sL) k = Some (VMat x) -> get (v_at sL) k = Some (VMat (rows_of sL k ++ []))) by (intros k x H; unfold rows_of; rewrite H, app_nil_r; reflexivity).
  assert (NO : forall k x, get (v_at sL) k = Some (VArr x) -> get (v_at sL) k = Some (VArr (nums_of sL k ++ []))) by (intros k x H; unfold nums_of; rewrite H, app_nil_r; reflexivity).
  constructor; cbn [b_gs b_th b_hl b_tl b_ll].
  - exists [], [], (List.length gs0). split; [apply GR|]. rewrite app_nil_r. split; [|split].
    + constructor.
      * change (v_i sL) with (v_i sL0). rewrite V1, firstn_map, FG, map_length. reflexivity.
      * lia.
      * intros k f H. eexists. split; [apply COL, H|]. exists []. rewrite app_nil_r. split; [reflexivity|cbn; lia].
      * change (v_sbs sL) with (v_sbs sL0). rewrite V7. cbn. rewrite map_map. apply map_id.
      * intros k f H. unfold custom_columns in H. rewrite NC in H. contradiction.
      * intros H. congruence.
    + unfold acc_is. change (v_nimp sL) with (v_nimp sL0). change (v_nemit sL) with (v_nemit sL0). change (v_eimp sL) with (v_eimp sL0). change (v_eemit sL) with (v_eemit sL0).
      rewrite V3, V4, V5, V6. repeat split.
    + change (v_tlast sL) with (v_tlast sL0). rewrite V2. reflexivity.
  - exists [], []. split; [apply GR|]. split; [|exact PP]. split; [|split; [|split; [|split]]].
    + intros k f H. cbn [map b_rows]. eapply RO, PROW, H.
    + intros k f H. cbn [map b_nums]. destruct H as [H|H]; [injection H as <- <-; eapply NO, TH|eapply NO, NUM, H].
    + intros k f H. change (v_pbp sL) with (v_pbp sL0). rewrite V8. cbn. apply (get_map_in (fun _ => VArr [])). unfold pass_customs in H. apply in_map_iff in H. destruct H as (k' & H & H'). injection H as <- _. exact H'.
    + change (v_pbp sL) with (v_pbp sL0). rewrite V8. cbn. rewrite map_map. apply map_id.
    + intros h Hh. destruct (DET h Hh) as (mm & Gm). cbn [det_lines b_rows]. split; [eapply RO, Gm|]. change (v_dline sL) with (v_dline sL0). rewrite V11. cbn. rewrite Hh. split; [reflexivity|apply repeat_length].
  - exists [], hrest1. rewrite app_nil_r. split; [split; [reflexivity|constructor; rewrite HT; apply groups_rest, HS]|]. split; [|split; [exact HP|reflexivity]].
    split; [|split].
    + intros k f H. cbn [map b_rows]. eapply RO, HROW, H.
    + intros k f H. destruct H as [H|[]]. injection H as <- <-. cbn [map b_nums]. eapply NO, TE.
    + intros S. rewrite S in ES. exists (repeat [] (c_nvert c)). split; [exact ES|]. split; [apply repeat_length|]. intros i Hi. cbn. apply nth_repeat.
  - intros D HD. congruence.
  - split; cbn [filter map b_nums]; [eapply NO, TS|eapply NO, US].
  - intros k Hk. rewrite AT. apply VN. unfold own_names in Hk. cbn [start_observing v_at].
    replace (map fst (sbs_init c n' ++ pbp_init c ++ hist_init c)) with (map fst (sbs_init c 0 ++ pbp_init c ++ hist_init c)); [exact Hk|]. rewrite !map_app. f_equal.
  - constructor.
  - rewrite app_nil_r. destruct HS as [X _]. apply Forall_app in SHF. destruct SHF as [Y _]. rewrite X in Y. apply Forall_app in Y. apply Y.
Qed.

Lemma end_pass_free gs t t' rest : groups pass_ends t gs rest -> groups pass_ends t' gs rest.
Proof. intros G. revert t'. induction G as [last rest H|last g q gs rest F C S IH]; intros t'; constructor; auto. Qed.

Lemma resumed_run c w n n' l1 q l1' s1 g1 f1 sF gF fF d l2 :
  resumable c w l1 q l1' -> (0 < n)%nat -> (0 < n')%nat -> Forall (step_ok c w) l2 ->
  started c w n (l1 ++ [q]) = Some (s1, g1, f1) -> started c w n ((l1 ++ [q]) ++ l1') = Some (sF, gF, fF) -> build_outp_dict c sF = Some d ->
  exists sL s2 g2 f2 d2 sU gU fU dU gs1 gs2 rest2 ps1 ps2 prest2 hs1 hs2 hrest2,
    resumed c n' d (s_time q) (v_tEn s1) = Some sL /\ record_run c l2 g1 sL None = Some (s2, g2, f2) /\ build_outp_dict c s2 = Some d2 /\
    started c w n ((l1 ++ [q]) ++ l2) = Some (sU, gU, fU) /\ build_outp_dict c sU = Some dU /\
    l1 ++ [q] = concat gs1 /\ groups (sample_due c) (-1) gs1 [] /\ l2 = concat gs2 ++ rest2 /\ groups (sample_due c) (-1) gs2 rest2 /\
    l1 ++ [q] = concat ps1 /\ groups pass_ends (-1) ps1 [] /\ l2 = concat ps2 ++ prest2 /\ groups pass_ends (-1) ps2 prest2 /\
    (l1 ++ [q]) ++ l2 = concat (hs1 ++ hs2) ++ hrest2 /\ groups (hist_due (c_DtEn c)) (-1) (hs1 ++ hs2) hrest2 /\
    (forall k f, In (k, f) (columns c) -> get d2 k = Some (VArr (map f (removelast gs1 ++ gs2)))) /\
    (forall k, In k (map fst (pass_rows c w)) -> get d2 k = get dU k /\ exists m, get d2 k = Some (VMat m)) /\
    (forall k, In k (map fst kept_nums) -> get d2 k = get dU k /\ exists m, get d2 k = Some (VArr m)) /\
    get d2 "t_hist" = Some (VArr (map (now ob_t) ps2)) /\ get dU "t_hist" = Some (VArr (map (now ob_t) (ps1 ++ ps2))) /\
    (exists hs', exists hrest', (l1 ++ [q]) ++ l1' = concat (hs1 ++ hs') ++ hrest' /\ groups (hist_due (c_DtEn c)) (-1) (hs1 ++ hs') hrest' /\
       forall k f, In (k, f) (hist_rows c w) -> get d2 k = Some (VMat (map f (firstn (List.length ps1) (hs1 ++ hs') ++ hs2))) /\
         get dU k = Some (VMat (map f (hs1 ++ hs2)))) /\
    get d2 "U_sc_eV" = Some (VArr (sc_energies ((l1 ++ [q]) ++ l1') ++ sc_energies l2)) /\
    get dU "U_sc_eV" = Some (VArr (sc_energies (l1 ++ [q]) ++ sc_energies l2)).
Proof.
  intros [CO WO BG NC NP NL OK NW INC (gs1 & EG & GG & LG) LP LSC (hsx & hrx & HX1 & HX2 & HX3)] Hn Hn' OK2 R1 RF BF.
  destruct (resumed_inv c w n n' l1 q l1' s1 g1 f1 sF gF fF d gs1) as (sL & ps1 & hs1 & hrest1 & hs' & hrest' & EL & PS & HS & HT & HSF & K1 & K2 & K3 & K4 & K5 & K6 & RI); auto.
  { intros hs rest X Y. destruct (groups_unique _ _ _ _ _ _ Y HX2) as [-> _]; [congruence|exact HX3]. }
  set (B := mkBase _ _ _ _ _ _ _ _) in RI. set (lc := l1 ++ [q]) in *.
  destruct (run_inv B c w (ok_any _ CO) (widths_w _ _ WO) l2 [] sL g1 None RI OK2) as (s2 & g2 & f2 & E2 & I2 & _). cbn [app] in I2.
  destruct (inv_build B c w l2 s2 g2 CO I2) as (gs2 & rest2 & ps2 & prest2 & hs2 & hrest2 & d2 & S2 & _ & P2 & _ & H2 & _ & B2 & C2 & _ & Q1 & Q2 & _ & Q4 & Q5 & _ & _ & _ & (_ & Z2)).
  assert (OKU : Forall (step_ok c w) (lc ++ l2)) by (apply Forall_app; split; [exact (proj1 (proj1 (Forall_app _ _ _) OK))|exact OK2]).
  destruct (started_inv c w n (lc ++ l2) CO WO Hn OKU) as (sU & gU & fU & EU & IU & _).
  destruct (inv_build fresh c w _ sU gU CO IU) as (gsU & restU & psU & prestU & hsU & hrestU & dU & _ & _ & PU & _ & HU & _ & BU & _ & _ & U1 & U2 & _ & U4 & U5 & _ & _ & _ & (_ & UZ)).
  assert (PC : split_as pass_ends (-1) (lc ++ l2) (ps1 ++ ps2) prest2).
  { eapply groups_cat; [exact PS|]. cbn [app]. destruct P2 as [X Y]. split; [exact X|]. eapply end_pass_free, Y. }
  assert (X : psU = ps1 ++ ps2) by (destruct PU as [x1 x2], PC as [y1 y2]; refine (proj1 (groups_unique _ _ _ _ _ _ x2 y2 _)); congruence). subst psU.
  cbn [B b_hl b_th] in H2. rewrite HT in H2.
  assert (HC := groups_cat _ _ _ _ _ _ _ _ HS H2).
  assert (X : hsU = hs1 ++ hs2) by (destruct HU as [x1 x2], HC as [y1 y2]; refine (proj1 (groups_unique _ _ _ _ _ _ x2 y2 _)); cbn in x1; congruence). subst hsU.
  exists sL, s2, g2, f2, d2, sU, gU, fU, dU, gs1, gs2, rest2, ps1, ps2, prest2, hs1, hs2, hrest2.
  do 7 (split; [assumption|]). split; [apply S2|]. split; [apply S2|]. split; [rewrite (proj1 PS), app_nil_r; reflexivity|]. split; [apply PS|]. split; [apply P2|]. split; [apply P2|].
  split; [apply HC|]. split; [apply HC|].
  split; [intros k f H; rewrite (C2 k f) by (apply in_app_iff; left; exact H); reflexivity|].
  split.
  { intros k Hk. apply in_map_iff in Hk. destruct Hk as ([k' f] & <- & H). cbn [fst]. rewrite (Q1 k' f H), (U1 k' f H). cbn [B b_rows fresh app]. rewrite (K1 k' f H), map_app. split; [reflexivity|eauto]. }
  split.
  { intros k Hk. apply in_map_iff in Hk. destruct Hk as ([k' f] & <- & H). cbn [fst]. assert (H' : In (k', f) pass_nums) by (right; exact H).
    rewrite (Q2 k' f H'), (U2 k' f H'). cbn [B b_nums fresh app]. rewrite (K2 k' f H), map_app. split; [reflexivity|eauto]. }
  split; [assert (X := Q2 "t_hist" _ (or_introl eq_refl)); cbn [B b_nums] in X; rewrite K3 in X; exact X|].
  split; [exact (U2 "t_hist" _ (or_introl eq_refl))|].
  split.
  { exists hs', hrest'. split; [apply HSF|]. split; [apply HSF|]. intros k f H. rewrite (Q4 k f H), (U4 k f H). cbn [B b_rows fresh app]. rewrite (K4 k f H), <- map_app. split; reflexivity. }
  split; [cbn [B b_nums] in Z2; rewrite K6 in Z2; exact Z2|].
  cbn [fresh b_nums app] in UZ. rewrite UZ. unfold sc_energies. rewrite filter_app, map_app. reflexivity.
Qed.

(** When every step is sampled, the resumed record is the uninterrupted one
    without the sample at the checkpoint. *)
Lemma groups_all close : forall l last, (forall a x b, l = a ++ x :: b -> close (match rev a with y :: _ => s_time y | [] => last end) x = true) ->
  split_as close last l (map (fun x => [x]) l) [].
Proof.
  induction l as [|x l IH]; intros last H; [split; [reflexivity|constructor; constructor]|].
  assert (C : close last x = true) by exact (H [] x l eq_refl).
  destruct (IH (s_time x)) as [E G].
  { intros a y b ->. specialize (H (x :: a) y b eq_refl). cbn [rev] in H. destruct (rev a); cbn [app] in H; exact H. }
  split; [cbn; f_equal; exact E|]. cbn [map]. apply (groups_cons close last [] x); auto.
Qed.

Lemma dense_groups c l gs rest : every_step c l -> l = concat gs ++ rest -> groups (sample_due c) (-1) gs rest -> gs = map (fun x => [x]) l /\ rest = [].
Proof.
  intros D E G. destruct (groups_all (sample_due c) l (-1)) as [E' G']; [exact D|]. apply (groups_unique _ _ _ _ _ _ G G'). congruence.
Qed.

Lemma resumed_lost c w n n' l1 q l1' s1 g1 f1 sF gF fF d l2 :
  resumable c w l1 q l1' -> (0 < n)%nat -> (0 < n')%nat -> Forall (step_ok c w) l2 ->
  started c w n (l1 ++ [q]) = Some (s1, g1, f1) -> started c w n ((l1 ++ [q]) ++ l1') = Some (sF, gF, fF) -> build_outp_dict c sF = Some d ->
  every_step c ((l1 ++ [q]) ++ l2) -> every_step c l2 ->
  exists sL s2 g2 f2 d2 sU gU fU dU,
    resumed c n' d (s_time q) (v_tEn s1) = Some sL /\ record_run c l2 g1 sL None = Some (s2, g2, f2) /\ build_outp_dict c s2 = Some d2 /\
    started c w n ((l1 ++ [q]) ++ l2) = Some (sU, gU, fU) /\ build_outp_dict c sU = Some dU /\
    forall k f, In (k, f) (columns c) ->
      get dU k = Some (VArr (map (fun x => f [x]) l1 ++ f [q] :: map (fun x => f [x]) l2)) /\
      get d2 k = Some (VArr (map (fun x => f [x]) l1 ++ map (fun x => f [x]) l2)).
Proof.
  intros RS Hn Hn' OK2 R1 RF BF D1 D2.
  destruct (resumed_run c w n n' l1 q l1' s1 g1 f1 sF gF fF d l2 RS Hn Hn' OK2 R1 RF BF)
    as (sL & s2 & g2 & f2 & d2 & sU & gU & fU & dU & gs1 & gs2 & rest2 & ps1 & ps2 & prest2 & hs1 & hs2 & hrest2 & A1 & A2 & A3 & A4 & A5 & S1 & S2 & S3 & S4 & _ & _ & _ & _ & _ & _ & C & _).
  exists sL, s2, g2, f2, d2, sU, gU, fU, dU. do 5 (split; [assumption|]). intros k f H.
  assert (OKU : Forall (step_ok c w) ((l1 ++ [q]) ++ l2)) by (apply Forall_app; split; [exact (proj1 (proj1 (Forall_app _ _ _) (re_ok _ _ _ _ _ RS)))|exact OK2]).
  destruct (run_samples c w n _ (re_cfg _ _ _ _ _ RS) (re_w _ _ _ _ _ RS) Hn OKU) as (sU' & gU' & fU' & dU' & gsU & restU & E & B & U1 & U2 & UC & _).
  rewrite A4 in E. injection E as <- <- <-. rewrite A5 in B. injection B as <-.
  destruct (dense_groups c _ _ _ D1 U1 U2) as [-> ->]. destruct (dense_groups c _ _ _ D2 S3 S4) as [-> ->].
  assert (X : every_step c (l1 ++ [q])).
  { intros a x b E. apply (D1 a x (b ++ l2)). rewrite E, <- app_assoc. reflexivity. }
  assert (S1' : l1 ++ [q] = concat gs1 ++ []) by (rewrite app_nil_r; exact S1).
  destruct (dense_groups c _ _ _ X S1' S2) as [-> _]. split.
  - rewrite (UC k f) by (apply in_app_iff; left; exact H). rewrite map_map, !map_app, <- app_assoc. reflexivity.
  - rewrite (C k f H), map_app, !map_map. f_equal. f_equal. f_equal. rewrite map_app, removelast_app by discriminate. cbn [map removelast]. rewrite app_nil_r, map_map. reflexivity.
Qed.

(** * A regular axis *)
Lemma Rabs_le_both a b : Rabs a <= b -> - b <= a <= b.
Proof. unfold Rabs. destruct (Rcase_abs a); lra. Qed.

Lemma regular_groups c n gs rest last : groups (sample_due c) last gs rest -> forall T,
  c_dec c = INR n -> (0 < n)%nat -> 0 < c_Dtref c -> Rabs (last - T) <= c_Dtref c / 20000 ->
  regular (c_Dtref c) (T + c_Dtref c) (concat gs ++ rest) ->
  Forall (fun g => List.length g = n) gs /\ (List.length rest < n)%nat.
Proof.
  set (D := c_Dtref c).
  assert (LATE : forall last T q i, c_dec c = INR n -> 0 < D -> Rabs (last - T) <= D / 20000 -> Rabs (s_time q - (T + D + INR i * D)) <= D / 20000 ->
     (n <= i + 1)%nat -> sample_due c last q = true).
  { intros la T q i HC HD HL HQ HN. unfold sample_due. fold D. apply Rleb_true. rewrite HC. apply le_INR in HN. rewrite plus_INR in HN. cbn in HN.
    apply Rabs_le_both in HL. apply Rabs_le_both in HQ. nra. }
  assert (EARLY : forall last T q i, c_dec c = INR n -> 0 < D -> Rabs (last - T) <= D / 20000 -> Rabs (s_time q - (T + D + INR i * D)) <= D / 20000 ->
     sample_due c last q = true -> (n <= i + 1)%nat).
  { intros la T q i HC HD HL HQ S. unfold sample_due in S. fold D in S. apply Rleb_true in S. rewrite HC in S.
    apply Rabs_le_both in HL. apply Rabs_le_both in HQ. destruct (Nat.le_gt_cases n (i + 1)) as [|G]; [auto|exfalso].
    assert (INR (i + 1) + 1 <= INR n) by (rewrite <- S_INR; apply le_INR; lia). rewrite plus_INR in H. cbn in H. nra. }
  induction 1 as [last rest F|last g q gs rest F C G IH]; intros T HC HN HD HL HR.
  - split; [constructor|]. destruct (Nat.lt_ge_cases (List.length rest) n) as [|L]; [auto|exfalso].
    destruct (nth_error rest (n - 1)) as [q|] eqn:E; [|apply nth_error_None in E; lia].
    assert (Q := HR _ _ E). assert (X := nth_error_In _ _ E). rewrite Forall_forall in F. specialize (F q X).
    rewrite (LATE last T q (n - 1)%nat) in F; auto; [discriminate|lia].
  - cbn [concat] in HR. rewrite <- app_assoc in HR.
    assert (EQ : nth_error ((g ++ [q]) ++ concat gs ++ rest) (List.length g) = Some q).
    { rewrite <- app_assoc, nth_error_app2, Nat.sub_diag by lia. reflexivity. }
    assert (Q := HR _ _ EQ). assert (N1 := EARLY last T q _ HC HD HL Q C).
    assert (N2 : (List.length g < n)%nat).
    { destruct (Nat.lt_ge_cases (List.length g) n) as [|L]; [auto|exfalso].
      destruct (nth_error g (n - 1)) as [p|] eqn:E; [|apply nth_error_None in E; lia].
      assert (EP : nth_error ((g ++ [q]) ++ concat gs ++ rest) (n - 1) = Some p).
      { rewrite <- app_assoc, nth_error_app1 by lia. exact E. }
      assert (P := HR _ _ EP). assert (X := nth_error_In _ _ E). rewrite Forall_forall in F. specialize (F p X).
      rewrite (LATE last T p (n - 1)%nat) in F; auto; [discriminate|lia]. }
    destruct (IH (T + INR n * D)) as (I1 & I2); auto.
    + replace (s_time q - (T + INR n * D)) with (s_time q - (T + D + INR (List.length g) * D)); [exact Q|].
      replace n with (List.length g + 1)%nat by lia. rewrite plus_INR. cbn. ring.
    + intros i p E. assert (E2 : nth_error ((g ++ [q]) ++ concat gs ++ rest) (n + i) = Some p).
      { rewrite nth_error_app2 by (rewrite app_length; cbn; lia). rewrite app_length. cbn.
        replace (n + i - (List.length g + 1))%nat with i by lia. exact E. }
      apply HR in E2. rewrite plus_INR in E2. fold D in E2. fold D.
      replace (T + INR n * D + D + INR i * D) with (T + D + (INR n + INR i) * D) by ring. exact E2.
    + split; [|exact I2]. constructor; [rewrite app_length; cbn; lia|exact I1].
Qed.

Lemma every_nth c n l gs rest t0 : c_dec c = INR n -> (0 < n)%nat -> 0 < c_Dtref c -> regular (c_Dtref c) t0 l -> l <> [] ->
  INR n * c_Dtref c <= t0 + 1 -> l = concat gs ++ rest -> groups (sample_due c) (-1) gs rest ->
  exists q gs', gs = [q] :: gs' /\ Forall (fun g => List.length g = n) gs' /\ (List.length rest < n)%nat.
Proof.
  intros HC HN HD HR HE HT EL G. set (D := c_Dtref c) in *.
  assert (DUE : forall q l', l = q :: l' -> sample_due c (-1) q = true /\ Rabs (s_time q - t0) <= D / 20000).
  { intros q l' ->. assert (Q := HR 0%nat q eq_refl). cbn [INR] in Q. rewrite Rmult_0_l, Rplus_0_r in Q. split; [|exact Q].
    unfold sample_due. fold D. rewrite HC. apply Rleb_true. apply Rabs_le_both in Q. nra. }
  inversion G as [last r F|last g q gs' r F C G']; subst.
  - cbn [concat app] in *. destruct rest as [|q rest]; [contradiction|]. destruct (DUE q rest eq_refl) as (X & _).
    inversion F as [|? ? F1 F2]; subst. congruence.
  - destruct g as [|p g].
    + cbn [app concat] in *. destruct (DUE q (concat gs' ++ rest) eq_refl) as (_ & X). exists q, gs'. split; [reflexivity|].
      eapply (regular_groups c n gs' rest _ G' t0); auto. intros i p E. specialize (HR (Datatypes.S i) p E). rewrite S_INR in HR. fold D in HR. fold D.
      replace (t0 + D + INR i * D) with (t0 + (INR i + 1) * D) by ring. exact HR.
    + cbn [app concat] in *. destruct (DUE p ((g ++ [q]) ++ concat gs' ++ rest)) as (X & _). { rewrite <- app_assoc. reflexivity. }
      inversion F as [|? ? F1 F2]; subst. congruence.
Qed.
