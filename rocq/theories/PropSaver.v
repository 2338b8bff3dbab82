(** C25, C26, C27, C62, C63: the recorded output. *)
From Coq Require Import String Lia Lra Sorted.
From Verif Require Import Num NumFacts MP SpecMP Impact Saver SpecSaver SaverFacts6 SaverFacts7 SaverFacts8 SaverFacts9 SaverFacts10 SaverFacts11 ExMP ExImpact ExSaver ExSaver2.
Local Open Scope string_scope.
Local Open Scope list_scope.
Local Open Scope R_scope.

(** C25.  The run does not fail, and the step-by-step output holds one entry per
    group of steps between two saves: the value at the last step of the group
    for the time, the line density, the charge, the kinetic energy, the central
    density, the size of the cloud, the cross-ionisation data and the custom
    observables, and the sum over the group for the impacts and emissions; what
    follows the last save is in the pending accumulators. *)
Theorem C25_samples : forall c w n l, cfg_ok c -> widths_ok c w -> (0 < n)%nat -> Forall (step_ok c w) l ->
  exists s g file d gs rest, started c w n l = Some (s, g, file) /\ build_outp_dict c s = Some d /\
    l = concat gs ++ rest /\ groups (sample_due c) (-1) gs rest /\
    (forall k f, In (k, f) (columns c ++ custom_columns c) -> get d k = Some (VArr (map f gs))) /\
    v_nimp s = total l_nimp rest /\ v_nemit s = total l_nemit rest /\ v_eimp s = total l_eimp rest /\ v_eemit s = total l_eemit rest.
Proof. exact run_samples. Qed.
Print Assumptions C25_samples.

(** C25.  Sum of the saved values plus the pending one is the sum over all
    steps. *)
Theorem C25_balance : forall c w n l, cfg_ok c -> widths_ok c w -> (0 < n)%nat -> Forall (step_ok c w) l ->
  exists s g file d, started c w n l = Some (s, g, file) /\ build_outp_dict c s = Some d /\
    forall k f pending, In (k, f, pending) sums -> exists col, get d k = Some (VArr col) /\ rsum col + pending s = rsum (map (fun q => f (snd q)) l).
Proof. exact run_balance. Qed.
Print Assumptions C25_balance.

(** C25.  The content of the file is the output as it was at the last step that
    wrote it. *)
Theorem C25_file : forall c w n l, cfg_ok c -> widths_ok c w -> (0 < n)%nat -> Forall (step_ok c w) l ->
  exists s g file, started c w n l = Some (s, g, file) /\
    match file with
    | None => Forall (fun q => writes_out c q = false) l
    | Some d => exists l1 q l2 s1 g1, l = l1 ++ q :: l2 /\ writes_out c q = true /\ Forall (fun q => writes_out c q = false) l2 /\
        started c w n (l1 ++ [q]) = Some (s1, g1, Some d) /\ build_outp_dict c s1 = Some d
    end.
Proof. exact run_file. Qed.
Print Assumptions C25_file.

Example C25_case : cfg_ok (vC 2 [] None) /\ widths_ok (vC 2 [] None) exG /\ Forall (step_ok (vC 2 [] None) exG) vL /\
  vL = concat [[vQ 1 2 false]; [vQ 2 2 true; vQ 3 2 false]; [vQ 4 1 true; vQ 5 2 false]] ++ [] /\
  groups (sample_due (vC 2 [] None)) (-1) [[vQ 1 2 false]; [vQ 2 2 true; vQ 3 2 false]; [vQ 4 1 true; vQ 5 2 false]] [] /\
  writes_out (vC 2 [] None) (vQ 4 1 true) = true.
Proof.
  split; [apply vC_ok; [constructor|left; reflexivity]|]. split; [apply vW|]. split; [apply vL_ok|]. split; [reflexivity|]. split; [exact vL_samples2|reflexivity].
Qed.

(** C25.  On a regular time axis (up to an error of a twenty-thousandth of a
    step in each time) and with a whole number [n] as the decimation factor,
    the first step is saved and then exactly every [n]th one. *)
Theorem C25_every_nth : forall c n l gs rest t0, c_dec c = INR n -> (0 < n)%nat -> 0 < c_Dtref c ->
  regular (c_Dtref c) t0 l -> l <> [] -> INR n * c_Dtref c <= t0 + 1 ->
  l = concat gs ++ rest -> groups (sample_due c) (-1) gs rest ->
  exists q gs', gs = [q] :: gs' /\ Forall (fun g => List.length g = n) gs' /\ (List.length rest < n)%nat.
Proof. exact every_nth. Qed.
Print Assumptions C25_every_nth.

Example C25_every_nth_case : c_dec (vC 2 [] None) = INR 2 /\ c_Dtref (vC 2 [] None) = 1 /\
  regular 1 1 vL /\ INR 2 * 1 <= 1 + 1.
Proof.
  split; [cbn; lra|]. split; [reflexivity|]. split; [|cbn; lra].
  intros i q E. unfold vL in E. do 6 (destruct i as [|i]; [cbn in E; try discriminate; injection E as <-; cbn; unfold Rabs; destruct (Rcase_abs _); lra|]).
  destruct i; discriminate.
Qed.

(** C26.  Whatever the initial size of the buffers, a run never writes outside
    them, and what was saved after some steps is still there, at the same
    index, after any further steps. *)
Theorem C26_kept : forall c w n n' l l', cfg_ok c -> widths_ok c w -> (0 < n)%nat -> (0 < n')%nat -> Forall (step_ok c w) (l ++ l') ->
  exists s g file d s' g' file' d', started c w n l = Some (s, g, file) /\ build_outp_dict c s = Some d /\
    started c w n' (l ++ l') = Some (s', g', file') /\ build_outp_dict c s' = Some d' /\
    forall k, In k (map fst (columns c ++ custom_columns c)) ->
      exists col more, get d k = Some (VArr col) /\ get d' k = Some (VArr (col ++ more)) /\ (l' = [] -> more = []).
Proof. exact run_kept. Qed.
Print Assumptions C26_kept.

(** One entry at the start, three samples. *)
Example C26_case : cfg_ok (vC 2 [] None) /\ widths_ok (vC 2 [] None) exG /\ (0 < 1)%nat /\ Forall (step_ok (vC 2 [] None) exG) (vL1 ++ [vQ 4 1 true; vQ 5 2 false]).
Proof. split; [apply vC_ok; [constructor|left; reflexivity]|]. split; [apply vW|]. split; [lia|exact (vL_ok 2 [] None)]. Qed.

(** C25.  What was not asked for is written as -1, or is not in the output. *)
Theorem C25_not_asked : forall c w n l, cfg_ok c -> widths_ok c w -> (0 < n)%nat -> Forall (step_ok c w) l ->
  exists s g file d, started c w n l = Some (s, g, file) /\ build_outp_dict c s = Some d /\
    (forall k, In k (off_names c) -> get d k = Some (VNum (-1))) /\ (forall k, In k (absent_names c) -> get d k = None).
Proof. exact run_off. Qed.
Print Assumptions C25_not_asked.

Example C25_not_asked_case : In "nel_hist_det" (off_names (vC 2 [] None)) /\ In "el_dens_at_probes" (absent_names (vC 2 [] None)) /\
  cfg_ok (vC 2 [] None) /\ widths_ok (vC 2 [] None) exG /\ Forall (step_ok (vC 2 [] None) exG) vL.
Proof.
  split; [cbn; tauto|]. split; [cbn; tauto|]. split; [apply vC_ok; [constructor|left; reflexivity]|]. split; [apply vW|apply vL_ok].
Qed.

(** C27.  What does not depend on time is reloaded as it was written. *)
Theorem C27_unchanging : forall c file t s s' k v, load_from_output c file t s = Some s' -> In k unchanging -> get file k = Some v ->
  get (v_at s') k = Some (squeeze v).
Proof. exact load_unchanging. Qed.
Print Assumptions C27_unchanging.

Example C27_unchanging_case :
  let file := [("t", VArr [1; 2]); ("t_hist", VArr [2]); ("t_sc_video", VArr [1; 2]); ("Nel_timep", VArr [3; 4]); ("x_el_dens_probes", VArr [5; 6]); ("y_el_dens_probes", VArr [7; 8])] in
  exists s', load_from_output (vC 1 [] None) file 2 (start_observing (vC 1 [] None) 8) = Some s' /\ In "y_el_dens_probes" unchanging /\
    get file "y_el_dens_probes" = Some (VArr [7; 8]).
Proof.
  intros file.
  assert (A : argmin_from 2 [2] 1 0 (Rabs (1 - 2)) = 1%nat).
  { cbn [argmin_from]. rewrite (proj2 (Rltb_true (Rabs (2 - 2)) (Rabs (1 - 2)))); [reflexivity|]. rewrite Rminus_diag_eq, Rabs_R0 by reflexivity. rewrite Rabs_left; lra. }
  destruct (load_get (vC 1 [] None) file 2 (start_observing (vC 1 [] None) 8) 1 0 1 [3; 4]) as (s' & E & _).
  - reflexivity.
  - change (Some (argmin_from 2 [2] 1 0 (Rabs (1 - 2))) = Some 1%nat). rewrite A. reflexivity.
  - reflexivity.
  - change (Some (argmin_from 2 [2] 1 0 (Rabs (1 - 2))) = Some 1%nat). rewrite A. reflexivity.
  - intros r H. change (Some (VArr [1; 2]) = Some (VNum r)) in H. discriminate H.
  - reflexivity.
  - exists s'. split; [exact E|]. split; [|reflexivity]. right; right; right; right; right; right; right; right; left. reflexivity.
Qed.

(** C27.  A run [l1 ++ [q] ++ l1'] with a checkpoint after [q], continued from
    the checkpoint and its output with the steps [l2], compared with the run
    [l1 ++ [q] ++ l2] that was not interrupted.  The histograms of the passages
    are those of the uninterrupted run, and so are the counters of the
    passages.  The step-by-step columns are those up to the checkpoint without
    the last sample followed by the new ones, the times of the passages are
    only the new ones, the energy histograms are cut by the number of passages,
    and the space charge energies are not cut.  Missing: these four are not
    what the uninterrupted run has; custom observables, probes and lifetime
    histograms (below) are excluded, and outputs with one sample or one passage. *)
Theorem C27_resumed_partial : forall c w n n' l1 q l1' s1 g1 f1 sF gF fF d l2,
  resumable c w l1 q l1' -> (0 < n)%nat -> (0 < n')%nat -> Forall (step_ok c w) l2 ->
  started c w n (l1 ++ [q]) = Some (s1, g1, f1) -> started c w n ((l1 ++ [q]) ++ l1') = Some (sF, gF, fF) -> build_outp_dict c sF = Some d ->
  exists sL s2 g2 f2 d2 sU gU fU dU gs1 gs2 rest2 ps1 ps2 prest2 hs1 hs2 hrest2,
    resumed c n' d (s_time q) (v_tEn s1) = Some sL /\ record_run c l2 g1 sL None = Some (s2, g2, f2) /\ build_outp_dict c s2 = Some d2 /\
    started c w n ((l1 ++ [q]) ++ l2) = Some (sU, gU, fU) /\ build_outp_dict c sU = Some dU /\
    l1 ++ [q] = concat gs1 /\ groups (sample_due c) (-1) gs1 [] /\ l2 = concat gs2 ++ rest2 /\ groups (sample_due c) (-1) gs2 rest2 /\
    l1 ++ [q] = concat ps1 /\ groups pass_ends (-1) ps1 [] /\ l2 = concat ps2 ++ prest2 /\ groups pass_ends (-1) ps2 prest2 /\
    (l1 ++ [q]) ++ l2 = concat (hs1 ++ hs2) ++ hrest2 /\ groups (hist_due (c_DtEn c)) (-1) (hs1 ++ hs2) hrest2 /\
    (forall k f, In (k, f) (columns c) -> get d2 k = Some (VArr (map f (removelast gs1 ++ gs2)))) /\
    (forall k, In k (map fst (pass_rows c w)) -> get d2 k = get dU k /\ exists m, get d2 k = Some (VMat m)) /\
    (forall k, In k (map fst kept_nums) -> get d2 k = get dU k /\ exists m, get d2 k = Some (VArr m)) /\
    get d2 "t_hist" = Some (VArr (map (now ob_t) ps2)) /\ get dU "t_hist" = Some (VArr (map (now ob_t) (ps1 ++ ps2))) /\
    (exists hs', exists hrest', (l1 ++ [q]) ++ l1' = concat (hs1 ++ hs') ++ hrest' /\ groups (hist_due (c_DtEn c)) (-1) (hs1 ++ hs') hrest' /\
       forall k f, In (k, f) (hist_rows c w) -> get d2 k = Some (VMat (map f (firstn (List.length ps1) (hs1 ++ hs') ++ hs2))) /\
         get dU k = Some (VMat (map f (hs1 ++ hs2)))) /\
    get d2 "U_sc_eV" = Some (VArr (sc_energies ((l1 ++ [q]) ++ l1') ++ sc_energies l2)) /\
    get dU "U_sc_eV" = Some (VArr (sc_energies (l1 ++ [q]) ++ sc_energies l2)).
Proof. exact resumed_run. Qed.
Print Assumptions C27_resumed_partial.

(** C27.  When every step is sampled, each column of the continued run is that
    of the uninterrupted run without the sample of the checkpoint. *)
Theorem C27_sample_lost : forall c w n n' l1 q l1' s1 g1 f1 sF gF fF d l2,
  resumable c w l1 q l1' -> (0 < n)%nat -> (0 < n')%nat -> Forall (step_ok c w) l2 ->
  started c w n (l1 ++ [q]) = Some (s1, g1, f1) -> started c w n ((l1 ++ [q]) ++ l1') = Some (sF, gF, fF) -> build_outp_dict c sF = Some d ->
  every_step c ((l1 ++ [q]) ++ l2) -> every_step c l2 ->
  exists sL s2 g2 f2 d2 sU gU fU dU,
    resumed c n' d (s_time q) (v_tEn s1) = Some sL /\ record_run c l2 g1 sL None = Some (s2, g2, f2) /\ build_outp_dict c s2 = Some d2 /\
    started c w n ((l1 ++ [q]) ++ l2) = Some (sU, gU, fU) /\ build_outp_dict c sU = Some dU /\
    forall k f, In (k, f) (columns c) ->
      get dU k = Some (VArr (map (fun x => f [x]) l1 ++ f [q] :: map (fun x => f [x]) l2)) /\
      get d2 k = Some (VArr (map (fun x => f [x]) l1 ++ map (fun x => f [x]) l2)).
Proof. exact resumed_lost. Qed.
Print Assumptions C27_sample_lost.

Example C27_case : resumable (vC 1 [] None) exG vL1 (vQ 4 1 true) [vQ 5 2 false] /\ every_step (vC 1 [] None) ((vL1 ++ [vQ 4 1 true]) ++ vL2) /\
  every_step (vC 1 [] None) vL2 /\ Forall (step_ok (vC 1 [] None) exG) vL2.
Proof. split; [exact vResumable|]. split; [exact vEvery|]. split; [exact vEvery2|]. repeat constructor; try (apply sys3_wf; lia); try (cbn; lra). Qed.

(** C27, counterexample.  Six steps, a checkpoint after the fourth: the output
    of the continued run has no sample at the time of the checkpoint and one
    contribution less in the impacts, has lost the times of the first passages,
    and has the space charge energy of the fifth step twice. *)
Theorem C27_resume_refuted : exists c w n l1 q l1' l2 s1 g1 f1 sF gF fF d sL s2 g2 f2 d2 sU gU fU dU,
  resumable c w l1 q l1' /\
  started c w n (l1 ++ [q]) = Some (s1, g1, f1) /\ started c w n ((l1 ++ [q]) ++ l1') = Some (sF, gF, fF) /\ build_outp_dict c sF = Some d /\
  resumed c n d (s_time q) (v_tEn s1) = Some sL /\ record_run c l2 g1 sL None = Some (s2, g2, f2) /\ build_outp_dict c s2 = Some d2 /\
  started c w n ((l1 ++ [q]) ++ l2) = Some (sU, gU, fU) /\ build_outp_dict c sU = Some dU /\
  get dU "t" = Some (VArr [1; 2; 3; 4; 5; 6]) /\ get d2 "t" = Some (VArr [1; 2; 3; 5; 6]) /\
  get dU "Nel_imp_time" = Some (VArr [3; 3; 3; 3; 3; 3]) /\ get d2 "Nel_imp_time" = Some (VArr [3; 3; 3; 3; 3]) /\
  get dU "t_hist" = Some (VArr [2; 4; 6]) /\ get d2 "t_hist" = Some (VArr [6]) /\
  get dU "U_sc_eV" = Some (VArr [3; 3; 3; 3; 3; 3]) /\ get d2 "U_sc_eV" = Some (VArr [3; 3; 3; 3; 3; 3; 3]).
Proof.
  destruct vLost as (s1 & g1 & f1 & sF & gF & fF & d & sL & s2 & g2 & f2 & d2 & sU & gU & fU & dU & H).
  exists (vC 1 [] None), exG, 8%nat, vL1, (vQ 4 1 true), [vQ 5 2 false], vL2, s1, g1, f1, sF, gF, fF, d, sL, s2, g2, f2, d2, sU, gU, fU, dU. split; [exact vResumable|exact H].
Qed.
Print Assumptions C27_resume_refuted.

(** C27.  When the output reloaded holds a single passage the continued run
    stops with an error at its first passage. *)
Theorem C27_one_passage_stops : forall c w n n' lF sF gF fF d t tE sL g l2,
  cfg_ok c -> widths_ok c w -> (0 < n)%nat -> Forall (step_ok c w) lF -> started c w n lF = Some (sF, gF, fF) -> build_outp_dict c sF = Some d ->
  List.length (filter (pass_ends 0) lF) = 1%nat -> resumed c n' d t tE = Some sL -> Exists (fun q => ob_new (fst q) = true) l2 ->
  record_run c l2 g sL None = None.
Proof. exact one_passage. Qed.
Print Assumptions C27_one_passage_stops.

Example C27_one_passage_case : exists s1 g1 f1 sF gF fF d sL,
  started (vC 1 [] None) exG 8 vL3 = Some (s1, g1, f1) /\ started (vC 1 [] None) exG 8 (vL3 ++ [vQ 3 2 false]) = Some (sF, gF, fF) /\ build_outp_dict (vC 1 [] None) sF = Some d /\
  List.length (filter (pass_ends 0) (vL3 ++ [vQ 3 2 false])) = 1%nat /\ Forall (step_ok (vC 1 [] None) exG) (vL3 ++ [vQ 3 2 false]) /\
  resumed (vC 1 [] None) 8 d 2 (v_tEn s1) = Some sL /\ Exists (fun q => ob_new (fst q) = true) [vQ 3 2 false; vQ 4 2 true].
Proof. exact vOne. Qed.

(** C27.  Lifetime histograms are not taken over: whatever file is reloaded, the
    output of the continued run has only those of its own steps, and they are
    made as in a run that starts there (the time of the last one, which the
    checkpoint holds, is not used). *)
Theorem C27_lifetimes_lost : forall c D n file t tE sL l g s g' f d, c_life c = Some D -> c_only c = None ->
  (forall k, In k lnames -> ~ In k (map fst (c_const c) ++ c_pcustom c ++ map fst (c_once c))) ->
  resumed c n file t tE = Some sL -> record_run c l g sL None = Some (s, g', f) -> build_outp_dict c s = Some d ->
  exists ls rest, l = concat ls ++ rest /\ groups (hist_due D) (-1) ls rest /\
    get d "t_lifetime_hist" = Some (VArr (map (now ob_t) ls)) /\ exists m, get d "lifetime_hist" = Some (VMat m) /\ List.length m = List.length ls.
Proof. exact resumed_lifetimes. Qed.
Print Assumptions C27_lifetimes_lost.
(** An output with histograms at 1, 2 and 3, continued with two steps. *)
Theorem C27_lifetimes_refuted : exists c n file t tE sL l g s g' f d, c_life c = Some 1 /\ get file "t_lifetime_hist" = Some (VArr [1; 2; 3]) /\
  resumed c n file t tE = Some sL /\ record_run c l g sL None = Some (s, g', f) /\ build_outp_dict c s = Some d /\ get d "t_lifetime_hist" = Some (VArr [5; 6]).
Proof.
  destruct vLifeRun as (sL & s & g & f & d & R & W & B & T). exists vLife, 8%nat, vFile, 2, 2, sL, [vLq 5; vLq 6], exG, s, g, f, d.
  split; [reflexivity|]. split; [reflexivity|]. auto.
Qed.
Print Assumptions C27_lifetimes_refuted.

(** C62.  The output holds one row per passage: the histogram of the positions
    of the cloud at its last step, the sums over the passage of what its steps
    add to the impact histograms, and the counters and custom observables at
    its last step. *)
Theorem C62_passages : forall c w n l, cfg_ok c -> widths_ok c w -> (0 < n)%nat -> Forall (step_ok c w) l ->
  exists s g file d ps rest, started c w n l = Some (s, g, file) /\ build_outp_dict c s = Some d /\
    l = concat ps ++ rest /\ groups pass_ends (-1) ps rest /\
    (forall k f, In (k, f) (pass_rows c w) -> get d k = Some (VMat (map f ps))) /\
    (forall k f, In (k, f) (pass_nums ++ pass_customs c) -> get d k = Some (VArr (map f ps))) /\
    g_tot g = row_total (List.length (g_tot w)) g_tot rest /\ g_scrub g = row_total (List.length (g_scrub w)) g_scrub rest /\
    g_en g = row_total (List.length (g_en w)) g_en rest.
Proof. exact run_passes. Qed.
Print Assumptions C62_passages.

(** C62.  Energy and angle histograms, also by segment. *)
Theorem C62_energies : forall c w n l, cfg_ok c -> widths_ok c w -> (0 < n)%nat -> Forall (step_ok c w) l ->
  exists s g file d hs rest, started c w n l = Some (s, g, file) /\ build_outp_dict c s = Some d /\
    l = concat hs ++ rest /\ groups (hist_due (c_DtEn c)) (-1) hs rest /\
    (forall k f, In (k, f) (hist_rows c w) -> get d k = Some (VMat (map f hs))) /\ get d "t_En_hist" = Some (VArr (map (now ob_t) hs)) /\
    g_line g = row_total (List.length (g_line w)) g_line rest /\
    (k_seg (c_ic c) = true -> k_segline (c_ic c) = true -> exists q, get d "En_hist_seg" = Some (VCube q) /\ List.length q = c_nvert c /\
      forall i, (i < c_nvert c)%nat -> nth i q [] = map (seg_line w i) hs).
Proof. exact run_energy. Qed.
Print Assumptions C62_energies.

(** C62.  Lifetime histograms. *)
Theorem C62_lifetimes : forall c w n l D, cfg_ok c -> widths_ok c w -> (0 < n)%nat -> Forall (step_ok c w) l -> c_life c = Some D ->
  exists s g file d ls rest, started c w n l = Some (s, g, file) /\ build_outp_dict c s = Some d /\
    l = concat ls ++ rest /\ groups (hist_due D) (-1) ls rest /\
    get d "lifetime_hist" = Some (VMat (map (row_total (List.length (g_life w)) g_life) ls)) /\ get d "t_lifetime_hist" = Some (VArr (map (now ob_t) ls)) /\
    g_life g = row_total (List.length (g_life w)) g_life rest.
Proof. exact run_lifetime. Qed.
Print Assumptions C62_lifetimes.

(** C62.  The rows of a histogram plus what is pending add up, bin by bin, to
    the contributions of all steps. *)
Theorem C62_balance : forall c w n l, cfg_ok c -> widths_ok c w -> (0 < n)%nat -> Forall (step_ok c w) l ->
  exists s g file d, started c w n l = Some (s, g, file) /\ build_outp_dict c s = Some d /\
    forall k f, In (k, f) [("nel_impact_hist_tot", g_tot); ("nel_impact_hist_scrub", g_scrub); ("energ_eV_impact_hist", g_en); ("En_hist", g_line)] ->
      exists rows, get d k = Some (VMat rows) /\
        row_sum (List.length (f w)) (rows ++ [f g]) = row_sum (List.length (f w)) (map (fun q => f (snd q)) l).
Proof. exact pass_balance. Qed.
Print Assumptions C62_balance.

(** C62.  The detailed histogram, when no passage ends with an empty cloud. *)
Theorem C62_detail_partial : forall c w n l h, cfg_ok c -> widths_ok c w -> (0 < n)%nat -> Forall (step_ok c w) l -> c_hdet c = Some h ->
  Forall (fun q => ob_new (fst q) = true -> (0 < N_mp (ob_mp (fst q)))%nat) l ->
  exists s g file d ps rest, started c w n l = Some (s, g, file) /\ build_outp_dict c s = Some d /\
    l = concat ps ++ rest /\ groups pass_ends (-1) ps rest /\ get d "nel_hist_det" = Some (VMat (map (at_end (fun ob => d_histogram h (ob_mp ob)) []) ps)).
Proof. exact run_detail_live. Qed.
Print Assumptions C62_detail_partial.

(** C62, counterexample: the second passage ends with an empty cloud, and the
    detailed histogram repeats the line of the first. *)
Theorem C62_detail_refuted : exists c w n h l s g file d q1 q2, cfg_ok c /\ widths_ok c w /\ Forall (step_ok c w) l /\ c_hdet c = Some h /\
  started c w n l = Some (s, g, file) /\ build_outp_dict c s = Some d /\ l = [q1; q2] /\ groups pass_ends (-1) [[q1]; [q2]] [] /\
  live (ob_mp (fst q2)) = [] /\ d_histogram h (ob_mp (fst q2)) = [0; 0; 0] /\ get d "nel_hist_det" = Some (VMat [[0; 1; 1]; [0; 1; 1]]).
Proof.
  destruct vStale as (s & g & f & d & H1 & H2 & H3 & H4 & H5 & H6).
  exists (vC 1 [] (Some vH)), exG, 8%nat, vH, vE, s, g, f, d, (vQ 1 2 true), (vQ 2 0 true). split; [apply vC_ok; [constructor|right; reflexivity]|]. split; [apply vW|].
  split; [repeat constructor; try (apply sys3_wf; lia); try (cbn; lra)|]. repeat (split; [first [exact H1|exact H2|exact H3|exact H4|exact H5|reflexivity]|]). exact H6.
Qed.
Print Assumptions C62_detail_refuted.

Example C62_case : cfg_ok (vC 1 [] (Some vH)) /\ widths_ok (vC 1 [] (Some vH)) exG /\ Forall (step_ok (vC 1 [] (Some vH)) exG) vL /\
  Forall (fun q => ob_new (fst q) = true -> (0 < N_mp (ob_mp (fst q)))%nat) vL /\ vL = concat [[vQ 1 2 false; vQ 2 2 true]; [vQ 3 2 false; vQ 4 1 true]] ++ [vQ 5 2 false] /\
  groups pass_ends (-1) [[vQ 1 2 false; vQ 2 2 true]; [vQ 3 2 false; vQ 4 1 true]] [vQ 5 2 false] /\
  groups (hist_due (c_DtEn (vC 1 [] (Some vH)))) (-1) [[vQ 1 2 false]; [vQ 2 2 true; vQ 3 2 false]; [vQ 4 1 true; vQ 5 2 false]] [].
Proof.
  split; [apply vC_ok; [constructor|right; reflexivity]|]. split; [apply vW|]. split; [apply vL_ok|]. split; [repeat constructor; cbn; lia|]. split; [reflexivity|].
  split; [exact vL_passes|apply vL_hists].
Qed.

(** C63.  The densities at the probes are those of all samples but the last. *)
Theorem C63_probes_partial : forall c w n l, cfg_ok c -> widths_ok c w -> (0 < n)%nat -> Forall (step_ok c w) l -> c_probes c <> [] ->
  exists s g file d gs rest, started c w n l = Some (s, g, file) /\ build_outp_dict c s = Some d /\
    l = concat gs ++ rest /\ groups (sample_due c) (-1) gs rest /\
    (gs <> [] -> get d "el_dens_at_probes" =
      Some (VMat (map (fun p => map (now (fun ob => density (fst (fst p)) (snd (fst p)) (snd p) (ob_mp ob))) (removelast gs)) (c_probes c)))).
Proof. exact run_probes. Qed.
Print Assumptions C63_probes_partial.

(** C63, counterexample: fewer densities than sample times. *)
Theorem C63_probes_refuted : exists c w n l s g f d, cfg_ok c /\ widths_ok c w /\ Forall (step_ok c w) l /\
  started c w n l = Some (s, g, f) /\ build_outp_dict c s = Some d /\
  exists t m, get d "t" = Some (VArr t) /\ get d "el_dens_at_probes" = Some (VMat m) /\ List.length m = 2%nat /\ Forall (fun row => (List.length row < List.length t)%nat) m.
Proof.
  destruct vProbe as (s & g & f & d & H). exists (vC 1 [(1, 4, 1); (2, 5, 1)] None), exG, 8%nat, vL, s, g, f, d.
  split; [apply vC_ok; [repeat constructor; cbn; lra|left; reflexivity]|]. split; [apply vW|]. split; [apply vL_ok|exact H].
Qed.
Print Assumptions C63_probes_refuted.

Example C63_case : cfg_ok (vC 1 [(1, 4, 1); (2, 5, 1)] None) /\ widths_ok (vC 1 [(1, 4, 1); (2, 5, 1)] None) exG /\
  Forall (step_ok (vC 1 [(1, 4, 1); (2, 5, 1)] None) exG) vL /\ c_probes (vC 1 [(1, 4, 1); (2, 5, 1)] None) <> [].
Proof. split; [apply vC_ok; [repeat constructor; cbn; lra|left; reflexivity]|]. split; [apply vW|]. split; [apply vL_ok|discriminate]. Qed.
