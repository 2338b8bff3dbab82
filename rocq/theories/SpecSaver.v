(** What the recorded output should be, in terms of the steps of the
    simulation. *)
From Coq Require Import String Sorted.
From Verif Require Import Num SpecFort MP SpecMP Impact Saver.
Local Open Scope string_scope.
Local Open Scope list_scope.
Local Open Scope R_scope.

(** A step as seen by the recorder: the observation, and what the step adds to
    the histograms of the wall impacts (with the quantities of this step in
    [l_nimp] to [l_eemit]). *)
Definition step := (obs * iman)%type.
Definition s_time (q : step) : R := ob_t (fst q).

Definition ladd (a b : list R) : list R := map2 Rplus a b.
Definition feed (g d : iman) : iman :=
  mkIman (ladd (g_tot g) (g_tot d)) (ladd (g_scrub g) (g_scrub d)) (ladd (g_en g) (g_en d)) (ladd (g_line g) (g_line d))
    (ladd (g_cos g) (g_cos d)) (ladd (g_life g) (g_life d)) (ladd (g_seg g) (g_seg d)) (ladd (g_segemit g) (g_segemit d))
    (ladd (g_segen g) (g_segen d)) (map2 ladd (g_seglines g) (g_seglines d)) (l_nimp d) (l_nemit d) (l_eimp d) (l_eemit d).

(** A run of the recorder: state, histograms still pending, and the last output
    file written. *)
Fixpoint record_run (c : scfg) (l : list step) (g : iman) (s : sst) (file : option dict) : option (sst * iman * option dict) :=
  match l with
  | [] => Some (s, g, file)
  | (ob, d) :: l' =>
      do (s1, g1, f) <- witness c ob (feed g d) s ;
      record_run c l' g1 s1 (match f with Some x => Some x | None => file end)
  end.

(** The steps fall into consecutive groups; a group ends with the first step
    that closes it, given the time at which the previous one was closed. *)
Inductive groups (close : R -> step -> bool) : R -> list (list step) -> list step -> Prop :=
| groups_nil last rest : Forall (fun q => close last q = false) rest -> groups close last [] rest
| groups_cons last g q gs rest :
    Forall (fun q => close last q = false) g -> close last q = true -> groups close (s_time q) gs rest ->
    groups close last ((g ++ [q]) :: gs) rest.

(** The step-by-step data are saved when [dec_fact_out] steps (less a hundredth
    of a per cent) have gone by since the last save. *)
Definition sample_due (c : scfg) (last : R) (q : step) : bool :=
  Rleb ((c_dec c - 1 / 10000) * c_Dtref c) (s_time q - last).
(** The times of the steps are those of a regular axis, up to a small error. *)
Definition regular (D t0 : R) (l : list step) : Prop :=
  forall i q, nth_error l i = Some q -> Rabs (s_time q - (t0 + INR i * D)) <= D / 20000.
Definition pass_ends (_ : R) (q : step) : bool := ob_new (fst q).
Definition hist_due (D last : R) (q : step) : bool :=
  Rgeb (s_time q) (last + D) || Rleb (Rabs (s_time q - (last + D))) (1 / 10 ^ 10 * Rabs (last + D)).

(** Sum over a group, and value at its last step. *)
Definition total (f : iman -> R) (g : list step) : R := rsum (map (fun q => f (snd q)) g).
Definition at_end {A} (f : obs -> A) (z : A) (g : list step) : A := match rev g with q :: _ => f (fst q) | [] => z end.
Definition now (f : obs -> R) : list step -> R := at_end f 0.

(** Charge, kinetic energy, and density in a circle. *)
Definition kinetic (c : scfg) (s : mpsys) : R :=
  rsum (map (fun p => m_nel p * (k_mass (c_ic c) * (m_vx p * m_vx p + m_vy p * m_vy p + m_vz p * m_vz p) / (2 * k_qe (c_ic c)))) (live s)).
Definition in_circle (x y r : R) (p : mp) : bool := Rltb ((m_x p - x) * (m_x p - x) + (m_y p - y) * (m_y p - y)) (r * r).
Definition density (x y r : R) (s : mpsys) : R := rsum (map m_nel (filter (in_circle x y r) (live s))) / (PI * r * r).

(** The columns of the step-by-step output. *)
Definition columns (c : scfg) : list (string * (list step -> R)) :=
  [("t", now ob_t); ("lam_t_array", now ob_lam);
   ("Nel_timep", now (fun ob => charge (ob_mp ob)));
   ("Nel_imp_time", total l_nimp); ("Nel_emit_time", total l_nemit); ("En_imp_eV_time", total l_eimp); ("En_emit_eV_time", total l_eemit);
   ("En_kin_eV_time", now (fun ob => kinetic c (ob_mp ob)));
   ("cen_density", now (fun ob => density 0 0 (c_rc c) (ob_mp ob)))] ++
  (if c_det c then [("N_mp_time", now (fun ob => INR (N_mp (ob_mp ob)))); ("nel_mp_ref_time", now (fun ob => nel_mp_ref (ob_mp ob)))] else []) ++
  (if c_cross c then [("Nel_cross_ion", now (fun ob => fst (fst (ob_cross ob)))); ("N_mp_cross_ion", now (fun ob => snd (fst (ob_cross ob))));
                      ("DN_cross_ion", now (fun ob => snd (ob_cross ob)))] else []) ++
  (if c_elec c then [("En_electric_eV_time", now ob_elec)] else []).
Definition custom_columns (c : scfg) : list (string * (list step -> R)) := map (fun k => (k, now (fun ob => ob_custom ob k))) (c_custom c).

(** Rows: sum of the contributions of a group to a histogram of [n] bins. *)
Definition row_sum (n : nat) (rows : list (list R)) : list R := fold_left ladd rows (repeat 0 n).
Definition row_total (n : nat) (f : iman -> list R) (g : list step) : list R := row_sum n (map (fun q => f (snd q)) g).

(** A histogram of [n] bins of weighted points. *)
Definition histogram (b D : R) (n : nat) (pts : list (R * R)) : list R := map (fun k => rsum (map (bin_share b D n k) pts)) (seq 0 n).
Definition x_histogram (c : scfg) (s : mpsys) : list R := histogram (k_bias (c_ic c)) (k_Dx (c_ic c)) (c_nx c) (map (fun p => (m_x p, m_nel p)) (live s)).
Definition e_histogram (c : scfg) (s : mpsys) : list R :=
  histogram 0 (k_DEn (c_ic c)) (c_nbin c)
    (map (fun p => ((1/2) * k_mass (c_ic c) / k_qe (c_ic c) * (m_vx p * m_vx p + m_vy p * m_vy p + m_vz p * m_vz p), m_nel p)) (live s)).
Definition in_window (h : hdet) (p : mp) : bool :=
  Rltb (hd_x0 h) (m_x p) && Rltb (m_x p) (hd_x1 h) && Rltb (hd_y0 h) (m_y p) && Rltb (m_y p) (hd_y1 h).
Definition d_histogram (h : hdet) (s : mpsys) : list R :=
  histogram (hd_bias h) (hd_Dx h) (hd_n h) (map (fun p => (m_x p, m_nel p)) (filter (in_window h) (live s))).

(** The data of each passage: histograms and numbers; of each energy
    histogram; of each lifetime histogram.  [w] gives the widths. *)
Definition pass_rows (c : scfg) (w : iman) : list (string * (list step -> list R)) :=
  [("nel_hist", at_end (fun ob => x_histogram c (ob_mp ob)) []);
   ("nel_impact_hist_tot", row_total (List.length (g_tot w)) g_tot); ("nel_impact_hist_scrub", row_total (List.length (g_scrub w)) g_scrub);
   ("energ_eV_impact_hist", row_total (List.length (g_en w)) g_en)] ++
  (if k_seg (c_ic c) then [("nel_hist_impact_seg", row_total (List.length (g_seg w)) g_seg); ("nel_hist_emit_seg", row_total (List.length (g_segemit w)) g_segemit);
                           ("energ_eV_impact_seg", row_total (List.length (g_segen w)) g_segen)] else []).
Definition pass_nums : list (string * (list step -> R)) :=
  [("t_hist", now ob_t); ("N_mp_impact_pass", now ob_Nimp); ("N_mp_corrected_pass", now ob_Ncorr);
   ("N_mp_pass", now (fun ob => INR (N_mp (ob_mp ob)))); ("N_mp_ref_pass", now (fun ob => nel_mp_ref (ob_mp ob)))].
Definition hist_rows (c : scfg) (w : iman) : list (string * (list step -> list R)) :=
  [("En_hist", row_total (List.length (g_line w)) g_line)] ++
  (if c_cos c then [("cos_angle_hist", row_total (List.length (g_cos w)) g_cos)] else []) ++
  [("all_Ekin_hist", at_end (fun ob => e_histogram c (ob_mp ob)) [])].

(** The lines of the detailed histogram: a passage that ends with an empty cloud
    repeats the line before it. *)
Definition det_line (h : hdet) (line : list R) (g : list step) : list R :=
  at_end (fun ob => if Nat.ltb 0 (N_mp (ob_mp ob)) then d_histogram h (ob_mp ob) else line) line g.
Fixpoint det_lines (h : hdet) (line : list R) (gs : list (list step)) : list (list R) :=
  match gs with [] => [] | g :: gs' => det_line h line g :: det_lines h (det_line h line g) gs' end.

(** Energy histogram of the impacts on segment [i]. *)
Definition seg_line (w : iman) (i : nat) : list step -> list R := row_total (List.length (nth i (g_seglines w) [])) (fun d => nth i (g_seglines d) []).

(** The accumulators before the first step. *)
Definition blank (w : iman) : iman :=
  mkIman (zeros (g_tot w)) (zeros (g_scrub w)) (zeros (g_en w)) (zeros (g_line w)) (zeros (g_cos w)) (zeros (g_life w))
    (zeros (g_seg w)) (zeros (g_segemit w)) (zeros (g_segen w)) (map zeros (g_seglines w)) 0 0 0 0.
Definition same_shape (w d : iman) : Prop :=
  List.length (g_tot d) = List.length (g_tot w) /\ List.length (g_scrub d) = List.length (g_scrub w) /\ List.length (g_en d) = List.length (g_en w) /\
  List.length (g_line d) = List.length (g_line w) /\ List.length (g_cos d) = List.length (g_cos w) /\ List.length (g_life d) = List.length (g_life w) /\
  List.length (g_seg d) = List.length (g_seg w) /\ List.length (g_segemit d) = List.length (g_segemit w) /\ List.length (g_segen d) = List.length (g_segen w) /\
  map (@List.length R) (g_seglines d) = map (@List.length R) (g_seglines w).

(** Settings and steps for which the kernels have a grid to write on: bins of
    positive width, and no macroparticle left of the first bin. *)
Definition own_names (c : scfg) : list string := map fst (sbs_init c 0 ++ pbp_init c ++ hist_init c).
Definition cfg_ok (c : scfg) : Prop :=
  NoDup (c_custom c) /\ NoDup (c_pcustom c) /\ (forall k, In k (c_custom c) \/ In k (c_pcustom c) -> ~ In k (own_names c)) /\
  (forall k, In k (c_custom c) -> ~ In k (c_pcustom c)) /\
  NoDup (map fst (c_const c ++ c_once c)) /\
  (forall k, In k (map fst (c_const c ++ c_once c)) -> ~ In k (own_names c ++ c_custom c ++ c_pcustom c)) /\
  (0 < c_nx c)%nat /\ 0 < k_Dx (c_ic c) /\ (0 < c_nbin c)%nat /\ 0 < k_DEn (c_ic c) /\ 0 < k_mass (c_ic c) /\ 0 < k_qe (c_ic c) /\
  (forall h, c_hdet c = Some h -> (0 < hd_n h)%nat /\ 0 < hd_Dx h /\ hd_bias h <= hd_x0 h) /\ (0 < c_every c)%Z /\ c_only c = None /\
  0 < c_rc c /\ Forall (fun q => 0 < snd q) (c_probes c).
(** The same without conditions on how the custom observables are named. *)
Definition cfg_any (c : scfg) : Prop :=
  NoDup (c_custom c) /\ NoDup (c_pcustom c) /\ NoDup (map fst (c_const c)) /\ NoDup (map fst (c_once c)) /\
  (forall k, In k (map fst (c_const c)) -> ~ In k (own_names c)) /\
  (0 < c_nx c)%nat /\ 0 < k_Dx (c_ic c) /\ (0 < c_nbin c)%nat /\ 0 < k_DEn (c_ic c) /\ 0 < k_mass (c_ic c) /\ 0 < k_qe (c_ic c) /\
  (forall h, c_hdet c = Some h -> (0 < hd_n h)%nat /\ 0 < hd_Dx h /\ hd_bias h <= hd_x0 h) /\ (0 < c_every c)%Z /\ c_only c = None.
Definition step_ok (c : scfg) (w : iman) (q : step) : Prop :=
  wf (ob_mp (fst q)) /\ Forall (fun p => k_bias (c_ic c) <= m_x p) (live (ob_mp (fst q))) /\ same_shape w (snd q).

(** The numbers of the samples of space charge energy. *)
Definition sc_times (l : list step) : list R := map s_time (filter (fun q => ob_check (fst q)) l).
Definition sc_energies (l : list step) : list R := map (fun q => ob_U (fst q)) (filter (fun q => ob_check (fst q)) l).
Definition pass_customs (c : scfg) : list (string * (list step -> R)) := map (fun k => (k, now (fun ob => ob_custom ob k))) (c_pcustom c).

(** An output that holds the samples [gs], the passages [ps] and the energy
    histograms [hs]. *)
Record recorded (c : scfg) (w : iman) (gs ps hs : list (list step)) (l : list step) (d : dict) : Prop := mkRecorded {
  rec_cols : forall k f, In (k, f) (columns c ++ custom_columns c) -> get d k = Some (VArr (map f gs));
  rec_rows : forall k f, In (k, f) (pass_rows c w) -> get d k = Some (VMat (map f ps));
  rec_nums : forall k f, In (k, f) (pass_nums ++ pass_customs c) -> get d k = Some (VArr (map f ps));
  rec_hist : forall k f, In (k, f) (hist_rows c w) -> get d k = Some (VMat (map f hs));
  rec_tEn : get d "t_En_hist" = Some (VArr (map (now ob_t) hs));
  rec_tsc : get d "t_sc_video" = Some (VArr (sc_times l));
  rec_Usc : get d "U_sc_eV" = Some (VArr (sc_energies l)) }.

(** Widths of the accumulators that fit the settings. *)
Definition widths_ok (c : scfg) (w : iman) : Prop := k_seg (c_ic c) = true -> k_segline (c_ic c) = true -> List.length (g_seglines w) = c_nvert c.
Definition writes_out (c : scfg) (q : step) : bool := ob_new (fst q) && ((ob_pass (fst q) + 1) mod c_every c =? 0)%Z.

(** No histogram has a single bin (the file format makes plain numbers of arrays
    of one element). *)
Definition big (c : scfg) (w : iman) : Prop :=
  c_nx c <> 1%nat /\ c_nbin c <> 1%nat /\ List.length (g_tot w) <> 1%nat /\ List.length (g_scrub w) <> 1%nat /\ List.length (g_en w) <> 1%nat /\
  List.length (g_line w) <> 1%nat /\ List.length (g_cos w) <> 1%nat /\ List.length (g_seg w) <> 1%nat /\ List.length (g_segemit w) <> 1%nat /\ List.length (g_segen w) <> 1%nat /\
  forall h, c_hdet c = Some h -> hd_n h <> 1%nat.

(** Times in increasing order. *)
Notation increasing := (StronglySorted Rlt).

(** A run from the start with arrays of [n] samples. *)
Definition started (c : scfg) (w : iman) (n : nat) (l : list step) : option (sst * iman * option dict) :=
  record_run c l (blank w) (start_observing c n) None.

(** The numbers of each passage that are reloaded. *)
Definition kept_nums : list (string * (list step -> R)) := tl pass_nums.

(** A run [lc ++ l1'] of which the output was saved, a checkpoint made after
    [lc], and a new run that continues from it. *)
Record resumable (c : scfg) (w : iman) (l1 : list step) (q : step) (l1' : list step) : Prop := mkResumable {
  re_cfg : cfg_ok c; re_w : widths_ok c w; re_big : big c w; re_custom : c_custom c = []; re_probes : c_probes c = []; re_life : c_life c = None;
  re_ok : Forall (step_ok c w) ((l1 ++ [q]) ++ l1'); re_new : ob_new (fst q) = true; re_inc : increasing (map s_time ((l1 ++ [q]) ++ l1'));
  re_sample : exists gs, l1 ++ [q] = concat gs /\ groups (sample_due c) (-1) gs [] /\ (2 <= List.length gs)%nat;
  re_pass : (2 <= List.length (filter (pass_ends 0) (l1 ++ [q])))%nat;
  re_sc : (2 <= List.length (sc_times ((l1 ++ [q]) ++ l1')))%nat;
  re_hist : exists hs rest, (l1 ++ [q]) ++ l1' = concat hs ++ rest /\ groups (hist_due (c_DtEn c)) (-1) hs rest /\ (2 <= List.length hs)%nat }.

(** Every step is sampled. *)
Definition every_step (c : scfg) (l : list step) : Prop :=
  forall a x b, l = a ++ x :: b -> sample_due c (match rev a with y :: _ => s_time y | [] => -1 end) x = true.

(** The sums of the step-by-step output: column, contribution of a step, and
    what is still pending in the recorder. *)
Definition sums : list (string * (iman -> R) * (sst -> R)) :=
  [("Nel_imp_time", l_nimp, v_nimp); ("Nel_emit_time", l_nemit, v_nemit); ("En_imp_eV_time", l_eimp, v_eimp); ("En_emit_eV_time", l_eemit, v_eemit)].

(** Data that were not asked for: those written as -1, and those that are not
    in the output. *)
Definition off_names (c : scfg) : list string :=
  (if c_cos c then [] else ["cos_angle_hist"]) ++
  (if k_seg (c_ic c) then [] else ["nel_hist_impact_seg"; "nel_hist_emit_seg"; "energ_eV_impact_seg"]) ++
  (if k_seg (c_ic c) && k_segline (c_ic c) then [] else ["En_hist_seg"]) ++
  (match c_hdet c with Some _ => [] | None => ["nel_hist_det"] end).
Definition absent_names (c : scfg) : list string :=
  (if c_det c then [] else ["N_mp_time"; "nel_mp_ref_time"]) ++
  (if c_cross c then [] else ["Nel_cross_ion"; "N_mp_cross_ion"; "DN_cross_ion"]) ++
  (if c_elec c then [] else ["En_electric_eV_time"]) ++
  (match c_probes c with [] => ["el_dens_at_probes"] | _ => [] end) ++
  (match c_life c with None => ["lifetime_hist"; "t_lifetime_hist"] | Some _ => [] end).

(** Entries of the output that are the same at all times. *)
Definition unchanging : list string :=
  ["xg_hist"; "xg_hist_det"; "xg_hist_cos_angle"; "En_g_hist"; "b_spac"; "t_sec_beams"; "sec_beam_profiles"; "x_el_dens_probes"; "y_el_dens_probes"; "r_el_dens_probes";
   "dec_fact_out"; "chamber_area"; "sey_test_E_impact_eV"; "sey_test_cos_theta"; "sey_test_del_true_mat"; "sey_test_del_elast_mat";
   "ene_dist_test_cos_theta"; "ene_dist_test_E_impact_eV"; "emit_ene_dist_test"].

(** Entries of the output on lifetimes. *)
Definition lnames : list string := ["lifetime_hist"; "t_lifetime_hist"].
