(** Consequences for the output of a run from the start. *)
From Coq Require Import String Lia Lra Bool.
From Verif Require Import Num NumFacts MP SpecMP MPFacts Impact Saver SpecSaver SaverFacts SaverFacts2 SaverFacts3 SaverFacts4 SaverFacts5.
Local Open Scope string_scope.
Local Open Scope list_scope.
Local Open Scope R_scope.

Lemma widths_w c w : widths_ok c w -> w_ok c w.
Proof. intros H S. unfold seg_on in S. apply andb_true_iff in S. destruct S. apply H; assumption. Qed.

Lemma started_any c w n l : cfg_any c -> widths_ok c w -> (0 < n)%nat -> Forall (step_ok c w) l ->
  exists s g f, started c w n l = Some (s, g, f) /\ rinv fresh c w l s g /\
    ((f = None /\ Forall (fun q => writes_out c q = false) l) \/
     exists l1 q l2 s1 g1, l = l1 ++ q :: l2 /\ writes_out c q = true /\ Forall (fun q => writes_out c q = false) l2 /\
       started c w n (l1 ++ [q]) = Some (s1, g1, f) /\ f = build_outp_dict c s1).
Proof.
  intros CO WO Hn OK. apply widths_w in WO.
  destruct (run_inv fresh c w CO WO l [] _ _ None (start_inv c w n Hn WO) OK) as (s & g & f & E & R & D).
  exists s, g, f. split; [exact E|]. split; [exact R|]. destruct D as [D|(l1 & q & l2 & s1 & g1 & f1 & X1 & X2 & X3 & X4 & X5 & X6 & _)]; [left; exact D|].
  right. exists l1, q, l2, s1, g1. split; [exact X1|]. split; [exact X2|]. split; [exact X3|]. subst f. split; [exact X4|exact X6].
Qed.

Lemma started_inv c w n l : cfg_ok c -> widths_ok c w -> (0 < n)%nat -> Forall (step_ok c w) l ->
  exists s g f, started c w n l = Some (s, g, f) /\ rinv fresh c w l s g /\
    ((f = None /\ Forall (fun q => writes_out c q = false) l) \/
     exists l1 q l2 s1 g1, l = l1 ++ q :: l2 /\ writes_out c q = true /\ Forall (fun q => writes_out c q = false) l2 /\
       started c w n (l1 ++ [q]) = Some (s1, g1, f) /\ f = build_outp_dict c s1).
Proof. intros CO. apply started_any, ok_any, CO. Qed.

Lemma inv_build B0 c w l s g : cfg_ok c -> rinv B0 c w l s g ->
  exists gs rest ps prest hs hrest d,
    split_as (sample_due c) (-1) l gs rest /\ acc_is s rest /\
    split_as pass_ends (-1) l ps prest /\ pass_pend c w g prest /\
    split_as (hist_due (c_DtEn c)) (b_th B0) (b_hl B0 ++ l) hs hrest /\ hist_pend c w g hrest /\
    build_outp_dict c s = Some d /\
    (forall k f, In (k, f) (columns c ++ custom_columns c) -> get d k = Some (VArr (map f (b_gs B0 ++ gs)))) /\
    (c_probes c <> [] -> (0 < List.length (b_gs B0 ++ gs))%nat ->
      get d "el_dens_at_probes" = Some (VMat (map (fun p => map (probe_val p) (removelast (b_gs B0 ++ gs))) (c_probes c)))) /\
    rows_ok B0 (pass_rows c w) ps d /\ nums_ok B0 pass_nums ps d /\ nums_at (fun _ => []) (pass_customs c) ps d /\
    rows_ok B0 (hist_rows c w) hs d /\ nums_ok B0 [("t_En_hist", now ob_t)] hs d /\ lines_ok B0 c w hs d /\
    (forall h, c_hdet c = Some h -> get d "nel_hist_det" = Some (VMat (b_rows B0 "nel_hist_det" ++ det_lines h (repeat 0 (hd_n h)) ps))) /\
    (forall D, c_life c = Some D -> exists ls lrest, split_as (hist_due D) (b_tl B0) (b_ll B0 ++ l) ls lrest /\ life_inv B0 w ls d /\
        g_life g = row_total (List.length (g_life w)) g_life lrest) /\
    sc_inv B0 l d.
Proof.
  intros CO R.
  destruct (r_sbs _ _ _ _ _ _ R) as (gs & rest & L & SS & SI & SA & ST).
  destruct (r_pass _ _ _ _ _ _ R) as (ps & prest & PS & PI' & PP).
  destruct (r_hist _ _ _ _ _ _ R) as (hs & hrest & HS & HI & HP & HT).
  destruct PI' as (P1 & P2 & P3 & P4 & P5). destruct HI as (H1 & H2 & H3).
  destruct (build_spec c (b_gs B0 ++ gs) L s CO SI (r_names _ _ _ _ _ _ R) P4) as (d & E & D1 & D2 & D3 & D4).
  assert (INO : forall X, inclb X (outp_names c) = true -> forall k, In k X -> get d k = get (v_at s) k).
  { intros X HX k Hk. apply D3. exact (inclb_ok _ _ HX k Hk). }
  exists gs, rest, ps, prest, hs, hrest, d. do 8 (split; [assumption|]). split; [exact D2|].
  split; [eapply rows_frame; [exact P1|]; apply INO; unfold pass_rows, outp_names; destruct (k_seg (c_ic c)); reflexivity|].
  split; [eapply nums_frame; [exact P2|]; apply INO; reflexivity|].
  split.
  { eapply nums_frame; [exact P3|]. intros k Hk. apply D4. unfold pass_customs in Hk. rewrite map_map in Hk. cbn [fst] in Hk. rewrite map_id in Hk. exact Hk. }
  split; [eapply rows_frame; [exact H1|]; apply INO; unfold hist_rows, outp_names; destruct (c_cos c); reflexivity|].
  split; [eapply nums_frame; [exact H2|]; apply INO; reflexivity|].
  split.
  { intros S. destruct (H3 S) as (q & Gq & X). exists q. split; [|exact X]. rewrite (INO ["En_hist_seg"]); [exact Gq|reflexivity|left; reflexivity]. }
  split.
  { intros h Hh. destruct (P5 h Hh) as (X & _). rewrite (INO ["nel_hist_det"]); [exact X|reflexivity|left; reflexivity]. }
  split.
  { intros D HD. destruct (r_life _ _ _ _ _ _ R D HD) as (ls & lrest & L1 & L2 & L3 & L4). exists ls, lrest. split; [exact L1|]. split; [|exact L3].
    eapply life_frame; [exact L2|]. apply INO. unfold outp_names. rewrite HD. reflexivity. }
  eapply sc_frame; [exact (r_sc _ _ _ _ _ _ R)|]. apply INO. reflexivity.
Qed.

(** ** C25 *)
Lemma run_samples c w n l : cfg_ok c -> widths_ok c w -> (0 < n)%nat -> Forall (step_ok c w) l ->
  exists s g file d gs rest, started c w n l = Some (s, g, file) /\ build_outp_dict c s = Some d /\
    l = concat gs ++ rest /\ groups (sample_due c) (-1) gs rest /\
    (forall k f, In (k, f) (columns c ++ custom_columns c) -> get d k = Some (VArr (map f gs))) /\
    v_nimp s = total l_nimp rest /\ v_nemit s = total l_nemit rest /\ v_eimp s = total l_eimp rest /\ v_eemit s = total l_eemit rest.
Proof.
  intros CO WO Hn OK. destruct (started_inv c w n l CO WO Hn OK) as (s & g & f & E & R & _).
  destruct (inv_build fresh c w l s g CO R) as (gs & rest & ps & prest & hs & hrest & d & (S1 & S2) & (A1 & A2 & A3 & A4) & _ & _ & _ & _ & B & C & _).
  exists s, g, f, d, gs, rest. repeat (split; [assumption|]). exact A4.
Qed.

Lemma total_app f a b : total f (a ++ b) = total f a + total f b.
Proof. unfold total. rewrite map_app, rsum_app. reflexivity. Qed.

Lemma total_concat f gs : rsum (map (total f) gs) = total f (concat gs).
Proof.
  induction gs as [|g gs IH]; [reflexivity|]. cbn [concat map]. rewrite total_app, <- IH. reflexivity.
Qed.

Lemma run_balance c w n l : cfg_ok c -> widths_ok c w -> (0 < n)%nat -> Forall (step_ok c w) l ->
  exists s g file d, started c w n l = Some (s, g, file) /\ build_outp_dict c s = Some d /\
    forall k f pending, In (k, f, pending) sums -> exists col, get d k = Some (VArr col) /\ rsum col + pending s = rsum (map (fun q => f (snd q)) l).
Proof.
  intros CO WO Hn OK. destruct (run_samples c w n l CO WO Hn OK) as (s & g & f & d & gs & rest & E & B & S1 & _ & C & A1 & A2 & A3 & A4).
  exists s, g, f, d. split; [exact E|]. split; [exact B|]. intros k fn pend H.
  assert (X : In (k, total fn) (columns c) /\ pend s = total fn rest).
  { cbn [sums In] in H. unfold columns. destruct H as [H|[H|[H|[H|[]]]]]; injection H as <- <- <-; (split; [|assumption]); apply in_app_iff; left; cbn; tauto. }
  destruct X as [X1 X2]. eexists. split; [apply C; apply in_app_iff; left; exact X1|].
  rewrite X2, total_concat, <- total_app, <- S1. reflexivity.
Qed.

Lemma run_file c w n l : cfg_ok c -> widths_ok c w -> (0 < n)%nat -> Forall (step_ok c w) l ->
  exists s g file, started c w n l = Some (s, g, file) /\
    match file with
    | None => Forall (fun q => writes_out c q = false) l
    | Some d => exists l1 q l2 s1 g1, l = l1 ++ q :: l2 /\ writes_out c q = true /\ Forall (fun q => writes_out c q = false) l2 /\
        started c w n (l1 ++ [q]) = Some (s1, g1, Some d) /\ build_outp_dict c s1 = Some d
    end.
Proof.
  intros CO WO Hn OK. destruct (started_inv c w n l CO WO Hn OK) as (s & g & f & E & R & D). exists s, g, f. split; [exact E|].
  destruct D as [[-> D]|(l1 & q & l2 & s1 & g1 & X1 & X2 & X3 & X4 & X5)]; [exact D|].
  assert (OK1 : Forall (step_ok c w) (l1 ++ [q])).
  { rewrite X1 in OK. apply Forall_app in OK. destruct OK as [Y1 Y2]. inversion_clear Y2. apply Forall_app. split; [exact Y1|constructor; [assumption|constructor]]. }
  destruct (started_inv c w n (l1 ++ [q]) CO WO Hn OK1) as (s' & g' & f' & E' & R' & _). rewrite X4 in E'. injection E' as <- <- _.
  destruct (inv_build fresh c w _ s1 g1 CO R') as (? & ? & ? & ? & ? & ? & d & _ & _ & _ & _ & _ & _ & B & _). rewrite B in X5. subst f.
  exists l1, q, l2, s1, g1. auto.
Qed.

(** ** C26 *)
Lemma groups_app close : forall l1 last l2 gs rest, split_as close last l1 gs rest ->
  exists gs' rest', split_as close last (l1 ++ l2) (gs ++ gs') rest'.
Proof.
  intros l1 last l2. revert l1. induction l2 as [|q l2 IH]; intros l1 gs rest H.
  - exists [], rest. rewrite !app_nil_r. exact H.
  - replace (l1 ++ q :: l2) with ((l1 ++ [q]) ++ l2) by (rewrite <- app_assoc; reflexivity). destruct (close (end_time last gs) q) eqn:C.
    + destruct (IH _ _ _ (split_close _ _ _ _ _ _ H C)) as (gs' & rest' & X). exists ((rest ++ [q]) :: gs'), rest'. rewrite <- (app_assoc gs) in X. exact X.
    + apply (IH _ _ _ (split_keep _ _ _ _ _ _ H C)).
Qed.

Lemma run_kept c w n n' l l' : cfg_ok c -> widths_ok c w -> (0 < n)%nat -> (0 < n')%nat -> Forall (step_ok c w) (l ++ l') ->
  exists s g file d s' g' file' d', started c w n l = Some (s, g, file) /\ build_outp_dict c s = Some d /\
    started c w n' (l ++ l') = Some (s', g', file') /\ build_outp_dict c s' = Some d' /\
    forall k, In k (map fst (columns c ++ custom_columns c)) ->
      exists col more, get d k = Some (VArr col) /\ get d' k = Some (VArr (col ++ more)) /\ (l' = [] -> more = []).
Proof.
  intros CO WO Hn Hn' OK. assert (OK1 := proj1 (proj1 (Forall_app _ _ _) OK)).
  destruct (run_samples c w n l CO WO Hn OK1) as (s & g & f & d & gs & rest & E & B & S1 & S2 & C & _).
  destruct (run_samples c w n' (l ++ l') CO WO Hn' OK) as (s' & g' & f' & d' & gs' & rest' & E' & B' & S1' & S2' & C' & _).
  destruct (groups_app _ l (-1) l' gs rest (conj S1 S2)) as (gs2 & rest2 & T1 & T2).
  destruct (groups_unique _ _ _ _ _ _ T2 S2') as [X Y]; [rewrite <- T1, <- S1'; reflexivity|].
  exists s, g, f, d, s', g', f', d'. do 4 (split; [assumption|]). intros k Hk. apply in_map_iff in Hk. destruct Hk as ([k' fn] & <- & H).
  exists (map fn gs), (map fn gs2). split; [apply C, H|]. split; [rewrite <- map_app, X; apply C', H|].
  intros ->. rewrite app_nil_r in *. assert (Z : gs = gs') by (refine (proj1 (groups_unique _ _ _ _ _ _ S2 S2' _)); rewrite <- S1, <- S1'; reflexivity).
  assert (W : gs2 = []) by (apply (app_inv_head gs); rewrite app_nil_r; congruence). rewrite W. reflexivity.
Qed.

(** ** C62 *)
Lemma ladd_comm a b : ladd a b = ladd b a.
Proof. unfold ladd. revert b. induction a as [|x a IH]; intros [|y b]; cbn; auto. f_equal; [ring|apply IH]. Qed.
Lemma ladd_assoc a b c : ladd (ladd a b) c = ladd a (ladd b c).
Proof. unfold ladd. revert b c. induction a as [|x a IH]; intros [|y b] [|z c]; cbn; auto. f_equal; [ring|apply IH]. Qed.
Lemma ladd_zero a n : List.length a = n -> ladd (repeat 0 n) a = a.
Proof. unfold ladd. intros <-. induction a as [|x a IH]; cbn; [reflexivity|]. f_equal; [ring|exact IH]. Qed.

Lemma fold_ladd_init : forall rows a b, fold_left ladd rows (ladd a b) = ladd a (fold_left ladd rows b).
Proof. induction rows as [|r rows IH]; intros a b; cbn [fold_left]; [reflexivity|]. rewrite <- IH, ladd_assoc. reflexivity. Qed.

Lemma row_total_app n f a b : Forall (fun q => List.length (f (snd q)) = n) a -> row_total n f (a ++ b) = ladd (row_total n f a) (row_total n f b).
Proof.
  intros H. unfold row_total, row_sum. rewrite map_app, fold_left_app. fold (row_sum n (map (fun q => f (snd q)) a)). fold (row_total n f a).
  rewrite <- fold_ladd_init. f_equal. rewrite ladd_comm, ladd_zero; [reflexivity|]. apply row_total_length, H.
Qed.

Lemma row_total_concat n f rest : forall gs, Forall (fun q => List.length (f (snd q)) = n) (concat gs ++ rest) ->
  row_sum n (map (row_total n f) gs ++ [row_total n f rest]) = row_total n f (concat gs ++ rest).
Proof.
  induction gs as [|g gs IH]; intros H.
  - cbn in H. unfold row_sum. cbn. apply ladd_zero, row_total_length, H.
  - cbn [concat] in *. rewrite <- app_assoc in *. apply Forall_app in H. destruct H as [H1 H2]. rewrite row_total_app by exact H1. rewrite <- IH by exact H2.
    unfold row_sum. cbn [map app fold_left]. rewrite ladd_comm, fold_ladd_init. reflexivity.
Qed.

Lemma run_passes c w n l : cfg_ok c -> widths_ok c w -> (0 < n)%nat -> Forall (step_ok c w) l ->
  exists s g file d ps rest, started c w n l = Some (s, g, file) /\ build_outp_dict c s = Some d /\
    l = concat ps ++ rest /\ groups pass_ends (-1) ps rest /\
    (forall k f, In (k, f) (pass_rows c w) -> get d k = Some (VMat (map f ps))) /\
    (forall k f, In (k, f) (pass_nums ++ pass_customs c) -> get d k = Some (VArr (map f ps))) /\
    g_tot g = row_total (List.length (g_tot w)) g_tot rest /\ g_scrub g = row_total (List.length (g_scrub w)) g_scrub rest /\
    g_en g = row_total (List.length (g_en w)) g_en rest.
Proof.
  intros CO WO Hn OK. destruct (started_inv c w n l CO WO Hn OK) as (s & g & f & E & R & _).
  destruct (inv_build fresh c w l s g CO R) as (gs & rest & ps & prest & hs & hrest & d & _ & _ & (S1 & S2) & P & _ & _ & B & _ & _ & Q1 & Q2 & Q3 & _).
  exists s, g, f, d, ps, prest. do 4 (split; [assumption|]). split; [intros k fn H; exact (Q1 k fn H)|].
  split; [intros k fn H; apply in_app_iff in H; destruct H as [H|H]; [exact (Q2 k fn H)|exact (Q3 k fn H)]|].
  split; [apply (pp_tot _ _ _ _ P)|]. split; [apply (pp_scrub _ _ _ _ P)|apply (pp_en _ _ _ _ P)].
Qed.

Lemma run_energy c w n l : cfg_ok c -> widths_ok c w -> (0 < n)%nat -> Forall (step_ok c w) l ->
  exists s g file d hs rest, started c w n l = Some (s, g, file) /\ build_outp_dict c s = Some d /\
    l = concat hs ++ rest /\ groups (hist_due (c_DtEn c)) (-1) hs rest /\
    (forall k f, In (k, f) (hist_rows c w) -> get d k = Some (VMat (map f hs))) /\ get d "t_En_hist" = Some (VArr (map (now ob_t) hs)) /\
    g_line g = row_total (List.length (g_line w)) g_line rest /\
    (k_seg (c_ic c) = true -> k_segline (c_ic c) = true -> exists q, get d "En_hist_seg" = Some (VCube q) /\ List.length q = c_nvert c /\
      forall i, (i < c_nvert c)%nat -> nth i q [] = map (seg_line w i) hs).
Proof.
  intros CO WO Hn OK. destruct (started_inv c w n l CO WO Hn OK) as (s & g & f & E & R & _).
  destruct (inv_build fresh c w l s g CO R) as (gs & rest & ps & prest & hs & hrest & d & _ & _ & _ & _ & (S1 & S2) & P & B & _ & _ & _ & _ & _ & Q1 & Q2 & Q3 & _).
  exists s, g, f, d, hs, hrest. do 4 (split; [assumption|]). split; [intros k fn H; exact (Q1 k fn H)|].
  split; [exact (Q2 "t_En_hist" _ (or_introl eq_refl))|]. split; [apply (hp_line _ _ _ _ P)|].
  intros X1 X2. apply Q3. unfold seg_on. rewrite X1, X2. reflexivity.
Qed.

Lemma run_lifetime c w n l D : cfg_ok c -> widths_ok c w -> (0 < n)%nat -> Forall (step_ok c w) l -> c_life c = Some D ->
  exists s g file d ls rest, started c w n l = Some (s, g, file) /\ build_outp_dict c s = Some d /\
    l = concat ls ++ rest /\ groups (hist_due D) (-1) ls rest /\
    get d "lifetime_hist" = Some (VMat (map (row_total (List.length (g_life w)) g_life) ls)) /\ get d "t_lifetime_hist" = Some (VArr (map (now ob_t) ls)) /\
    g_life g = row_total (List.length (g_life w)) g_life rest.
Proof.
  intros CO WO Hn OK HD. destruct (started_inv c w n l CO WO Hn OK) as (s & g & f & E & R & _).
  destruct (inv_build fresh c w l s g CO R) as (gs & rest & ps & prest & hs & hrest & d & _ & _ & _ & _ & _ & _ & B & _ & _ & _ & _ & _ & _ & _ & _ & _ & Q & _).
  destruct (Q D HD) as (ls & lrest & (S1 & S2) & (L1 & L2) & L3). exists s, g, f, d, ls, lrest. do 4 (split; [assumption|]).
  split; [exact (L1 "lifetime_hist" _ (or_introl eq_refl))|]. split; [exact (L2 "t_lifetime_hist" _ (or_introl eq_refl))|exact L3].
Qed.

Lemma run_recorded c w n l : cfg_ok c -> widths_ok c w -> (0 < n)%nat -> Forall (step_ok c w) l ->
  exists s g file d gs rest ps prest hs hrest, started c w n l = Some (s, g, file) /\ build_outp_dict c s = Some d /\
    l = concat gs ++ rest /\ groups (sample_due c) (-1) gs rest /\ l = concat ps ++ prest /\ groups pass_ends (-1) ps prest /\
    l = concat hs ++ hrest /\ groups (hist_due (c_DtEn c)) (-1) hs hrest /\ recorded c w gs ps hs l d.
Proof.
  intros CO WO Hn OK. destruct (started_inv c w n l CO WO Hn OK) as (s & g & f & E & R & _).
  destruct (inv_build fresh c w l s g CO R) as (gs & rest & ps & prest & hs & hrest & d & (A1 & A2) & _ & (A3 & A4) & _ & (A5 & A6) & _ & B & C1 & _ & Q1 & Q2 & Q3 & Q4 & Q5 & _ & _ & _ & (Z1 & Z2)).
  exists s, g, f, d, gs, rest, ps, prest, hs, hrest. do 8 (split; [assumption|]). constructor.
  - exact C1.
  - exact Q1.
  - intros k fn H. apply in_app_iff in H. destruct H as [H|H]; [exact (Q2 k fn H)|exact (Q3 k fn H)].
  - exact Q4.
  - exact (Q5 "t_En_hist" _ (or_introl eq_refl)).
  - exact Z1.
  - exact Z2.
Qed.

Lemma run_detail c w n l h : cfg_ok c -> widths_ok c w -> (0 < n)%nat -> Forall (step_ok c w) l -> c_hdet c = Some h ->
  exists s g file d ps rest, started c w n l = Some (s, g, file) /\ build_outp_dict c s = Some d /\
    l = concat ps ++ rest /\ groups pass_ends (-1) ps rest /\ get d "nel_hist_det" = Some (VMat (det_lines h (repeat 0 (hd_n h)) ps)).
Proof.
  intros CO WO Hn OK HD. destruct (started_inv c w n l CO WO Hn OK) as (s & g & f & E & R & _).
  destruct (inv_build fresh c w l s g CO R) as (gs & rest & ps & prest & hs & hrest & d & _ & _ & (S1 & S2) & _ & _ & _ & B & _ & _ & _ & _ & _ & _ & _ & _ & Q & _).
  exists s, g, f, d, ps, prest. do 4 (split; [assumption|]). exact (Q h HD).
Qed.

Lemma det_lines_live h : forall ps line, Forall (fun g => forall q r, rev g = q :: r -> (0 < N_mp (ob_mp (fst q)))%nat) ps -> Forall (fun g => g <> []) ps ->
  det_lines h line ps = map (at_end (fun ob => d_histogram h (ob_mp ob)) []) ps.
Proof.
  induction ps as [|g ps IH]; intros line H1 H2; cbn [det_lines map]; [reflexivity|]. inversion_clear H1 as [|? ? A1 A2]. inversion_clear H2 as [|? ? B1 B2].
  assert (X : det_line h line g = at_end (fun ob => d_histogram h (ob_mp ob)) [] g).
  { unfold det_line, at_end. unfold step in *. destruct (rev g) as [|q r] eqn:E.
    - exfalso. apply B1. apply (f_equal (@rev (obs * iman))) in E. rewrite rev_involutive in E. exact E.
    - cbv beta. rewrite (proj2 (Nat.ltb_lt _ _) (A1 q r eq_refl)). reflexivity. }
  rewrite X. f_equal. apply IH; assumption.
Qed.

Lemma groups_ne close last gs rest : groups close last gs rest -> Forall (fun g => g <> []) gs.
Proof. induction 1; constructor; auto. destruct g; discriminate. Qed.

Lemma run_detail_live c w n l h : cfg_ok c -> widths_ok c w -> (0 < n)%nat -> Forall (step_ok c w) l -> c_hdet c = Some h ->
  Forall (fun q => ob_new (fst q) = true -> (0 < N_mp (ob_mp (fst q)))%nat) l ->
  exists s g file d ps rest, started c w n l = Some (s, g, file) /\ build_outp_dict c s = Some d /\
    l = concat ps ++ rest /\ groups pass_ends (-1) ps rest /\ get d "nel_hist_det" = Some (VMat (map (at_end (fun ob => d_histogram h (ob_mp ob)) []) ps)).
Proof.
  intros CO WO Hn OK HD NE. destruct (run_detail c w n l h CO WO Hn OK HD) as (s & g & f & d & ps & rest & E & B & S1 & S2 & G).
  exists s, g, f, d, ps, rest. do 4 (split; [assumption|]). rewrite G. f_equal. f_equal. apply det_lines_live; [|eapply groups_ne; eauto].
  clear -S1 S2 NE. rewrite S1 in NE. clear S1 l. apply Forall_app in NE. destruct NE as [NE _]. induction S2 as [|last g q gs rest F C S IH]; constructor.
  - intros q0 r E. rewrite rev_app_distr in E. cbn in E. injection E as <- _. cbn in NE. apply Forall_app in NE. destruct NE as [NE _].
    apply Forall_app in NE. destruct NE as [_ NE]. inversion_clear NE. apply H, C.
  - apply IH. cbn in NE. apply Forall_app in NE. apply NE.
Qed.

Lemma run_probes c w n l : cfg_ok c -> widths_ok c w -> (0 < n)%nat -> Forall (step_ok c w) l -> c_probes c <> [] ->
  exists s g file d gs rest, started c w n l = Some (s, g, file) /\ build_outp_dict c s = Some d /\
    l = concat gs ++ rest /\ groups (sample_due c) (-1) gs rest /\
    (gs <> [] -> get d "el_dens_at_probes" =
      Some (VMat (map (fun p => map (now (fun ob => density (fst (fst p)) (snd (fst p)) (snd p) (ob_mp ob))) (removelast gs)) (c_probes c)))).
Proof.
  intros CO WO Hn OK HP. destruct (started_inv c w n l CO WO Hn OK) as (s & g & f & E & R & _).
  destruct (inv_build fresh c w l s g CO R) as (gs & rest & ps & prest & hs & hrest & d & (S1 & S2) & _ & _ & _ & _ & _ & B & _ & Q & _).
  exists s, g, f, d, gs, rest. do 4 (split; [assumption|]). intros NE. apply (Q HP). cbn. destruct gs; [congruence|cbn; lia].
Qed.
