(** Facts on [save_only] and on custom observables. *)
From Coq Require Import String Lia Lra Bool.
From Verif Require Import Num NumFacts MP SpecMP MPFacts Impact Saver SpecSaver SaverFacts SaverFacts2 SaverFacts3 SaverFacts4 SaverFacts5 SaverFacts6 SaverFacts7 SaverFacts9 SaverFacts10 SpecOutp.
Local Open Scope string_scope.
Local Open Scope list_scope.
Local Open Scope R_scope.

Lemma build_only c ks s : c_only c = None -> build_outp_dict (only c (Some ks)) s = do d <- build_outp_dict c s ; get_all d ks.
Proof.
  intros H. unfold build_outp_dict. rewrite H. cbn [only c_only c_const c_once]. change (outp_names (only c (Some ks))) with (outp_names c).
  change (stepbystep_get_dict (only c (Some ks)) s) with (stepbystep_get_dict c s).
  destruct (get_all (v_at s) (outp_names c)); [|reflexivity]. cbn [bind]. destruct (stepbystep_get_dict c s); reflexivity.
Qed.

Lemma witness_only c ks ob g s : c_only c = None ->
  witness (only c (Some ks)) ob g s =
  match witness c ob g s with Some (s1, g1, Some d) => do d' <- get_all d ks ; Some (s1, g1, Some d') | x => x end.
Proof.
  intros H. unfold witness. change (energy_hist_save (only c (Some ks)) ob g s) with (energy_hist_save c ob g s).
  destruct (energy_hist_save c ob g s) as [[s1 g1]|]; [|reflexivity]. cbn [bind]. destruct (sc_energy_save ob s1) as [s2|]; [|reflexivity]. cbn [bind].
  change (stepbystep_data_save (only c (Some ks)) ob g1 s2) with (stepbystep_data_save c ob g1 s2). destruct (stepbystep_data_save c ob g1 s2) as [s3|]; [|reflexivity]. cbn [bind].
  destruct (ob_new ob); [|reflexivity]. change (pass_by_pass_data_save (only c (Some ks)) ob g1 s3) with (pass_by_pass_data_save c ob g1 s3).
  destruct (pass_by_pass_data_save c ob g1 s3) as [[s4 g4]|]; [|reflexivity]. cbn [bind only c_every]. destruct (c_every c =? 0)%Z; [reflexivity|].
  destruct ((ob_pass ob + 1) mod c_every c =? 0)%Z; [|reflexivity]. fold (only c (Some ks)). rewrite build_only by exact H. destruct (build_outp_dict c s4) as [d|]; [|reflexivity]. cbn [bind].
  reflexivity.
Qed.

Lemma run_snoc c ob d : forall m g s f, record_run c (m ++ [(ob, d)]) g s f =
  do (s1, g1, f1) <- record_run c m g s f ; do (s2, g2, f2) <- witness c ob (feed g1 d) s1 ; Some (s2, g2, match f2 with Some x => Some x | None => f1 end).
Proof.
  induction m as [|[o e] m IHm]; intros g s f; cbn [app record_run bind].
  - destruct (witness c ob (feed g d) s) as [[[a b] e]|]; reflexivity.
  - destruct (witness c o (feed g e) s) as [[[a b] x]|]; [|reflexivity]. cbn [bind]. apply IHm.
Qed.

(** ** Names *)
Lemma in_put d k v k' : In k' (map fst (put d k v)) <-> In k' (map fst d) \/ k' = k.
Proof.
  induction d as [|[a b] d IH]; cbn; [firstorder|]. destruct (String.eqb k a) eqn:Q; cbn.
  - apply String.eqb_eq in Q. subst a. firstorder.
  - rewrite IH. firstorder.
Qed.
Lemma in_update : forall e d k, In k (map fst (update d e)) <-> In k (map fst d) \/ In k (map fst e).
Proof.
  unfold update. induction e as [|[a b] e IH]; intros d k; cbn [fold_left map fst snd In]; [tauto|]. rewrite IH, in_put. firstorder.
Qed.
Lemma get_iff d k : get d k <> None <-> In k (map fst d).
Proof.
  split; [intros H; destruct (get d k) as [v|] eqn:E; [eapply get_In, E|contradiction]|].
  intros H. destruct (In_get _ _ H) as (v & ->). discriminate.
Qed.
Lemma cut_keys : forall ks d z r, cut_all d z ks = Some r -> map fst r = ks.
Proof.
  induction ks as [|k ks IH]; intros d z r E; cbn in E; [injection E as <-; reflexivity|]. unfold cut_at in E. destruct (get d k) as [[]|]; try discriminate.
  cbn [bind] in E. destruct (cut_all d z ks) as [r'|] eqn:G; [|discriminate]. cbn [bind] in E. injection E as <-. cbn. f_equal. eapply IH, G.
Qed.

(** The recorder's own names in the output. *)
Definition own_out (c : scfg) : list string :=
  outp_names c ++ sbs_members c ++ match c_probes c with [] => [] | _ => ["el_dens_at_probes"] end.
Lemma own_out_iff c k : In k (own_out c) <-> In k (own_names c) /\ ~ In k (absent_names c).
Proof.
  split.
  - intros H. split; revert k H; [apply inclb_ok|apply apartb_ok]; unfold own_out, outp_names, sbs_members, absent_names; destruct (c_det c), (c_cross c), (c_elec c), (c_probes c), (c_life c); reflexivity.
  - intros [H N]. assert (X : In k (own_out c ++ absent_names c)).
    { clear N. revert k H. apply inclb_ok. unfold own_out, outp_names, sbs_members, absent_names. destruct (c_det c), (c_cross c), (c_elec c), (c_probes c), (c_life c); reflexivity. }
    apply in_app_iff in X. tauto.
Qed.

Lemma build_names c s d : c_only c = None -> build_outp_dict c s = Some d -> map fst (v_sbs s) = c_custom c -> map fst (v_pbp s) = c_pcustom c ->
  forall k, get d k <> None <-> known c k.
Proof.
  intros H E KS KP k. rewrite get_iff. unfold known. rewrite <- own_out_iff. unfold build_outp_dict in E. rewrite H in E.
  destruct (get_all (v_at s) (outp_names c)) as [a|] eqn:GA; [|discriminate]. cbn [bind] in E. unfold stepbystep_get_dict in E.
  destruct (cut_all (v_at s) (v_i s + 1) (sbs_members c)) as [b|] eqn:GB; [|discriminate]. cbn [bind] in E.
  set (pd := match c_probes c with [] => Some [] | _ :: _ => _ end) in E.
  destruct pd as [p|] eqn:EP; [|discriminate]. cbn [bind] in E.
  assert (KPR : map fst p = match c_probes c with [] => [] | _ => ["el_dens_at_probes"] end).
  { unfold pd in EP. destruct (c_probes c); [injection EP as <-; reflexivity|]. destruct (get (v_at s) "el_dens_at_probes") as [[]|]; try discriminate. injection EP as <-. reflexivity. }
  destruct (cut_all (v_sbs s) (v_i s + 1) (map fst (v_sbs s))) as [q|] eqn:GQ; [|discriminate]. cbn [bind] in E. injection E as <-.
  rewrite !in_update, map_app, (get_all_keys _ _ _ GA), (cut_keys _ _ _ _ GB), KPR, (cut_keys _ _ _ _ GQ), KS, KP.
  unfold own_out. rewrite !in_app_iff. tauto.
Qed.

Lemma rinv_names c w l s g : rinv fresh c w l s g -> map fst (v_sbs s) = c_custom c /\ map fst (v_pbp s) = c_pcustom c.
Proof.
  intros R. destruct (r_sbs _ _ _ _ _ _ R) as (gs & rest & L & SS & SI & SA & ST).
  destruct (r_pass _ _ _ _ _ _ R) as (ps & prest & PS & (P1 & P2 & P3 & P4 & P5) & PP). split; [exact (si_names _ _ _ _ SI)|exact P4].
Qed.
Lemma rinv_build c w l s g : cfg_any c -> rinv fresh c w l s g -> exists d, build_outp_dict c s = Some d /\ forall k, get d k <> None <-> known c k.
Proof.
  intros CO R. destruct (rinv_names _ _ _ _ _ R) as [KS KP]. destruct (r_sbs _ _ _ _ _ _ R) as (gs & rest & L & SS & SI & SA & ST).
  destruct (build_gen c _ L s CO SI (r_names _ _ _ _ _ _ R) KP) as (d & E & _). exists d. split; [exact E|]. apply (build_names c s d); auto. apply CO.
Qed.

Lemma run_names c w n l : cfg_any c -> widths_ok c w -> (0 < n)%nat -> Forall (step_ok c w) l ->
  exists s g file d, started c w n l = Some (s, g, file) /\ build_outp_dict c s = Some d /\ forall k, get d k <> None <-> known c k.
Proof.
  intros CO WO Hn OK. destruct (started_any c w n l CO WO Hn OK) as (s & g & f & E & R & _). destruct (rinv_build c w l s g CO R) as (d & B & N).
  exists s, g, f, d. auto.
Qed.

(** ** save_only *)
Lemma get_all_part : forall ks d d', get_all d ks = Some d' -> part_of ks d d'.
Proof.
  induction ks as [|k ks IH]; intros d d' E k'; cbn in E.
  - injection E as <-. split; [intros []|reflexivity].
  - destruct (get d k) as [v|] eqn:G; [|discriminate]. cbn [bind] in E. destruct (get_all d ks) as [r|] eqn:GR; [|discriminate]. cbn [bind] in E. injection E as <-.
    destruct (IH d r GR k') as [H1 H2]. cbn [get In]. destruct (String.eqb k' k) eqn:Q.
    + apply String.eqb_eq in Q. subst k'. split; [intros _; symmetry; exact G|]. intros X. exfalso. apply X. left. reflexivity.
    + apply String.eqb_neq in Q. split; [intros [X|X]; [congruence|exact (H1 X)]|]. intros X. apply H2. intros Y. apply X. right. exact Y.
Qed.
Lemma get_all_none : forall ks d, get_all d ks = None <-> exists k, In k ks /\ get d k = None.
Proof.
  induction ks as [|k ks IH]; intros d; cbn [get_all In].
  - split; [discriminate|intros (k & [] & _)].
  - destruct (get d k) as [v|] eqn:G; cbn [bind].
    + destruct (get_all d ks) as [r|] eqn:GR; cbn [bind].
      * split; [discriminate|]. intros (k' & [<-|X] & Y); [congruence|]. assert (Z : Some r = None) by (rewrite <- GR; apply IH; exists k'; auto). discriminate.
      * split; [intros _|reflexivity]. destruct (proj1 (IH d) GR) as (k' & X & Y). exists k'. auto.
    + split; [intros _; exists k; auto|reflexivity].
Qed.

Definition same_file (ks : list string) (f f' : option dict) : Prop :=
  match f, f' with None, None => True | Some d, Some d' => part_of ks d d' | _, _ => False end.

(** One more step with [save_only]. *)
Lemma started_snoc c w n l ob d : started c w n (l ++ [(ob, d)]) =
  do (s1, g1, f1) <- started c w n l ; do (s2, g2, f2) <- witness c ob (feed g1 d) s1 ; Some (s2, g2, match f2 with Some x => Some x | None => f1 end).
Proof. apply run_snoc. Qed.

Lemma run_only c w n ks : cfg_any c -> widths_ok c w -> (0 < n)%nat -> (forall k, In k ks -> known c k) ->
  forall l, Forall (step_ok c w) l -> exists s g f f', started c w n l = Some (s, g, f) /\ started (only c (Some ks)) w n l = Some (s, g, f') /\
    match f, f' with None, None => True | Some d, Some d' => part_of ks d d' | _, _ => False end.
Proof.
  intros CO WO Hn KN. induction l as [|[ob d] l IH] using rev_ind; intros OK.
  - exists (start_observing c n), (blank w), None, None. split; [reflexivity|]. split; [reflexivity|exact I].
  - apply Forall_app in OK. destruct OK as [OK1 OK2]. inversion_clear OK2 as [|? ? OKq _].
    destruct (IH OK1) as (s1 & g1 & f1 & f1' & E1 & E1' & S1). destruct (started_any c w n l CO WO Hn OK1) as (s0 & g0 & f0 & E0 & R & _). rewrite E1 in E0. injection E0 as <- <- <-.
    destruct (witness_step fresh c w l s1 g1 ob d CO (widths_w _ _ WO) R OKq) as (s2 & g2 & E2 & R2).
    destruct (rinv_build c w _ s2 g2 CO R2) as (dd & B & N). rewrite B in E2.
    rewrite !started_snoc, E1, E1'. cbn [bind]. rewrite witness_only by apply CO. rewrite E2.
    destruct (writes_out c (ob, d)).
    + destruct (get_all dd ks) as [d'|] eqn:G.
      * cbn [bind]. exists s2, g2, (Some dd), (Some d'). split; [reflexivity|]. split; [reflexivity|]. apply get_all_part, G.
      * exfalso. destruct (proj1 (get_all_none _ _) G) as (k & X & Y). apply (proj2 (N k) (KN k X)), Y.
    + cbn [bind]. exists s2, g2, f1, f1'. auto.
Qed.

Lemma run_unknown c w n ks k : cfg_any c -> widths_ok c w -> (0 < n)%nat -> In k ks -> ~ known c k ->
  forall l, Forall (step_ok c w) l -> (started (only c (Some ks)) w n l = None <-> Exists (fun q => writes_out c q = true) l) /\
    (Forall (fun q => writes_out c q = false) l -> started (only c (Some ks)) w n l = started c w n l).
Proof.
  intros CO WO Hn Hk NK. induction l as [|[ob d] l IH] using rev_ind; intros OK.
  - split; [|reflexivity]. split; [discriminate|intros X; inversion X].
  - apply Forall_app in OK. destruct OK as [OK1 OK2]. inversion_clear OK2 as [|? ? OKq _].
    destruct (IH OK1) as [H1 H2]. destruct (started_any c w n l CO WO Hn OK1) as (s1 & g1 & f1 & E1 & R & _).
    destruct (witness_step fresh c w l s1 g1 ob d CO (widths_w _ _ WO) R OKq) as (s2 & g2 & E2 & R2).
    destruct (rinv_build c w _ s2 g2 CO R2) as (dd & B & N). rewrite B in E2.
    assert (EX : Exists (fun q => writes_out c q = true) (l ++ [(ob, d)]) <-> Exists (fun q => writes_out c q = true) l \/ writes_out c (ob, d) = true).
    { rewrite Exists_app. split; (intros [X|X]; [left; exact X|right]); [inversion_clear X; [assumption|inversion H]|constructor; exact X]. }
    rewrite EX, !started_snoc. split.
    + destruct (started (only c (Some ks)) w n l) as [[[s1' g1'] f1']|] eqn:E1'.
      * assert (NE : ~ Exists (fun q => writes_out c q = true) l) by (intros X; apply H1 in X; discriminate).
        assert (FA : Forall (fun q => writes_out c q = false) l).
        { apply Forall_forall. intros q Hq. destruct (writes_out c q) eqn:W; [|reflexivity]. exfalso. apply NE, Exists_exists. exists q. auto. }
        assert (Z := H2 FA). rewrite E1 in Z. injection Z as -> -> ->. cbn [bind]. rewrite witness_only by apply CO. rewrite E2.
        destruct (writes_out c (ob, d)) eqn:EW.
        -- replace (get_all dd ks) with (@None dict); [cbn [bind]; tauto|]. symmetry. apply get_all_none. exists k. split; [exact Hk|].
           destruct (get dd k) eqn:G; [|reflexivity]. exfalso. apply NK, N. rewrite G. discriminate.
        -- cbn [bind]. split; [discriminate|]. intros [X|X]; [contradiction|discriminate].
      * cbn [bind]. split; [intros _; left; apply H1; reflexivity|reflexivity].
    + intros FA. apply Forall_app in FA. destruct FA as [FA1 FA2]. inversion_clear FA2 as [|? ? EW _]. rewrite (H2 FA1), E1. cbn [bind].
      rewrite witness_only by apply CO. rewrite E2, EW. reflexivity.
Qed.

(** ** Custom observables *)
Lemma run_custom c w n l : cfg_any c -> widths_ok c w -> (0 < n)%nat -> Forall (step_ok c w) l ->
  exists s g file d gs rest ps prest hs hrest, started c w n l = Some (s, g, file) /\ build_outp_dict c s = Some d /\
    (l = concat gs ++ rest /\ groups (sample_due c) (-1) gs rest) /\ (l = concat ps ++ prest /\ groups pass_ends (-1) ps prest) /\
    (l = concat hs ++ hrest /\ groups (hist_due (c_DtEn c)) (-1) hs hrest) /\
    ((forall k v, get (c_once c) k = Some v -> get d k = Some v) /\
     (forall k, In k (c_pcustom c) -> ~ In k (map fst (c_once c)) -> get d k = Some (VArr (map (now (fun ob => ob_custom ob k)) ps))) /\
     (forall k, In k (c_custom c) -> ~ In k (c_pcustom c) -> ~ In k (map fst (c_once c)) -> get d k = Some (VArr (map (now (fun ob => ob_custom ob k)) gs)))) /\
    (forall k, ~ chosen c k ->
      (forall f, In (k, f) (columns c) -> get d k = Some (VArr (map f gs))) /\
      (forall f, In (k, f) (pass_rows c w) -> get d k = Some (VMat (map f ps))) /\
      (forall f, In (k, f) pass_nums -> get d k = Some (VArr (map f ps))) /\
      (forall f, In (k, f) (hist_rows c w) -> get d k = Some (VMat (map f hs))) /\
      (k = "t_En_hist" -> get d k = Some (VArr (map (now ob_t) hs))) /\
      (k = "t_sc_video" -> get d k = Some (VArr (sc_times l))) /\ (k = "U_sc_eV" -> get d k = Some (VArr (sc_energies l))) /\
      (forall v, get (c_const c) k = Some v -> get d k = Some v)).
Proof.
  intros CO WO Hn OK. destruct (started_any c w n l CO WO Hn OK) as (s & g & f & E & R & _).
  destruct (r_sbs _ _ _ _ _ _ R) as (gs & rest & L & SS & SI & SA & ST).
  destruct (r_pass _ _ _ _ _ _ R) as (ps & prest & PS & (P1 & P2 & P3 & P4 & P5) & PP).
  destruct (r_hist _ _ _ _ _ _ R) as (hs & hrest & HS & (H1 & H2 & H3) & HP & HT).
  destruct (build_gen c _ L s CO SI (r_names _ _ _ _ _ _ R) P4) as (d & B & D1 & D2 & D3 & D4 & D5 & D6). cbn [fresh b_gs app] in *.
  exists s, g, f, d, gs, rest, ps, prest, hs, hrest. split; [exact E|]. split; [exact B|]. split; [exact SS|]. split; [exact PS|]. split; [exact HS|].
  split; [split; [exact D1|split]|].
  - intros k Hk NO. rewrite (D2 k NO Hk). apply (P3 k). unfold pass_customs. apply in_map_iff. exists k. auto.
  - intros k Hk NP NO. apply D3; [rewrite in_app_iff; tauto|]. unfold custom_columns. apply in_map_iff. exists k. auto.
  - intros k NC. assert (NI : ~ In k (map fst (c_once c) ++ c_pcustom c ++ c_custom c)) by (rewrite !in_app_iff; exact NC).
    assert (INO : forall X, inclb X (outp_names c) = true -> In k X -> get d k = get (v_at s) k).
    { intros X HX Hk. apply D5; [exact NI|]. exact (inclb_ok _ _ HX k Hk). }
    split; [intros f0 Hf; exact (D4 k f0 NI Hf)|].
    split; [intros f0 Hf; rewrite (INO (map fst (pass_rows c w))); [exact (P1 k f0 Hf)|unfold pass_rows, outp_names; destruct (k_seg (c_ic c)); reflexivity|exact (in_map fst _ _ Hf)]|].
    split; [intros f0 Hf; rewrite (INO (map fst pass_nums)); [exact (P2 k f0 Hf)|reflexivity|exact (in_map fst _ _ Hf)]|].
    split; [intros f0 Hf; rewrite (INO (map fst (hist_rows c w))); [exact (H1 k f0 Hf)|unfold hist_rows, outp_names; destruct (c_cos c); reflexivity|exact (in_map fst _ _ Hf)]|].
    split; [intros ->; rewrite (INO ["t_En_hist"]); [exact (H2 _ _ (or_introl eq_refl))|reflexivity|left; reflexivity]|].
    destruct (r_sc _ _ _ _ _ _ R) as [SC1 SC2].
    split; [intros ->; rewrite (INO ["t_sc_video"]); [exact SC1|reflexivity|left; reflexivity]|].
    split; [intros ->; rewrite (INO ["U_sc_eV"]); [exact SC2|reflexivity|left; reflexivity]|].
    intros v Hv. rewrite (D6 k NI); [exact Hv|]. eapply get_In, Hv.
Qed.

(** ** Continuing from the file *)
Lemma reload_needs c d t tE n k : In k needed -> get d k = None -> resumed c n d t tE = None.
Proof.
  intros Hk G. destruct (resumed c n d t tE) as [sL|] eqn:E; [|reflexivity]. exfalso. destruct (resumed_some _ _ _ _ _ _ E) as (s' & X & _).
  destruct (load_some _ _ _ _ _ X) as (_ & i & j & m & l0 & E1 & E2 & E3 & _ & E4). rewrite loaded_get in E1, E2, E3, E4.
  cbn [needed In] in Hk. destruct Hk as [<-|[<-|[<-|[<-|[]]]]]; rewrite G in *; discriminate.
Qed.
