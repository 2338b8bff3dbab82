(** Groups of steps, sums of rows, and the saves other than the step-by-step
    data. *)
From Coq Require Import String Lia Lra Bool.
From Verif Require Import Num NumFacts MP SpecMP MPFacts Impact Saver SpecSaver SaverFacts SaverFacts2 SaverFacts3.
Local Open Scope string_scope.
Local Open Scope list_scope.
Local Open Scope R_scope.

(** ** Groups *)

Definition end_time (last : R) (gs : list (list step)) : R := match rev gs with g :: _ => now ob_t g | [] => last end.
Definition split_as (close : R -> step -> bool) (last : R) (l : list step) (gs : list (list step)) (rest : list step) : Prop :=
  l = concat gs ++ rest /\ groups close last gs rest.

Lemma end_time_snoc last gs g q : end_time last (gs ++ [g ++ [q]]) = ob_t (fst q).
Proof. unfold end_time. rewrite rev_app_distr. cbn. apply now_last. Qed.

Lemma end_time_cons last g q gs : end_time last ((g ++ [q]) :: gs) = end_time (s_time q) gs.
Proof.
  unfold end_time. cbn [rev]. destruct (rev gs) as [|a b]; cbn [app]; [apply now_last|reflexivity].
Qed.

Lemma groups_close close last gs rest q : groups close last gs rest -> close (end_time last gs) q = true ->
  groups close last (gs ++ [rest ++ [q]]) [].
Proof.
  induction 1 as [last rest H|last g q0 gs rest H1 H2 H3 IH]; intros C.
  - apply groups_cons; [exact H|exact C|constructor; constructor].
  - cbn [app]. apply groups_cons; [exact H1|exact H2|]. apply IH. rewrite end_time_cons in C. exact C.
Qed.

Lemma groups_keep close last gs rest q : groups close last gs rest -> close (end_time last gs) q = false ->
  groups close last gs (rest ++ [q]).
Proof.
  induction 1 as [last rest H|last g q0 gs rest H1 H2 H3 IH]; intros C.
  - constructor. apply Forall_app. split; [exact H|constructor; [exact C|constructor]].
  - apply groups_cons; [exact H1|exact H2|]. apply IH. rewrite end_time_cons in C. exact C.
Qed.

Lemma split_close close last l gs rest q : split_as close last l gs rest -> close (end_time last gs) q = true ->
  split_as close last (l ++ [q]) (gs ++ [rest ++ [q]]) [].
Proof.
  intros [E G] C. split; [|apply groups_close; assumption]. rewrite E, concat_app. cbn. rewrite !app_nil_r, app_assoc. reflexivity.
Qed.

Lemma split_keep close last l gs rest q : split_as close last l gs rest -> close (end_time last gs) q = false ->
  split_as close last (l ++ [q]) gs (rest ++ [q]).
Proof. intros [E G] C. split; [|apply groups_keep; assumption]. rewrite E, app_assoc. reflexivity. Qed.

(** ** Rows *)

Lemma row_total_last n f g q : row_total n f (g ++ [q]) = ladd (row_total n f g) (f (snd q)).
Proof. unfold row_total, row_sum. rewrite map_app, fold_left_app. reflexivity. Qed.

Lemma ladd_length a b : List.length a = List.length b -> List.length (ladd a b) = List.length a.
Proof. intros H. unfold ladd. rewrite map2_length. lia. Qed.

Lemma row_total_length n f g : Forall (fun q => List.length (f (snd q)) = n) g -> List.length (row_total n f g) = n.
Proof.
  induction g as [|q g IH] using rev_ind; intros H; [apply repeat_length|].
  apply Forall_app in H. destruct H as [H1 H2]. inversion_clear H2. rewrite row_total_last, ladd_length; rewrite IH; auto.
Qed.

Lemma row_total_nil n f : row_total n f [] = repeat 0 n.
Proof. reflexivity. Qed.

(** ** Names *)

Definition names_S : list string := ["el_dens_at_probes"; "t"; "lam_t_array"; "Nel_timep"; "Nel_imp_time"; "Nel_emit_time"; "En_imp_eV_time"; "En_emit_eV_time";
  "En_kin_eV_time"; "cen_density"; "N_mp_time"; "nel_mp_ref_time"; "Nel_cross_ion"; "N_mp_cross_ion"; "DN_cross_ion"; "En_electric_eV_time"].
Definition names_P : list string := ["nel_hist"; "nel_impact_hist_tot"; "nel_impact_hist_scrub"; "energ_eV_impact_hist"; "nel_hist_impact_seg";
  "nel_hist_emit_seg"; "energ_eV_impact_seg"; "nel_hist_det"; "t_hist"; "N_mp_impact_pass"; "N_mp_corrected_pass"; "N_mp_pass"; "N_mp_ref_pass"].
Definition names_H : list string := ["En_hist"; "cos_angle_hist"; "all_Ekin_hist"; "t_En_hist"; "En_hist_seg"].
Definition names_L : list string := ["lifetime_hist"; "t_lifetime_hist"].
Definition names_C : list string := ["t_sc_video"; "U_sc_eV"].

Lemma in_S c k : In k ("el_dens_at_probes" :: sbs_members c) -> In k names_S.
Proof. revert k. apply inclb_ok. unfold sbs_members. destruct (c_det c), (c_cross c), (c_elec c); reflexivity. Qed.

(** [s'] differs from [s] in the attributes at most in those named in [X]. *)
Definition only_at (X : list string) (s s' : sst) : Prop :=
  (forall k, ~ In k X -> get (v_at s') k = get (v_at s) k) /\ map fst (v_at s') = map fst (v_at s).

Lemma only_at_refl X s : only_at X s s.
Proof. split; auto. Qed.

Lemma only_get X Y s s' k : only_at X s s' -> apartb Y X = true -> In k Y -> get (v_at s') k = get (v_at s) k.
Proof. intros [F _] A H. apply F. exact (apartb_ok _ _ A _ H). Qed.

(** ** Columns of rows and of numbers *)

(** What is already in the record at the start of a run: step-by-step samples,
    rows and numbers by name, the energy histograms of the segments, and the
    steps that count for the energy and lifetime histograms being filled, with
    the times of the last ones saved. *)
Record base := mkBase {
  b_gs : list (list step); b_rows : string -> list (list R); b_nums : string -> list R; b_cube : nat -> list (list R);
  b_hl : list step; b_th : R; b_ll : list step; b_tl : R }.

Definition rows_ok (B : base) (rs : list (string * (list step -> list R))) (G : list (list step)) (d : dict) : Prop :=
  forall k f, In (k, f) rs -> get d k = Some (VMat (b_rows B k ++ map f G)).
Definition nums_at (B : string -> list R) (rs : list (string * (list step -> R))) (G : list (list step)) (d : dict) : Prop :=
  forall k f, In (k, f) rs -> get d k = Some (VArr (B k ++ map f G)).
Notation nums_ok B := (nums_at (b_nums B)).

Lemma rows_frame B rs G d d' : rows_ok B rs G d -> (forall k, In k (map fst rs) -> get d' k = get d k) -> rows_ok B rs G d'.
Proof. intros H F k f HI. rewrite F; [apply H, HI|exact (in_map fst _ _ HI)]. Qed.
Lemma nums_frame B rs G d d' : nums_at B rs G d -> (forall k, In k (map fst rs) -> get d' k = get d k) -> nums_at B rs G d'.
Proof. intros H F k f HI. rewrite F; [apply H, HI|exact (in_map fst _ _ HI)]. Qed.

Lemma append_rows_ok B rs G d q ls : NoDup (map fst ls) -> map fst ls = map fst rs -> rows_ok B rs G d ->
  (forall k f, In (k, f) rs -> In (k, f q) ls) ->
  exists d', append_rows d ls = Some d' /\ rows_ok B rs (G ++ [q]) d' /\ (forall k, ~ In k (map fst ls) -> get d' k = get d k) /\ map fst d' = map fst d.
Proof.
  intros ND EN OK IN. destruct (append_rows_spec ls d ND) as (d' & E & P & F & K).
  - intros k Hk. rewrite EN in Hk. apply in_map_iff in Hk. destruct Hk as ([k' f] & <- & H). eexists. apply OK, H.
  - exists d'. split; [exact E|]. split; [|auto]. intros k f H. rewrite (P k (f q) _ (IN k f H) (OK k f H)), map_app, app_assoc. reflexivity.
Qed.

Lemma append_nums_ok B rs G d q ls : NoDup (map fst ls) -> map fst ls = map fst rs -> nums_at B rs G d ->
  (forall k f, In (k, f) rs -> In (k, f q) ls) ->
  exists d', append_nums d ls = Some d' /\ nums_at B rs (G ++ [q]) d' /\ (forall k, ~ In k (map fst ls) -> get d' k = get d k) /\ map fst d' = map fst d.
Proof.
  intros ND EN OK IN. destruct (append_nums_spec ls d ND) as (d' & E & P & F & K).
  - intros k Hk. rewrite EN in Hk. apply in_map_iff in Hk. destruct Hk as ([k' f] & <- & H). eexists. apply OK, H.
  - exists d'. split; [exact E|]. split; [|auto]. intros k f H. rewrite (P k (f q) _ (IN k f H) (OK k f H)), map_app, app_assoc. reflexivity.
Qed.

(** ** The energy histograms *)

Definition seg_on (c : scfg) : bool := k_seg (c_ic c) && k_segline (c_ic c).
Definition lines_ok (B : base) (c : scfg) (w : iman) (G : list (list step)) (d : dict) : Prop :=
  seg_on c = true -> exists q, get d "En_hist_seg" = Some (VCube q) /\ List.length q = c_nvert c /\
    forall i, (i < c_nvert c)%nat -> nth i q [] = b_cube B i ++ map (seg_line w i) G.
Definition hist_inv (B : base) (c : scfg) (w : iman) (G : list (list step)) (d : dict) : Prop :=
  rows_ok B (hist_rows c w) G d /\ nums_ok B [("t_En_hist", now ob_t)] G d /\ lines_ok B c w G d.
Record hist_pend (c : scfg) (w g : iman) (rest : list step) : Prop := mkHistPend {
  hp_line : g_line g = row_total (List.length (g_line w)) g_line rest;
  hp_cos : c_cos c = true -> g_cos g = row_total (List.length (g_cos w)) g_cos rest;
  hp_len : seg_on c = true -> List.length (g_seglines g) = c_nvert c;
  hp_seg : seg_on c = true -> forall i, (i < c_nvert c)%nat -> nth i (g_seglines g) [] = seg_line w i rest }.

Lemma hist_frame B0 c w G d d' : hist_inv B0 c w G d -> (forall k, In k names_H -> get d' k = get d k) -> hist_inv B0 c w G d'.
Proof.
  intros (A & B & C) F. split; [|split].
  - eapply rows_frame; [exact A|]. intros k H. apply F. revert k H. apply inclb_ok. unfold hist_rows. destruct (c_cos c); reflexivity.
  - eapply nums_frame; [exact B|]. intros k H. apply F. revert k H. apply inclb_ok. reflexivity.
  - intros S. destruct (C S) as (q & E & R). exists q. split; [|exact R]. rewrite F; [exact E|]. cbn. tauto.
Qed.

Lemma map2_snoc_nth {A} : forall (q : list (list A)) (r : list A) i d, List.length r = List.length q -> (i < List.length q)%nat ->
  nth i (map2 (fun l x => l ++ [x]) q r) [] = nth i q [] ++ [nth i r d].
Proof.
  induction q as [|a q IH]; intros [|b r] i d L H; cbn in *; try lia. destruct i as [|i]; [reflexivity|]. apply IH; lia.
Qed.

Lemma energy_step B0 c w G rest s ob d g :
  wf (ob_mp ob) -> 0 < k_DEn (c_ic c) -> (0 < c_nbin c)%nat -> 0 < k_mass (c_ic c) -> 0 < k_qe (c_ic c) ->
  hist_inv B0 c w G (v_at s) -> hist_pend c w g (rest ++ [(ob, d)]) ->
  exists s', energy_save c ob g s = Some (s', if hist_due (c_DtEn c) (v_tEn s) (ob, d) then reset_en c g else g) /\
    only_at names_H s s' /\ v_i s' = v_i s /\ v_tlast s' = v_tlast s /\ v_nimp s' = v_nimp s /\ v_nemit s' = v_nemit s /\ v_eimp s' = v_eimp s /\
    v_eemit s' = v_eemit s /\ v_sbs s' = v_sbs s /\ v_pbp s' = v_pbp s /\ v_tlife s' = v_tlife s /\ v_dline s' = v_dline s /\
    if hist_due (c_DtEn c) (v_tEn s) (ob, d) then hist_inv B0 c w (G ++ [rest ++ [(ob, d)]]) (v_at s') /\ v_tEn s' = ob_t ob else s' = s.
Proof.
  intros W H1 H2 H3 H4 (A & B & C) P. unfold energy_save, hist_due, s_time. fold (isclose (ob_t (fst (ob, d))) (v_tEn s + c_DtEn c)). cbn [fst].
  destruct (Rgeb (ob_t ob) (v_tEn s + c_DtEn c) || isclose (ob_t ob) (v_tEn s + c_DtEn c)) eqn:ED.
  2: { exists s. split; [reflexivity|]. split; [apply only_at_refl|]. repeat split. }
  rewrite ekin_hist_eq by assumption. cbn [bind].
  set (ls := [("En_hist", g_line g)] ++ _).
  destruct (append_rows_ok B0 (hist_rows c w) G (v_at s) (rest ++ [(ob, d)]) ls) as (a & E1 & R1 & F1 & K1).
  { unfold ls. destruct (c_cos c); apply nodupb_ok; reflexivity. }
  { unfold ls, hist_rows. destruct (c_cos c); reflexivity. }
  { exact A. }
  { intros k f. unfold hist_rows, ls. rewrite !in_app_iff. intros [H|[H|H]].
    - left. destruct H as [H|[]]. injection H as <- <-. left. rewrite (hp_line _ _ _ _ P). reflexivity.
    - right; left. destruct (c_cos c) eqn:EC; [|contradiction]. destruct H as [H|[]]. injection H as <- <-. left. rewrite (hp_cos _ _ _ _ P EC). reflexivity.
    - right; right. destruct H as [H|[]]. injection H as <- <-. left. rewrite at_end_last. reflexivity. }
  rewrite E1. cbn [bind].
  destruct (append_nums_ok (b_nums B0) [("t_En_hist", now ob_t)] G a (rest ++ [(ob, d)]) [("t_En_hist", ob_t ob)]) as (a2 & E2 & R2 & F2 & K2).
  { apply nodupb_ok; reflexivity. } { reflexivity. }
  { eapply nums_frame; [exact B|]. intros k [<-|[]]. apply F1. apply (apartb_ok ["t_En_hist"]); [|left; reflexivity].
    unfold ls. destruct (c_cos c); reflexivity. }
  { intros k f [H|[]]. injection H as <- <-. left. rewrite now_last. reflexivity. }
  rewrite E2. cbn [bind].
  assert (R1' : rows_ok B0 (hist_rows c w) (G ++ [rest ++ [(ob, d)]]) a2).
  { eapply rows_frame; [exact R1|]. intros k Hk. apply F2. revert k Hk. apply apartb_ok. unfold hist_rows. destruct (c_cos c); reflexivity. }
  assert (FA : forall k, ~ In k ["En_hist"; "cos_angle_hist"; "all_Ekin_hist"; "t_En_hist"] -> get a2 k = get (v_at s) k).
  { intros k Hk. rewrite F2, F1; [reflexivity| |].
    - intros X. apply Hk. revert X. clear. intros X. refine (inclb_ok (map fst ls) _ _ k X). unfold ls. destruct (c_cos c); reflexivity.
    - intros [X|[]]. apply Hk. subst k. cbn. tauto. }
  unfold append_lines. fold (seg_on c). destruct (seg_on c) eqn:ES.
  - destruct (C ES) as (q & Gq & Lq & Nq). rewrite FA, Gq.
    2: { apply (apartb_ok ["En_hist_seg"]); [reflexivity|left; reflexivity]. }
    cbn [bind]. eexists. split; [reflexivity|]. split; [|do 10 (split; [reflexivity|])].
    + split; cbn [v_at].
      * intros k Hk. rewrite get_put_other; [apply FA|intros ->; apply Hk; cbn; tauto]. intros X. apply Hk.
        revert X. clear. intros X. apply (inclb_ok ["En_hist"; "cos_angle_hist"; "all_Ekin_hist"; "t_En_hist"]); [reflexivity|exact X].
      * rewrite put_keys; [congruence|]. rewrite K2, K1. eapply get_In, Gq.
    + split; [|reflexivity]. cbn [v_at]. split; [|split].
      * eapply rows_frame; [exact R1'|]. intros k Hk. apply get_put_other. intros ->. revert Hk. apply apartb_ok with (l := ["En_hist_seg"]); [|left; reflexivity].
        unfold hist_rows. destruct (c_cos c); reflexivity.
      * eapply nums_frame; [exact R2|]. intros k [<-|[]]. apply get_put_other. discriminate.
      * intros _. eexists. split; [apply get_put_same|]. pose proof (hp_len _ _ _ _ P ES) as LL. split; [rewrite map2_length; lia|].
        intros i Hi. rewrite (map2_snoc_nth _ _ _ []) by lia. rewrite (hp_seg _ _ _ _ P ES i Hi), (Nq i Hi), map_app, app_assoc. reflexivity.
  - cbn [bind]. eexists. split; [reflexivity|]. split; [|do 10 (split; [reflexivity|])].
    + split; cbn [v_at]; [|congruence]. intros k Hk. apply FA. intros X. apply Hk.
      revert X. clear. intros X. apply (inclb_ok ["En_hist"; "cos_angle_hist"; "all_Ekin_hist"; "t_En_hist"]); [reflexivity|exact X].
    + split; [|reflexivity]. cbn [v_at]. split; [exact R1'|]. split; [exact R2|]. intros X. congruence.
Qed.

(** ** The lifetime histograms *)

Definition life_inv (B : base) (w : iman) (G : list (list step)) (d : dict) : Prop :=
  rows_ok B [("lifetime_hist", row_total (List.length (g_life w)) g_life)] G d /\ nums_ok B [("t_lifetime_hist", now ob_t)] G d.

Lemma life_step B0 c D w G rest s ob d g : c_life c = Some D ->
  life_inv B0 w G (v_at s) -> g_life g = row_total (List.length (g_life w)) g_life (rest ++ [(ob, d)]) ->
  exists s', lifetime_save c ob g s = Some (s', if hist_due D (v_tlife s) (ob, d) then reset_life g else g) /\
    only_at names_L s s' /\ v_i s' = v_i s /\ v_tlast s' = v_tlast s /\ v_nimp s' = v_nimp s /\ v_nemit s' = v_nemit s /\ v_eimp s' = v_eimp s /\
    v_eemit s' = v_eemit s /\ v_sbs s' = v_sbs s /\ v_pbp s' = v_pbp s /\ v_tEn s' = v_tEn s /\ v_dline s' = v_dline s /\
    if hist_due D (v_tlife s) (ob, d) then life_inv B0 w (G ++ [rest ++ [(ob, d)]]) (v_at s') /\ v_tlife s' = ob_t ob else s' = s.
Proof.
  intros EL (A & B) P. unfold lifetime_save, hist_due, s_time. fold (isclose (ob_t (fst (ob, d))) (v_tlife s + D)). rewrite EL. cbn [fst].
  destruct (Rgeb (ob_t ob) (v_tlife s + D) || isclose (ob_t ob) (v_tlife s + D)) eqn:ED.
  2: { exists s. split; [reflexivity|]. split; [apply only_at_refl|]. repeat split. }
  destruct (append_rows_ok B0 [("lifetime_hist", row_total (List.length (g_life w)) g_life)] G (v_at s) (rest ++ [(ob, d)]) [("lifetime_hist", g_life g)]) as (a & E1 & R1 & F1 & K1).
  { apply nodupb_ok; reflexivity. } { reflexivity. } { exact A. }
  { intros k f [H|[]]. injection H as <- <-. left. rewrite P. reflexivity. }
  rewrite E1. cbn [bind].
  destruct (append_nums_ok (b_nums B0) [("t_lifetime_hist", now ob_t)] G a (rest ++ [(ob, d)]) [("t_lifetime_hist", ob_t ob)]) as (a2 & E2 & R2 & F2 & K2).
  { apply nodupb_ok; reflexivity. } { reflexivity. }
  { eapply nums_frame; [exact B|]. intros k [<-|[]]. apply F1. intros [X|[]]. discriminate X. }
  { intros k f [H|[]]. injection H as <- <-. left. rewrite now_last. reflexivity. }
  rewrite E2. cbn [bind]. eexists. split; [reflexivity|]. split; [|do 10 (split; [reflexivity|])].
  - split; cbn [v_at]; [|congruence]. intros k Hk. rewrite F2, F1; [reflexivity| |].
    + intros [X|[]]. apply Hk. left. exact X.
    + intros [X|[]]. apply Hk. right; left. exact X.
  - split; [|reflexivity]. cbn [v_at]. split; [|exact R2]. eapply rows_frame; [exact R1|]. intros k [<-|[]]. apply F2. intros [X|[]]. discriminate X.
Qed.

Lemma life_frame B0 w G d d' : life_inv B0 w G d -> (forall k, In k names_L -> get d' k = get d k) -> life_inv B0 w G d'.
Proof.
  intros (A & B) F. split; [eapply rows_frame; [exact A|]|eapply nums_frame; [exact B|]]; intros k [<-|[]]; apply F; cbn; tauto.
Qed.

(** ** The space charge energy *)

Definition sc_inv (B : base) (l : list step) (d : dict) : Prop :=
  get d "t_sc_video" = Some (VArr (b_nums B "t_sc_video" ++ map s_time (filter (fun q => ob_check (fst q)) l))) /\
  get d "U_sc_eV" = Some (VArr (b_nums B "U_sc_eV" ++ map (fun q => ob_U (fst q)) (filter (fun q => ob_check (fst q)) l))).

Lemma sc_step B0 l s ob d : sc_inv B0 l (v_at s) ->
  exists s', sc_energy_save ob s = Some s' /\
    only_at names_C s s' /\ v_i s' = v_i s /\ v_tlast s' = v_tlast s /\ v_nimp s' = v_nimp s /\ v_nemit s' = v_nemit s /\ v_eimp s' = v_eimp s /\
    v_eemit s' = v_eemit s /\ v_sbs s' = v_sbs s /\ v_pbp s' = v_pbp s /\ v_tEn s' = v_tEn s /\ v_tlife s' = v_tlife s /\ v_dline s' = v_dline s /\
    sc_inv B0 (l ++ [(ob, d)]) (v_at s').
Proof.
  intros (A & B). unfold sc_energy_save, sc_inv. rewrite !filter_app. cbn [filter fst]. destruct (ob_check ob) eqn:EC.
  - destruct (append_nums_spec [("t_sc_video", ob_t ob); ("U_sc_eV", ob_U ob)] (v_at s)) as (a & E & P & F & K).
    { apply nodupb_ok; reflexivity. }
    { intros k [<-|[<-|[]]]; eauto. }
    rewrite E. cbn [bind]. eexists. split; [reflexivity|]. split; [split; [exact F|exact K]|]. do 11 (split; [reflexivity|]). cbn [v_at].
    rewrite !map_app, !app_assoc. split; [apply (P "t_sc_video" (ob_t ob) _ (or_introl eq_refl) A)|apply (P "U_sc_eV" (ob_U ob) _ (or_intror (or_introl eq_refl)) B)].
  - exists s. split; [reflexivity|]. split; [apply only_at_refl|]. do 11 (split; [reflexivity|]). rewrite !app_nil_r. auto.
Qed.

(** ** The data of the passages *)

Definition det_inv (B : base) (c : scfg) (G : list (list step)) (s : sst) : Prop :=
  forall h, c_hdet c = Some h -> get (v_at s) "nel_hist_det" = Some (VMat (b_rows B "nel_hist_det" ++ det_lines h (repeat 0 (hd_n h)) G)) /\
    v_dline s = last (repeat 0 (hd_n h) :: det_lines h (repeat 0 (hd_n h)) G) [] /\ List.length (v_dline s) = hd_n h.
Definition pass_inv (B : base) (c : scfg) (w : iman) (G : list (list step)) (s : sst) : Prop :=
  rows_ok B (pass_rows c w) G (v_at s) /\ nums_ok B pass_nums G (v_at s) /\ nums_at (fun _ => []) (pass_customs c) G (v_pbp s) /\
  map fst (v_pbp s) = c_pcustom c /\ det_inv B c G s.
Record pass_pend (c : scfg) (w g : iman) (rest : list step) : Prop := mkPassPend {
  pp_tot : g_tot g = row_total (List.length (g_tot w)) g_tot rest;
  pp_scrub : g_scrub g = row_total (List.length (g_scrub w)) g_scrub rest;
  pp_en : g_en g = row_total (List.length (g_en w)) g_en rest;
  pp_seg : k_seg (c_ic c) = true -> g_seg g = row_total (List.length (g_seg w)) g_seg rest;
  pp_segemit : k_seg (c_ic c) = true -> g_segemit g = row_total (List.length (g_segemit w)) g_segemit rest;
  pp_segen : k_seg (c_ic c) = true -> g_segen g = row_total (List.length (g_segen w)) g_segen rest }.

Lemma det_lines_snoc h : forall gs line g, det_lines h line (gs ++ [g]) = det_lines h line gs ++ [det_line h (last (line :: det_lines h line gs) []) g].
Proof.
  induction gs as [|g0 gs IH]; intros line g; [reflexivity|]. cbn [app det_lines]. rewrite IH. cbn [app]. f_equal.
Qed.

Lemma last_snoc {A} (l : list A) x y d : last (x :: l ++ [y]) d = y.
Proof. rewrite app_comm_cons. apply last_last. Qed.

Lemma pass_frame B0 c w G s s' : pass_inv B0 c w G s -> (forall k, In k names_P -> get (v_at s') k = get (v_at s) k) -> v_pbp s' = v_pbp s -> v_dline s' = v_dline s ->
  pass_inv B0 c w G s'.
Proof.
  intros (A & B & C & D & E) F E1 E2. split; [|split; [|split; [|split]]].
  - eapply rows_frame; [exact A|]. intros k H. apply F. revert k H. apply inclb_ok. unfold pass_rows. destruct (k_seg (c_ic c)); reflexivity.
  - eapply nums_frame; [exact B|]. intros k H. apply F. revert k H. apply inclb_ok. reflexivity.
  - rewrite E1. exact C.
  - rewrite E1. exact D.
  - intros h Hh. rewrite E2, F by (cbn; tauto). apply E, Hh.
Qed.

Lemma histogram_length b D n pts : List.length (histogram b D n pts) = n.
Proof. unfold histogram. rewrite map_length, seq_length. reflexivity. Qed.

Lemma pass_step B0 c w G rest s ob d g : NoDup (c_pcustom c) ->
  (forall h, c_hdet c = Some h -> (0 < hd_n h)%nat /\ 0 < hd_Dx h /\ hd_bias h <= hd_x0 h) ->
  wf (ob_mp ob) -> 0 < k_Dx (c_ic c) -> (0 < c_nx c)%nat -> Forall (fun p => k_bias (c_ic c) <= m_x p) (live (ob_mp ob)) ->
  pass_inv B0 c w G s -> pass_pend c w g (rest ++ [(ob, d)]) ->
  exists s', pass_by_pass_data_save c ob g s = Some (s', reset_pass c g) /\
    only_at names_P s s' /\ v_i s' = v_i s /\ v_tlast s' = v_tlast s /\ v_nimp s' = v_nimp s /\ v_nemit s' = v_nemit s /\ v_eimp s' = v_eimp s /\
    v_eemit s' = v_eemit s /\ v_sbs s' = v_sbs s /\ v_tEn s' = v_tEn s /\ v_tlife s' = v_tlife s /\
    pass_inv B0 c w (G ++ [rest ++ [(ob, d)]]) s'.
Proof.
  intros ND HD W H1 H2 H3 (A & B & C & D & E) P. unfold pass_by_pass_data_save. rewrite position_hist_eq by assumption. cbn [bind].
  assert (exists dl, detail_line c (ob_mp ob) (v_dline s) = Some dl /\ forall h, c_hdet c = Some h -> dl = det_line h (v_dline s) (rest ++ [(ob, d)]) /\ List.length dl = hd_n h) as (dl & ED & PD).
  { destruct (c_hdet c) as [h|] eqn:EH.
    - destruct (HD h eq_refl) as (X1 & X2 & X3). destruct (E h EH) as (_ & _ & LL). rewrite (detail_line_eq c (ob_mp ob) h) by assumption.
      eexists. split; [reflexivity|]. intros h' X. injection X as <-. unfold det_line. rewrite at_end_last. cbn [fst]. split; [reflexivity|].
      destruct (Nat.ltb 0 (N_mp (ob_mp ob))); [apply histogram_length|exact LL].
    - unfold detail_line. rewrite EH. eexists. split; [reflexivity|]. discriminate. }
  rewrite ED. cbn [bind].
  set (ls := [("nel_hist", x_histogram c (ob_mp ob)); _; _; _] ++ _).
  destruct (append_rows_spec ls (v_at s)) as (a & E1 & P1 & F1 & K1).
  { unfold ls. destruct (k_seg (c_ic c)), (c_hdet c); apply nodupb_ok; reflexivity. }
  { intros k Hk. unfold ls in Hk. rewrite app_assoc, map_app, in_app_iff in Hk. destruct Hk as [Hk|Hk].
    - assert (X : In k (map fst (pass_rows c w))).
      { revert k Hk. apply inclb_ok. unfold pass_rows. destruct (k_seg (c_ic c)); reflexivity. }
      apply in_map_iff in X. destruct X as ([k' f] & <- & X). eexists. apply A, X.
    - destruct (c_hdet c) as [h|] eqn:EH; [|contradiction]. destruct Hk as [<-|[]]. destruct (E h EH) as (X & _). eexists. exact X. }
  rewrite E1. cbn [bind].
  assert (R1 : rows_ok B0 (pass_rows c w) (G ++ [rest ++ [(ob, d)]]) a).
  { intros k f H. rewrite (P1 k (f (rest ++ [(ob, d)])) (b_rows B0 k ++ map f G)); [rewrite map_app, app_assoc; reflexivity| |apply A, H].
    unfold pass_rows in H. unfold ls. rewrite !in_app_iff in *. destruct H as [H|H].
    - left. cbn [In] in H. destruct H as [H|[H|[H|[H|[]]]]]; injection H as <- <-.
      + left. rewrite at_end_last. reflexivity.
      + right; left. rewrite (pp_tot _ _ _ _ P). reflexivity.
      + right; right; left. rewrite (pp_scrub _ _ _ _ P). reflexivity.
      + right; right; right; left. rewrite (pp_en _ _ _ _ P). reflexivity.
    - right; left. destruct (k_seg (c_ic c)) eqn:ES; [|contradiction]. cbn [In] in H. destruct H as [H|[H|[H|[]]]]; injection H as <- <-.
      + left. rewrite (pp_seg _ _ _ _ P ES). reflexivity.
      + right; left. rewrite (pp_segemit _ _ _ _ P ES). reflexivity.
      + right; right; left. rewrite (pp_segen _ _ _ _ P ES). reflexivity. }
  assert (FA : forall k, ~ In k ["nel_hist"; "nel_impact_hist_tot"; "nel_impact_hist_scrub"; "energ_eV_impact_hist"; "nel_hist_impact_seg"; "nel_hist_emit_seg"; "energ_eV_impact_seg"; "nel_hist_det"] -> get a k = get (v_at s) k).
  { intros k Hk. apply F1. intros X. apply Hk. revert X. clear. intros X. refine (inclb_ok (map fst ls) _ _ k X). unfold ls. destruct (k_seg (c_ic c)), (c_hdet c); reflexivity. }
  set (ns := [("t_hist", ob_t ob); _; _; _; _]).
  destruct (append_nums_ok (b_nums B0) pass_nums G a (rest ++ [(ob, d)]) ns) as (a2 & E2 & R2 & F2 & K2).
  { apply nodupb_ok; reflexivity. } { reflexivity. }
  { eapply nums_frame; [exact B|]. intros k Hk. apply FA. revert k Hk. apply apartb_ok. reflexivity. }
  { intros k f H. unfold pass_nums in H. unfold ns. cbn [In] in H.
    repeat (destruct H as [H|H]; [injection H as <- <-; rewrite now_last; repeat (first [left; reflexivity|right])|]). contradiction. }
  rewrite E2. cbn [bind].
  destruct (append_nums_ok (fun _ => []) (pass_customs c) G (v_pbp s) (rest ++ [(ob, d)]) (map (fun k => (k, ob_custom ob k)) (c_pcustom c))) as (p & E3 & R3 & F3 & K3).
  { rewrite map_map. cbn [fst]. rewrite map_id. exact ND. }
  { unfold pass_customs. rewrite !map_map. reflexivity. }
  { exact C. }
  { intros k f H. unfold pass_customs in H. apply in_map_iff in H. destruct H as (k0 & X & H). injection X as -> <-. rewrite now_last.
    apply in_map_iff. exists k. split; [reflexivity|exact H]. }
  rewrite E3. cbn [bind]. eexists. split; [reflexivity|]. split; [|do 9 (split; [reflexivity|])].
  - split; cbn [v_at]; [|congruence]. intros k Hk. rewrite F2, FA; [reflexivity| |]; intros X; apply Hk; revert X; clear; intros X.
    + refine (inclb_ok _ _ _ k X). reflexivity.
    + refine (inclb_ok (map fst ns) _ _ k X). reflexivity.
  - split; [|split; [|split; [|split]]]; cbn [v_at v_pbp v_dline].
    + eapply rows_frame; [exact R1|]. intros k Hk. apply F2. revert k Hk. apply apartb_ok. unfold pass_rows, ns. destruct (k_seg (c_ic c)); reflexivity.
    + exact R2.
    + exact R3.
    + congruence.
    + intros h EH. destruct (E h EH) as (X1 & X2 & X3). destruct (PD h EH) as (Y1 & Y2). cbn [v_at v_dline]. rewrite det_lines_snoc, last_snoc. split; [|split].
      * rewrite F2 by (apply (apartb_ok ["nel_hist_det"]); [reflexivity|left; reflexivity]).
        rewrite (P1 "nel_hist_det" dl (b_rows B0 "nel_hist_det" ++ det_lines h (repeat 0 (hd_n h)) G)); [rewrite Y1, X2, app_assoc; reflexivity| |exact X1].
        unfold ls. rewrite EH, !in_app_iff. right; right. left. reflexivity.
      * rewrite <- X2. exact Y1.
      * exact Y2.
Qed.
