(** The recorder over a whole run. *)
From Coq Require Import String Lia Lra Bool.
From Verif Require Import Num NumFacts MP SpecMP MPFacts Impact Saver SpecSaver SaverFacts SaverFacts2 SaverFacts3 SaverFacts4.
Local Open Scope string_scope.
Local Open Scope list_scope.
Local Open Scope R_scope.

Definition w_ok (c : scfg) (w : iman) : Prop := seg_on c = true -> List.length (g_seglines w) = c_nvert c.

(** ** Pending sums *)

Lemma map2_nth {A B C} (f : A -> B -> C) : forall a b i x y z, (i < List.length a)%nat -> (i < List.length b)%nat -> nth i (map2 f a b) z = f (nth i a x) (nth i b y).
Proof. induction a as [|p a IH]; intros [|q b] i x y z H1 H2; cbn in *; try lia. destruct i as [|i]; [reflexivity|]. apply IH; lia. Qed.

Lemma shape_lines w d : same_shape w d -> List.length (g_seglines d) = List.length (g_seglines w) /\
  forall i, List.length (nth i (g_seglines d) []) = List.length (nth i (g_seglines w) []).
Proof.
  intros (_ & _ & _ & _ & _ & _ & _ & _ & _ & H). split.
  - rewrite <- (map_length (@List.length R) (g_seglines d)), H. apply map_length.
  - intros i. rewrite <- (map_nth (@List.length R) (g_seglines d)), <- (map_nth (@List.length R) (g_seglines w)), H. reflexivity.
Qed.

Lemma hist_pend_feed c w g d ob rest : w_ok c w -> same_shape w d -> hist_pend c w g rest -> hist_pend c w (feed g d) (rest ++ [(ob, d)]).
Proof.
  intros WO SH [A B C D]. destruct (shape_lines w d SH) as [L1 L2]. constructor; cbn [feed g_line g_cos g_seglines].
  - rewrite row_total_last, A. reflexivity.
  - intros H. rewrite row_total_last, (B H). reflexivity.
  - intros H. rewrite map2_length, (C H), L1, (WO H). apply Nat.min_id.
  - intros H i Hi. unfold seg_line. rewrite row_total_last. cbn [snd]. rewrite (map2_nth _ _ _ _ [] []); [rewrite (D H i Hi); reflexivity|rewrite (C H); exact Hi|rewrite L1, (WO H); exact Hi].
Qed.

Lemma row_zeros n f g : Forall (fun q => List.length (f (snd q)) = n) g -> zeros (row_total n f g) = repeat 0 n.
Proof. intros H. rewrite zeros_repeat, row_total_length by exact H. reflexivity. Qed.

Lemma hist_pend_reset c w g G : Forall (fun q : step => same_shape w (snd q)) G -> hist_pend c w g G -> hist_pend c w (reset_en c g) [].
Proof.
  intros FS [A B C D]. constructor; cbn [reset_en g_line g_cos g_seglines].
  - rewrite A. apply row_zeros. eapply Forall_impl; [|exact FS]. intros q H. apply H.
  - intros H. rewrite H, (B H). apply row_zeros. eapply Forall_impl; [|exact FS]. intros q X. apply X.
  - intros H. fold (seg_on c). rewrite H, map_length. apply C, H.
  - intros H i Hi. fold (seg_on c). rewrite H. change (@nil R) with (zeros []). rewrite map_nth, (D H i Hi). unfold seg_line. rewrite row_zeros; [reflexivity|].
    eapply Forall_impl; [|exact FS]. intros q X. apply (proj2 (shape_lines _ _ X)).
Qed.

Lemma pass_pend_feed c w g d ob rest : pass_pend c w g rest -> pass_pend c w (feed g d) (rest ++ [(ob, d)]).
Proof.
  intros [A B C D E F]. constructor; cbn [feed g_tot g_scrub g_en g_seg g_segemit g_segen]; intros; rewrite row_total_last;
    [rewrite A|rewrite B|rewrite C|rewrite D by assumption|rewrite E by assumption|rewrite F by assumption]; reflexivity.
Qed.

Lemma pass_pend_reset c w g G : Forall (fun q : step => same_shape w (snd q)) G -> pass_pend c w g G -> pass_pend c w (reset_pass c g) [].
Proof.
  intros FS [A B C D E F].
  constructor; cbn [reset_pass g_tot g_scrub g_en g_seg g_segemit g_segen].
  1: rewrite A. 2: rewrite B. 3: rewrite C. 4: intros H; rewrite H, (D H). 5: intros H; rewrite H, (E H). 6: intros H; rewrite H, (F H).
  all: apply row_zeros; eapply Forall_impl; [|exact FS]; intros q X; apply X.
Qed.

Lemma pass_pend_en c w g G : pass_pend c w g G -> pass_pend c w (reset_en c g) G.
Proof. intros [A B C D E F]. constructor; assumption. Qed.
Lemma pass_pend_life c w g G : pass_pend c w g G -> pass_pend c w (reset_life g) G.
Proof. intros [A B C D E F]. constructor; assumption. Qed.
Lemma hist_pend_pass c w g G : hist_pend c w g G -> hist_pend c w (reset_pass c g) G.
Proof. intros [A B C D]. constructor; assumption. Qed.
Lemma hist_pend_life c w g G : hist_pend c w g G -> hist_pend c w (reset_life g) G.
Proof. intros [A B C D]. constructor; assumption. Qed.

(** ** The invariant of a run *)

Record rinv (B : base) (c : scfg) (w : iman) (l : list step) (s : sst) (g : iman) : Prop := mkRinv {
  r_sbs : exists gs rest L, split_as (sample_due c) (-1) l gs rest /\ sbs_inv c (b_gs B ++ gs) L s /\ acc_is s rest /\ v_tlast s = end_time (-1) gs;
  r_pass : exists ps rest, split_as pass_ends (-1) l ps rest /\ pass_inv B c w ps s /\ pass_pend c w g rest;
  r_hist : exists hs rest, split_as (hist_due (c_DtEn c)) (b_th B) (b_hl B ++ l) hs rest /\ hist_inv B c w hs (v_at s) /\ hist_pend c w g rest /\ v_tEn s = end_time (b_th B) hs;
  r_life : forall D, c_life c = Some D -> exists ls rest, split_as (hist_due D) (b_tl B) (b_ll B ++ l) ls rest /\ life_inv B w ls (v_at s) /\
             g_life g = row_total (List.length (g_life w)) g_life rest /\ v_tlife s = end_time (b_tl B) ls;
  r_sc : sc_inv B l (v_at s);
  r_names : forall k, In k (own_names c) -> In k (map fst (v_at s));
  r_ok : Forall (step_ok c w) l;
  r_shape : Forall (fun q : step => same_shape w (snd q)) (b_hl B ++ b_ll B) }.

Lemma sbs_frame c gs L s s' : sbs_inv c gs L s -> v_i s' = v_i s -> v_sbs s' = v_sbs s -> (forall k, In k names_S -> get (v_at s') k = get (v_at s) k) -> sbs_inv c gs L s'.
Proof.
  intros [A B C D E F] E1 E2 FR. constructor.
  - rewrite E1. exact A.
  - exact B.
  - intros k f H. rewrite FR; [apply C, H|]. apply (in_S c). right. eapply col_in; eauto.
  - rewrite E2. exact D.
  - rewrite E2. exact E.
  - intros H. rewrite FR; [apply F, H|left; reflexivity].
Qed.

Lemma sc_frame B0 l d d' : sc_inv B0 l d -> (forall k, In k names_C -> get d' k = get d k) -> sc_inv B0 l d'.
Proof. intros (A & B) F. split; rewrite F; auto; cbn; tauto. Qed.

Lemma rest_shape close last w l gs rest : split_as close last l gs rest -> Forall (fun q : step => same_shape w (snd q)) l ->
  Forall (fun q : step => same_shape w (snd q)) rest.
Proof. intros [-> _] H. apply Forall_app in H. apply H. Qed.

Lemma shape_snoc w (rest : list step) (q : step) : Forall (fun q : step => same_shape w (snd q)) rest -> same_shape w (snd q) -> Forall (fun q : step => same_shape w (snd q)) (rest ++ [q]).
Proof. intros H1 H2. apply Forall_app. split; [exact H1|constructor; [exact H2|constructor]]. Qed.

Lemma outp_incl c k : In k (outp_names c) -> In k (own_names c).
Proof.
  revert k. apply inclb_ok. unfold outp_names, own_names, sbs_init, pbp_init, hist_init.
  rewrite !map_app. cbn [map fst]. destruct (c_life c); reflexivity.
Qed.

Lemma sbs_names_own c k : In k ("el_dens_at_probes" :: sbs_members c) -> In k (own_names c).
Proof. intros H. apply in_S in H. revert k H. apply inclb_ok. reflexivity. Qed.

Lemma outp_not_sbs c k : In k (outp_names c) -> ~ In k ("el_dens_at_probes" :: sbs_members c).
Proof.
  intros H X. apply in_S in X. revert X. revert k H. apply apartb_ok. unfold outp_names. destruct (c_life c); reflexivity.
Qed.

Lemma build_spec c gs L s : cfg_ok c -> sbs_inv c gs L s -> (forall k, In k (own_names c) -> In k (map fst (v_at s))) -> map fst (v_pbp s) = c_pcustom c ->
  exists d, build_outp_dict c s = Some d /\
    (forall k f, In (k, f) (columns c ++ custom_columns c) -> get d k = Some (VArr (map f gs))) /\
    (c_probes c <> [] -> (0 < List.length gs)%nat -> get d "el_dens_at_probes" = Some (VMat (map (fun p => map (probe_val p) (removelast gs)) (c_probes c)))) /\
    (forall k, In k (outp_names c) -> get d k = get (v_at s) k) /\
    (forall k, In k (c_pcustom c) -> get d k = get (v_pbp s) k).
Proof.
  intros (C1 & C2 & C3 & C4 & C5 & C6 & _ & _ & _ & _ & _ & _ & _ & _ & C7 & _) I KA KP. unfold build_outp_dict.
  rewrite C7.
  destruct (get_all_spec (outp_names c) (v_at s)) as (a & E1 & K1 & P1).
  { intros k Hk. apply In_get. apply KA. apply outp_incl, Hk. }
  rewrite E1. cbn [bind].
  destruct (get_dict_spec c gs L s C1) as (b & E2 & P2 & Q2 & K2).
  { intros k Hk. assert (X := C3 k (or_introl Hk)). split; [intros Y; apply X, sbs_names_own; right; exact Y|].
    intros ->. apply X, sbs_names_own. left. reflexivity. }
  { exact I. }
  rewrite E2. cbn [bind]. eexists. split; [reflexivity|].
  assert (NB : NoDup (map fst b)).
  { rewrite K2, app_assoc. assert (NS : NoDup (sbs_members c ++ match c_probes c with [] => [] | _ :: _ => ["el_dens_at_probes"] end)).
    { unfold sbs_members. destruct (c_probes c), (c_det c), (c_cross c), (c_elec c); apply nodupb_ok; reflexivity. }
    assert (NA : forall x y : list string, NoDup x -> NoDup y -> (forall k, In k y -> ~ In k x) -> NoDup (x ++ y)).
    { clear. induction x as [|k x IH]; intros y H1 H2 H; cbn; [exact H2|]. inversion_clear H1. constructor.
      - rewrite in_app_iff. intros [X|X]; [tauto|]. apply (H k X). left. reflexivity.
      - apply IH; auto. intros k2 X Y. apply (H k2 X). right. exact Y. }
    apply NA; [exact NS|exact C1|]. intros k Hk X. apply (C3 k (or_introl Hk)). apply sbs_names_own.
    rewrite in_app_iff in X. destruct X as [X|X]; [right; exact X|]. destruct (c_probes c); [contradiction|]. destruct X as [<-|[]]. left. reflexivity. }
  assert (NP : NoDup (map fst (v_pbp s))) by (rewrite KP; exact C2).
  assert (NC1 : NoDup (map fst (c_const c))).
  { rewrite map_app in C5. clear -C5. induction (map fst (c_const c)) as [|k l IH]; [constructor|]. cbn in C5. inversion_clear C5. constructor; [|apply IH; assumption].
    intros X. apply H. apply in_app_iff. left. exact X. }
  assert (NC2 : NoDup (map fst (c_once c))).
  { rewrite map_app in C5. clear -C5. induction (map fst (c_const c)) as [|k l IH]; [exact C5|]. cbn in C5. inversion_clear C5. apply IH. assumption. }
  assert (G : forall k, In k (own_names c ++ c_custom c ++ c_pcustom c) ->
    get (update (update (update (update a (c_const c)) b) (v_pbp s)) (c_once c)) k =
    match get (v_pbp s) k with Some v => Some v | None => match get b k with Some v => Some v | None => get a k end end).
  { intros k Hk. rewrite update_get by exact NC2. rewrite (get_None (c_once c)).
    2: { intros X. apply (C6 k); [rewrite map_app; apply in_app_iff; right; exact X|exact Hk]. }
    rewrite update_get by exact NP. destruct (get (v_pbp s) k); [reflexivity|].
    rewrite update_get by exact NB. destruct (get b k); [reflexivity|]. rewrite update_get by exact NC1.
    rewrite (get_None (c_const c)); [reflexivity|]. intros X. apply (C6 k); [rewrite map_app; apply in_app_iff; left; exact X|exact Hk]. }
  assert (PN : forall k, In k (own_names c) -> get (v_pbp s) k = None).
  { intros k Hk. apply get_None. rewrite KP. intros X. exact (C3 k (or_intror X) Hk). }
  split; [|split; [|split]].
  - intros k f H. assert (Hin := in_map fst _ _ H). cbn [fst] in Hin. rewrite map_app, columns_names, custom_names, in_app_iff in Hin. destruct Hin as [Hin|Hin].
    + assert (X : In k (own_names c)) by (apply sbs_names_own; right; exact Hin).
      rewrite G, (PN k X), (P2 k f H); [reflexivity|]. apply in_app_iff. left. exact X.
    + rewrite G, (get_None (v_pbp s)), (P2 k f H); [reflexivity|rewrite KP; apply C4, Hin|]. rewrite !in_app_iff. right; left. exact Hin.
  - intros H1 H2. assert (X : In "el_dens_at_probes" (own_names c)) by (apply sbs_names_own; left; reflexivity).
    rewrite G, (PN _ X), (Q2 H1 H2); [reflexivity|]. apply in_app_iff. left. exact X.
  - intros k Hk. assert (X := outp_incl c k Hk). rewrite G, (PN k X), (get_None b), (P1 k Hk); [reflexivity| |apply in_app_iff; left; exact X].
    rewrite K2, !in_app_iff. intros [Y|[Y|Y]].
    + apply (outp_not_sbs c k Hk). right. exact Y.
    + apply (outp_not_sbs c k Hk). left. destruct (c_probes c); [contradiction|]. destruct Y as [<-|[]]. reflexivity.
    + exact (C3 k (or_introl Y) X).
  - intros k Hk. rewrite G by (rewrite !in_app_iff; auto). rewrite <- KP in Hk. destruct (In_get _ _ Hk) as (v & ->). reflexivity.
Qed.

Lemma ok_any c : cfg_ok c -> cfg_any c.
Proof.
  intros (C1 & C2 & C3 & C4 & C5 & C6 & C8 & C9 & C10 & C11 & C12 & C13 & C14 & C15 & C7 & C16).
  do 2 (split; [assumption|]). rewrite map_app in C5.
  split; [clear -C5; induction (map fst (c_const c)) as [|k l IH]; [constructor|]; cbn in C5; inversion_clear C5; constructor; [|apply IH; assumption];
    intros X; apply H; apply in_app_iff; left; exact X|].
  split; [clear -C5; induction (map fst (c_const c)) as [|k l IH]; [exact C5|]; cbn in C5; inversion_clear C5; apply IH; assumption|].
  split; [intros k Hk X; apply (C6 k); [rewrite map_app; apply in_app_iff; left; exact Hk|apply in_app_iff; left; exact X]|].
  do 8 (split; [assumption|]). exact C7.
Qed.

Lemma nodup_put d k v : NoDup (map fst d) -> NoDup (map fst (put d k v)).
Proof.
  induction d as [|[k' v'] d IH]; intros H; cbn; [constructor; [auto|constructor]|]. destruct (String.eqb k k') eqn:E.
  - apply String.eqb_eq in E. subst. exact H.
  - cbn in *. inversion_clear H. constructor; [|apply IH; assumption]. intros X. apply H0. clear -X E.
    induction d as [|[k2 v2] d IH]; cbn in *; [destruct X as [X|[]]; subst; rewrite String.eqb_refl in E; discriminate|].
    destruct (String.eqb k k2) eqn:E2; cbn in *; [apply String.eqb_eq in E2; subst; exact X|]. destruct X; [left|right]; auto.
Qed.
Lemma nodup_update : forall e d, NoDup (map fst d) -> NoDup (map fst (update d e)).
Proof. unfold update. induction e as [|x e IH]; intros d H; cbn [fold_left]; [exact H|]. apply IH, nodup_put, H. Qed.

(** The step-by-step part for any names of the custom observables. *)
Lemma get_dict_gen c gs L s : NoDup (c_custom c) -> sbs_inv c gs L s ->
  exists d, stepbystep_get_dict c s = Some d /\ NoDup (map fst d) /\
    (forall k f, In (k, f) (custom_columns c) -> get d k = Some (VArr (map f gs))) /\
    (forall k f, In (k, f) (columns c) -> ~ In k (c_custom c) -> get d k = Some (VArr (map f gs))) /\
    (forall k, get d k <> None -> In k ("el_dens_at_probes" :: sbs_members c) \/ In k (c_custom c)).
Proof.
  intros ND I. unfold stepbystep_get_dict.
  replace (v_i s + 1)%Z with (Z.of_nat (List.length gs)) by (rewrite (si_i _ _ _ _ I); lia).
  destruct (cut_all_spec (sbs_members c) (v_at s) (Z.of_nat (List.length gs))) as (a & E1 & K1 & P1).
  { intros k Hk. destruct (inv_arr _ _ _ _ k I Hk) as (l & G & _). eauto. }
  destruct (cut_all_spec (map fst (v_sbs s)) (v_sbs s) (Z.of_nat (List.length gs))) as (b & E2 & K2 & P2).
  { intros k Hk. rewrite (si_names _ _ _ _ I) in Hk. destruct (inv_arr_cus _ _ _ _ k I Hk) as (l & G & _). eauto. }
  rewrite E1. cbn [bind]. rewrite (si_names _ _ _ _ I) in K2.
  set (pd := match c_probes c with [] => Some [] | _ :: _ => _ end).
  assert (exists p, pd = Some p /\ map fst p = (match c_probes c with [] => [] | _ => ["el_dens_at_probes"] end)) as (p & EP & KP).
  { unfold pd. destruct (c_probes c) as [|p0 ps] eqn:EC; [exists []; split; reflexivity|].
    destruct (si_prb _ _ _ _ I) as (m & Gm & Fm); [rewrite EC; discriminate|]. rewrite Gm. eexists. split; reflexivity. }
  rewrite EP. cbn [bind]. rewrite E2. cbn [bind]. eexists. split; [reflexivity|].
  assert (NB : NoDup (map fst b)) by (rewrite K2; exact ND).
  split; [apply nodup_update; rewrite map_app, K1, KP; unfold sbs_members; destruct (c_probes c), (c_det c), (c_cross c), (c_elec c); apply nodupb_ok; reflexivity|].
  split; [|split].
  - intros k f H. rewrite update_get by exact NB.
    assert (Hm : In k (c_custom c)) by (rewrite <- custom_names; exact (in_map fst _ _ H)).
    destruct (si_cus _ _ _ _ I k f H) as (l & G & F). rewrite (P2 k l), upto_ge, (filled_firstn _ _ _ _ F); [reflexivity|rewrite (si_names _ _ _ _ I); exact Hm|exact G].
  - intros k f H NC. rewrite update_get by exact NB. rewrite (get_None b) by (rewrite K2; exact NC). assert (Hm := col_in _ _ _ H).
    destruct (si_col _ _ _ _ I k f H) as (l & G & F). rewrite get_app, (P1 k l Hm G), upto_ge, (filled_firstn _ _ _ _ F). reflexivity.
  - intros k H. rewrite update_get in H by exact NB. destruct (get b k) eqn:Gb; [right; rewrite <- K2; eapply get_In, Gb|].
    left. rewrite get_app in H. destruct (get a k) eqn:Ga; [right; rewrite <- K1; eapply get_In, Ga|]. left.
    destruct (get p k) eqn:Gp; [|contradiction]. apply get_In in Gp. rewrite KP in Gp. destruct (c_probes c); [contradiction|]. destruct Gp as [X|[]]. exact X.
Qed.

(** The output for any names of the custom observables. *)
Lemma build_gen c gs L s : cfg_any c -> sbs_inv c gs L s -> (forall k, In k (own_names c) -> In k (map fst (v_at s))) -> map fst (v_pbp s) = c_pcustom c ->
  exists d, build_outp_dict c s = Some d /\
    (forall k v, get (c_once c) k = Some v -> get d k = Some v) /\
    (forall k, ~ In k (map fst (c_once c)) -> In k (c_pcustom c) -> get d k = get (v_pbp s) k) /\
    (forall k f, ~ In k (map fst (c_once c) ++ c_pcustom c) -> In (k, f) (custom_columns c) -> get d k = Some (VArr (map f gs))) /\
    (forall k f, ~ In k (map fst (c_once c) ++ c_pcustom c ++ c_custom c) -> In (k, f) (columns c) -> get d k = Some (VArr (map f gs))) /\
    (forall k, ~ In k (map fst (c_once c) ++ c_pcustom c ++ c_custom c) -> In k (outp_names c) -> get d k = get (v_at s) k) /\
    (forall k, ~ In k (map fst (c_once c) ++ c_pcustom c ++ c_custom c) -> In k (map fst (c_const c)) -> get d k = get (c_const c) k).
Proof.
  intros (C1 & C2 & C3 & C4 & C5 & _ & _ & _ & _ & _ & _ & _ & _ & C7) I KA KP. unfold build_outp_dict. rewrite C7.
  destruct (get_all_spec (outp_names c) (v_at s)) as (a & E1 & K1 & P1).
  { intros k Hk. apply In_get. apply KA. apply outp_incl, Hk. }
  rewrite E1. cbn [bind]. destruct (get_dict_gen c gs L s C1 I) as (b & E2 & NB & P2 & Q2 & K2). rewrite E2. cbn [bind]. eexists. split; [reflexivity|].
  assert (NP : NoDup (map fst (v_pbp s))) by (rewrite KP; exact C2).
  assert (G : forall k, get (update (update (update (update a (c_const c)) b) (v_pbp s)) (c_once c)) k =
    match get (c_once c) k with Some v => Some v | None => match get (v_pbp s) k with Some v => Some v | None => match get b k with Some v => Some v | None =>
      match get (c_const c) k with Some v => Some v | None => get a k end end end end).
  { intros k. rewrite update_get by exact C4. rewrite update_get by exact NP. rewrite update_get by exact NB. rewrite update_get by exact C3. reflexivity. }
  assert (NO : forall k X, ~ In k (map fst (c_once c) ++ X) -> get (c_once c) k = None).
  { intros k X H. apply get_None. intros Y. apply H, in_app_iff. left. exact Y. }
  assert (NQ : forall k X, ~ In k (map fst (c_once c) ++ c_pcustom c ++ X) -> get (v_pbp s) k = None).
  { intros k X H. apply get_None. rewrite KP. intros Y. apply H. rewrite !in_app_iff. auto. }
  assert (NC : forall k, ~ In k (map fst (c_once c) ++ c_pcustom c ++ c_custom c) -> ~ In k (c_custom c)).
  { intros k H Y. apply H. rewrite !in_app_iff. auto. }
  assert (NBK : forall k, ~ In k (c_custom c) -> ~ In k ("el_dens_at_probes" :: sbs_members c) -> get b k = None).
  { intros k H1 H2. destruct (get b k) eqn:Gb; [|reflexivity]. destruct (K2 k) as [X|X]; [congruence|tauto|tauto]. }
  split; [|split; [|split; [|split; [|split]]]].
  - intros k v H. rewrite G, H. reflexivity.
  - intros k H1 H2. rewrite G, (get_None (c_once c)) by exact H1. rewrite <- KP in H2. destruct (In_get _ _ H2) as (v & ->). reflexivity.
  - intros k f H1 H2. rewrite G, (NO k _ H1), (NQ k []) by (rewrite app_nil_r; exact H1). rewrite (P2 k f H2). reflexivity.
  - intros k f H1 H2. rewrite G, (NO k _ H1), (NQ k _ H1), (Q2 k f H2 (NC k H1)). reflexivity.
  - intros k H1 H2. rewrite G, (NO k _ H1), (NQ k _ H1), (NBK k (NC k H1) (outp_not_sbs c k H2)), (get_None (c_const c)); [exact (P1 k H2)|].
    intros Y. exact (C5 k Y (outp_incl c k H2)).
  - intros k H1 H2. rewrite G, (NO k _ H1), (NQ k _ H1), (NBK k (NC k H1)).
    + destruct (In_get _ _ H2) as (v & ->). reflexivity.
    + intros Y. exact (C5 k H2 (sbs_names_own c k Y)).
Qed.

Lemma witness_step B0 c w l s g ob d : cfg_any c -> w_ok c w -> rinv B0 c w l s g -> step_ok c w (ob, d) ->
  exists s' g', witness c ob (feed g d) s = Some (s', g', if writes_out c (ob, d) then build_outp_dict c s' else None) /\
    rinv B0 c w (l ++ [(ob, d)]) s' g'.
Proof.
  intros CO WO RI SO.
  assert (CO' := CO). destruct CO' as (C1 & C2 & C3 & C4 & C5 & C8 & C9 & C10 & C11 & C12 & C13 & C14 & C15 & C7).
  destruct SO as (W & BI & SH).
  assert (SHL : Forall (fun q : step => same_shape w (snd q)) l) by (eapply Forall_impl; [|exact (r_ok _ _ _ _ _ _ RI)]; intros q X; apply X).
  assert (SHH : Forall (fun q : step => same_shape w (snd q)) (b_hl B0 ++ l)).
  { apply Forall_app. split; [|exact SHL]. exact (proj1 (proj1 (Forall_app _ _ _) (r_shape _ _ _ _ _ _ RI))). }
  assert (SHLL : Forall (fun q : step => same_shape w (snd q)) (b_ll B0 ++ l)).
  { apply Forall_app. split; [|exact SHL]. exact (proj2 (proj1 (Forall_app _ _ _) (r_shape _ _ _ _ _ _ RI))). }
  assert (SO : step_ok c w (ob, d)) by (split; [exact W|split; [exact BI|exact SH]]).
  destruct (r_hist _ _ _ _ _ _ RI) as (hs & hrest & HS & HI & HP & HT).
  destruct (r_pass _ _ _ _ _ _ RI) as (ps & prest & PS & PI' & PP).
  destruct (r_sbs _ _ _ _ _ _ RI) as (gs & rest & L & SS & SI & SA & ST).
  pose proof (hist_pend_feed c w g d ob hrest WO SH HP) as HP1.
  pose proof (pass_pend_feed c w g d ob prest PP) as PP1.
  (* energy histograms *)
  destruct (energy_step B0 c w hs hrest s ob d (feed g d) W C11 C10 C12 C13 HI HP1) as (s1 & E1 & O1 & A1 & A2 & A3 & A4 & A5 & A6 & A7 & A8 & A9 & A10 & AI).
  set (g1 := if hist_due (c_DtEn c) (v_tEn s) (ob, d) then reset_en c (feed g d) else feed g d) in *.
  assert (HX : exists hs' hrest', split_as (hist_due (c_DtEn c)) (b_th B0) (b_hl B0 ++ l ++ [(ob, d)]) hs' hrest' /\ hist_inv B0 c w hs' (v_at s1) /\ hist_pend c w g1 hrest' /\ v_tEn s1 = end_time (b_th B0) hs').
  { unfold g1. destruct (hist_due (c_DtEn c) (v_tEn s) (ob, d)) eqn:ED.
    - destruct AI as [AI1 AI2]. exists (hs ++ [hrest ++ [(ob, d)]]), []. split; [rewrite app_assoc; apply split_close; [exact HS|rewrite <- HT; exact ED]|]. split; [exact AI1|].
      split; [|rewrite AI2; symmetry; apply end_time_snoc]. eapply hist_pend_reset; [|exact HP1]. apply shape_snoc; [|exact SH].
      eapply rest_shape; [exact HS|exact SHH].
    - subst s1. exists hs, (hrest ++ [(ob, d)]). split; [rewrite app_assoc; apply split_keep; [exact HS|rewrite <- HT; exact ED]|]. split; [exact HI|]. split; [exact HP1|exact HT]. }
  assert (PP2 : pass_pend c w g1 (prest ++ [(ob, d)])).
  { unfold g1. destruct (hist_due _ _ _); [apply pass_pend_en|]; exact PP1. }
  assert (LG1 : g_life g1 = g_life (feed g d)) by (unfold g1; destruct (hist_due _ _ _); reflexivity).
  assert (QG1 : l_nimp g1 = l_nimp d /\ l_nemit g1 = l_nemit d /\ l_eimp g1 = l_eimp d /\ l_eemit g1 = l_eemit d).
  { unfold g1. destruct (hist_due _ _ _); repeat split. }
  (* lifetime histograms *)
  assert (LX : exists s2 g2, lifetime_save c ob g1 s1 = Some (s2, g2) /\ only_at names_L s1 s2 /\ v_i s2 = v_i s1 /\ v_tlast s2 = v_tlast s1 /\ v_nimp s2 = v_nimp s1 /\
     v_nemit s2 = v_nemit s1 /\ v_eimp s2 = v_eimp s1 /\ v_eemit s2 = v_eemit s1 /\ v_sbs s2 = v_sbs s1 /\ v_pbp s2 = v_pbp s1 /\ v_tEn s2 = v_tEn s1 /\ v_dline s2 = v_dline s1 /\
     (g2 = g1 \/ g2 = reset_life g1) /\
     forall D, c_life c = Some D -> exists ls rest, split_as (hist_due D) (b_tl B0) (b_ll B0 ++ l ++ [(ob, d)]) ls rest /\ life_inv B0 w ls (v_at s2) /\
             g_life g2 = row_total (List.length (g_life w)) g_life rest /\ v_tlife s2 = end_time (b_tl B0) ls).
  { destruct (c_life c) as [D|] eqn:EL.
    - destruct (r_life _ _ _ _ _ _ RI D EL) as (ls & lrest & LS & LI & LP & LT).
      assert (LI1 : life_inv B0 w ls (v_at s1)).
      { eapply life_frame; [exact LI|]. intros k Hk. eapply only_get; [exact O1| |exact Hk]. reflexivity. }
      assert (LP1 : g_life g1 = row_total (List.length (g_life w)) g_life (lrest ++ [(ob, d)])).
      { rewrite LG1, row_total_last. cbn [feed g_life snd]. rewrite LP. reflexivity. }
      destruct (life_step B0 c D w ls lrest s1 ob d g1 EL LI1 LP1) as (s2 & E2 & O2 & B1 & B2 & B3 & B4 & B5 & B6 & B7 & B8 & B9 & B10 & BI2).
      eexists. eexists. split; [exact E2|]. do 11 (split; [assumption|]). split; [destruct (hist_due D (v_tlife s1) (ob, d)); auto|].
      intros D' X. injection X as <-. destruct (hist_due D (v_tlife s1) (ob, d)) eqn:ED.
      + destruct BI2 as [BI3 BI4]. exists (ls ++ [lrest ++ [(ob, d)]]), []. split; [rewrite app_assoc; apply split_close; [exact LS|rewrite <- LT, <- A9; exact ED]|]. split; [exact BI3|].
        split; [|rewrite BI4; symmetry; apply end_time_snoc]. cbn [reset_life g_life]. rewrite LP1. apply row_zeros.
        assert (FS := shape_snoc w lrest (ob, d) (rest_shape _ _ _ _ _ _ LS SHLL) SH). eapply Forall_impl; [|exact FS]. intros q X. apply X.
      + subst s2. exists ls, (lrest ++ [(ob, d)]). split; [rewrite app_assoc; apply split_keep; [exact LS|rewrite <- LT, <- A9; exact ED]|]. split; [exact LI1|]. split; [exact LP1|]. rewrite A9. exact LT.
    - exists s1, g1. split; [unfold lifetime_save; rewrite EL; reflexivity|]. split; [apply only_at_refl|]. do 10 (split; [reflexivity|]). split; [auto|discriminate]. }
  destruct LX as (s2 & g2 & E2 & O2 & B1 & B2 & B3 & B4 & B5 & B6 & B7 & B8 & B9 & B10 & BG & LX).
  assert (PP3 : pass_pend c w g2 (prest ++ [(ob, d)])) by (destruct BG as [->| ->]; [|apply pass_pend_life]; exact PP2).
  assert (QG2 : l_nimp g2 = l_nimp d /\ l_nemit g2 = l_nemit d /\ l_eimp g2 = l_eimp d /\ l_eemit g2 = l_eemit d) by (destruct BG as [->| ->]; exact QG1).
  (* space charge energy *)
  assert (SC2 : sc_inv B0 l (v_at s2)).
  { eapply sc_frame; [exact (r_sc _ _ _ _ _ _ RI)|]. intros k Hk. rewrite (only_get _ names_C _ _ k O2 eq_refl Hk), (only_get _ names_C _ _ k O1 eq_refl Hk). reflexivity. }
  destruct (sc_step B0 l s2 ob d SC2) as (s3 & E3 & O3 & D1 & D2 & D3 & D4 & D5 & D6 & D7 & D8 & D9 & D10 & D11 & SC3).
  (* step-by-step data *)
  assert (SI3 : sbs_inv c (b_gs B0 ++ gs) L s3).
  { eapply sbs_frame; [exact SI|congruence|congruence|]. intros k Hk.
    rewrite (only_get _ names_S _ _ k O3 eq_refl Hk), (only_get _ names_S _ _ k O2 eq_refl Hk), (only_get _ names_S _ _ k O1 eq_refl Hk). reflexivity. }
  assert (SA3 : acc_is s3 rest) by (destruct SA as (X1 & X2 & X3 & X4); repeat split; congruence).
  destruct QG2 as (Q1 & Q2 & Q3 & Q4).
  destruct (sbs_step c (b_gs B0 ++ gs) L rest s3 ob d g2 C1 W (Rgt_not_eq _ _ C13) Q1 Q2 Q3 Q4 SI3 SA3) as (s4 & E4 & F4 & G1 & G2 & G3 & G4 & KA4 & SX).
  assert (O4 : only_at names_S s3 s4).
  { split; [|exact KA4]. intros k Hk. apply F4. intros X. apply Hk. eapply in_S, X. }
  assert (SX4 : exists gs rest L, split_as (sample_due c) (-1) (l ++ [(ob, d)]) gs rest /\ sbs_inv c (b_gs B0 ++ gs) L s4 /\ acc_is s4 rest /\ v_tlast s4 = end_time (-1) gs).
  { assert (TL : v_tlast s3 = end_time (-1) gs) by congruence.
    destruct (sample_due c (v_tlast s3) (ob, d)) eqn:ED.
    - destruct SX as (L' & X1 & X2 & X3). exists (gs ++ [rest ++ [(ob, d)]]), [], L'. split; [apply split_close; [exact SS|rewrite <- TL; exact ED]|].
      split; [rewrite app_assoc; exact X1|]. split; [exact X2|]. rewrite X3. symmetry. apply end_time_snoc.
    - destruct SX as (X1 & X2 & X3). exists gs, (rest ++ [(ob, d)]), L. split; [apply split_keep; [exact SS|rewrite <- TL; exact ED]|].
      split; [exact X1|]. split; [exact X2|]. congruence. }
  assert (OK' : Forall (step_ok c w) (l ++ [(ob, d)])) by (apply Forall_app; split; [exact (r_ok _ _ _ _ _ _ RI)|constructor; [exact SO|constructor]]).
  assert (KN4 : forall k, In k (own_names c) -> In k (map fst (v_at s4))).
  { rewrite KA4. destruct O1 as [_ Y1], O2 as [_ Y2], O3 as [_ Y3]. rewrite Y3, Y2, Y1. exact (r_names _ _ _ _ _ _ RI). }
  assert (FH : forall k, In k names_H -> get (v_at s4) k = get (v_at s1) k).
  { intros k Hk. rewrite (only_get _ names_H _ _ k O4 eq_refl Hk), (only_get _ names_H _ _ k O3 eq_refl Hk), (only_get _ names_H _ _ k O2 eq_refl Hk). reflexivity. }
  assert (FL : forall k, In k names_L -> get (v_at s4) k = get (v_at s2) k).
  { intros k Hk. rewrite (only_get _ names_L _ _ k O4 eq_refl Hk), (only_get _ names_L _ _ k O3 eq_refl Hk). reflexivity. }
  assert (FC : forall k, In k names_C -> get (v_at s4) k = get (v_at s3) k).
  { intros k Hk. rewrite (only_get _ names_C _ _ k O4 eq_refl Hk). reflexivity. }
  assert (PI4 : pass_inv B0 c w ps s4).
  { eapply pass_frame; [exact PI'| |congruence|congruence]. intros k Hk.
    rewrite (only_get _ names_P _ _ k O4 eq_refl Hk), (only_get _ names_P _ _ k O3 eq_refl Hk), (only_get _ names_P _ _ k O2 eq_refl Hk), (only_get _ names_P _ _ k O1 eq_refl Hk). reflexivity. }
  destruct HX as (hs' & hrest' & HS' & HI' & HP' & HT').
  assert (HP2 : hist_pend c w g2 hrest') by (destruct BG as [->| ->]; [|apply hist_pend_life]; exact HP').
  unfold witness, energy_hist_save. rewrite E1. cbn [bind]. rewrite E2. cbn [bind]. rewrite E3. cbn [bind]. rewrite E4. cbn [bind].
  unfold writes_out. cbn [fst]. destruct (ob_new ob) eqn:EN.
  - destruct (pass_step B0 c w ps prest s4 ob d g2 C2 C14 W C9 C8 BI PI4 PP3) as (s5 & E5 & O5 & H1 & H2 & H3 & H4 & H5 & H6 & H7 & H8 & H9 & PI5).
    rewrite E5. cbn [bind]. rewrite (proj2 (Z.eqb_neq (c_every c) 0)) by lia.
    assert (RI5 : rinv B0 c w (l ++ [(ob, d)]) s5 (reset_pass c g2)).
    { constructor.
      - destruct SX4 as (gs' & rest' & L' & X1 & X2 & X3 & X4). exists gs', rest', L'. split; [exact X1|]. split; [|split].
        + eapply sbs_frame; [exact X2|exact H1|exact H7|]. intros k Hk. exact (only_get _ names_S _ _ k O5 eq_refl Hk).
        + destruct X3 as (Y1 & Y2 & Y3 & Y4). repeat split; congruence.
        + congruence.
      - exists (ps ++ [prest ++ [(ob, d)]]), []. split; [apply split_close; [exact PS|exact EN]|]. split; [exact PI5|]. eapply pass_pend_reset; [|exact PP3].
        apply shape_snoc; [|exact SH]. eapply rest_shape; [exact PS|exact SHL].
      - exists hs', hrest'. split; [exact HS'|]. split; [|split; [apply hist_pend_pass, HP2|congruence]]. eapply hist_frame; [exact HI'|].
        intros k Hk. rewrite (only_get _ names_H _ _ k O5 eq_refl Hk). apply FH, Hk.
      - intros D HD. destruct (LX D HD) as (ls & lrest & Y1 & Y2 & Y3 & Y4). exists ls, lrest. split; [exact Y1|]. split; [|split; [exact Y3|congruence]].
        eapply life_frame; [exact Y2|]. intros k Hk. rewrite (only_get _ names_L _ _ k O5 eq_refl Hk). apply FL, Hk.
      - eapply sc_frame; [exact SC3|]. intros k Hk. rewrite (only_get _ names_C _ _ k O5 eq_refl Hk). apply FC, Hk.
      - destruct O5 as [_ Y]. rewrite Y. exact KN4.
      - exact OK'.
      - exact (r_shape _ _ _ _ _ _ RI). }
    exists s5, (reset_pass c g2). split; [|exact RI5]. cbn [andb]. destruct ((ob_pass ob + 1) mod c_every c =? 0)%Z; [|reflexivity].
    destruct (r_sbs _ _ _ _ _ _ RI5) as (gs5 & rest5 & L5 & _ & SI5 & _ & _).
    destruct (r_pass _ _ _ _ _ _ RI5) as (ps5 & prest5 & _ & (_ & _ & _ & KP & _) & _).
    destruct (build_gen c (b_gs B0 ++ gs5) L5 s5 CO SI5 (r_names _ _ _ _ _ _ RI5) KP) as (dd & EB & _). rewrite EB. reflexivity.
  - exists s4, g2. split; [reflexivity|]. constructor.
    + exact SX4.
    + exists ps, (prest ++ [(ob, d)]). split; [apply split_keep; [exact PS|exact EN]|]. split; [exact PI4|exact PP3].
    + exists hs', hrest'. split; [exact HS'|]. split; [|split; [exact HP2|congruence]]. eapply hist_frame; [exact HI'|exact FH].
    + intros D HD. destruct (LX D HD) as (ls & lrest & Y1 & Y2 & Y3 & Y4). exists ls, lrest. split; [exact Y1|]. split; [|split; [exact Y3|congruence]].
      eapply life_frame; [exact Y2|exact FL].
    + eapply sc_frame; [exact SC3|exact FC].
    + exact KN4.
    + exact OK'.
    + exact (r_shape _ _ _ _ _ _ RI).
Qed.

(** ** A whole run *)

Lemma run_inv B0 c w : cfg_any c -> w_ok c w -> forall l l0 s g file, rinv B0 c w l0 s g -> Forall (step_ok c w) l ->
  exists s' g' file', record_run c l g s file = Some (s', g', file') /\ rinv B0 c w (l0 ++ l) s' g' /\
    ((file' = file /\ Forall (fun q => writes_out c q = false) l) \/
     exists l1 q l2 s1 g1 f1, l = l1 ++ q :: l2 /\ writes_out c q = true /\ Forall (fun q => writes_out c q = false) l2 /\
       record_run c (l1 ++ [q]) g s file = Some (s1, g1, f1) /\ file' = f1 /\ f1 = build_outp_dict c s1 /\ rinv B0 c w (l0 ++ l1 ++ [q]) s1 g1).
Proof.
  intros CO WO. induction l as [|[ob d] l IH] using rev_ind; intros l0 s g file RI OK.
  - exists s, g, file. split; [reflexivity|]. rewrite app_nil_r. split; [exact RI|]. left. auto.
  - apply Forall_app in OK. destruct OK as [OK1 OK2]. inversion_clear OK2 as [|? ? OKq _].
    destruct (IH l0 s g file RI OK1) as (s1 & g1 & f1 & E1 & R1 & D1).
    destruct (witness_step B0 c w (l0 ++ l) s1 g1 ob d CO WO R1 OKq) as (s2 & g2 & E2 & R2).
    assert (APP : forall m g s f, record_run c (m ++ [(ob, d)]) g s f =
      do (s1, g1, f1) <- record_run c m g s f ; do (s2, g2, f2) <- witness c ob (feed g1 d) s1 ; Some (s2, g2, match f2 with Some x => Some x | None => f1 end)).
    { clear. induction m as [|[o e] m IHm]; intros g s f; cbn [app record_run bind].
      - destruct (witness c ob (feed g d) s) as [[[a b] e]|]; reflexivity.
      - destruct (witness c o (feed g e) s) as [[[a b] x]|]; [|reflexivity]. cbn [bind]. apply IHm. }
    rewrite app_assoc. eexists. eexists. eexists. split; [rewrite APP, E1; cbn [bind]; rewrite E2; cbn [bind]; reflexivity|]. split; [exact R2|].
    destruct (writes_out c (ob, d)) eqn:EW.
    + right. exists l, (ob, d), [], s2, g2.
      destruct (r_sbs _ _ _ _ _ _ R2) as (gs5 & rest5 & L5 & _ & SI5 & _ & _).
      destruct (r_pass _ _ _ _ _ _ R2) as (ps5 & prest5 & _ & (_ & _ & _ & KP & _) & _).
      destruct (build_gen c (b_gs B0 ++ gs5) L5 s2 CO SI5 (r_names _ _ _ _ _ _ R2) KP) as (dd & EB & _).
      exists (Some dd). split; [reflexivity|]. split; [exact EW|]. split; [constructor|]. rewrite APP, E1. cbn [bind]. rewrite E2. cbn [bind]. rewrite EB.
      split; [reflexivity|]. split; [reflexivity|]. split; [reflexivity|]. rewrite app_assoc. exact R2.
    + destruct D1 as [[D1 D2]|(l1 & q & l2 & s3 & g3 & f3 & -> & X1 & X2 & X3 & X4 & X5 & X6)].
      * left. split; [exact D1|]. apply Forall_app. split; [exact D2|constructor; [exact EW|constructor]].
      * right. exists l1, q, (l2 ++ [(ob, d)]), s3, g3, f3. split; [rewrite <- app_assoc; reflexivity|]. split; [exact X1|]. split; [|auto].
        apply Forall_app. split; [exact X2|constructor; [exact EW|constructor]].
Qed.

Definition fresh : base := mkBase [] (fun _ => []) (fun _ => []) (fun _ => []) [] (-1) [] (-1).

Lemma get_prefix d e k v : get d k = Some v -> get (d ++ e) k = Some v.
Proof. intros H. rewrite get_app, H. reflexivity. Qed.

Lemma map_nil_rows {A} (l : list A) (x : A) : In x l -> l <> [].
Proof. destruct l; [contradiction|discriminate]. Qed.

Lemma start_inv c w n : (0 < n)%nat -> w_ok c w -> rinv fresh c w [] (start_observing c n) (blank w).
Proof.
  intros Hn WO.
  assert (GR : forall close, split_as close (-1) [] [] []) by (intros; split; [reflexivity|constructor; constructor]).
  constructor.
  - exists [], [], n. split; [apply GR|]. split; [|split; [repeat split|reflexivity]].
    assert (FL : forall f, filled n [] f (repeat 0 n)) by (intros f; exists (repeat 0 n); split; [reflexivity|apply repeat_length]).
    constructor; cbn [v_i v_at v_sbs start_observing].
    + reflexivity.
    + exact Hn.
    + intros k f H. exists (repeat 0 n). split; [|apply FL]. apply get_prefix. apply col_in in H. unfold sbs_members in H.
      destruct (c_det c) eqn:X1, (c_cross c) eqn:X2, (c_elec c) eqn:X3; cbn [app In] in H;
        repeat (destruct H as [<-|H]; [unfold sbs_init; rewrite ?X1, ?X2, ?X3; reflexivity|]); contradiction.
    + rewrite map_map. apply map_id.
    + intros k f H. exists (repeat 0 n). split; [|apply FL]. apply (get_map_in (fun _ => VArr (repeat 0 n))).
      rewrite <- custom_names. exact (in_map fst _ _ H).
    + intros NP. exists (map (fun _ => repeat 0 n) (c_probes c)). split.
      * apply get_prefix. unfold sbs_init. destruct (c_probes c) eqn:EP; [congruence|]. reflexivity.
      * apply Forall2_map_r. clear -FL. induction (c_probes c); constructor; auto.
  - exists [], []. split; [apply GR|]. split; [|constructor; cbn [blank g_tot g_scrub g_en g_seg g_segemit g_segen]; intros; apply zeros_repeat].
    split; [|split; [|split; [|split]]]; cbn [start_observing v_at v_pbp].
    + intros k f H. cbn [map]. apply (in_map fst) in H. cbn [fst] in H. unfold pass_rows in H. destruct (k_seg (c_ic c)) eqn:ES; cbn [app map fst In] in H;
        repeat (destruct H as [<-|H]; [cbn; rewrite ?ES; reflexivity|]); contradiction.
    + intros k f H. cbn [map]. apply (in_map fst) in H. cbn [fst] in H. cbn [pass_nums map fst In] in H.
        repeat (destruct H as [<-|H]; [reflexivity|]); contradiction.
    + intros k f H. cbn [map]. apply (get_map_in (fun _ => VArr [])). apply (in_map fst) in H. unfold pass_customs in H. rewrite map_map in H. cbn [fst] in H. rewrite map_id in H. exact H.
    + rewrite map_map. apply map_id.
    + intros h EH. cbn. rewrite EH. split; [reflexivity|]. split; [reflexivity|]. apply repeat_length.
  - exists [], []. split; [apply GR|]. split; [|split; [|reflexivity]].
    + split; [|split]; cbn [start_observing v_at].
      * intros k f H. cbn [map]. apply (in_map fst) in H. cbn [fst] in H. unfold hist_rows in H. destruct (c_cos c) eqn:ES; cbn [app map fst In] in H;
        repeat (destruct H as [<-|H]; [cbn; rewrite ?ES; reflexivity|]); contradiction.
      * intros k f [H|[]]. injection H as <- <-. reflexivity.
      * intros S. unfold seg_on in S. cbn. rewrite S. eexists. split; [reflexivity|]. split; [apply repeat_length|]. intros i Hi. apply nth_repeat_lt, Hi.
    + constructor; cbn [blank g_line g_cos g_seglines]; intros.
      * apply zeros_repeat.
      * apply zeros_repeat.
      * rewrite map_length. apply WO. assumption.
      * change (@nil R) with (zeros []) at 1. rewrite map_nth. apply zeros_repeat.
  - intros D HD. exists [], []. split; [apply GR|]. split; [|split; [apply zeros_repeat|reflexivity]].
    split; intros k f [H|[]]; injection H as <- <-; cbn; rewrite HD; reflexivity.
  - split; reflexivity.
  - intros k H. exact H.
  - constructor.
  - constructor.
Qed.

(** Steps fall into groups in one way only. *)
Lemma groups_unique close : forall gs last rest gs' rest', groups close last gs rest -> groups close last gs' rest' -> concat gs ++ rest = concat gs' ++ rest' ->
  gs = gs' /\ rest = rest'.
Proof.
  assert (FIRST : forall (last : R) g g' q q' r r', Forall (fun q => close last q = false) g -> Forall (fun q => close last q = false) g' -> close last q = true -> close last q' = true ->
    g ++ q :: r = g' ++ q' :: r' -> g = g' /\ q = q' /\ r = r').
  { intros last. induction g as [|x g IH]; intros [|x' g'] q q' r r' F F' C C' E; cbn in E.
    - injection E as <- <-. auto.
    - injection E as E1 E2. inversion_clear F'. congruence.
    - injection E as E1 E2. inversion_clear F. congruence.
    - injection E as <- E. inversion_clear F. inversion_clear F'. destruct (IH _ _ _ _ _ H0 H2 C C' E) as (-> & -> & ->). auto. }
  assert (NONE : forall (last : R) (rest : list step) g q r, Forall (fun q => close last q = false) rest -> close last q = true -> rest <> g ++ q :: r).
  { intros last rest g q r F C E. rewrite E in F. apply Forall_app in F. destruct F as [_ F]. inversion_clear F. congruence. }
  induction gs as [|g gs IH]; intros last rest gs' rest' G G' E.
  - inversion_clear G as [? ? F|]. inversion G' as [? ? F'|? g' q' gs2 ? F' C' G2]; subst.
    + auto.
    + exfalso. cbn in E. rewrite <- !app_assoc in E. cbn in E. exact (NONE _ _ _ _ _ F C' E).
  - inversion G as [|? g1 q1 gs1 ? F1 C1 G1]; subst. inversion G' as [? ? F'|? g' q' gs2 ? F' C' G2]; subst.
    + exfalso. cbn in E. rewrite <- !app_assoc in E. cbn in E. exact (NONE _ _ _ _ _ F' C1 (eq_sym E)).
    + cbn in E. rewrite <- !app_assoc in E. cbn in E. destruct (FIRST _ _ _ _ _ _ _ F1 F' C1 C' E) as (-> & -> & E2).
      destruct (IH _ _ _ _ G1 G2 E2) as (-> & ->). auto.
Qed.
