(** The step-by-step data: invariant and progress. *)
From Coq Require Import String Lia Lra Bool.
From Verif Require Import Num NumFacts MP SpecMP MPFacts Impact Saver SpecSaver SaverFacts SaverFacts2.
Local Open Scope string_scope.
Local Open Scope list_scope.
Local Open Scope R_scope.

Lemma columns_names c : map fst (columns c) = sbs_members c.
Proof. unfold columns, sbs_members. destruct (c_det c), (c_cross c), (c_elec c); reflexivity. Qed.

Fixpoint nodupb (l : list string) : bool := match l with [] => true | k :: l' => negb (existsb (String.eqb k) l') && nodupb l' end.
Lemma nodupb_ok l : nodupb l = true -> NoDup l.
Proof.
  induction l as [|k l IH]; cbn; [constructor|]. intros H. apply andb_true_iff in H. destruct H as [H1 H2]. constructor; [|apply IH, H2].
  intros K. apply negb_true_iff in H1. rewrite (proj2 (existsb_exists _ _)) in H1; [discriminate|]. exists k. split; [exact K|apply String.eqb_refl].
Qed.
Definition inclb (l m : list string) : bool := forallb (fun k => existsb (String.eqb k) m) l.
Lemma inclb_ok l m : inclb l m = true -> forall k, In k l -> In k m.
Proof.
  intros H k Hk. unfold inclb in H. rewrite forallb_forall in H. specialize (H k Hk). apply existsb_exists in H.
  destruct H as (k' & H & E). apply String.eqb_eq in E. congruence.
Qed.
Definition apartb (l m : list string) : bool := forallb (fun k => negb (existsb (String.eqb k) m)) l.
Lemma apartb_ok l m : apartb l m = true -> forall k, In k l -> ~ In k m.
Proof.
  intros H k Hk K. unfold apartb in H. rewrite forallb_forall in H. specialize (H k Hk). apply negb_true_iff in H.
  rewrite (proj2 (existsb_exists _ _)) in H; [discriminate|]. exists k. split; [exact K|apply String.eqb_refl].
Qed.
Ltac nodup := apply nodupb_ok; reflexivity.

Lemma members_nodup c : NoDup (sbs_members c).
Proof. unfold sbs_members. destruct (c_det c), (c_cross c), (c_elec c); nodup. Qed.

Lemma custom_names c : map fst (custom_columns c) = c_custom c.
Proof. unfold custom_columns. rewrite map_map. cbn. apply map_id. Qed.

Lemma now_last f g q : now f (g ++ [q]) = f (fst q).
Proof. unfold now, at_end. rewrite rev_app_distr. reflexivity. Qed.

Lemma at_end_last {A} (f : obs -> A) z g q : at_end f z (g ++ [q]) = f (fst q).
Proof. unfold at_end. rewrite rev_app_distr. reflexivity. Qed.

Lemma total_last f g q : total f (g ++ [q]) = total f g + f (snd q).
Proof. unfold total. rewrite map_app, rsum_app. f_equal. unfold rsum. cbn. ring. Qed.

Definition probe_val (p : R * R * R) : list step -> R := now (fun ob => density (fst (fst p)) (snd (fst p)) (snd p) (ob_mp ob)).
Definition filled (L : nat) (gs : list (list step)) (f : list step -> R) (l : list R) : Prop :=
  exists t, l = map f gs ++ t /\ (List.length gs + List.length t = L)%nat.

Record sbs_inv (c : scfg) (gs : list (list step)) (L : nat) (s : sst) : Prop := mkSbsInv {
  si_i : v_i s = (Z.of_nat (List.length gs) - 1)%Z;
  si_L : (0 < L)%nat;
  si_col : forall k f, In (k, f) (columns c) -> exists l, get (v_at s) k = Some (VArr l) /\ filled L gs f l;
  si_names : map fst (v_sbs s) = c_custom c;
  si_cus : forall k f, In (k, f) (custom_columns c) -> exists l, get (v_sbs s) k = Some (VArr l) /\ filled L gs f l;
  si_prb : c_probes c <> [] -> exists m, get (v_at s) "el_dens_at_probes" = Some (VMat m) /\
             Forall2 (fun p row => filled L gs (probe_val p) row) (c_probes c) m }.

Lemma filled_le L gs f l : filled L gs f l -> (List.length gs <= L)%nat /\ List.length l = L.
Proof. intros (t & -> & H). split; [lia|]. rewrite app_length, map_length. lia. Qed.

Lemma filled_double L gs f l : filled L gs f l -> filled (L + L) gs f (double l).
Proof.
  intros (t & -> & H). exists (t ++ map (Rmult 0) (map f gs ++ t)). split; [unfold double; rewrite app_assoc; reflexivity|].
  rewrite app_length, map_length, app_length, map_length. lia.
Qed.

Lemma filled_add L gs f l G v : filled L gs f l -> (List.length gs < L)%nat -> v = f G ->
  filled L (gs ++ [G]) f (upd_nth l (List.length gs) (fun _ => v)).
Proof.
  intros (t & -> & H) Hl ->. destruct t as [|x t]; [cbn in H; lia|].
  replace (List.length gs) with (List.length (map f gs)) by apply map_length. rewrite upd_nth_end.
  exists t. split; [rewrite map_app, <- app_assoc; reflexivity|]. rewrite app_length. cbn in *. lia.
Qed.

Lemma inv_arr c gs L s k : sbs_inv c gs L s -> In k (sbs_members c) -> arr_of L (v_at s) k.
Proof.
  intros I H. rewrite <- columns_names in H. apply in_map_iff in H. destruct H as ([k' f] & <- & H).
  destruct (si_col _ _ _ _ I k' f H) as (l & G & F). exists l. split; [exact G|apply (filled_le _ _ _ _ F)].
Qed.

Lemma inv_arr_cus c gs L s k : sbs_inv c gs L s -> In k (c_custom c) -> arr_of L (v_sbs s) k.
Proof.
  intros I H. rewrite <- custom_names in H. apply in_map_iff in H. destruct H as ([k' f] & <- & H).
  destruct (si_cus _ _ _ _ I k' f H) as (l & G & F). exists l. split; [exact G|apply (filled_le _ _ _ _ F)].
Qed.

Lemma col_in c k f : In (k, f) (columns c) -> In k (sbs_members c).
Proof. intros H. rewrite <- columns_names. exact (in_map fst _ _ H). Qed.

Lemma probe_not_member c : ~ In "el_dens_at_probes" (sbs_members c).
Proof. apply (apartb_ok ["el_dens_at_probes"]); [|left; reflexivity]. unfold sbs_members. destruct (c_det c), (c_cross c), (c_elec c); reflexivity. Qed.

Lemma Forall2_map_r {A B C} (P : A -> C -> Prop) (h : B -> C) a b : Forall2 (fun x y => P x (h y)) a b -> Forall2 P a (map h b).
Proof. induction 1; cbn; constructor; auto. Qed.

Lemma F2_impl {A B} (P Q : A -> B -> Prop) a b : (forall x y, P x y -> Q x y) -> Forall2 P a b -> Forall2 Q a b.
Proof. intros H. induction 1; constructor; auto. Qed.

Lemma len_le c gs L s : sbs_inv c gs L s -> (List.length gs <= L)%nat.
Proof.
  intros I. destruct (si_col _ _ _ _ I "t" (now ob_t)) as (l & _ & F); [left; reflexivity|]. apply (filled_le _ _ _ _ F).
Qed.

(** The check before a save makes room. *)
Lemma resize_ok c gs L s : NoDup (c_custom c) -> sbs_inv c gs L s ->
  exists a sb L', check_for_data_resize c s = Some (a, sb) /\ (List.length gs < L')%nat /\
    sbs_inv c gs L' (mkSst (v_i s) (v_tlast s) (v_nimp s) (v_nemit s) (v_eimp s) (v_eemit s) a sb (v_pbp s) (v_tEn s) (v_tlife s) (v_dline s)) /\
    (forall k, ~ In k ("el_dens_at_probes" :: sbs_members c) -> get a k = get (v_at s) k) /\ map fst a = map fst (v_at s).
Proof.
  intros ND I. unfold check_for_data_resize.
  destruct (si_col _ _ _ _ I "t" (now ob_t)) as (lt & Gt & Ft); [left; reflexivity|].
  rewrite Gt. destruct (filled_le _ _ _ _ Ft) as [L1 L2]. rewrite L2.
  replace (Z.of_nat L - 1 <=? v_i s)%Z with (Z.of_nat L - 1 <=? Z.of_nat (List.length gs) - 1)%Z by (rewrite (si_i _ _ _ _ I); reflexivity).
  destruct (Z.of_nat L - 1 <=? Z.of_nat (List.length gs) - 1)%Z eqn:EZ.
  - pose proof (si_L _ _ _ _ I) as HL.
    destruct (double_all_spec (map fst (v_sbs s)) (v_sbs s) L) as (sb & E1 & P1 & Q1 & K1).
    { rewrite (si_names _ _ _ _ I). exact ND. }
    { intros k Hk. rewrite (si_names _ _ _ _ I) in Hk. eapply inv_arr_cus; eauto. }
    rewrite E1. cbn [bind].
    destruct (double_all_spec (sbs_members c) (v_at s) L (members_nodup c)) as (a & E2 & P2 & Q2 & K2).
    { intros k Hk. eapply inv_arr; eauto. }
    rewrite E2. cbn [bind].
    assert (CUS : forall k f, In (k, f) (custom_columns c) -> exists l, get sb k = Some (VArr l) /\ filled (L + L) gs f l).
    { intros k f H. destruct (si_cus _ _ _ _ I k f H) as (l & G & F). exists (double l). split; [|apply filled_double, F].
      apply P1; [|exact G]. rewrite (si_names _ _ _ _ I), <- custom_names. exact (in_map fst _ _ H). }
    assert (COL : forall k f, In (k, f) (columns c) -> exists l, get a k = Some (VArr l) /\ filled (L + L) gs f l).
    { intros k f H. destruct (si_col _ _ _ _ I k f H) as (l & G & F). exists (double l). split; [|apply filled_double, F].
      apply P2; [eapply col_in; eauto|exact G]. }
    destruct (c_probes c) as [|p0 ps] eqn:EP.
    + exists a, sb, (L + L)%nat. split; [reflexivity|]. split; [lia|]. split.
      * constructor; cbn [v_i v_at v_sbs]; [apply (si_i _ _ _ _ I)|lia|exact COL|rewrite K1; apply (si_names _ _ _ _ I)|exact CUS|].
        intros H. congruence.
      * split; [|exact K2]. intros k Hk. apply Q2. intros H. apply Hk. right. exact H.
    + destruct (si_prb _ _ _ _ I) as (m & Gm & Fm); [rewrite EP; discriminate|].
      rewrite (Q2 _ (probe_not_member c)), Gm. exists (put a "el_dens_at_probes" (VMat (map double m))), sb, (L + L)%nat.
      split; [reflexivity|]. split; [lia|]. split.
      * constructor; cbn [v_i v_at v_sbs]; [apply (si_i _ _ _ _ I)|lia| |rewrite K1; apply (si_names _ _ _ _ I)|exact CUS|].
        { intros k f H. destruct (COL k f H) as (l & G & F). exists l. split; [|exact F]. rewrite get_put_other; [exact G|].
          intros ->. apply (probe_not_member c). eapply col_in; eauto. }
        intros _. exists (map double m). split; [apply get_put_same|]. apply Forall2_map_r.
        eapply F2_impl; [|exact Fm]. intros x y. apply filled_double.
      * split.
        { intros k Hk. rewrite get_put_other by (intros ->; apply Hk; left; reflexivity). apply Q2. intros H. apply Hk. right. exact H. }
        rewrite put_keys; [exact K2|]. rewrite K2. eapply get_In, Gm.
  - apply Z.leb_gt in EZ. exists (v_at s), (v_sbs s), L. split; [reflexivity|]. split; [lia|]. split; [|auto]. destruct s; exact I.
Qed.

Definition acc_is (s : sst) (rest : list step) : Prop :=
  v_nimp s = total l_nimp rest /\ v_nemit s = total l_nemit rest /\ v_eimp s = total l_eimp rest /\ v_eemit s = total l_eemit rest.

Lemma writes_names c ob a : forall k, In k (map fst (sbs_writes c ob a)) -> In k (sbs_members c).
Proof.
  intros k. unfold sbs_writes, sbs_members. destruct a as [[[ni ne] ei] ee].
  revert k. apply inclb_ok. destruct (c_det c), (c_cross c), (c_elec c); reflexivity.
Qed.

Lemma writes_nodup c ob a : NoDup (map fst (sbs_writes c ob a)).
Proof. unfold sbs_writes. destruct a as [[[ni ne] ei] ee]. destruct (c_det c), (c_cross c), (c_elec c); nodup. Qed.

Lemma writes_cols c ob d rest : wf (ob_mp ob) -> k_qe (c_ic c) <> 0 ->
  forall k f, In (k, f) (columns c) ->
  In (k, f (rest ++ [(ob, d)])) (sbs_writes c ob (total l_nimp rest + l_nimp d, total l_nemit rest + l_nemit d, total l_eimp rest + l_eimp d, total l_eemit rest + l_eemit d)).
Proof.
  intros W Q k f. unfold columns, sbs_writes. rewrite Nel_tot_charge, En_kin_kinetic, density_at_density by assumption.
  rewrite !in_app_iff. intros [H|[H|[H|H]]].
  - cbn [In] in H. repeat (destruct H as [H|H]; [injection H as <- <-; rewrite ?now_last, ?total_last; cbn [fst snd];
      first [left; repeat (first [left; reflexivity|right]); fail|right; right; left; left; reflexivity]|]). contradiction.
  - right; right; right; left. destruct (c_det c); [|contradiction]. cbn [In] in H.
    repeat (destruct H as [H|H]; [injection H as <- <-; rewrite now_last; repeat (first [left; reflexivity|right])|]). contradiction.
  - right; right; right; right. destruct (c_cross c); [|contradiction]. cbn [In] in H.
    repeat (destruct H as [H|H]; [injection H as <- <-; rewrite now_last; repeat (first [left; reflexivity|right])|]). contradiction.
  - right; left. destruct (c_elec c); [|contradiction]. cbn [In] in H.
    repeat (destruct H as [H|H]; [injection H as <- <-; rewrite now_last; repeat (first [left; reflexivity|right])|]). contradiction.
Qed.

Lemma probe_rows_spec L gs s ob G : forall ps m,
  Forall2 (fun p row => filled L gs (probe_val p) row) ps m -> (List.length gs < L)%nat -> wf s -> ob_mp ob = s ->
  (forall f, now f G = f ob) ->
  exists m', probe_rows ps (Z.of_nat (List.length gs)) s m = Some m' /\ Forall2 (fun p row => filled L (gs ++ [G]) (probe_val p) row) ps m'.
Proof.
  intros ps m H HL W EO HG. induction H as [|[[x y] r] row ps m F Fs IH]; cbn [probe_rows]; [exists []; auto|].
  destruct (filled_le _ _ _ _ F) as [_ Ll]. rewrite py_set_ok by lia. cbn [bind]. destruct IH as (m' & -> & FM). cbn [bind].
  eexists. split; [reflexivity|]. constructor; [|exact FM]. rewrite Nat2Z.id. apply filled_add; [exact F|exact HL|].
  unfold probe_val. rewrite HG, EO. cbn [fst snd]. apply density_at_density, W.
Qed.

Lemma sbs_step c gs L rest s ob d g : NoDup (c_custom c) -> wf (ob_mp ob) -> k_qe (c_ic c) <> 0 ->
  l_nimp g = l_nimp d -> l_nemit g = l_nemit d -> l_eimp g = l_eimp d -> l_eemit g = l_eemit d ->
  sbs_inv c gs L s -> acc_is s rest ->
  exists s', stepbystep_data_save c ob g s = Some s' /\
    (forall k, ~ In k ("el_dens_at_probes" :: sbs_members c) -> get (v_at s') k = get (v_at s) k) /\
    v_pbp s' = v_pbp s /\ v_tEn s' = v_tEn s /\ v_tlife s' = v_tlife s /\ v_dline s' = v_dline s /\ map fst (v_at s') = map fst (v_at s) /\
    if sample_due c (v_tlast s) (ob, d)
    then exists L', sbs_inv c (gs ++ [rest ++ [(ob, d)]]) L' s' /\ acc_is s' [] /\ v_tlast s' = ob_t ob
    else sbs_inv c gs L s' /\ acc_is s' (rest ++ [(ob, d)]) /\ v_tlast s' = v_tlast s.
Proof.
  intros ND W Q H1 H2 H3 H4 I (A1 & A2 & A3 & A4). unfold stepbystep_data_save, sample_due, s_time. cbn [fst].
  change (Rleb ((c_dec c - 1 / 10000) * c_Dtref c) (ob_t ob - v_tlast s)) with (Rgeb (ob_t ob - v_tlast s) (Dt_save c)).
  rewrite H1, H2, H3, H4, A1, A2, A3, A4.
  destruct (Rgeb (ob_t ob - v_tlast s) (Dt_save c)).
  - destruct (resize_ok c gs L s ND I) as (a & sb & L' & E & HL & I' & FR & KA). rewrite E. cbn [bind].
    assert (Ei : (v_i s + 1 = Z.of_nat (List.length gs))%Z) by (rewrite (si_i _ _ _ _ I); lia). rewrite Ei.
    destruct (setitems_spec (sbs_writes c ob (total l_nimp rest + l_nimp d, total l_nemit rest + l_nemit d, total l_eimp rest + l_eimp d, total l_eemit rest + l_eemit d))
      a (Z.of_nat (List.length gs)) L' (writes_nodup _ _ _)) as (a1 & E1 & P1 & Q1 & K1).
    { intros k Hk. exact (inv_arr _ _ _ _ k I' (writes_names _ _ _ _ Hk)). }
    { lia. }
    rewrite E1. cbn [bind].
    assert (COL : forall k f, In (k, f) (columns c) -> exists l, get a1 k = Some (VArr l) /\ filled L' (gs ++ [rest ++ [(ob, d)]]) f l).
    { intros k f H. destruct (si_col _ _ _ _ I' k f H) as (l & G & F). cbn [v_at] in G.
      eexists. split; [eapply P1; [apply (writes_cols c ob d rest W Q k f H)|exact G]|]. rewrite Nat2Z.id. apply filled_add; auto. }
    destruct (setitems_spec (map (fun k => (k, ob_custom ob k)) (c_custom c)) sb (Z.of_nat (List.length gs)) L') as (sb1 & E3 & P3 & Q3 & K3).
    { rewrite map_map. cbn [fst]. rewrite map_id. exact ND. }
    { intros k Hk. rewrite map_map in Hk. cbn [fst] in Hk. rewrite map_id in Hk. exact (inv_arr_cus _ _ _ _ k I' Hk). }
    { lia. }
    assert (CUS : forall k f, In (k, f) (custom_columns c) -> exists l, get sb1 k = Some (VArr l) /\ filled L' (gs ++ [rest ++ [(ob, d)]]) f l).
    { intros k f H. destruct (si_cus _ _ _ _ I' k f H) as (l & G & F). cbn [v_sbs] in G.
      unfold custom_columns in H. apply in_map_iff in H. destruct H as (k0 & EE & HIn). injection EE as -> <-.
      eexists. split; [eapply P3; [apply in_map_iff; exists k; split; [reflexivity|exact HIn]|exact G]|].
      rewrite Nat2Z.id. apply filled_add; auto. rewrite now_last. reflexivity. }
    assert (NM : map fst sb1 = c_custom c) by (rewrite K3; exact (si_names _ _ _ _ I')).
    unfold probe_writes. destruct (c_probes c) as [|p0 ps] eqn:EP.
    + cbn [bind]. rewrite E3. cbn [bind]. eexists. split; [reflexivity|]. cbn [v_at v_pbp v_tEn v_tlife v_dline v_tlast v_i v_sbs].
      split; [|split; [reflexivity|split; [reflexivity|split; [reflexivity|split; [reflexivity|split; [congruence|]]]]]].
      { intros k Hk. rewrite Q1; [apply FR, Hk|]. intros K. apply Hk. right. apply (writes_names _ _ _ _ K). }
      exists L'. split; [|split; [repeat split; reflexivity|reflexivity]].
      constructor; cbn [v_i v_at v_sbs]; [rewrite app_length; cbn; lia|apply (si_L _ _ _ _ I')|exact COL|exact NM|exact CUS|intros K; congruence].
    + destruct (si_prb _ _ _ _ I') as (m & Gm & Fm); [rewrite EP; discriminate|]. cbn [v_at] in Gm.
      rewrite Q1, Gm by (intros K; apply (probe_not_member c), (writes_names _ _ _ _ K)).
      destruct (probe_rows_spec L' gs (ob_mp ob) ob (rest ++ [(ob, d)]) _ _ Fm HL W eq_refl) as (m' & E4 & F4); [intros f; apply now_last|].
      rewrite EP in E4, F4.
      rewrite E4. cbn [bind]. rewrite E3. cbn [bind]. eexists. split; [reflexivity|]. cbn [v_at v_pbp v_tEn v_tlife v_dline v_tlast v_i v_sbs].
      split; [|split; [reflexivity|split; [reflexivity|split; [reflexivity|split; [reflexivity|split; [|]]]]]].
      { intros k Hk. rewrite get_put_other by (intros ->; apply Hk; left; reflexivity). rewrite Q1; [apply FR, Hk|].
        intros K. apply Hk. right. apply (writes_names _ _ _ _ K). }
      { rewrite put_keys; [congruence|]. rewrite K1. eapply get_In, Gm. }
      exists L'. split; [|split; [repeat split; reflexivity|reflexivity]].
      constructor; cbn [v_i v_at v_sbs]; [rewrite app_length; cbn; lia|apply (si_L _ _ _ _ I')| |exact NM|exact CUS|].
      * intros k f H. destruct (COL k f H) as (l & G & F). exists l. split; [|exact F]. rewrite get_put_other; [exact G|].
        intros ->. apply (probe_not_member c). eapply col_in; eauto.
      * intros _. exists m'. split; [apply get_put_same|]. rewrite EP. exact F4.
  - eexists. split; [reflexivity|]. cbn [v_at v_pbp v_tEn v_tlife v_dline v_tlast]. split; [reflexivity|].
    do 5 (split; [reflexivity|]). split; [|split; [|reflexivity]].
    + destruct I. constructor; assumption.
    + repeat split; cbn [v_nimp v_nemit v_eimp v_eemit]; rewrite total_last; reflexivity.
Qed.

Lemma upto_ge {A} (l : list A) n : upto l (Z.of_nat n) = firstn n l.
Proof. unfold upto. rewrite (proj2 (Z.leb_le 0 _)) by lia. rewrite Nat2Z.id. reflexivity. Qed.

Lemma filled_firstn L gs f l : filled L gs f l -> firstn (List.length gs) l = map f gs.
Proof. intros (t & -> & _). rewrite <- (map_length f gs), firstn_app, Nat.sub_diag, firstn_all, firstn_O, app_nil_r. reflexivity. Qed.

Lemma get_dict_spec c gs L s : NoDup (c_custom c) -> (forall k, In k (c_custom c) -> ~ In k (sbs_members c) /\ k <> "el_dens_at_probes") ->
  sbs_inv c gs L s ->
  exists d, stepbystep_get_dict c s = Some d /\
    (forall k f, In (k, f) (columns c ++ custom_columns c) -> get d k = Some (VArr (map f gs))) /\
    (c_probes c <> [] -> (0 < List.length gs)%nat ->
      get d "el_dens_at_probes" = Some (VMat (map (fun p => map (probe_val p) (removelast gs)) (c_probes c)))) /\
    map fst d = sbs_members c ++ (match c_probes c with [] => [] | _ => ["el_dens_at_probes"] end) ++ c_custom c.
Proof.
  intros ND HC I. unfold stepbystep_get_dict.
  replace (v_i s + 1)%Z with (Z.of_nat (List.length gs)) by (rewrite (si_i _ _ _ _ I); lia).
  destruct (cut_all_spec (sbs_members c) (v_at s) (Z.of_nat (List.length gs))) as (a & E1 & K1 & P1).
  { intros k Hk. destruct (inv_arr _ _ _ _ k I Hk) as (l & G & _). eauto. }
  destruct (cut_all_spec (map fst (v_sbs s)) (v_sbs s) (Z.of_nat (List.length gs))) as (b & E2 & K2 & P2).
  { intros k Hk. rewrite (si_names _ _ _ _ I) in Hk. destruct (inv_arr_cus _ _ _ _ k I Hk) as (l & G & _). eauto. }
  rewrite E1. cbn [bind]. rewrite (si_names _ _ _ _ I) in K2.
  set (pd := match c_probes c with [] => Some [] | _ :: _ => _ end).
  assert (exists p, pd = Some p /\ map fst p = (match c_probes c with [] => [] | _ => ["el_dens_at_probes"] end) /\
    (c_probes c <> [] -> (0 < List.length gs)%nat -> get p "el_dens_at_probes" = Some (VMat (map (fun q => map (probe_val q) (removelast gs)) (c_probes c))))) as (p & EP & KP & PP).
  { unfold pd. destruct (c_probes c) as [|p0 ps] eqn:EC; [exists []; split; [reflexivity|split; [reflexivity|congruence]]|].
    destruct (si_prb _ _ _ _ I) as (m & Gm & Fm); [rewrite EC; discriminate|]. rewrite Gm. eexists. split; [reflexivity|]. split; [reflexivity|].
    intros _ HL. cbn. f_equal. f_equal. rewrite EC in Fm. rewrite (si_i _ _ _ _ I).
    assert (FF : forall qs m0, Forall2 (fun q row => filled L gs (probe_val q) row) qs m0 ->
      map (fun row => upto row (Z.of_nat (List.length gs) - 1)) m0 = map (fun q => map (probe_val q) (removelast gs)) qs).
    { induction 1 as [|q row qs m0 F Fs IH]; cbn [map]; [reflexivity|]. rewrite IH. f_equal. apply filled_firstn in F.
      replace (Z.of_nat (List.length gs) - 1)%Z with (Z.of_nat (pred (List.length gs))) by lia. rewrite upto_ge, removelast_firstn_len.
      rewrite <- firstn_map, <- F, firstn_firstn. f_equal. lia. }
    exact (FF _ _ Fm). }
  rewrite EP. cbn [bind]. rewrite E2. cbn [bind]. eexists. split; [reflexivity|].
  assert (NB : NoDup (map fst b)) by (rewrite K2; exact ND).
  assert (GB : forall k, get b k = None <-> ~ In k (c_custom c)).
  { intros k. rewrite <- K2. split; [|apply get_None]. intros G H. destruct (In_get _ _ H) as (v & Hv). congruence. }
  split; [|split].
  - intros k f H. rewrite update_get by exact NB. apply in_app_iff in H. destruct H as [H|H].
    + assert (Hm := col_in _ _ _ H). replace (get b k) with (@None val); [|symmetry; apply GB; intros X; exact (proj1 (HC _ X) Hm)].
      destruct (si_col _ _ _ _ I k f H) as (l & G & F). rewrite get_app, (P1 k l Hm G), upto_ge, (filled_firstn _ _ _ _ F). reflexivity.
    + assert (Hm : In k (c_custom c)) by (rewrite <- custom_names; exact (in_map fst _ _ H)).
      destruct (si_cus _ _ _ _ I k f H) as (l & G & F). rewrite (P2 k l), upto_ge, (filled_firstn _ _ _ _ F); [reflexivity|rewrite (si_names _ _ _ _ I); exact Hm|exact G].
  - intros NP HL. rewrite update_get by exact NB.
    replace (get b "el_dens_at_probes") with (@None val); [|symmetry; apply GB; intros X; exact (proj2 (HC _ X) eq_refl)].
    rewrite get_app, (get_None a); [apply PP; assumption|]. rewrite K1. apply probe_not_member.
  - assert (UP : forall e d0, NoDup (map fst e) -> (forall k, In k (map fst e) -> ~ In k (map fst d0)) -> map fst (update d0 e) = map fst d0 ++ map fst e).
    { clear. unfold update. induction e as [|[k v] e IH]; intros d0 ND H; cbn [fold_left map fst snd]; [symmetry; apply app_nil_r|].
      inversion_clear ND as [|? ? N1 N2].
      assert (PK : map fst (put d0 k v) = map fst d0 ++ [k]).
      { assert (~ In k (map fst d0)) as Hk by (apply H; left; reflexivity). clear -Hk. induction d0 as [|[k' v'] d0 IH]; cbn; [reflexivity|].
        destruct (String.eqb k k') eqn:E; [apply String.eqb_eq in E; exfalso; apply Hk; left; cbn; congruence|]. cbn. f_equal. apply IH.
        intros X. apply Hk. right. exact X. }
      rewrite IH; [rewrite PK, <- app_assoc; reflexivity|exact N2|]. intros k2 H2. rewrite PK, in_app_iff. intros [X|[X|[]]].
      - apply (H k2); [right; exact H2|exact X].
      - subst k2. exact (N1 H2). }
    rewrite UP; [rewrite map_app, K1, KP, K2, <- app_assoc; reflexivity|exact NB|].
    intros k Hk. rewrite K2 in Hk. rewrite map_app, K1, KP, in_app_iff. intros [X|X]; [exact (proj1 (HC _ Hk) X)|].
    destruct (c_probes c); [exact X|]. destruct X as [X|[]]. exact (proj2 (HC _ Hk) (eq_sym X)).
Qed.
