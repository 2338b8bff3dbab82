(** Reload of an output. *)
From Coq Require Import String Lia Lra Bool Sorted.
From Verif Require Import Num NumFacts MP SpecMP MPFacts Impact Saver SpecSaver SaverFacts SaverFacts2 SaverFacts3 SaverFacts4 SaverFacts5 SaverFacts6.
Local Open Scope string_scope.
Local Open Scope list_scope.
Local Open Scope R_scope.

(** ** Dictionaries *)
Lemma loaded_get d k : get (loaded d) k = match get d k with Some v => Some (squeeze v) | None => None end.
Proof. induction d as [|[k' v] d IH]; cbn; [reflexivity|]. destruct (String.eqb k k'); [reflexivity|exact IH]. Qed.

Lemma restore_get hist f : forall ks d k, get (restore hist f ks d) k =
  match (if existsb (String.eqb k) ks then get hist k else None) with Some v => Some (f v) | None => get d k end.
Proof.
  induction ks as [|k' ks IH]; intros d k; cbn [restore existsb]; [reflexivity|]. rewrite IH.
  destruct (String.eqb k k') eqn:E; cbn [orb].
  - apply String.eqb_eq in E. subst k'. destruct (existsb (String.eqb k) ks); destruct (get hist k); try reflexivity. apply get_put_same.
  - apply String.eqb_neq in E. destruct (if existsb (String.eqb k) ks then get hist k else None); [reflexivity|].
    destruct (get hist k'); [apply get_put_other; exact E|reflexivity].
Qed.

Lemma put_nodup d k v : NoDup (map fst d) -> NoDup (map fst (put d k v)).
Proof.
  intros H. destruct (in_dec string_dec k (map fst d)) as [I|I]; [rewrite put_keys by exact I; exact H|].
  assert (E : map fst (put d k v) = map fst d ++ [k]).
  { clear H. induction d as [|[k' v'] d IH]; cbn; [reflexivity|]. destruct (String.eqb k k') eqn:E; [apply String.eqb_eq in E; exfalso; apply I; left; cbn; congruence|].
    cbn. f_equal. apply IH. intros X. apply I. right. exact X. }
  rewrite E. clear E. induction (map fst d) as [|x l IH]; cbn; [constructor; [tauto|constructor]|]. inversion_clear H. constructor.
  - rewrite in_app_iff. intros [X|[X|[]]]; [tauto|]. apply I. left. congruence.
  - apply IH; [assumption|]. intros X. apply I. right. exact X.
Qed.

Lemma restore_nodup hist f : forall ks d, NoDup (map fst d) -> NoDup (map fst (restore hist f ks d)).
Proof. induction ks as [|k ks IH]; intros d H; cbn [restore]; [exact H|]. apply IH. destruct (get hist k); [apply put_nodup|]; exact H. Qed.

Lemma update_in : forall e d k, In k (map fst d) -> In k (map fst (update d e)).
Proof.
  unfold update. induction e as [|[k' v] e IH]; intros d k H; cbn [fold_left]; [exact H|]. apply IH. cbn [fst snd].
  destruct (In_get d k H) as (x & X). destruct (string_dec k k') as [->|N].
  - eapply get_In, get_put_same.
  - eapply get_In. rewrite get_put_other by exact N. exact X.
Qed.

Lemma sq_arr l : List.length l <> 1%nat -> squeeze (VArr l) = VArr l.
Proof. destruct l as [|x [|y l]]; cbn; auto. lia. Qed.

Lemma sq_mat m : (2 <= List.length m)%nat -> Forall (fun r => List.length r <> 1%nat) m -> squeeze (VMat m) = VMat m.
Proof.
  destruct m as [|a [|b m]]; cbn; intros H F; try lia. inversion_clear F as [|? ? F1 F2].
  rewrite (proj2 (Nat.eqb_neq _ _) F1). destruct a as [|x [|y a]]; reflexivity.
Qed.

(** ** The closest time *)
Lemma argmin_zero t : forall l i best, argmin_from t l i best 0 = best.
Proof.
  induction l as [|x l IH]; intros i best; cbn; [reflexivity|]. rewrite (proj2 (Rltb_false _ _)); [apply IH|]. pose proof (Rabs_pos (x - t)). lra.
Qed.

Lemma argmin_hit t : forall l i best b p, nth_error l p = Some t -> (forall q x, (q < p)%nat -> nth_error l q = Some x -> x <> t) -> 0 < b ->
  argmin_from t l i best b = (i + p)%nat.
Proof.
  induction l as [|x l IH]; intros i best b p H N Hb; [destruct p; discriminate|]. destruct p as [|p]; cbn in H.
  - injection H as ->. cbn. replace (t - t) with 0 by ring. rewrite Rabs_R0, (proj2 (Rltb_true _ _) Hb), argmin_zero. lia.
  - assert (X : x <> t) by (apply (N 0%nat x); [lia|reflexivity]). assert (0 < Rabs (x - t)) by (apply Rabs_pos_lt; lra).
    cbn. replace (i + S p)%nat with (S i + p)%nat by lia.
    assert (N' : forall q y, (q < p)%nat -> nth_error l q = Some y -> y <> t) by (intros q y Hq E; apply (N (S q) y); [lia|exact E]).
    destruct (Rltb (Rabs (x - t)) b); apply IH; auto.
Qed.

Lemma closest_hit ts t p : nth_error ts p = Some t -> (forall q x, (q < p)%nat -> nth_error ts q = Some x -> x <> t) -> closest (Some (VArr ts)) t = Some p.
Proof.
  destruct ts as [|x ts]; [destruct p; discriminate|]. destruct p as [|p]; intros H N; cbn [closest].
  - cbn in H. injection H as ->. replace (t - t) with 0 by ring. rewrite Rabs_R0, argmin_zero. reflexivity.
  - cbn in H. assert (X : x <> t) by (apply (N 0%nat x); [lia|reflexivity]). f_equal. rewrite (argmin_hit t ts 1 0 _ p); [reflexivity|exact H| |apply Rabs_pos_lt; lra].
    intros q y Hq E. apply (N (S q) y); [lia|exact E].
Qed.

(** ** Times in increasing order *)
Lemma ss_app a b : increasing (a ++ b) -> increasing a /\ increasing b /\ forall x y, In x a -> In y b -> x < y.
Proof.
  induction a as [|z a IH]; cbn; intros H; [split; [constructor|split; [exact H|intros x y []]]|].
  inversion_clear H as [|? ? H1 H2]. destruct (IH H1) as (A & B & C). apply Forall_app in H2. destruct H2 as [H2 H3]. split; [|split; [exact B|]].
  - constructor; [exact A|exact H2].
  - intros x y [<-|X] Y; [rewrite Forall_forall in H3; apply H3, Y|apply C; assumption].
Qed.

Lemma now_in g : g <> [] -> In (now ob_t g) (map s_time g).
Proof.
  intros N. destruct g as [|q g] using rev_ind; [congruence|]. rewrite now_last, map_app, in_app_iff. right. left. reflexivity.
Qed.

Lemma ends_in gs x : Forall (fun g : list step => g <> []) gs -> In x (map (now ob_t) gs) -> In x (map s_time (concat gs)).
Proof.
  induction gs as [|g gs IH]; intros N H; [contradiction|]. inversion_clear N as [|? ? N1 N2]. cbn [concat]. rewrite map_app, in_app_iff.
  destruct H as [<-|H]; [left; apply now_in, N1|right; apply IH; assumption].
Qed.

Lemma ends_sorted gs : Forall (fun g : list step => g <> []) gs -> increasing (map s_time (concat gs)) -> increasing (map (now ob_t) gs).
Proof.
  induction gs as [|g gs IH]; intros N H; [constructor|]. inversion_clear N as [|? ? N1 N2]. cbn [concat map] in *. rewrite map_app in H.
  destruct (ss_app _ _ H) as (A & B & C). constructor; [apply IH; assumption|]. apply Forall_forall. intros x X. apply C; [apply now_in, N1|apply ends_in; assumption].
Qed.

Lemma sorted_first ts p t : increasing ts -> nth_error ts p = Some t -> forall q x, (q < p)%nat -> nth_error ts q = Some x -> x <> t.
Proof.
  revert p. induction ts as [|y ts IH]; intros p S H q x Hq E; [destruct p; discriminate|]. inversion_clear S as [|? ? S1 S2].
  destruct p as [|p]; [lia|]. cbn in H. destruct q as [|q]; cbn in E.
  - injection E as <-. rewrite Forall_forall in S2. specialize (S2 t (nth_error_In _ _ H)). lra.
  - eapply (IH p S1 H q); [lia|exact E].
Qed.

Lemma closest_sorted ts p t : increasing ts -> nth_error ts p = Some t -> closest (Some (VArr ts)) t = Some p.
Proof. intros S H. apply closest_hit; [exact H|]. apply sorted_first; assumption. Qed.

(** ** The reload *)
Lemma row_len c w k f g : big c w -> In (k, f) (pass_rows c w ++ hist_rows c w) -> g <> [] -> Forall (fun q : step => same_shape w (snd q)) g -> List.length (f g) <> 1%nat.
Proof.
  intros (B1 & B2 & B3 & B4 & B5 & B6 & B7 & B8 & B9 & B10 & _) H N S.
  assert (RT : forall n fn, n <> 1%nat -> (forall q : step, same_shape w (snd q) -> List.length (fn (snd q)) = n) -> List.length (row_total n fn g) <> 1%nat).
  { intros n fn Hn F. rewrite row_total_length; [exact Hn|]. eapply Forall_impl; [|exact S]. exact F. }
  assert (AE : forall (h : obs -> list R) n, n <> 1%nat -> (forall ob, List.length (h ob) = n) -> List.length (at_end h [] g) <> 1%nat).
  { intros h n Hn F. destruct g as [|q g0 _] using rev_ind; [congruence|]. rewrite at_end_last, F. exact Hn. }
  unfold pass_rows, hist_rows in H. rewrite !in_app_iff in H. destruct H as [[H|H]|[H|[H|H]]].
  - cbn [In] in H. destruct H as [H|[H|[H|[H|[]]]]]; injection H as <- <-; [eapply AE; [exact B1|intros; apply histogram_length]|apply RT|apply RT|apply RT]; try assumption; intros q X; apply X.
  - destruct (k_seg (c_ic c)); [|contradiction]. cbn [In] in H. destruct H as [H|[H|[H|[]]]]; injection H as <- <-; apply RT; try assumption; intros q X; apply X.
  - destruct H as [H|[]]; injection H as <- <-. apply RT; try assumption. intros q X; apply X.
  - destruct (c_cos c); [|contradiction]. destruct H as [H|[]]; injection H as <- <-. apply RT; try assumption. intros q X; apply X.
  - destruct H as [H|[]]; injection H as <- <-. eapply AE; [exact B2|intros; apply histogram_length].
Qed.

Definition in_list (k : string) (l : list string) : bool := existsb (String.eqb k) l.
Definition consts (c : scfg) : list string := constant_list ++ match c_life c with None => [] | Some _ => ["lifetime_g_hist"] end.

(** The attributes after a reload. *)
Lemma load_get c file t s i j m l0 :
  c_custom c = [] -> closest (get (loaded file) "t") t = Some i -> closest (get (loaded file) "t_hist") t = Some j ->
  closest (get (loaded file) "t_sc_video") t = Some m -> (forall r, get (loaded file) "t_sc_video" <> Some (VNum r)) ->
  get (loaded file) "Nel_timep" = Some (VArr l0) ->
  exists s', load_from_output c file t s = Some s' /\
    v_i s' = (Z.of_nat (List.length (firstn i l0)) - 1)%Z /\ v_tlast s' = v_tlast s /\ v_nimp s' = v_nimp s /\ v_nemit s' = v_nemit s /\ v_eimp s' = v_eimp s /\
    v_eemit s' = v_eemit s /\ v_sbs s' = v_sbs s /\ v_pbp s' = v_pbp s /\ v_tEn s' = v_tEn s /\ v_tlife s' = v_tlife s /\ v_dline s' = v_dline s /\
    (forall k, In k (map fst (v_at s)) -> In k (map fst (v_at s'))) /\
    (forall k v, get file k = Some v -> In k timestep_list -> get (v_at s') k = Some (cut i (squeeze v))) /\
    (forall k v, get file k = Some v -> In k passage_list -> get (v_at s') k = Some (cut (j + 1) (squeeze v))) /\
    (forall v, get file "t_sc_video" = Some v -> get (v_at s') "t_sc_video" = Some (cut (m + 1) (squeeze v))) /\
    (forall k v, get file k = Some v -> In k (consts c) -> get (v_at s') k = Some (squeeze v)) /\
    (forall k, in_list k (timestep_list ++ passage_list ++ consts c ++ ["t_sc_video"]) = false -> get (v_at s') k = get (v_at s) k).
Proof.
  intros CC H1 H2 H3 NS HN. unfold load_from_output. rewrite CC, H1, H2, H3. cbn [bind].
  fold (consts c).
  set (hist := loaded file) in *. set (d1 := restore hist (cut i) timestep_list []).
  set (d2 := restore hist (cut (j + 1)) passage_list d1). set (d3 := restore hist (fun v => v) (consts c) d2). set (d4 := restore hist (cut (m + 1)) ["t_sc_video"] d3).
  assert (G1 : get d1 "Nel_timep" = Some (VArr (firstn i l0))) by (unfold d1; rewrite restore_get; cbn; rewrite HN; reflexivity).
  rewrite G1.
  assert (ND : NoDup (map fst d4)) by (unfold d4, d3, d2, d1; repeat apply restore_nodup; constructor).
  assert (G4 : forall k, get d4 k = match (if in_list k ["t_sc_video"] then get hist k else None) with Some v => Some (cut (m + 1) v) | None =>
    match (if in_list k (consts c) then get hist k else None) with Some v => Some v | None =>
    match (if in_list k passage_list then get hist k else None) with Some v => Some (cut (j + 1) v) | None =>
    match (if in_list k timestep_list then get hist k else None) with Some v => Some (cut i v) | None => None end end end end).
  { intros k. unfold d4. rewrite restore_get. fold (in_list k ["t_sc_video"]). destruct (if in_list k ["t_sc_video"] then _ else _); [reflexivity|].
    unfold d3. rewrite restore_get. fold (in_list k (consts c)). destruct (if in_list k (consts c) then _ else _); [reflexivity|].
    unfold d2. rewrite restore_get. fold (in_list k passage_list). destruct (if in_list k passage_list then _ else _); [reflexivity|].
    unfold d1. rewrite restore_get. reflexivity. }
  assert (IN : forall k l, In k l -> in_list k l = true) by (intros k l H; apply existsb_exists; exists k; split; [exact H|apply String.eqb_refl]).
  assert (OUT : forall k X Y, apartb X Y = true -> In k X -> in_list k Y = false).
  { intros k X Y A H. destruct (in_list k Y) eqn:E; [|reflexivity]. apply existsb_exists in E. destruct E as (k' & E & Q). apply String.eqb_eq in Q. subst k'. exfalso. exact (apartb_ok X Y A k H E). }
  assert (CA : apartb (consts c) ["t_sc_video"] = true) by (unfold consts; destruct (c_life c); reflexivity).
  match goal with |- context [mkSst ?a ?b ?cc ?d ?e ?f ?g ?h ?p ?q ?r ?x] => set (fin := mkSst a b cc d e f g h p q r x) end.
  assert (EX : match get hist "t_sc_video" with Some (VNum _) => None | _ => Some fin end = Some fin).
  { destruct (get hist "t_sc_video") as [[]|] eqn:EV; try reflexivity. exfalso. exact (NS r eq_refl). }
  exists fin. split; [exact EX|]. unfold fin; cbn [v_i v_tlast v_nimp v_nemit v_eimp v_eemit v_sbs v_pbp v_tEn v_tlife v_dline v_at].
  do 11 (split; [reflexivity|]). split; [intros k Hk; apply update_in, Hk|].
  assert (GH : forall k v, get file k = Some v -> get hist k = Some (squeeze v)) by (intros k v E; unfold hist; rewrite loaded_get, E; reflexivity).
  split; [|split; [|split; [|split]]].
  - intros k v E Hk. rewrite update_get by exact ND. rewrite G4. rewrite (OUT k timestep_list ["t_sc_video"]) by (reflexivity || exact Hk).
    rewrite (OUT k timestep_list (consts c)) by (unfold consts; destruct (c_life c); reflexivity || exact Hk). rewrite (OUT k timestep_list passage_list) by (reflexivity || exact Hk).
    rewrite (IN k timestep_list Hk), (GH k v E). reflexivity.
  - intros k v E Hk. rewrite update_get by exact ND. rewrite G4. rewrite (OUT k passage_list ["t_sc_video"]) by (reflexivity || exact Hk).
    rewrite (OUT k passage_list (consts c)) by (unfold consts; destruct (c_life c); reflexivity || exact Hk).
    rewrite (IN k passage_list Hk), (GH k v E). reflexivity.
  - intros v E. rewrite update_get by exact ND. rewrite G4, (IN "t_sc_video" ["t_sc_video"]) by (left; reflexivity). rewrite (GH _ v E). reflexivity.
  - intros k v E Hk. rewrite update_get by exact ND. rewrite G4. rewrite (OUT k (consts c) ["t_sc_video"] CA Hk).
    rewrite (IN k (consts c) Hk), (GH k v E). reflexivity.
  - intros k Hk. rewrite update_get by exact ND. rewrite G4. unfold in_list in Hk. rewrite !existsb_app, !orb_false_iff in Hk. destruct Hk as (K1 & K2 & K3 & K4).
    unfold in_list. rewrite K1, K2, K3, K4. reflexivity.
Qed.
