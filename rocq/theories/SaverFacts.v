(** Facts on dictionaries and on the primitive operations of the recorder. *)
From Coq Require Import String Lia Lra Bool.
From Verif Require Import Num NumFacts Saver SpecSaver.
Local Open Scope string_scope.
Local Open Scope list_scope.
Local Open Scope R_scope.

Lemma get_put_same d k v : get (put d k v) k = Some v.
Proof.
  induction d as [|[k' v'] d IH]; cbn [put get].
  - rewrite String.eqb_refl. reflexivity.
  - destruct (String.eqb k k') eqn:E; cbn [get]; [rewrite String.eqb_refl; reflexivity|rewrite E; exact IH].
Qed.

Lemma get_put_other d k v k' : k' <> k -> get (put d k v) k' = get d k'.
Proof.
  intros N. apply String.eqb_neq in N. induction d as [|[k2 v2] d IH]; cbn [put get].
  - rewrite N. reflexivity.
  - destruct (String.eqb k k2) eqn:E; cbn [get].
    + apply String.eqb_eq in E. subst k2. rewrite N. reflexivity.
    + destruct (String.eqb k' k2); [reflexivity|exact IH].
Qed.

Lemma put_keys d k v : In k (map fst d) -> map fst (put d k v) = map fst d.
Proof.
  induction d as [|[k' v'] d IH]; cbn; [tauto|]. intros H. destruct (String.eqb k k') eqn:E; cbn.
  - apply String.eqb_eq in E. congruence.
  - apply String.eqb_neq in E. f_equal. apply IH. destruct H; [congruence|assumption].
Qed.

Lemma get_In d k v : get d k = Some v -> In k (map fst d).
Proof.
  induction d as [|[k' v'] d IH]; cbn; [discriminate|]. destruct (String.eqb k k') eqn:E.
  - apply String.eqb_eq in E. auto.
  - intros H. right. apply IH, H.
Qed.

Lemma In_get d k : In k (map fst d) -> exists v, get d k = Some v.
Proof.
  induction d as [|[k' v'] d IH]; cbn; [tauto|]. intros H. destruct (String.eqb k k') eqn:E; [eexists; reflexivity|].
  apply String.eqb_neq in E. apply IH. destruct H; [congruence|assumption].
Qed.

Lemma get_None d k : ~ In k (map fst d) -> get d k = None.
Proof.
  induction d as [|[k' v'] d IH]; cbn; [reflexivity|]. intros H. destruct (String.eqb k k') eqn:E.
  - apply String.eqb_eq in E. exfalso. apply H. left. congruence.
  - apply IH. intros K. apply H. right. exact K.
Qed.

Lemma get_app d e k : get (d ++ e) k = match get d k with Some v => Some v | None => get e k end.
Proof. induction d as [|[k' v'] d IH]; cbn; [reflexivity|]. destruct (String.eqb k k'); auto. Qed.

Lemma get_map (f : string -> val) ks k : get (map (fun k => (k, f k)) ks) k = if existsb (String.eqb k) ks then Some (f k) else None.
Proof.
  induction ks as [|k' ks IH]; cbn; [reflexivity|]. destruct (String.eqb k k') eqn:E; cbn; [apply String.eqb_eq in E; subst; reflexivity|exact IH].
Qed.

Lemma get_map_in (f : string -> val) ks k : In k ks -> get (map (fun k => (k, f k)) ks) k = Some (f k).
Proof.
  intros H. rewrite get_map. replace (existsb (String.eqb k) ks) with true; [reflexivity|].
  symmetry. apply existsb_exists. exists k. split; [exact H|apply String.eqb_refl].
Qed.

Lemma update_get : forall e d k, NoDup (map fst e) -> get (update d e) k = match get e k with Some v => Some v | None => get d k end.
Proof.
  unfold update. induction e as [|[k' v'] e IH]; intros d k ND; cbn [fold_left]; [reflexivity|].
  inversion_clear ND as [|a b N1 N2]. rewrite IH by assumption. cbn [get fst snd].
  destruct (String.eqb k k') eqn:E.
  - apply String.eqb_eq in E. subst k'. rewrite (get_None _ _ N1). apply get_put_same.
  - apply String.eqb_neq in E. destruct (get e k); [reflexivity|apply get_put_other; exact E].
Qed.

(** Setting entries. *)
Lemma py_set_ok a i v : (0 <= i < Z.of_nat (List.length a))%Z -> py_set a i v = Some (upd_nth a (Z.to_nat i) (fun _ => v)).
Proof.
  intros H. unfold py_set. rewrite (proj2 (Z.leb_le 0 i)) by lia. rewrite (proj2 (Z.leb_le 0 i)), (proj2 (Z.ltb_lt i _)) by lia. reflexivity.
Qed.

Definition arr_of (L : nat) (d : dict) (k : string) : Prop := exists l, get d k = Some (VArr l) /\ List.length l = L.

Lemma setitems_spec : forall ws d i L,
  NoDup (map fst ws) -> (forall k, In k (map fst ws) -> arr_of L d k) -> (0 <= i < Z.of_nat L)%Z ->
  exists d', setitems d i ws = Some d' /\
    (forall k v l, In (k, v) ws -> get d k = Some (VArr l) -> get d' k = Some (VArr (upd_nth l (Z.to_nat i) (fun _ => v)))) /\
    (forall k, ~ In k (map fst ws) -> get d' k = get d k) /\
    map fst d' = map fst d.
Proof.
  induction ws as [|[k v] ws IH]; intros d i L ND A Hi; cbn [setitems].
  - exists d. split; [reflexivity|]. split; [intros ? ? ? []|]. auto.
  - inversion_clear ND as [|a b N1 N2]. destruct (A k (or_introl eq_refl)) as (l & G & Ll).
    unfold setitem at 1. cbn [fst snd]. rewrite G. rewrite py_set_ok by lia. cbn [bind].
    set (d1 := put d k (VArr (upd_nth l (Z.to_nat i) (fun _ => v)))).
    destruct (IH d1 i L N2) as (d' & E & P & Q & K); [|exact Hi|].
    + intros k2 H2. destruct (A k2 (or_intror H2)) as (l2 & G2 & L2). exists l2. split; [|exact L2].
      unfold d1. rewrite get_put_other; [exact G2|]. intros ->. contradiction.
    + exists d'. split; [exact E|]. split; [|split].
      * intros k2 v2 l2 [H|H] G2.
        { injection H as <- <-. rewrite Q by exact N1. unfold d1. rewrite get_put_same. congruence. }
        apply P; [exact H|]. unfold d1. rewrite get_put_other; [exact G2|]. intros ->. apply N1. exact (in_map fst _ _ H).
      * intros k2 H2. rewrite Q by (intros H; apply H2; right; exact H). unfold d1. apply get_put_other.
        intros ->. apply H2. left. reflexivity.
      * rewrite K. unfold d1. apply put_keys. eapply get_In, G.
Qed.

Lemma double_length l : List.length (double l) = (List.length l + List.length l)%nat.
Proof. unfold double. rewrite app_length, map_length. reflexivity. Qed.

Lemma double_all_spec : forall ks d L,
  NoDup ks -> (forall k, In k ks -> arr_of L d k) ->
  exists d', double_all d ks = Some d' /\
    (forall k l, In k ks -> get d k = Some (VArr l) -> get d' k = Some (VArr (double l))) /\
    (forall k, ~ In k ks -> get d' k = get d k) /\ map fst d' = map fst d.
Proof.
  induction ks as [|k ks IH]; intros d L ND A; cbn [double_all].
  - exists d. split; [reflexivity|]. split; [intros ? ? []|auto].
  - inversion_clear ND as [|a b N1 N2]. destruct (A k (or_introl eq_refl)) as (l & G & Ll).
    unfold double_at at 1. rewrite G. cbn [bind]. set (d1 := put d k (VArr (double l))).
    destruct (IH d1 L N2) as (d' & E & P & Q & K).
    + intros k2 H2. destruct (A k2 (or_intror H2)) as (l2 & G2 & L2). exists l2. split; [|exact L2].
      unfold d1. rewrite get_put_other; [exact G2|]. intros ->. contradiction.
    + exists d'. split; [exact E|]. split; [|split].
      * intros k2 l2 [H|H] G2; [subst k2; rewrite Q by exact N1; unfold d1; rewrite get_put_same; congruence|].
        apply P; [exact H|]. unfold d1. rewrite get_put_other; [exact G2|]. intros ->. contradiction.
      * intros k2 H2. rewrite Q by (intros H; apply H2; right; exact H). unfold d1. apply get_put_other.
        intros ->. apply H2. left. reflexivity.
      * rewrite K. unfold d1. apply put_keys. eapply get_In, G.
Qed.

Lemma cut_all_spec : forall ks d z,
  (forall k, In k ks -> exists l, get d k = Some (VArr l)) ->
  exists r, cut_all d z ks = Some r /\ map fst r = ks /\
    forall k l, In k ks -> get d k = Some (VArr l) -> get r k = Some (VArr (upto l z)).
Proof.
  induction ks as [|k ks IH]; intros d z A; cbn [cut_all].
  - exists []. split; [reflexivity|]. split; [reflexivity|intros ? ? []].
  - destruct (A k (or_introl eq_refl)) as (l & G). unfold cut_at at 1. rewrite G. cbn [bind].
    destruct (IH d z (fun k2 H => A k2 (or_intror H))) as (r & E & K & P). rewrite E. cbn [bind].
    eexists. split; [reflexivity|]. split; [cbn; f_equal; exact K|]. intros k2 l2 H G2. cbn [get].
    destruct (String.eqb k2 k) eqn:Q; [apply String.eqb_eq in Q; subst; congruence|]. apply String.eqb_neq in Q.
    destruct H as [->|H]; [congruence|]. apply P; assumption.
Qed.

Lemma get_all_spec : forall ks d, (forall k, In k ks -> exists v, get d k = Some v) ->
  exists r, get_all d ks = Some r /\ map fst r = ks /\ forall k, In k ks -> get r k = get d k.
Proof.
  induction ks as [|k ks IH]; intros d A; cbn [get_all].
  - exists []. split; [reflexivity|]. split; [reflexivity|intros ? []].
  - destruct (A k (or_introl eq_refl)) as (v & G). rewrite G. cbn [bind].
    destruct (IH d (fun k2 H => A k2 (or_intror H))) as (r & E & K & P). rewrite E. cbn [bind].
    eexists. split; [reflexivity|]. split; [cbn; f_equal; exact K|]. intros k2 H. cbn [get].
    destruct (String.eqb k2 k) eqn:Q; [apply String.eqb_eq in Q; subst; congruence|]. apply String.eqb_neq in Q.
    destruct H as [->|H]; [congruence|]. apply P; assumption.
Qed.

Lemma append_rows_spec : forall ls d,
  NoDup (map fst ls) -> (forall k, In k (map fst ls) -> exists m, get d k = Some (VMat m)) ->
  exists d', append_rows d ls = Some d' /\
    (forall k r m, In (k, r) ls -> get d k = Some (VMat m) -> get d' k = Some (VMat (m ++ [r]))) /\
    (forall k, ~ In k (map fst ls) -> get d' k = get d k) /\ map fst d' = map fst d.
Proof.
  induction ls as [|[k r] ls IH]; intros d ND A; cbn [append_rows].
  - exists d. split; [reflexivity|]. split; [intros ? ? ? []|auto].
  - inversion_clear ND as [|a b N1 N2]. destruct (A k (or_introl eq_refl)) as (m & G).
    unfold append_row at 1. cbn [fst snd]. rewrite G. cbn [bind]. set (d1 := put d k (VMat (m ++ [r]))).
    destruct (IH d1 N2) as (d' & E & P & Q & K).
    + intros k2 H2. destruct (A k2 (or_intror H2)) as (l2 & G2). exists l2.
      unfold d1. rewrite get_put_other; [exact G2|]. intros ->. contradiction.
    + exists d'. split; [exact E|]. split; [|split].
      * intros k2 r2 m2 [H|H] G2; [injection H as <- <-; rewrite Q by exact N1; unfold d1; rewrite get_put_same; congruence|].
        apply P; [exact H|]. unfold d1. rewrite get_put_other; [exact G2|]. intros ->. apply N1. exact (in_map fst _ _ H).
      * intros k2 H2. rewrite Q by (intros H; apply H2; right; exact H). unfold d1. apply get_put_other.
        intros ->. apply H2. left. reflexivity.
      * rewrite K. unfold d1. apply put_keys. eapply get_In, G.
Qed.

Lemma append_nums_spec : forall ls d,
  NoDup (map fst ls) -> (forall k, In k (map fst ls) -> exists m, get d k = Some (VArr m)) ->
  exists d', append_nums d ls = Some d' /\
    (forall k r m, In (k, r) ls -> get d k = Some (VArr m) -> get d' k = Some (VArr (m ++ [r]))) /\
    (forall k, ~ In k (map fst ls) -> get d' k = get d k) /\ map fst d' = map fst d.
Proof.
  induction ls as [|[k r] ls IH]; intros d ND A; cbn [append_nums].
  - exists d. split; [reflexivity|]. split; [intros ? ? ? []|auto].
  - inversion_clear ND as [|a b N1 N2]. destruct (A k (or_introl eq_refl)) as (m & G).
    unfold append_num at 1. cbn [fst snd]. rewrite G. cbn [bind]. set (d1 := put d k (VArr (m ++ [r]))).
    destruct (IH d1 N2) as (d' & E & P & Q & K).
    + intros k2 H2. destruct (A k2 (or_intror H2)) as (l2 & G2). exists l2.
      unfold d1. rewrite get_put_other; [exact G2|]. intros ->. contradiction.
    + exists d'. split; [exact E|]. split; [|split].
      * intros k2 r2 m2 [H|H] G2; [injection H as <- <-; rewrite Q by exact N1; unfold d1; rewrite get_put_same; congruence|].
        apply P; [exact H|]. unfold d1. rewrite get_put_other; [exact G2|]. intros ->. apply N1. exact (in_map fst _ _ H).
      * intros k2 H2. rewrite Q by (intros H; apply H2; right; exact H). unfold d1. apply get_put_other.
        intros ->. apply H2. left. reflexivity.
      * rewrite K. unfold d1. apply put_keys. eapply get_In, G.
Qed.

(** [upd_nth] at the end of a filled part. *)
Lemma upd_nth_end {A} (f : A -> A) : forall l x t, upd_nth (l ++ x :: t) (List.length l) f = l ++ f x :: t.
Proof. induction l as [|a l IH]; intros x t; cbn; [reflexivity|]. f_equal. apply IH. Qed.

Lemma upto_app {A} (l t : list A) z : z = Z.of_nat (List.length l) -> upto (l ++ t) z = l.
Proof.
  intros ->. unfold upto. rewrite (proj2 (Z.leb_le 0 _)) by lia. rewrite Nat2Z.id, firstn_app, Nat.sub_diag, firstn_all, firstn_O, app_nil_r. reflexivity.
Qed.
