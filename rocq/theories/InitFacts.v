(** Facts on the binding of arguments. *)
From Coq Require Import String Lia Bool Lra.
From Verif Require Import Num NumFacts ConfigVal ConfigTable Ckpt CkptFacts CkptFacts3 Config SpecConfig ConfigFacts Init SpecInit.
Local Open Scope string_scope.
Local Open Scope list_scope.

(** First binding of a name. *)
Fixpoint aget (l : list (string * arg)) (k : string) : option arg :=
  match l with [] => None | (q, a) :: l' => if String.eqb q k then Some a else aget l' k end.

Lemma mapM_dget ev l r k : mapM (fun q => do v <- ev (snd q) ; Some (fst q, v)) l = Some r ->
  dget r k = do a <- aget l k ; ev a.
Proof.
  revert r. induction l as [|[q a] l IH]; intros r H; cbn in H; [injection H as <-; reflexivity|].
  destruct (ev a) as [v|] eqn:E; [|discriminate]. cbn [fst snd] in H.
  destruct (mapM (fun q : string * arg => do v <- ev (snd q) ; Some (fst q, v)) l) as [r'|] eqn:F; [|discriminate]. injection H as <-. cbn [dget aget].
  destruct (String.eqb q k); [symmetry; exact E|exact (IH _ eq_refl)].
Qed.

Lemma call_arg cc t b f pos kw o l k : call cc t b f pos kw = Some o -> bind_args f pos kw = Some l ->
  ob_name o = f_name f /\ dget (ob_args o) k = do a <- aget l k ; eval cc t b a.
Proof.
  intros H B. unfold call in H. rewrite B in H. cbn [bind] in H.
  destruct (mapM (fun q : string * arg => do v <- eval cc t b (snd q) ; Some (fst q, v)) l) as [r|] eqn:E; [|discriminate]. cbn [bind] in H. injection H as <-. split; [reflexivity|]. cbn [ob_args].
  exact (mapM_dget (eval cc t b) l r k E).
Qed.

(** Checks of tables. *)
Definition owns (l : list (string * arg)) (tab : list (string * string)) : bool :=
  forallb (fun q => match aget l (fst q) with Some (Own p) => String.eqb p (snd q) | _ => false end) tab.
Definition mains (l : list (string * arg)) (tab : list (string * string)) : bool :=
  forallb (fun q => match aget l (fst q) with Some (Main p) => String.eqb p (snd q) | _ => false end) tab.
Definition beams (l : list (string * arg)) (tab : list (string * string)) : bool :=
  forallb (fun q => match aget l (fst q) with Some (Beam p) => String.eqb p (snd q) | _ => false end) tab.

Lemma call_owns cc t b f pos kw o l tab : call cc t b f pos kw = Some o -> bind_args f pos kw = Some l -> owns l tab = true ->
  uses (dget (ob_args o)) (dget t) tab.
Proof.
  intros H B T a p I. destruct (call_arg _ _ _ _ _ _ _ _ a H B) as [_ E]. rewrite E.
  unfold owns in T. rewrite forallb_forall in T. specialize (T _ I). cbn [fst snd] in T.
  destruct (aget l a) as [[q|q|q|v]|]; try discriminate. apply String.eqb_eq in T. subst q. reflexivity.
Qed.
Lemma call_mains cc t b f pos kw o l tab : call cc t b f pos kw = Some o -> bind_args f pos kw = Some l -> mains l tab = true ->
  uses (dget (ob_args o)) (dget cc) tab.
Proof.
  intros H B T a p I. destruct (call_arg _ _ _ _ _ _ _ _ a H B) as [_ E]. rewrite E.
  unfold mains in T. rewrite forallb_forall in T. specialize (T _ I). cbn [fst snd] in T.
  destruct (aget l a) as [[q|q|q|v]|]; try discriminate. apply String.eqb_eq in T. subst q. reflexivity.
Qed.
Lemma call_beams cc t b f pos kw o l tab : call cc t (Some b) f pos kw = Some o -> bind_args f pos kw = Some l -> beams l tab = true ->
  uses (dget (ob_args o)) (dget b) tab.
Proof.
  intros H B T a p I. destruct (call_arg _ _ _ _ _ _ _ _ a H B) as [_ E]. rewrite E.
  unfold beams in T. rewrite forallb_forall in T. specialize (T _ I). cbn [fst snd] in T.
  destruct (aget l a) as [[q|q|q|v]|]; try discriminate. apply String.eqb_eq in T. subst q. reflexivity.
Qed.

(** A call succeeds when the settings that it uses exist. *)
Definition arg_in (own_l main_l beam_l : list string) (a : arg) : bool :=
  match a with Own p => mem p own_l | Main p => mem p main_l | Beam p => mem p beam_l | Val _ => true end.
Definition has (d : attrs) (l : list string) : Prop := forall p, In p l -> exists v, dget d p = Some v.

Lemma mem_In x l : mem x l = true <-> In x l.
Proof.
  unfold mem. rewrite existsb_exists. split.
  - intros (y & I & E). apply String.eqb_eq in E. subst. exact I.
  - intros I. exists x. split; [exact I|apply String.eqb_refl].
Qed.

Lemma call_total cc t b f pos kw l ol ml bl : bind_args f pos kw = Some l -> forallb (fun q => arg_in ol ml bl (snd q)) l = true ->
  has t ol -> has cc ml -> (forall d, b = Some d -> has d bl) -> (bl = [] \/ b <> None) -> exists o, call cc t b f pos kw = Some o.
Proof.
  intros B T Ho Hm Hb Nb. unfold call. rewrite B. cbn [bind]. clear B.
  enough (exists r, mapM (fun q => do v <- eval cc t b (snd q) ; Some (fst q, v)) l = Some r) as [r ->] by (eexists; reflexivity).
  induction l as [|[q a] l IH]; [eexists; reflexivity|]. cbn [forallb snd] in T. apply andb_true_iff in T as [Ta T].
  destruct (IH T) as [r E]. cbn [mapM fst snd]. rewrite E.
  assert (exists v, eval cc t b a = Some v) as [v ->].
  { destruct a as [p|p|p|v]; cbn [arg_in] in Ta; cbn [eval].
    - apply mem_In in Ta. exact (Ho p Ta).
    - apply mem_In in Ta. exact (Hm p Ta).
    - apply mem_In in Ta. destruct Nb as [N|N]; [subst bl; destruct Ta|]. destruct b as [d|]; [|contradiction]. exact (Hb d eq_refl p Ta).
    - eexists; reflexivity. }
  eexists. reflexivity.
Qed.

(** ** Python equality and truth *)
Lemma num_of_spec v x : num_of v = Some x <-> equals v x.
Proof.
  unfold equals. destruct v as [|b|y| | | | |]; cbn; split; intros H; try discriminate.
  all: try (destruct H as [H|[[H _]|[H _]]]; discriminate).
  - injection H as <-. destruct b; [right; left|right; right]; split; reflexivity.
  - destruct H as [H|[[H E]|[H E]]]; [discriminate| |]; injection H as ->; subst; reflexivity.
  - injection H as ->. left. reflexivity.
  - destruct H as [H|[[H E]|[H E]]]; [injection H as ->; reflexivity|discriminate|discriminate].
Qed.
Lemma py_eqb_num v x : py_eqb v (PNum x) = true <-> equals v x.
Proof.
  rewrite <- num_of_spec. unfold py_eqb. cbn [num_of]. destruct (num_of v) as [y|]; [|split; discriminate].
  split; [intros H; apply Reqb_true in H; subst; reflexivity|intros H; injection H as ->; apply Reqb_true; reflexivity].
Qed.
Lemma py_eqb_str v s : py_eqb v (PStr s) = true <-> v = PStr s.
Proof.
  unfold py_eqb. cbn [num_of]. destruct v as [|b|y| |u| | |]; cbn [num_of]; try (split; discriminate).
  rewrite String.eqb_eq. split; congruence.
Qed.
Lemma py_eqb_true v : py_eqb v (PBool true) = true <-> equals v 1.
Proof. rewrite <- py_eqb_num. unfold py_eqb. cbn [num_of]. reflexivity. Qed.
Lemma truthy_yes v : truthy v = true <-> yes v.
Proof.
  unfold yes. destruct v as [|b|y| |u|l| |]; cbn [truthy]; try (split; [intros _|reflexivity]; repeat split; discriminate).
  - split; [discriminate|intros (H & _); congruence].
  - destruct b; split; try discriminate; try (intros _; repeat split; discriminate). intros (_ & H & _). congruence.
  - rewrite negb_true_iff. split.
    + intros H. apply Reqb_false in H. repeat split; try discriminate. congruence.
    + intros (_ & _ & H & _). apply Reqb_false. congruence.
  - rewrite negb_true_iff, String.eqb_neq. split; [intros H; repeat split; try discriminate; congruence|intros (_ & _ & _ & H & _); congruence].
  - rewrite negb_true_iff. destruct l; cbn; split; try discriminate; [intros (_ & _ & _ & _ & H); congruence|intros _; repeat split; discriminate|reflexivity].
Qed.
Lemma is_none_spec v : is_none v = true <-> v = PNone.
Proof. destruct v; cbn; split; congruence. Qed.
Lemma as_name_spec v n : as_name v = Some n <-> v = PStr n.
Proof. destruct v; cbn; split; congruence. Qed.
