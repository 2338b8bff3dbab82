(** The table, and the reading of the main input. *)
From Coq Require Import String Ascii Lia Bool.
From Verif Require Import Num NumFacts ConfigVal ConfigTable Ckpt CkptFacts Config SpecConfig ConfigFacts.
Local Open Scope string_scope.
Local Open Scope list_scope.

(** * Facts about the table, by computation *)
Definition nodupb (l : list string) : bool := (fix go l := match l with [] => true | x :: l' => negb (mem x l') && go l' end) l.
Lemma nodupb_ok l : nodupb l = true -> NoDup l.
Proof.
  induction l as [|x l IH]; cbn; [constructor|]. intros H. apply andb_true_iff in H. destruct H as [H1 H2]. constructor; auto.
  intros I. apply mem_in in I. rewrite I in H1. discriminate.
Qed.

Section Table.
Variables m_e m_p qe : R.
Notation simO := (simulation_parameters_optional m_e m_p qe).
Notation macO := (machine_parameters_optional m_e m_p qe).
Notation emiO := (secondary_emission_parameters_optional m_e m_p qe).
Notation beaO := (beam_beam_optional m_e m_p qe).
Notation cloO := (additional_cloud_parameters_optional m_e m_p qe).
Notation combined := (combined_sec m_e m_p qe).
Notation beam := (beam_sec m_e m_p qe).
Notation cloud := (cloud_sec m_e m_p qe).

Definition main_names := map fst emiO ++ map fst macO ++ map fst simO ++
  secondary_emission_parameters_mandatory ++ machine_parameters_mandatory ++ simulation_parameters_mandatory.
Lemma main_nodup : NoDup main_names.
Proof. apply nodupb_ok. vm_compute. reflexivity. Qed.
Lemma main_shown : forallb (fun p => negb (hidden p)) main_names = true.
Proof. vm_compute. reflexivity. Qed.
Lemma main_pi : mem "pi" main_names = false.
Proof. vm_compute. reflexivity. Qed.

Local Opaque simulation_parameters_optional machine_parameters_optional secondary_emission_parameters_optional.

Lemma nodup_l {A} (a b : list A) : NoDup (a ++ b) -> NoDup a.
Proof. induction a; cbn; [constructor|]. intros H. inversion H as [|? ? H1 H2]. constructor; auto. intros I. apply H1, in_app_iff. auto. Qed.
Lemma nodup_r {A} (a b : list A) : NoDup (a ++ b) -> NoDup b.
Proof. induction a; cbn; auto. intros H. inversion H. auto. Qed.
Lemma nodup_apart {A} (a b : list A) x : NoDup (a ++ b) -> In x a -> ~ In x b.
Proof. induction a; cbn; [intros _ []|]. intros H [->|I]; inversion H as [|? ? H1 H2]; auto. intros J. apply H1, in_app_iff. auto. Qed.

Lemma dict_nodup l : NoDup (map fst l) -> (forall p, dget (dict_of l) p = dget l p) /\ NoDup (map fst (dict_of l)).
Proof.
  intros N. split; [|apply dupdate_nodup; constructor]. intros p. unfold dict_of. rewrite dget_dupdate by auto. cbn [dget]. destruct (dget l p); auto.
Qed.
Lemma emi_nodup : NoDup (map fst emiO). Proof. exact (nodup_l _ _ main_nodup). Qed.
Lemma mac_nodup : NoDup (map fst macO). Proof. exact (nodup_l _ _ (nodup_r _ _ main_nodup)). Qed.
Lemma sim_nodup : NoDup (map fst simO). Proof. exact (nodup_l _ _ (nodup_r _ _ (nodup_r _ _ main_nodup))). Qed.

Lemma combined_mand : s_mand combined = secondary_emission_parameters_mandatory ++ machine_parameters_mandatory ++ simulation_parameters_mandatory.
Proof. reflexivity. Qed.
Lemma combined_opt p : dget (s_opt combined) p =
  match dget simO p with Some v => Some v | None => match dget macO p with Some v => Some v | None => dget emiO p end end.
Proof.
  unfold combined_sec. cbn [fold_left s_opt simulation_sec machine_sec emission_sec].
  destruct (dict_nodup _ sim_nodup) as [S1 S2]. destruct (dict_nodup _ mac_nodup) as [C1 C2]. destruct (dict_nodup _ emi_nodup) as [E1 E2].
  rewrite !dget_dupdate by auto. rewrite S1, C1, E1. cbn [dget]. destruct (dget simO p), (dget macO p), (dget emiO p); auto.
Qed.
Lemma combined_nodup : NoDup (map fst (s_opt combined)).
Proof. unfold combined_sec. cbn [fold_left s_opt]. repeat apply dupdate_nodup. constructor. Qed.
Lemma in_key {A} (l : list (string * A)) p v : In (p, v) l -> In p (map fst l).
Proof. intros H. apply in_map_iff. exists (p, v). auto. Qed.
Lemma combined_default p v : dget (s_opt combined) p = Some v <-> main_default m_e m_p qe p v.
Proof.
  rewrite combined_opt. unfold main_default. rewrite <- (in_dget_iff _ p v sim_nodup), <- (in_dget_iff _ p v mac_nodup), <- (in_dget_iff _ p v emi_nodup).
  assert (A1 : dget simO p <> None -> dget macO p = None /\ dget emiO p = None).
  { intros H. assert (I : In p (map fst simO)) by (destruct (dget simO p) eqn:E; [apply dget_in in E; eapply in_key; eauto|congruence]).
    split; apply dget_none; intros J.
    - eapply (nodup_apart _ _ p (nodup_r _ _ main_nodup)); eauto. apply in_app_iff. auto.
    - eapply (nodup_apart _ _ p main_nodup); eauto. rewrite !in_app_iff. auto. }
  assert (A2 : dget macO p <> None -> dget emiO p = None).
  { intros H. assert (I : In p (map fst macO)) by (destruct (dget macO p) eqn:E; [apply dget_in in E; eapply in_key; eauto|congruence]).
    apply dget_none. intros J. eapply (nodup_apart _ _ p main_nodup); eauto. rewrite !in_app_iff. auto. }
  destruct (dget simO p) as [s|].
  - destruct A1 as [-> ->]; [discriminate|]. intuition discriminate.
  - destruct (dget macO p) as [c|].
    + rewrite A2 by discriminate. intuition discriminate.
    + intuition discriminate.
Qed.
Lemma combined_keys p : In p (map fst (s_opt combined)) <-> exists v, main_default m_e m_p qe p v.
Proof.
  split.
  - intros H. apply dhas_in in H. unfold dhas in H. destruct (dget _ p) as [v|] eqn:E; [|discriminate]. exists v. apply combined_default. auto.
  - intros [v H]. apply combined_default, dget_in, in_key in H. auto.
Qed.
Lemma combined_mandatory p : In p (s_mand combined) <-> main_mandatory p.
Proof. rewrite combined_mand, !in_app_iff. unfold main_mandatory. tauto. Qed.
Lemma main_in p : main_param m_e m_p qe p -> In p main_names.
Proof.
  unfold main_names. rewrite !in_app_iff. intros [[H|[H|H]]|(v & [H|[H|H]])]; auto 8; apply in_key in H; auto 8.
Qed.
Lemma combined_ok : sec_ok combined.
Proof.
  split; [apply combined_nodup|]. intros p H J. apply combined_keys in J. rewrite combined_mand in H. destruct J as [v J].
  assert (K : In p (map fst emiO ++ map fst macO ++ map fst simO)).
  { rewrite !in_app_iff. destruct J as [J|[J|J]]; apply in_key in J; auto. }
  pose proof main_nodup as N. unfold main_names in N.
  replace (map fst emiO ++ map fst macO ++ map fst simO ++ secondary_emission_parameters_mandatory ++ machine_parameters_mandatory ++ simulation_parameters_mandatory)
    with ((map fst emiO ++ map fst macO ++ map fst simO) ++ secondary_emission_parameters_mandatory ++ machine_parameters_mandatory ++ simulation_parameters_mandatory) in N
    by (rewrite <- !app_assoc; auto).
  eapply nodup_apart; eauto.
Qed.
Lemma main_not_private p : main_param m_e m_p qe p -> ~ private p.
Proof.
  intros H P. apply main_in in H. pose proof main_shown as S. rewrite forallb_forall in S. apply S in H. apply hidden_spec in P. rewrite P in H. discriminate.
Qed.
Lemma main_not_pi p : main_param m_e m_p qe p -> p <> "pi".
Proof. intros H ->. apply main_in, mem_in in H. rewrite main_pi in H. discriminate. Qed.

(** The beam file. *)
Lemma beam_key_twice : exists l1 l2, beaO = l1 ++ ("Dh_beam_field", PNone) :: l2 /\ NoDup (map fst (l1 ++ l2)) /\ In ("Dh_beam_field", PNone) l1.
Proof.
  exists (firstn 14 beaO), (skipn 15 beaO). split; [reflexivity|]. split; [apply nodupb_ok; vm_compute; reflexivity|]. cbn. tauto.
Qed.
Lemma dict_in l : (forall p v w, In (p, v) l -> In (p, w) l -> v = w) -> forall p v, In (p, v) (dict_of l) <-> In (p, v) l.
Proof.
  intros C p v. rewrite <- in_dget_iff by (apply dupdate_nodup; constructor).
  assert (G : forall e d, (forall q u w, In (q, u) e -> In (q, w) e -> u = w) ->
    dget (dupdate d e) p = match dget e p with Some u => Some u | None => dget d p end).
  { induction e as [|[a u] e IH]; intros d Ce; cbn [dupdate fold_left dget]; auto. unfold dupdate in *. cbn [fst snd].
    rewrite IH by (intros q x y H1 H2; apply (Ce q x y); right; auto). rewrite dget_dset.
    destruct (dget e p) as [x|] eqn:E.
    - destruct (String.eqb_spec a p) as [->|]; auto. f_equal. apply (Ce p x u); [right; apply dget_in; auto|left; auto].
    - destruct (String.eqb a p); auto. }
  unfold dict_of. rewrite (G l [] C). cbn [dget]. split.
  - destruct (dget l p) as [u|] eqn:E; [|discriminate]. intros H. injection H as ->. apply dget_in. auto.
  - intros H. destruct (dget l p) as [u|] eqn:E.
    + f_equal. apply (C p u v); auto. apply dget_in. auto.
    + apply dget_none in E. destruct E. apply in_map_iff. exists (p, v). auto.
Qed.
Lemma beam_dict : forall x, In x (dict_of beaO) <-> In x beaO.
Proof.
  destruct beam_key_twice as (l1 & l2 & E & N & K). intros [p v]. apply dict_in. intros q u w H1 H2.
  assert (X : forall y, In y beaO -> In y (l1 ++ l2)).
  { intros y. rewrite E, !in_app_iff. cbn [In]. intros [H|[<-|H]]; auto. }
  apply X in H1. apply X in H2. apply (in_dget _ _ _ N) in H1. apply (in_dget _ _ _ N) in H2. congruence.
Qed.
Local Opaque beam_beam_optional.
Lemma beam_nodup : NoDup (map fst (s_opt beam)).
Proof. apply dupdate_nodup. constructor. Qed.
Lemma beam_ok : sec_ok beam.
Proof.
  split; [apply beam_nodup|]. 
  assert (X : forallb (fun p => negb (mem p (map fst beaO))) beam_beam_mandatory = true) by (vm_compute; reflexivity).
  intros p H J. rewrite forallb_forall in X. apply X in H. apply in_map_iff in J. destruct J as ([q v] & <- & J). cbn in J. apply beam_dict in J.
  apply in_key, mem_in in J. cbn [fst] in H. rewrite J in H. discriminate.
Qed.
Lemma beam_keys p : In p (map fst (s_opt beam)) <-> exists v, beam_default m_e m_p qe p v.
Proof.
  rewrite in_map_iff. split.
  - intros ([q v] & <- & H). exists v. exact (proj1 (beam_dict (q, v)) H).
  - intros [v H]. exists (p, v). split; [reflexivity|]. exact (proj2 (beam_dict (p, v)) H).
Qed.
End Table.
