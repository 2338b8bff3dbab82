(** The main input and the keyword arguments. *)
From Coq Require Import String Ascii Lia Bool Lra.
From Verif Require Import Num NumFacts ConfigVal ConfigTable Ckpt CkptFacts Config SpecConfig ConfigFacts ConfigFacts2 ConfigFacts3.
Local Open Scope string_scope.
Local Open Scope list_scope.
Local Opaque simulation_parameters_optional machine_parameters_optional secondary_emission_parameters_optional beam_beam_optional.

Section Main.
Variables m_e m_p qe : R.
Variable files : string -> option defs.
Hypothesis files_ok : forall name f, files name = Some f -> def_ok f.
Notation mparam := (main_param m_e m_p qe).
Notation mdefault := (main_default m_e m_p qe).
Notation bparam := (beam_param m_e m_p qe).
Notation read := (read_parameter_files m_e m_p qe files).

Lemma in_same (f : defs) p v w : def_ok f -> In (p, v) f -> In (p, w) f -> v = w.
Proof. intros N H1 H2. apply (in_dget _ _ _ N) in H1. apply (in_dget _ _ _ N) in H2. congruence. Qed.
Lemma input_unique sim mac emi sim' mac' emi' : input_files files sim mac emi -> input_files files sim' mac' emi' -> sim = sim' /\ mac = mac' /\ emi = emi'.
Proof.
  intros (S & (mf & M1 & M2) & (ef & E1 & E2) & _) (S' & (mf' & M1' & M2') & (ef' & E1' & E2') & _).
  assert (sim = sim') by congruence. subst sim'. pose proof (files_ok _ _ S) as N.
  pose proof (in_same _ _ _ _ N M1 M1') as A. injection A as <-. pose proof (in_same _ _ _ _ N E1 E1') as A. injection A as <-. split; auto. split; congruence.
Qed.

Theorem read_iff skip sim mac emi : input_files files sim mac emi -> clear_names mparam [sim; mac; emi] ->
  ((exists cfg, read skip = Some cfg) <->
   valid main_mandatory mparam [sim; mac; emi] /\
   (skip = false -> exists bea, beam_file files sim bea /\ valid beam_mandatory bparam [bea])).
Proof.
  intros I Cl. split.
  - intros [cfg H]. destruct (read_sound m_e m_p qe files files_ok skip cfg H) as (s & m & e & I' & V & B & _).
    destruct (input_unique _ _ _ _ _ _ I I') as (-> & -> & ->). auto.
  - intros [V B]. exact (read_complete m_e m_p qe files files_ok skip sim mac emi I V Cl B).
Qed.
Theorem read_values skip sim mac emi cfg : input_files files sim mac emi -> clear_names mparam [sim; mac; emi] -> read skip = Some cfg ->
  forall p v, dget cfg p = Some v <-> mparam p /\ value [sim; mac; emi] mdefault p v.
Proof.
  intros I Cl H. destruct (read_sound m_e m_p qe files files_ok skip cfg H) as (s & m & e & I' & V & B & G).
  destruct (input_unique _ _ _ _ _ _ I I') as (-> & -> & ->). auto.
Qed.

(** The names of the configuration do not depend on the files. *)
Lemma read_keys skip cfg : read skip = Some cfg -> forall p, (exists v, dget cfg p = Some v) <-> mparam p.
Proof.
  unfold read_parameter_files. intros H.
  repeat match type of H with
  | bind ?x _ = Some _ => let E := fresh "E" in let z := fresh "z" in destruct x as [z|] eqn:E; [cbn [bind] in H|discriminate H]
  end.
  match goal with E : update_config_dict [] ?u _ _ = Some ?c |- _ =>
    pose proof (config_spec u (combined_sec m_e m_p qe) None (combined_ok m_e m_p qe)) as Q; rewrite E in Q; assert (X : cfg = c) end.
  { destruct skip; [congruence|]. repeat match type of H with
    | bind ?x _ = Some _ => destruct x; [cbn [bind] in H|discriminate H]
    end. congruence. }
  subst cfg. destruct Q as (Q1 & _ & Q3). intros p. rewrite Q3. split.
  - intros [v Hv]. destruct (dget (s_opt _) p) as [d|] eqn:D; [right; exists d; apply combined_default; auto|].
    destruct (mem p _) eqn:M; [|discriminate]. left. apply (combined_mandatory m_e m_p qe), mem_in. auto.
  - intros [P|(v & P)].
    + apply (combined_mandatory m_e m_p qe) in P. destruct (dget (s_opt _) p); [eauto|]. rewrite (proj2 (mem_in _ _) P). apply Q1 in P. unfold dhas in P.
      destruct (dget _ p); [eauto|discriminate].
    + apply combined_default in P. rewrite P. eauto.
Qed.

Theorem override_iff skip ig kw cfg : NoDup (map fst kw) -> read skip = Some cfg ->
  ((exists cfg', read_config m_e m_p qe files skip ig kw = Some cfg') <-> forall a, In a (map fst kw) -> In a ig \/ mparam a).
Proof.
  intros N H. unfold read_config. rewrite H. cbn [bind]. pose proof (override_spec ig kw cfg N) as Q. pose proof (read_keys skip cfg H) as K.
  destruct (override ig kw cfg) as [cfg'|].
  - split; [|eauto]. intros _ a Ha. destruct Q as [Q _]. destruct (Q a Ha) as [X|X]; auto. right. apply K. unfold dhas in X. destruct (dget cfg a); [eauto|discriminate].
  - split; [intros [c X]; discriminate|]. intros X. exfalso. destruct Q as (a & Q1 & Q2 & Q3). destruct (X a Q1) as [Y|Y]; [contradiction|].
    apply K in Y. destruct Y as [v Y]. congruence.
Qed.
Theorem override_values skip ig kw cfg' : NoDup (map fst kw) -> read_config m_e m_p qe files skip ig kw = Some cfg' ->
  exists cfg, read skip = Some cfg /\
    (forall p v, In (p, v) kw -> ~ In p ig -> dget cfg' p = Some v) /\
    (forall p, ~ In p (map fst kw) \/ In p ig -> dget cfg' p = dget cfg p).
Proof.
  intros N H. unfold read_config in H. destruct (read skip) as [cfg|] eqn:E; [|discriminate]. cbn [bind] in H. exists cfg. split; auto.
  pose proof (override_spec ig kw cfg N) as Q. rewrite H in Q. destruct Q as [_ Q]. split.
  - intros p v Hp Hi. rewrite Q, (in_dget _ _ _ N Hp). destruct (mem p ig) eqn:M; auto. apply mem_in in M. contradiction.
  - intros p [Hp|Hp]; rewrite Q.
    + apply dget_none in Hp. rewrite Hp. auto.
    + destruct (dget kw p); auto. rewrite (proj2 (mem_in _ _) Hp). auto.
Qed.
Theorem override_full skip ig kw cfg' : NoDup (map fst kw) -> read_config m_e m_p qe files skip ig kw = Some cfg' ->
  forall p, (exists v, dget cfg' p = Some v) <-> mparam p.
Proof.
  intros N H p. pose proof H as H0. unfold read_config in H. destruct (read skip) as [cfg|] eqn:E; [|discriminate]. cbn [bind] in H.
  rewrite <- (read_keys skip cfg E p). pose proof (override_spec ig kw cfg N) as Q. rewrite H in Q. destruct Q as [Q1 Q]. rewrite Q.
  destruct (dget kw p) as [v|] eqn:D; [|tauto]. destruct (mem p ig) eqn:M; [tauto|]. split; [|eauto]. intros _.
  assert (Hp : In p (map fst kw)) by (apply dget_in in D; eapply in_key; eauto).
  destruct (Q1 p Hp) as [X|X]; [apply mem_in in X; congruence|]. unfold dhas in X. destruct (dget cfg p); [eauto|discriminate].
Qed.
End Main.
