(** From the input files to the simulation. *)
From Coq Require Import String Lia Bool Lra.
From Verif Require Import Num NumFacts ConfigVal ConfigTable Ckpt CkptFacts CkptFacts3 Config SpecConfig ConfigFacts ConfigFacts2 ConfigFacts3 Init SpecInit SpecInitParts InitFacts InitFacts2 InitFacts3.
Local Open Scope string_scope.
Local Open Scope list_scope.

Definition some_at (d : attrs) (p : string) : Prop := exists v, dget d p = Some v.
Lemma some_dset d k v p : some_at d p -> some_at (dset d k v) p.
Proof. intros [w W]. unfold some_at. rewrite dget_dset. destruct (String.eqb k p); eauto. Qed.
Lemma some_dset_same d k v : some_at (dset d k v) k.
Proof. exists v. rewrite dget_dset, String.eqb_refl. reflexivity. Qed.

Lemma mandatory_some m l : forall cfg r, take_mandatory cfg m l = Some r -> (forall p, some_at cfg p \/ In p l -> some_at r p).
Proof.
  induction l as [|q l IH]; intros cfg r H p Hp; cbn [take_mandatory] in H.
  - injection H as <-. destruct Hp as [Hp|[]]. exact Hp.
  - destruct (dget m q) as [v|]; [|discriminate]. cbn [bind] in H. apply (IH _ _ H). destruct Hp as [Hp|[->|Hp]]; [left; apply some_dset; exact Hp|left; apply some_dset_same|right; exact Hp].
Qed.
Lemma optional_some m o l : forall cfg r, take_optional cfg m o l = Some r -> (forall p, some_at cfg p \/ In p (map fst l) -> some_at r p).
Proof.
  induction l as [|[q d] l IH]; intros cfg r H p Hp; cbn [take_optional] in H.
  - injection H as <-. destruct Hp as [Hp|[]]. exact Hp.
  - destruct (dhas cfg q); [discriminate|]. apply (IH _ _ H). cbn [map fst] in Hp.
    destruct Hp as [Hp|[->|Hp]]; [left; apply some_dset; exact Hp|left; apply some_dset_same|right; exact Hp].
Qed.
Lemma config_some cfg m s o r : update_config_dict cfg m s o = Some r -> forall p, In p (s_mand s) \/ In p (map fst (s_opt s)) -> some_at r p.
Proof.
  unfold update_config_dict. destruct (take_mandatory cfg m (s_mand s)) as [e|] eqn:E; [|discriminate]. cbn [bind]. intros H p [I|I].
  - apply (optional_some _ _ _ _ _ H). left. apply (mandatory_some _ _ _ _ E). right. exact I.
  - apply (optional_some _ _ _ _ _ H). right. exact I.
Qed.
Lemma copy_some cfg s o r : copy_to_config_dict cfg s o = Some r -> forall p, In p (s_mand s) \/ In p (map fst (s_opt s)) -> some_at r p.
Proof.
  unfold copy_to_config_dict. destruct (take_mandatory cfg o (s_mand s)) as [e|] eqn:E; [|discriminate]. cbn [bind]. intros H p [I|I].
  - apply (mandatory_some _ _ _ _ H). left. apply (mandatory_some _ _ _ _ E). right. exact I.
  - apply (mandatory_some _ _ _ _ H). right. exact I.
Qed.
Lemma override_some ig kw : forall cfg r, override ig kw cfg = Some r -> forall p, some_at cfg p -> some_at r p.
Proof.
  induction kw as [|[a v] kw IH]; intros cfg r H p Hp; cbn [override] in H; [injection H as <-; exact Hp|].
  destruct (mem a ig); [exact (IH _ _ H p Hp)|]. destruct (dhas cfg a); [|discriminate]. apply (IH _ _ H). apply some_dset. exact Hp.
Qed.

Section Full.
Variables m_e m_p qe c : R.
Variable files : string -> option attrs.

Lemma opt_keys s o p v : s = dict_of o -> In (p, v) o -> In p (map fst s).
Proof.
  intros -> I. unfold dict_of, dupdate.
  assert (G : forall l d, (In p (map fst d) \/ In p (map fst l)) -> In p (map fst (fold_left (fun a kv => dset a (fst kv) (snd kv)) l d))).
  { induction l as [|[k w] l IH]; intros d [H|H]; cbn [fold_left]; [exact H|destruct H| |].
    - apply IH. left. apply dset_keys. right. exact H.
    - apply IH. cbn [map fst snd] in *. destruct H as [<-|H]; [left; apply dset_keys; left; reflexivity|right; exact H]. }
  apply G. right. apply in_map_iff. exists (p, v). auto.
Qed.

Lemma read_full skip ig kw cc : read_config m_e m_p qe files skip ig kw = Some cc -> full m_e m_p qe (dget cc).
Proof.
  unfold read_config. destruct (read_parameter_files m_e m_p qe files skip) as [cfg|] eqn:E; [|discriminate]. cbn [bind]. intros H p Hp.
  apply (override_some _ _ _ _ H). clear H. unfold read_parameter_files in E.
  destruct (import_module_from_file files "simulation_parameters.input") as [inp|]; [|discriminate]. cbn [bind] in E.
  destruct (dget inp "machine_param_file") as [v1|]; [|discriminate]. cbn [bind] in E.
  destruct (dget inp "secondary_emission_parameters_file") as [v2|]; [|discriminate]. cbn [bind] in E.
  destruct (dget inp "beam_parameters_file") as [v3|]; [|discriminate]. cbn [bind] in E.
  destruct (as_name v1) as [n1|]; [|discriminate]. cbn [bind] in E. destruct (import_module_from_file files n1) as [m1|]; [|discriminate]. cbn [bind] in E.
  destruct (as_name v2) as [n2|]; [|discriminate]. cbn [bind] in E. destruct (import_module_from_file files n2) as [m2|]; [|discriminate]. cbn [bind] in E.
  destruct (update_module inp m1) as [i1|]; [|discriminate]. cbn [bind] in E. destruct (update_module i1 m2) as [i2|]; [|discriminate]. cbn [bind] in E.
  destruct (assert_module_has_parameters (combined_sec m_e m_p qe) i2); [|discriminate]. cbn [bind] in E.
  destruct (update_config_dict [] i2 (combined_sec m_e m_p qe) None) as [r|] eqn:U; [|discriminate]. cbn [bind] in E.
  assert (r = cfg) as <-.
  { destruct skip; [injection E as <-; reflexivity|]. destruct (as_name v3) as [n3|]; [|discriminate]. cbn [bind] in E.
    destruct (import_module_from_file files n3) as [m3|]; [|discriminate]. cbn [bind] in E. destruct (assert_module_has_parameters (beam_sec m_e m_p qe) m3); [|discriminate].
    cbn [bind] in E. injection E as <-. reflexivity. }
  apply (config_some _ _ _ _ _ U). destruct Hp as [Hp|Hp]; [left; apply combined_mandatory; exact Hp|right; apply combined_keys; exact Hp].
Qed.

Lemma cloud_some s p : s = cloud_sec m_e m_p qe -> cloud_param m_e m_p qe p -> In p (s_mand s) \/ In p (map fst (s_opt s)).
Proof. intros -> [H|[v H]]; [left; exact H|right]. eapply opt_keys; [reflexivity|exact H]. Qed.
Lemma descr_full f cc d : cloud_descr_from_file m_e m_p qe files f cc = Some d -> cloud_full m_e m_p qe (dget d).
Proof.
  intros H p Hp. unfold cloud_descr_from_file in H. destruct (dget cc "filen_main_outp") as [main|]; [|discriminate]. cbn [bind] in H. destruct f as [f|].
  - destruct (import_module_from_file files f) as [m|]; [|discriminate]. cbn [bind] in H.
    destruct (assert_module_has_parameters (cloud_sec m_e m_p qe) m); [|discriminate]. cbn [bind] in H.
    destruct (update_config_dict [] m (cloud_sec m_e m_p qe) (Some cc)) as [r|] eqn:U; [|discriminate]. cbn [bind] in H.
    destruct (as_name main) as [mn|]; [|discriminate]. cbn [bind] in H. injection H as <-.
    destruct Hp as [Hp|[->| ->]]; [|apply some_dset_same|apply some_dset, some_dset_same].
    apply some_dset, some_dset. apply (config_some _ _ _ _ _ U). exact (cloud_some _ p eq_refl Hp).
  - destruct (dget cc "cloud_name") as [nm|]; [|discriminate]. cbn [bind] in H.
    match type of H with bind ?x _ = _ => destruct x as [[name out]|]; [|discriminate] end. cbn [bind] in H.
    destruct (copy_to_config_dict [] (cloud_sec m_e m_p qe) cc) as [r|] eqn:U; [|discriminate]. cbn [bind] in H. injection H as <-.
    destruct Hp as [Hp|[->| ->]]; [|apply some_dset_same|apply some_dset, some_dset_same].
    apply some_dset, some_dset. apply (copy_some _ _ _ _ U). exact (cloud_some _ p eq_refl Hp).
Qed.
Lemma list_full fl cc cl : cloud_par_list m_e m_p qe files fl cc = Some cl -> cl <> [] /\ Forall (fun t => cloud_full m_e m_p qe (dget t)) cl.
Proof.
  unfold cloud_par_list. destruct (cloud_descr_from_file m_e m_p qe files None cc) as [d|] eqn:D; [|discriminate]. cbn [bind].
  destruct (mapM (fun f => cloud_descr_from_file m_e m_p qe files (Some f) cc) fl) as [l|] eqn:L; [|discriminate]. cbn [bind]. intros H. injection H as <-.
  split; [discriminate|]. constructor; [exact (descr_full _ _ _ D)|]. clear D. revert l L. induction fl as [|f fl IH]; intros l L; cbn [mapM] in L; [injection L as <-; constructor|].
  destruct (cloud_descr_from_file m_e m_p qe files (Some f) cc) as [e|] eqn:E; [|discriminate].
  destruct (mapM (fun f => cloud_descr_from_file m_e m_p qe files (Some f) cc) fl) as [r|]; [|discriminate]. injection L as <-.
  constructor; [exact (descr_full _ _ _ E)|exact (IH r eq_refl)].
Qed.

Lemma fallback_some cc mach k r p : fallback cc mach k = Some r -> some_at cc p -> some_at r p.
Proof.
  unfold fallback. destruct (dget cc k) as [v|]; [|discriminate]. cbn [bind]. destruct (is_none v); [|intros H; injection H as <-; auto].
  destruct (dget mach k) as [w|]; [|discriminate]. cbn [bind]. intros H; injection H as <-. apply some_dset.
Qed.
Lemma beam_reads_full cc n b : read_beam m_e m_p qe c files cc n = Some b -> beam_full m_e m_p qe (dget b).
Proof.
  unfold read_beam. destruct (beam_descr_from_fil m_e m_p qe files c n cc) as [bd|] eqn:E; [|discriminate]. cbn [bind]. intros H. injection H as <-.
  intros p Hp. change (some_at (beam_obj bd) p). unfold beam_obj.
  destruct Hp as [Hp|[<-|[<-|[<-|[]]]]]; [|apply some_dset, some_dset, some_dset_same|apply some_dset, some_dset_same|apply some_dset_same].
  do 5 apply some_dset. unfold beam_descr_from_fil in E.
  destruct (import_module_from_file files n) as [m|]; [|discriminate]. cbn [bind] in E. destruct (assert_module_has_parameters (beam_sec m_e m_p qe) m); [|discriminate]. cbn [bind] in E.
  destruct (update_config_dict [] m (beam_sec m_e m_p qe) None) as [r|] eqn:U; [|discriminate]. cbn [bind] in E.
  assert (Hr : some_at r p).
  { apply (config_some _ _ _ _ _ U). destruct Hp as [Hp|[v Hp]]; [left; exact Hp|right]. eapply opt_keys; [reflexivity|exact Hp]. }
  destruct (fallback r cc "Dx") as [r1|] eqn:F1; [|discriminate]. cbn [bind] in E. destruct (fallback r1 cc "Dy") as [r2|] eqn:F2; [|discriminate]. cbn [bind] in E.
  destruct (fallback r2 cc "betafx") as [r3|] eqn:F3; [|discriminate]. cbn [bind] in E. destruct (fallback r3 cc "betafy") as [r4|] eqn:F4; [|discriminate]. cbn [bind] in E.
  destruct (nget r4 "energy_eV") as [en|]; [|discriminate]. cbn [bind] in E. destruct (nget r4 "m0_part") as [m0|]; [|discriminate]. cbn [bind] in E.
  destruct (Reqb (m0 * c ^ 2) 0); [discriminate|]. cbv zeta in E. destruct (Reqb (en * qe / (m0 * c ^ 2)) 0); [discriminate|].
  match type of E with bind ?x _ = _ => destruct x as [sx|]; [|discriminate] end. cbn [bind] in E.
  match type of E with bind ?x _ = _ => destruct x as [sy|]; [|discriminate] end. cbn [bind] in E. injection E as <-. cbn [bd_cfg].
  exact (fallback_some _ _ _ _ _ F4 (fallback_some _ _ _ _ _ F3 (fallback_some _ _ _ _ _ F2 (fallback_some _ _ _ _ _ F1 Hr)))).
Qed.
Lemma beams_full skip cc b sbs : read_beams m_e m_p qe c files skip cc = Some (b, sbs) ->
  (b = None <-> skip = true) /\ (forall d, b = Some d -> beam_full m_e m_p qe (dget d)) /\ Forall (fun sb => beam_full m_e m_p qe (dget sb)) sbs.
Proof.
  unfold read_beams. destruct skip; [intros H; injection H as <- <-; split; [split; reflexivity|]; split; [discriminate|constructor]|].
  destruct (dget cc "secondary_beams_file_list") as [l|]; [|discriminate]. cbn [bind]. destruct (as_names l) as [ns|]; [|discriminate]. cbn [bind].
  destruct (dget cc "beam_parameters_file") as [nv|]; [|discriminate]. cbn [bind]. destruct (as_name nv) as [n|]; [|discriminate]. cbn [bind].
  destruct (read_beam m_e m_p qe c files cc n) as [b0|] eqn:B; [|discriminate]. cbn [bind].
  destruct (mapM (read_beam m_e m_p qe c files cc) ns) as [r|] eqn:M; [|discriminate]. cbn [bind]. intros H. injection H as <- <-.
  split; [split; discriminate|]. split; [intros d X; injection X as <-; exact (beam_reads_full _ _ _ B)|].
  clear -M. revert r M. induction ns as [|n ns IH]; intros r M; cbn [mapM] in M; [injection M as <-; constructor|].
  destruct (read_beam m_e m_p qe c files cc n) as [b|] eqn:B; [|discriminate]. destruct (mapM (read_beam m_e m_p qe c files cc) ns) as [q|]; [|discriminate]. injection M as <-.
  constructor; [exact (beam_reads_full _ _ _ B)|exact (IH q eq_refl)].
Qed.

Section Start.
Variable folder : string.
Variable isfile : string -> bool.
Variable npass : R.
Variable subset : pval -> bool.
Variable sec_name : nat -> string.

Lemma start_inv skip_beam skip_saver skip_sc given_sc ignore kw p :
  start m_e m_p qe c files folder isfile npass subset sec_name skip_beam skip_saver skip_sc given_sc ignore kw = Some p <->
  exists cc b sbs cl, read_all m_e m_p qe c files skip_beam ignore kw cc b sbs cl /\ build m_e qe c folder isfile npass subset sec_name skip_saver skip_sc given_sc cc b sbs cl = Some p.
Proof.
  unfold start, read_all. split.
  - intros H. destruct (read_config m_e m_p qe files skip_beam ignore kw) as [cc|]; [|discriminate]. cbn [bind] in H.
    destruct (read_beams m_e m_p qe c files skip_beam cc) as [[b sbs]|] eqn:B; [|discriminate]. cbn [bind] in H.
    destruct (dget cc "additional_clouds_file_list") as [v|] eqn:V; [|discriminate]. cbn [bind] in H. destruct (as_names v) as [fl|] eqn:F; [|discriminate]. cbn [bind] in H.
    destruct (cloud_par_list m_e m_p qe files fl cc) as [cl|] eqn:C; [|discriminate]. cbn [bind] in H.
    exists cc, b, sbs, cl. split; [|exact H]. split; [reflexivity|]. split; [exact B|]. exists v, fl. auto.
  - intros (cc & b & sbs & cl & (R1 & R2 & v & fl & R3 & R4 & R5) & H). rewrite R1. cbn [bind]. rewrite R2. cbn [bind]. rewrite R3. cbn [bind]. rewrite R4. cbn [bind]. rewrite R5. exact H.
Qed.

Lemma start_iff skip_beam skip_saver skip_sc given_sc ignore kw cc b sbs cl :
  read_all m_e m_p qe c files skip_beam ignore kw cc b sbs cl ->
  (exists p, start m_e m_p qe c files folder isfile npass subset sec_name skip_beam skip_saver skip_sc given_sc ignore kw = Some p) <->
  chamber_set (dget cc) /\ (skip_beam = false -> beam_set (dget cc) npass (length sbs)) /\
  (skip_sc || given_sc = false -> field_set (dget cc) (option_map dget b)) /\ lifetime_set (dget cc) /\
  Forall (fun t => cloud_set m_e qe (dget cc) (file_for folder isfile) subset c (option_map dget b) (dget t)) cl.
Proof.
  intros Ra. pose proof Ra as (R1 & R2 & v & fl & R3 & R4 & R5). destruct (beams_full _ _ _ _ R2) as (Bn & Bf & Sf). destruct (list_full _ _ _ R5) as [Cn Cf].
  pose proof (build_iff m_e m_p qe c folder isfile npass subset sec_name cc (read_full _ _ _ _ R1) skip_saver skip_sc given_sc b sbs cl Bf Sf Cn Cf) as I.
  assert (E : (skip_beam = false -> beam_set (dget cc) npass (length sbs)) <-> (b <> None -> beam_set (dget cc) npass (length sbs))).
  { destruct Bn as [B1 B2]. split; intros H X; apply H.
    - destruct skip_beam; [|reflexivity]. destruct X. apply B2. reflexivity.
    - intros Y. rewrite (B1 Y) in X. discriminate. }
  rewrite E, <- I. split.
  - intros [p H]. apply start_inv in H as (cc' & b' & sbs' & cl' & (Q1 & Q2 & v' & fl' & Q3 & Q4 & Q5) & H).
    rewrite Q1 in R1. injection R1 as ->. rewrite Q2 in R2. injection R2 as -> ->. rewrite Q3 in R3. injection R3 as ->. rewrite Q4 in R4. injection R4 as ->.
    rewrite Q5 in R5. injection R5 as ->. eauto.
  - intros [p H]. exists p. apply start_inv. exists cc, b, sbs, cl. auto.
Qed.
End Start.
End Full.
