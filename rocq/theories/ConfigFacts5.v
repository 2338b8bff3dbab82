(** Clouds. *)
From Coq Require Import String Ascii Lia Bool Lra.
From Verif Require Import Num NumFacts ConfigVal ConfigTable Ckpt CkptFacts CkptFacts3 Config SpecConfig ConfigFacts ConfigFacts2 ConfigFacts3 ConfigFacts4.
Local Open Scope string_scope.
Local Open Scope list_scope.

Section Cloud.
Variables m_e m_p qe : R.
Notation cloO := (additional_cloud_parameters_optional m_e m_p qe).
Notation cloM := additional_cloud_parameters_mandatory.
Notation cloud := (cloud_sec m_e m_p qe).
Notation cparam := (cloud_param m_e m_p qe).
Notation mparam := (main_param m_e m_p qe).

Definition cloud_names := cloM ++ map fst cloO.
Lemma cloud_nodup : NoDup cloud_names.
Proof. apply nodupb_ok. vm_compute. reflexivity. Qed.
Lemma cloud_shown : forallb (fun p => negb (hidden p)) cloud_names = true.
Proof. vm_compute. reflexivity. Qed.
Lemma cloud_out : forallb (fun p => negb (mem p ["pi"; "cloud_name"; "filen_main_outp"])) cloud_names = true.
Proof. vm_compute. reflexivity. Qed.
Lemma cloud_sub : forallb (fun p => mem p (main_names m_e m_p qe)) cloud_names = true.
Proof. vm_compute. reflexivity. Qed.
Local Opaque additional_cloud_parameters_optional simulation_parameters_optional machine_parameters_optional secondary_emission_parameters_optional.

Lemma cloud_in p : cparam p -> In p cloud_names.
Proof. unfold cloud_names. rewrite in_app_iff. intros [H|(v & H)]; auto. right. exact (in_key _ _ _ H). Qed.
Lemma cloud_mand p : In p (s_mand cloud) <-> cloud_mandatory p.
Proof. apply iff_refl. Qed.
Lemma cloud_opt p v : dget (s_opt cloud) p = Some v <-> cloud_default m_e m_p qe p v.
Proof.
  pose proof (nodup_r _ _ cloud_nodup) as N. destruct (dict_nodup _ N) as [D _].
  change (dget (dict_of cloO) p = Some v <-> In (p, v) cloO). rewrite D. exact (in_dget_iff _ p v N).
Qed.
Lemma cloud_ok : sec_ok cloud.
Proof.
  split; [apply dupdate_nodup; constructor|]. intros p H J. apply dhas_in in J. unfold dhas in J.
  destruct (dget (s_opt cloud) p) as [v|] eqn:E; [|discriminate]. apply cloud_opt in E. apply in_key in E.
  exact (nodup_apart _ _ p cloud_nodup H E).
Qed.
Lemma cloud_priv p : cparam p -> ~ private p.
Proof.
  intros H P. apply cloud_in in H. pose proof cloud_shown as S. rewrite forallb_forall in S. apply S in H. apply hidden_spec in P. rewrite P in H. discriminate.
Qed.
Lemma cloud_not p q : cparam p -> mem q ["pi"; "cloud_name"; "filen_main_outp"] = true -> p <> q.
Proof.
  intros H M ->. apply cloud_in in H. pose proof cloud_out as S. rewrite forallb_forall in S. apply S in H. rewrite M in H. discriminate.
Qed.
Lemma cloud_pi p : cparam p -> p <> "pi".
Proof. intros H. apply cloud_not; auto. Qed.
Lemma main_in_conv p : In p (main_names m_e m_p qe) -> mparam p.
Proof.
  unfold main_names, main_param, main_mandatory, main_default. rewrite !in_app_iff. rewrite !in_map_iff.
  intros [([q v] & <- & H)|[([q v] & <- & H)|[([q v] & <- & H)|[H|[H|H]]]]]; cbn [fst]; auto; right; exists v; auto.
Qed.
Lemma cloud_main p : cparam p -> mparam p.
Proof.
  intros H. apply main_in_conv. apply cloud_in in H. pose proof cloud_sub as S. rewrite forallb_forall in S. apply S in H. apply mem_in. auto.
Qed.

Variable files : string -> option defs.
Hypothesis files_ok : forall name f, files name = Some f -> def_ok f.
Notation descr := (cloud_descr_from_file m_e m_p qe files).
Notation base f := (before ".cloud" (after_last "/" f)).

Lemma set2_other d a v b w p : p <> a -> p <> b -> dget (dset (dset d a v) b w) p = dget d p.
Proof. intros H1 H2. rewrite !dget_dset. rewrite (proj2 (String.eqb_neq _ _) (not_eq_sym H1)), (proj2 (String.eqb_neq _ _) (not_eq_sym H2)). auto. Qed.
Lemma set2_a d v w : dget (dset (dset d "filen_main_outp" v) "cloud_name" w) "filen_main_outp" = Some v.
Proof. rewrite !dget_dset. reflexivity. Qed.
Lemma set2_b d v w : dget (dset (dset d "filen_main_outp" v) "cloud_name" w) "cloud_name" = Some w.
Proof. rewrite !dget_dset. reflexivity. Qed.

(** An additional cloud. *)
Theorem cloud_reads file b main cc : files file = Some b -> full m_e m_p qe (dget cc) ->
  valid cloud_mandatory cparam [b] -> clear_names cparam [b] -> dget cc "filen_main_outp" = Some (PStr main) ->
  exists d, descr (Some file) cc = Some d /\ (forall p v, cparam p -> (dget d p = Some v <-> cloud_value b (dget cc) p v)) /\
    dget d "cloud_name" = Some (PStr (base file)) /\ dget d "filen_main_outp" = Some (PStr (cloud_output main (base file))).
Proof.
  intros F Fu V Cl M. pose proof (files_ok _ _ F) as Nb. unfold cloud_descr_from_file. rewrite M. cbn [bind].
  rewrite (proj2 (import_spec files file _) (ex_intro _ b (conj F eq_refl))). cbn [bind].
  rewrite (proj2 (one_valid cloud cloud_mandatory (cloud_default m_e m_p qe) cloud_mand cloud_opt cloud_pi b Nb) V). cbn [bind].
  destruct (one_value cloud cloud_mandatory (cloud_default m_e m_p qe) cloud_mand cloud_opt cloud_ok cloud_priv cloud_pi b (Some cc) Nb V Cl) as (cfg & C & N & G).
  rewrite C. cbn [bind as_name]. eexists. split; [reflexivity|]. split; [|split; [apply set2_b|apply set2_a]].
  intros p v Hp. rewrite set2_other by (apply cloud_not; auto). rewrite G. unfold cloud_value, otherwise.
  destruct (Fu p (cloud_main p Hp)) as [u Hu]. rewrite Hu. split.
  - intros (_ & [X|(X & -> & _)]); auto.
  - intros X. split; auto. destruct X as [X|(X & Y)]; auto. right. split; auto. split; [congruence|].
    destruct Hp as [Hp|Hp]; auto. exfalso. apply X. destruct V as (V1 & _). destruct (V1 p Hp) as (f & w & [<-|[]] & Hg). eauto.
Qed.
Theorem cloud_rejects file cc d : descr (Some file) cc = Some d ->
  exists b, files file = Some b /\ valid cloud_mandatory cparam [b].
Proof.
  unfold cloud_descr_from_file. destruct (dget cc "filen_main_outp"); [|discriminate]. cbn [bind].
  destruct (import_module_from_file files file) as [m|] eqn:E; [|discriminate]. cbn [bind]. apply import_spec in E. destruct E as (b & F & ->).
  destruct (assert_module_has_parameters cloud (with_pi b)) as [[]|] eqn:A; [|discriminate]. intros _. exists b. split; auto.
  apply (one_valid cloud cloud_mandatory (cloud_default m_e m_p qe) cloud_mand cloud_opt cloud_pi b (files_ok _ _ F)). auto.
Qed.

(** The cloud of the main input. *)
Lemma copy_spec cc : full m_e m_p qe (dget cc) -> exists cfg, copy_to_config_dict [] cloud cc = Some cfg /\ forall p, cparam p -> dget cfg p = dget cc p.
Proof.
  intros Fu. unfold copy_to_config_dict. pose proof (mandatory_spec cc (s_mand cloud) []) as M.
  assert (K : forall p, In p (s_mand cloud) \/ In p (map fst (s_opt cloud)) -> cparam p).
  { intros p [H|H]; [left; exact H|right]. apply (one_keys cloud (cloud_default m_e m_p qe) cloud_opt). auto. }
  assert (Fn : forall p, In p (s_mand cloud) \/ In p (map fst (s_opt cloud)) -> dget cc p <> None).
  { intros p H. destruct (Fu p (cloud_main p (K p H))) as [v ->]. discriminate. }
  destruct (take_mandatory [] cc (s_mand cloud)) as [c1|]; [|exfalso; destruct M as (p & H & E); apply (Fn p); auto]. cbn [bind].
  destruct M as (_ & _ & M). pose proof (mandatory_spec cc (map fst (s_opt cloud)) c1) as M'.
  destruct (take_mandatory c1 cc (map fst (s_opt cloud))) as [c2|]; [|exfalso; destruct M' as (p & H & E); apply (Fn p); auto].
  destruct M' as (_ & _ & M'). exists c2. split; auto. intros p Hp. rewrite M'. destruct (mem p (map fst (s_opt cloud))) eqn:E1; auto.
  rewrite M. destruct (mem p (s_mand cloud)) eqn:E2; auto. exfalso. destruct Hp as [Hp|Hp].
  - apply cloud_mand, mem_in in Hp. congruence.
  - apply (one_keys cloud (cloud_default m_e m_p qe) cloud_opt), mem_in in Hp. congruence.
Qed.
Theorem cloud_main_reads main cc : full m_e m_p qe (dget cc) -> dget cc "filen_main_outp" = Some (PStr main) ->
  (dget cc "cloud_name" = Some PNone ->
     exists d, descr None cc = Some d /\ (forall p, cparam p -> dget d p = dget cc p) /\
       dget d "cloud_name" = Some (PStr "default") /\ dget d "filen_main_outp" = Some (PStr main)) /\
  (forall n, dget cc "cloud_name" = Some (PStr n) ->
     exists d, descr None cc = Some d /\ (forall p, cparam p -> dget d p = dget cc p) /\
       dget d "cloud_name" = Some (PStr n) /\ dget d "filen_main_outp" = Some (PStr (cloud_output main n))).
Proof.
  intros Fu M. destruct (copy_spec cc Fu) as (cfg & C & G). unfold cloud_descr_from_file. rewrite M. cbn [bind]. split.
  - intros Hn. rewrite Hn. cbn [bind]. rewrite C. cbn [bind]. eexists. split; [reflexivity|]. split; [|split; [apply set2_b|apply set2_a]].
    intros p Hp. rewrite set2_other by (apply cloud_not; auto). auto.
  - intros n Hn. rewrite Hn. cbn [bind as_name]. rewrite C. cbn [bind]. eexists. split; [reflexivity|]. split; [|split; [apply set2_b|apply set2_a]].
    intros p Hp. rewrite set2_other by (apply cloud_not; auto). auto.
Qed.

(** Output names. *)
Lemma without_has c s : without c s -> has c s = false.
Proof.
  unfold without. induction s as [|a s IH]; cbn; auto. intros H. destruct (Ascii.eqb a c) eqn:E.
  - apply Ascii.eqb_eq in E. subst. destruct H. exists "", s. reflexivity.
  - apply IH. intros (x & y & ->). apply H. exists (String a x), y. reflexivity.
Qed.
Lemma base_spec f n : cloud_file f n -> base f = n.
Proof.
  intros (H1 & H2 & H). apply without_has in H1. apply without_has in H2.
  assert (S : has "/" (n ++ ".cloud")%string = false) by (rewrite has_app, H1; reflexivity).
  assert (A : after_last "/" f = (n ++ ".cloud")%string).
  { destruct H as [->|(dir & ->)]; [|apply (after_last_app "/" dir (n ++ ".cloud")); auto].
    set (g := (n ++ ".cloud")%string) in *. clearbody g. destruct g; cbn in *; auto. rewrite S. auto. }
  rewrite A. apply before_app. auto.
Qed.
Lemma names_of main cc f d : descr (Some f) cc = Some d -> dget cc "filen_main_outp" = Some (PStr main) ->
  dget d "filen_main_outp" = Some (PStr (cloud_output main (base f))).
Proof.
  unfold cloud_descr_from_file. intros H M. rewrite M in H. cbn [bind] in H. destruct (import_module_from_file files f); [|discriminate]. cbn [bind] in H.
  destruct (assert_module_has_parameters _ _); [|discriminate]. cbn [bind] in H. destruct (update_config_dict _ _ _ _) as [c|]; [|discriminate].
  cbn [bind as_name] in H. injection H as <-. apply set2_a.
Qed.
Definition out_names main fl := map (fun f => Some (PStr (cloud_output main (base f)))) fl.
Lemma list_names main cc fl : forall l, dget cc "filen_main_outp" = Some (PStr main) -> mapM (fun f => descr (Some f) cc) fl = Some l ->
  map (fun d => dget d "filen_main_outp") l = out_names main fl.
Proof.
  induction fl as [|f fl IH]; intros l M H; cbn [mapM] in H; [injection H as <-; auto|].
  destruct (descr (Some f) cc) as [d|] eqn:E; [|discriminate]. cbn [bind] in H. destruct (mapM _ fl) as [l'|]; [|discriminate]. cbn [bind] in H. injection H as <-.
  cbn [map out_names]. rewrite (names_of main cc f d E M). f_equal. exact (IH l' M eq_refl).
Qed.
Theorem outputs_distinct main cc fl ns l : dget cc "filen_main_outp" = Some (PStr main) ->
  Forall2 cloud_file fl ns -> NoDup ns -> (forall n, dget cc "cloud_name" = Some (PStr n) -> ~ In n ns) ->
  cloud_par_list m_e m_p qe files fl cc = Some l -> NoDup (map (fun d => dget d "filen_main_outp") l).
Proof.
  intros M F N Hn H. unfold cloud_par_list in H. destruct (descr None cc) as [d0|] eqn:E0; [|discriminate]. cbn [bind] in H.
  destruct (mapM _ fl) as [l'|] eqn:E; [|discriminate]. cbn [bind] in H. injection H as <-. cbn [map]. rewrite (list_names main cc fl l' M E).
  assert (B : out_names main fl = map (fun n => Some (PStr (cloud_output main n))) ns).
  { clear - F. induction F as [|f n fl ns H F IH]; cbn; auto. rewrite (base_spec f n H). f_equal. exact IH. }
  rewrite B. clear B. constructor.
  - intros I. apply in_map_iff in I. destruct I as (n & I & J).
    unfold cloud_descr_from_file in E0. rewrite M in E0. cbn [bind] in E0. destruct (dget cc "cloud_name") as [cn|] eqn:Cn; [|discriminate]. cbn [bind] in E0.
    destruct cn as [| | | |nm| | |]; cbn [bind as_name] in E0; try discriminate.
    + destruct (copy_to_config_dict _ _ _); [|discriminate]. cbn [bind] in E0. injection E0 as <-. rewrite set2_a in I. injection I as I. exact (output_not_main main n I).
    + destruct (copy_to_config_dict _ _ _); [|discriminate]. cbn [bind] in E0. injection E0 as <-. rewrite set2_a in I. injection I as I. apply output_inj in I. subst n.
      apply (Hn nm eq_refl J).
  - clear - N. induction N as [|n ns H N IH]; cbn; constructor; auto. intros I. apply in_map_iff in I. destruct I as (m & I & J). injection I as I. apply output_inj in I. congruence.
Qed.
Theorem outputs_collide main cc f g d e n : dget cc "filen_main_outp" = Some (PStr main) -> cloud_file f n -> cloud_file g n ->
  descr (Some f) cc = Some d -> descr (Some g) cc = Some e -> dget d "filen_main_outp" = dget e "filen_main_outp".
Proof. intros M F G D E. rewrite (names_of main cc f d D M), (names_of main cc g e E M), (base_spec f n F), (base_spec g n G). auto. Qed.
End Cloud.
