(** The recorder of an electron cloud in a PyHEADTAIL machine and its files. *)
From Coq Require Import String Ascii Lia Bool.
From Verif Require Import Num ConfigVal Ckpt CkptFacts Config SpecConfig ConfigFacts ConfigFacts4 ConfigFacts5 Init SpecInit SpecInitParts InitFacts InitFacts2 InitFacts3 InitFacts4 InitFacts5 InitFacts6 InitFacts7
  PyHTInit SpecPyHTInit PyHTInitFacts PyHTInitFacts2.
Local Open Scope string_scope.
Local Open Scope list_scope.

Section Coupling.
Variables m_e m_p qe c : R.
Variable files : string -> option attrs.
Variable folder : string.
Variable isfile : string -> bool.
Variable npass : R.
Variable subset : pval -> bool.
Variable sec_name : nat -> string.
Variable probe_list : pval -> option (list attrs).
Notation make := (make m_e m_p qe c files folder isfile npass subset sec_name probe_list).
Notation build := (build m_e qe c folder isfile npass subset sec_name).
Notation descr := (cloud_descr_from_file m_e m_p qe files).
Notation eop_do := (eop_do m_e m_p qe files).
Notation ops_do := (ops_do m_e m_p qe files).
Notation reinit := (reinit m_e m_p qe files).

Lemma build_one sv g cc t p : build sv false g cc None [] [t] = Some p -> exists q cross, pl_clouds p = [q] /\
  (if sv then cp_saver q = None else exists s, cp_saver q = Some s /\ build_saver (Val PNone) true false false cross cc t = Some s).
Proof.
  unfold Init.build. destruct (build_chamber folder isfile cc [t]) as [ch|]; [|discriminate]. cbn [bind].
  destruct (build_sc false g cc None) as [sc|]; [|discriminate]. cbn [bind].
  destruct (dget cc "cross_ion_definitions") as [x|]; [|discriminate]. cbn [bind build_clouds List.length Nat.ltb Nat.leb].
  unfold build_cloud.
  destruct (build_mp m_e qe cc t) as [mp|]; [|discriminate]. cbn [bind].
  destruct (build_sey folder isfile cc t) as [sey|]; [|discriminate]. cbn [bind].
  destruct (build_impact cc t) as [imp|]; [|discriminate]. cbn [bind].
  destruct (build_gas cc t) as [gas|]; [|discriminate]. cbn [bind].
  destruct (build_photo folder isfile subset (Val PNone) cc t) as [ph|]; [|discriminate]. cbn [bind].
  set (B := build_saver (Val PNone) true false false (negb (is_none x)) cc t).
  destruct sv.
  - cbn [bind]. destruct (build_dyn m_e qe c cc t None) as [dyn|]; [|discriminate]. cbn [bind]. destruct (build_init cc t) as [ini|]; [|discriminate]. cbn [bind].
    match goal with |- context [call cc t None cloud_fn ?a ?b] => destruct (call cc t None cloud_fn a b) as [cl|]; [|discriminate] end. cbn [bind]. intros H. injection H as <-.
    eexists _, true. split; [reflexivity|reflexivity].
  - destruct B as [s|] eqn:S; [|discriminate]. cbn [bind].
    destruct (build_dyn m_e qe c cc t None) as [dyn|]; [|discriminate]. cbn [bind]. destruct (build_init cc t) as [ini|]; [|discriminate]. cbn [bind].
    match goal with |- context [call cc t None cloud_fn ?a ?b] => destruct (call cc t None cloud_fn a b) as [cl|]; [|discriminate] end. cbn [bind]. intros H. injection H as <-.
    eexists _, (negb (is_none x)). split; [reflexivity|]. exists s. split; [reflexivity|exact S].
Qed.

Lemma restart_is o t s cross : full m_e m_p qe (dget (ec_cc o)) -> cloud_full m_e m_p qe (dget t) -> (List.length (pl_clouds (ec_plan o)) <= 1)%nat ->
  build_saver (Val PNone) true false false cross (ec_cc o) t = Some s ->
  exists s', restart o t = Some s' /\ par s' "filen_main_outp" = dget t "filen_main_outp" /\ par s "filen_main_outp" = dget t "filen_main_outp" /\
    (forall k, In k recorder_kept -> par s' k = par s k) /\ (forall k v, In (k, v) recorder_lost -> par s' k = Some v).
Proof.
  intros Fc Ft L H. unfold restart. replace (Nat.ltb 1 (List.length (pl_clouds (ec_plan o)))) with false by (symmetry; apply Nat.ltb_ge; lia).
  match goal with |- exists s', call _ _ _ ?f ?pos ?kw = Some _ /\ _ => eassert (B' : bind_args f pos kw = Some _) by (vm_compute; reflexivity) end.
  match goal with |- exists s', ?x = Some s' /\ _ => assert (E : exists s', x = Some s') end.
  { eapply (call_ok _ _ None _ _ _ _ (cloud_names m_e m_p qe) (main_names m_e m_p qe) []);
      [apply has_cloud; exact Ft|apply has_main; exact Fc|discriminate|exact B'|vm_compute; reflexivity]. }
  destruct E as [s' E]. exists s'. split; [exact E|].
  unfold build_saver in H. destruct (dget (ec_cc o) "Dh_electric_energy") as [d|] eqn:G; [|discriminate]. cbn [bind] in H.
  generalize (negb (is_none d)) as en, H. clear H d G. intros en H. bindof H B.
  split; [rewrite (call_par _ _ _ _ _ _ _ _ _ E B'); reflexivity|]. split; [rewrite (call_par _ _ _ _ _ _ _ _ _ H B); reflexivity|]. split.
  - intros k I. rewrite (call_par _ _ _ _ _ _ _ _ _ E B'), (call_par _ _ _ _ _ _ _ _ _ H B). unfold recorder_kept in I.
    repeat (destruct I as [<-|I]; [reflexivity|]). destruct I.
  - intros k v I. rewrite (call_par _ _ _ _ _ _ _ _ _ E B'). unfold recorder_lost in I.
    repeat (destruct I as [I|I]; [injection I as <- <-; reflexivity|]). destruct I.
Qed.

Definition live (f : string) (o : ecl) : Prop := exists s t r, ec_saver o = Some s /\ descr None (ec_cc o) = Some t /\ restart o t = Some r /\
  par r "filen_main_outp" = Some (PStr f) /\ par s "filen_main_outp" = Some (PStr (match ec_i o with 0%nat => f | S k => passage_file f k end)).
Lemma live_out f o : live f o -> output_file o = [match ec_i o with 0%nat => f | S k => passage_file f k end].
Proof. intros (s & t & r & S & _ & _ & _ & P). unfold output_file. rewrite S. unfold par in P. rewrite P. reflexivity. Qed.
Lemma restart_with o x1 x2 x3 x4 x5 x6 t : restart (with_state o x1 x2 x3 x4 x5 x6) t = restart o t.
Proof. reflexivity. Qed.
Lemma reinit_is f o : live f o -> exists s r, restart o r = Some s /\ descr None (ec_cc o) = Some r /\
  reinit o = Some (with_state o (Some (mkObj (ob_name s) (dset (ob_args s) "filen_main_outp" (PStr (passage_file f (ec_i o)))))) (ec_rec o) (ec_once o) (ec_map o) (ec_n o) (S (ec_i o))).
Proof.
  intros (s & t & r & S & D & E & P & Q). exists r, t. split; [exact E|]. split; [exact D|]. unfold PyHTInit.reinit. rewrite S, D. cbn [bind]. rewrite E. cbn [bind].
  unfold par in P. rewrite P. reflexivity.
Qed.
Lemma live_with f o s x2 x3 x4 x5 i : (exists t r, descr None (ec_cc o) = Some t /\ restart o t = Some r /\ par r "filen_main_outp" = Some (PStr f)) ->
  par s "filen_main_outp" = Some (PStr (match i with 0%nat => f | S k => passage_file f k end)) -> live f (with_state o (Some s) x2 x3 x4 x5 i).
Proof. intros (t & r & D & E & P) Q. exists s, t, r. split; [reflexivity|]. split; [exact D|]. split; [exact E|]. split; [exact P|exact Q]. Qed.
Lemma live_same f o x2 x3 x4 x5 : live f o -> live f (with_state o (ec_saver o) x2 x3 x4 x5 (ec_i o)).
Proof. intros (s & t & r & S & D & E & P & Q). exists s, t, r. split; [exact S|]. auto. Qed.
Lemma live_reinit f o : live f o -> exists o', reinit o = Some o' /\ live f o' /\ ec_i o' = S (ec_i o) /\ ec_n o' = ec_n o /\ ec_once o' = ec_once o /\ ec_map o' = ec_map o /\
  ec_slicemode o' = ec_slicemode o.
Proof.
  intros L. destruct (reinit_is f o L) as (s & t & E & D & R). eexists. split; [exact R|]. split; [|repeat split; reflexivity].
  destruct L as (s0 & t0 & r0 & S & D0 & E0 & P & Q). apply live_with; [exists t0, r0; auto|]. unfold par. cbn [ob_args]. rewrite dget_dset, String.eqb_refl. reflexivity.
Qed.

(** Every operation but those that end the recording. *)
Definition good (o : ecl) (f : string) : Prop := live f o /\ ec_map o = false /\ ec_once o = false.
Lemma good_op f o x o' w : good o f -> x <> Replace -> x <> Remove -> x <> Once true -> eop_do x o = Some (o', w) -> good o' f /\ ec_slicemode o' = ec_slicemode o /\
  ec_i o' = (ec_i o + match x with Pass | Next => 1 | _ => 0 end)%nat.
Proof.
  intros (L & M & O) X1 X2 X3 H. unfold PyHTInit.eop_do in H. rewrite M in H. destruct x as [| | | |n|b|]; try congruence.
  - destruct (ec_slicemode o) eqn:Sm; [discriminate|]. rewrite O in H. cbn [andb] in H. destruct (live_reinit f o L) as (o1 & R & L1 & I & N & On & Ma & Sl). rewrite R in H. cbn [bind] in H.
    injection H as <- _. split; [|split; [cbn; congruence|cbn; lia]]. split; [apply live_same; exact L1|]. cbn. split; congruence.
  - destruct (ec_slicemode o) eqn:Sm; [|discriminate]. cbn [negb] in H. injection H as <- _. split; [split; auto|]. split; [exact Sm|lia].
  - destruct (ec_slicemode o) eqn:Sm; [|discriminate]. cbn [negb] in H. destruct (live_reinit f o L) as (o1 & R & L1 & I & N & On & Ma & Sl). rewrite R in H. cbn [bind] in H.
    injection H as <- _. split; [split; [exact L1|split; congruence]|]. split; [congruence|lia].
  - injection H as <- _. split; [split; [apply live_same; exact L|auto]|]. split; [reflexivity|cbn; lia].
  - destruct b; [congruence|]. injection H as <- _. split; [split; [apply live_same; exact L|auto]|]. split; [reflexivity|cbn; lia].
Qed.
Lemma good_ops f l : forall o o' w, good o f -> recorded l -> ops_do l o = Some (o', w) -> good o' f /\ ec_slicemode o' = ec_slicemode o /\ ec_i o' = (ec_i o + n_pass l + n_next l)%nat.
Proof.
  induction l as [|x l IH]; intros o o' w G (R1 & R2 & R3) H; cbn [PyHTInit.ops_do] in H.
  - injection H as <- _. split; [exact G|]. split; [reflexivity|cbn; lia].
  - cbn [In] in R1, R2, R3. destruct (eop_do x o) as [[o1 w1]|] eqn:E; [|discriminate]. cbn [bind] in H. destruct (ops_do l o1) as [[o2 r]|] eqn:F; [|discriminate]. cbn [bind] in H. injection H as <- _.
    apply (good_op f) in E as (G1 & S1 & I1); [|exact G|firstorder|firstorder|firstorder].
    apply IH in F as (G2 & S2 & I2); [|exact G1|split; [tauto|split; tauto]]. split; [exact G2|]. split; [congruence|].
    unfold n_pass, n_next in *. destruct x; cbn in *; lia.
Qed.
(** In one mode only one of the two occurs. *)
Lemma mode_ops l : forall o o' w, ops_do l o = Some (o', w) -> ec_map o = false -> ~ In Replace l -> if ec_slicemode o then n_pass l = 0%nat else n_next l = 0%nat.
Proof.
  induction l as [|x l IH]; intros o o' w H M N; cbn [PyHTInit.ops_do] in H; [destruct (ec_slicemode o); reflexivity|].
  cbn [In] in N. destruct (eop_do x o) as [[o1 w1]|] eqn:E; [|discriminate]. cbn [bind] in H. destruct (ops_do l o1) as [[o2 r]|] eqn:F; [|discriminate].
  pose proof E as E'. apply settled_op in E' as [[Se _] M1]. destruct Se as (_ & _ & _ & _ & Sm & _).
  assert (M1' : ec_map o1 = false) by (rewrite M1, M; destruct x; try reflexivity; tauto).
  specialize (IH _ _ _ F M1' (fun X => N (or_intror X))). rewrite Sm in IH. unfold PyHTInit.eop_do in E. rewrite M in E.
  unfold n_pass, n_next in *. destruct x; cbn [filter] in *; try (destruct (ec_slicemode o); cbn in *; congruence).
Qed.

Lemma kw_nodup a : NoDup (map fst (ea_kw a)) -> (forall k, In k taken -> ~ In k (map fst (ea_kw a))) -> NoDup (map fst (sim_kwargs a)).
Proof.
  intros N T. unfold sim_kwargs. cbn [map fst]. constructor.
  - intros I. apply in_map_iff in I as (kv & E & I). apply filter_In in I as [I _]. apply (T "filen_main_outp"); [cbn; tauto|]. rewrite <- E. apply in_map. exact I.
  - clear T. induction (ea_kw a) as [|kv kw IH]; [constructor|]. cbn [map filter] in *. inversion N as [|? ? N1 N2]; subst. destruct (negb _); [|exact (IH N2)].
    cbn [map]. constructor; [|exact (IH N2)]. intros I. apply N1. apply in_map_iff in I as (kv' & E & I). apply filter_In in I as [I _]. rewrite <- E. apply in_map. exact I.
Qed.
Lemma cc_of fresh a o : NoDup (map fst (ea_kw a)) -> make fresh a = Some o ->
  exists cfg, read_parameter_files m_e m_p qe files true = Some cfg /\
  forall p, dget (ec_cc o) p = match dget (sim_kwargs a) p with Some v => if mem p extra_allowed_kwargs then dget cfg p else Some v | None => dget cfg p end.
Proof.
  intros N H. apply make_iff in H as (T & _ & cc & p & pr & C & _ & _ & _ & _ & _ & ->). cbn [ec_cc object].
  unfold read_config in C. destruct (read_parameter_files m_e m_p qe files true) as [cfg|]; [|discriminate]. cbn [bind] in C. exists cfg. split; [reflexivity|].
  pose proof (override_spec extra_allowed_kwargs (sim_kwargs a) cfg (kw_nodup a N T)) as X. rewrite C in X. exact (proj2 X).
Qed.
Lemma cc_file fresh a o : NoDup (map fst (ea_kw a)) -> make fresh a = Some o -> dget (ec_cc o) "filen_main_outp" = Some (outp_value (ea_outp a)).
Proof. intros N H. destruct (cc_of fresh a o N H) as (cfg & _ & E). rewrite E. reflexivity. Qed.

Lemma good_make fresh a o conf f : NoDup (map fst (ea_kw a)) -> make fresh a = Some o -> ea_outp a = Some conf -> first_file (ec_cc o) conf f -> good o f /\ ec_i o = 0%nat /\ ec_slicemode o = ea_slicemode a.
Proof.
  intros N H A Ff. pose proof (cc_file _ _ _ N H) as Cf. rewrite A in Cf. cbn in Cf.
  destruct (make_parts _ _ _ _ _ _ _ _ _ _ _ _ _ _ H) as (t & q & Ra & D & _ & Pq & Sv & B). rewrite A in B. cbn in B.
  apply build_one in B as (q' & cross & Q & s & S & Bs). rewrite Pq in Q. injection Q as <-.
  pose proof Ra as (R1 & _). pose proof (read_full _ _ _ _ _ _ _ _ R1) as Fc. pose proof (descr_full _ _ _ _ _ _ _ D) as Ft.
  destruct (restart_is o t s cross Fc Ft ltac:(rewrite Pq; cbn; lia) Bs) as (r & E & Pr & Ps & _).
  assert (Fn : dget t "filen_main_outp" = Some (PStr f)).
  { destruct (cloud_main_reads m_e m_p qe files conf (ec_cc o) Fc Cf) as [X1 X2]. destruct Ff as [(Y & ->)|(n & Y & ->)].
    - destruct (X1 Y) as (d & D' & _ & _ & Z). congruence.
    - destruct (X2 n Y) as (d & D' & _ & _ & Z). congruence. }
  apply make_iff in H as (_ & _ & cc & p & pr & _ & _ & _ & _ & _ & _ & Eo).
  assert (Z : ec_i o = 0%nat /\ ec_map o = false /\ ec_once o = false /\ ec_slicemode o = ea_slicemode a) by (rewrite Eo; repeat split; reflexivity).
  destruct Z as (Z1 & Z2 & Z3 & Z4). split; [|split; assumption]. split; [|split; assumption].
  exists s, t, r. split; [congruence|]. split; [exact D|]. split; [exact E|]. split; [congruence|]. rewrite Z1. congruence.
Qed.
Lemma first_exists fresh a o conf : NoDup (map fst (ea_kw a)) -> make fresh a = Some o -> ea_outp a = Some conf -> exists f, first_file (ec_cc o) conf f.
Proof.
  intros N H A. pose proof (cc_file _ _ _ N H) as Cf. rewrite A in Cf. cbn in Cf. destruct (make_parts _ _ _ _ _ _ _ _ _ _ _ _ _ _ H) as (t & q & _ & D & _).
  unfold cloud_descr_from_file in D. rewrite Cf in D. cbn [bind] in D. destruct (dget (ec_cc o) "cloud_name") as [v|] eqn:V; [|discriminate]. cbn [bind] in D. destruct v; try discriminate.
  - exists conf. left. auto.
  - eexists. right. exists s. auto.
Qed.

Lemma pass_any fresh a o conf f l o1 w : NoDup (map fst (ea_kw a)) -> make fresh a = Some o -> ea_outp a = Some conf -> first_file (ec_cc o) conf f ->
  ea_slicemode a = false -> recorded l -> ops_do l o = Some (o1, w) -> exists o2, eop_do Pass o1 = Some (o2, [passage_file f (n_pass l)]).
Proof.
  intros N H A Ff Sm Re O. destruct (good_make _ _ _ _ _ N H A Ff) as (G & I & S). pose proof O as O'. apply (good_ops f) in O as ((L & M & On) & S1 & I1); auto.
  pose proof (mode_ops _ _ _ _ O' ltac:(apply G) (proj1 Re)) as Z. rewrite S, Sm in Z. rewrite I, Z in I1.
  destruct (live_reinit f o1 L) as (o2 & R & L2 & I2 & N2 & On2 & Ma2 & Sl2). unfold PyHTInit.eop_do. rewrite M, S1, S, Sm, On. cbn [andb]. rewrite R. cbn [bind].
  eexists. f_equal. f_equal. rewrite (live_out f _ L2), I2. replace (ec_i o1) with (n_pass l) by lia. reflexivity.
Qed.
Lemma pass_file fresh a o conf f base l o1 w : NoDup (map fst (ea_kw a)) -> make fresh a = Some o -> ea_outp a = Some conf -> first_file (ec_cc o) conf f -> plain_name f base ->
  ea_slicemode a = false -> recorded l -> ops_do l o = Some (o1, w) -> exists o2, eop_do Pass o1 = Some (o2, [numbered base (n_pass l)]).
Proof. intros N H A Ff Pl Sm Re O. rewrite <- (plain_file f base _ Pl). exact (pass_any _ _ _ _ _ _ _ _ N H A Ff Sm Re O). Qed.
Lemma slice_file fresh a o conf f base l o1 w : NoDup (map fst (ea_kw a)) -> make fresh a = Some o -> ea_outp a = Some conf -> first_file (ec_cc o) conf f -> plain_name f base ->
  ea_slicemode a = true -> recorded l -> ops_do l o = Some (o1, w) ->
  eop_do Slice o1 = Some (o1, [match n_next l with 0%nat => f | S k => numbered base k end]) /\ exists o2, eop_do Next o1 = Some (o2, []).
Proof.
  intros N H A Ff Pl Sm Re O. destruct (good_make _ _ _ _ _ N H A Ff) as (G & I & S). pose proof O as O'. apply (good_ops f) in O as ((L & M & On) & S1 & I1); auto.
  pose proof (mode_ops _ _ _ _ O' ltac:(apply G) (proj1 Re)) as Z. rewrite S, Sm in Z. rewrite I, Z in I1.
  destruct (live_reinit f o1 L) as (o2 & R & L2 & I2 & N2 & On2 & Ma2 & Sl2). unfold PyHTInit.eop_do. rewrite M, S1, S, Sm. cbn [negb]. rewrite R. cbn [bind]. split; [|eauto].
  f_equal. f_equal. rewrite (live_out f _ L). replace (ec_i o1) with (n_next l) by lia. destruct (n_next l); [reflexivity|]. rewrite (plain_file f base _ Pl). reflexivity.
Qed.
(** Nothing is ever written without a file, and nothing after the end of the recording. *)
Lemma none_written l : forall o o' w, ops_do l o = Some (o', w) -> ec_saver o = None -> concat w = [] /\ ec_saver o' = None.
Proof.
  induction l as [|x l IH]; intros o o' w H Sn; cbn [PyHTInit.ops_do] in H; [injection H as <- <-; auto|].
  destruct (eop_do x o) as [[o1 w1]|] eqn:E; [|discriminate]. cbn [bind] in H. destruct (ops_do l o1) as [[o2 r]|] eqn:F; [|discriminate]. cbn [bind] in H. injection H as <- <-.
  assert (X : ec_saver o1 = None /\ w1 = []).
  { unfold PyHTInit.eop_do, PyHTInit.reinit, output_file in E. rewrite Sn in E. destruct x as [| | | |n|b|].
    - destruct (ec_map o); [injection E as <- <-; auto|]. destruct (ec_slicemode o); [discriminate|]. destruct (_ && _); cbn in E; injection E as <- <-; auto.
    - destruct (ec_map o); [injection E as <- <-; auto|]. destruct (negb _); [discriminate|]. injection E as <- <-; auto.
    - destruct (ec_map o); [injection E as <- <-; auto|]. destruct (negb _); [discriminate|]. cbn in E. injection E as <- <-; auto.
    - injection E as <- <-; auto.
    - injection E as <- <-; auto.
    - injection E as <- <-; auto.
    - injection E as <- <-; auto. }
  destruct X as [X ->]. destruct (IH _ _ _ F X) as [Y Z]. cbn. auto.
Qed.
Lemma no_output fresh a o : make fresh a = Some o -> (ec_saver o = None <-> ea_outp a = None).
Proof.
  intros H. destruct (make_parts _ _ _ _ _ _ _ _ _ _ _ _ _ _ H) as (t & q & _ & _ & _ & Pq & Sv & B). apply build_one in B as (q' & cross & Q & S). rewrite Pq in Q. injection Q as <-.
  rewrite Sv. destruct (ea_outp a); cbn in S; [destruct S as (s0 & -> & _); split; discriminate|tauto].
Qed.
(** The settings of the recorder after a new start. *)
Lemma recorder_is fresh a o l o1 w o2 s s2 : NoDup (map fst (ea_kw a)) -> make fresh a = Some o -> recorded l -> ops_do l o = Some (o1, w) -> reinit o1 = Some o2 ->
  ec_saver o = Some s -> ec_saver o2 = Some s2 ->
  (forall k, In k recorder_kept -> par s2 k = par s k) /\ (forall k v, In (k, v) recorder_lost -> par s2 k = Some v).
Proof.
  intros N H Re O R S S2. destruct (ea_outp a) as [conf|] eqn:A; [|apply (no_output _ _ _ H) in A; congruence].
  destruct (first_exists _ _ _ _ N H A) as [f Ff]. destruct (good_make _ _ _ _ _ N H A Ff) as (G & I & Sl).
  pose proof O as O'. apply settled_ops in O' as [[Se [_ Pl]] _]. destruct Se as (_ & _ & _ & _ & _ & _ & _ & _ & _ & _ & _ & _ & _ & _ & _ & _ & Cc).
  apply (good_ops f) in O as ((L & M & On) & S1 & I1); auto. destruct (reinit_is f o1 L) as (r & t1 & E & D1 & R1). rewrite R in R1. injection R1 as ->. cbn [ec_saver with_state] in S2. injection S2 as <-.
  destruct (make_parts _ _ _ _ _ _ _ _ _ _ _ _ _ _ H) as (t & q & Ra & D & _ & Pq & Sv & B). rewrite A in B. cbn in B.
  apply build_one in B as (q' & cross & Q & s' & S' & Bs). rewrite Pq in Q. injection Q as <-.
  pose proof Ra as (Rc & _). pose proof (read_full _ _ _ _ _ _ _ _ Rc) as Fc. pose proof (descr_full _ _ _ _ _ _ _ D) as Ft.
  destruct (restart_is o t s' cross Fc Ft ltac:(rewrite Pq; cbn; lia) Bs) as (r' & E' & _ & _ & K1 & K2).
  rewrite Cc in D1. assert (t1 = t) by congruence. subst t1. assert (r = r') by (unfold restart in E, E'; rewrite Cc, Pl in E; congruence). subst r'. assert (s' = s) by congruence. subst s'.
  assert (X : forall k, k <> "filen_main_outp" -> par (mkObj (ob_name r) (dset (ob_args r) "filen_main_outp" (PStr (passage_file f (ec_i o1))))) k = par r k).
  { intros k Nk. unfold par. cbn [ob_args]. rewrite dget_dset. destruct (String.eqb_spec "filen_main_outp" k); [congruence|reflexivity]. }
  split; [|].
  { intros k J. rewrite X; [auto|]. intros ->. unfold recorder_kept in J. repeat (destruct J as [J|J]; [discriminate J|]). exact J. }
  { intros k v J. rewrite X; [eauto|]. intros ->. unfold recorder_lost in J. repeat (destruct J as [J|J]; [discriminate J|]). exact J. }
  Unshelve. exact folder. exact isfile.
Qed.
End Coupling.
