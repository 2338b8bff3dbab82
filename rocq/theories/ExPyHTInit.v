(** Electron clouds for PyHEADTAIL. *)
From Coq Require Import String Lia Bool Lra.
From Verif Require Import Num NumFacts ConfigVal ConfigTable Ckpt Config SpecConfig ConfigFacts ExConfig Init SpecInit SpecInitParts InitFacts InitFacts2 InitFacts4 InitFacts6 ConfigFacts2 ConfigFacts3 ConfigFacts4 ConfigFacts5 ConfigFacts6 ConfigFacts7
  PyHTInit SpecPyHTInit PyHTInitFacts PyHTInitFacts2 PyHTInitFacts3 PyHTInitFacts4.
Local Open Scope string_scope.
Local Open Scope list_scope.

Definition jProbes (v : pval) : option (list attrs) := match v with PStr _ => Some [[("x", PNum 1); ("y", PNum 2)]] | _ => None end.
Definition jKw (extra : attrs) : attrs := ("track_method", PStr "Boris") :: extra.
Definition jArgs (mode : bool) (out : option string) (extra : attrs) : eargs := mkEargs 3 PNone 2 false mode None true PNone false out false (jKw extra).
Notation jMake := (make 1 1 1 1 gF "in" (fun _ => true) 3 (fun _ => true) (fun _ => "") jProbes).
Notation jTwin := (twin 1 1 1 1 gF "in" (fun _ => true) 3 (fun _ => true) (fun _ => "") jProbes).
Notation jDo := (ops_do 1 1 1 gF).

Definition jOne : attrs := [("enable_kick_y", PBool false); ("probes_position", PStr "two")].
Definition jTwo : attrs := [("save_only", PList [PStr "Nel_timep"])].
Definition jThree : attrs := [("cloud_name", PStr "ions")].
Definition jExtra : list attrs := [[]; jOne; jTwo; jThree].

Definition jCfg out extra : attrs := match read_config 1 1 1 gF true extra_allowed_kwargs (("filen_main_outp", outp_value out) :: jKw extra) with Some c => c | None => [] end.
Definition jDescr out extra : attrs := match cloud_descr_from_file 1 1 1 gF None (jCfg out extra) with Some c => c | None => [] end.
Lemma jCfg_read out extra : In extra jExtra -> read_config 1 1 1 gF true extra_allowed_kwargs (("filen_main_outp", outp_value out) :: jKw extra) = Some (jCfg out extra).
Proof.
  intros I. unfold jCfg. assert (H : (match read_config 1 1 1 gF true extra_allowed_kwargs (("filen_main_outp", outp_value out) :: jKw extra) with Some _ => true | None => false end) = true)
    by (destruct I as [<-|[<-|[<-|[<-|[]]]]]; vm_compute; reflexivity).
  destruct (read_config _ _ _ _ _ _ _); [reflexivity|discriminate].
Qed.
Lemma jDescr_read out extra : In extra jExtra -> (extra = jThree -> out <> None) -> cloud_descr_from_file 1 1 1 gF None (jCfg out extra) = Some (jDescr out extra).
Proof.
  intros I N. unfold jDescr. assert (H : (match cloud_descr_from_file 1 1 1 gF None (jCfg out extra) with Some _ => true | None => false end) = true).
  { destruct I as [<-|[<-|[<-|[<-|[]]]]]; try (vm_compute; reflexivity). destruct out; [|destruct (N eq_refl eq_refl)]. vm_compute; reflexivity. }
  destruct (cloud_descr_from_file _ _ _ _ _ _); [reflexivity|discriminate].
Qed.
Lemma jNoDup extra : In extra jExtra -> NoDup (map fst (jKw extra)).
Proof. intros [<-|[<-|[<-|[<-|[]]]]]; apply nodupb_ok; reflexivity. Qed.

Lemma jNd mode out extra : In extra jExtra -> NoDup (map fst (ea_kw (jArgs mode out extra))).
Proof. exact (jNoDup extra). Qed.

Lemma jMakes mode out extra : In extra jExtra -> (extra = jThree -> out <> None) -> exists o, jMake 0 (jArgs mode out extra) = Some o.
Proof.
  intros I N. apply accepted_iff; [apply jNoDup, I|destruct I as [<-|[<-|[<-|[<-|[]]]]]; cbn; intuition discriminate|].
  split; [intros k K; destruct I as [<-|[<-|[<-|[<-|[]]]]]; cbn in K |- *; intuition (subst; discriminate)|]. split; [|split; [|reflexivity]].
  - exists (jCfg out extra), (jDescr out extra). split.
    { split; [apply jCfg_read, I|]. split; [reflexivity|]. exists (PList []), []. split; [destruct I as [<-|[<-|[<-|[<-|[]]]]]; vm_compute; reflexivity|]. split; [reflexivity|].
      unfold cloud_par_list. cbn [mapM]. rewrite (jDescr_read _ _ I N). reflexivity. }
    split; [left; destruct I as [<-|[<-|[<-|[<-|[]]]]]; vm_compute; reflexivity|]. split; [left; destruct I as [<-|[<-|[<-|[<-|[]]]]]; vm_compute; reflexivity|].
    assert (Em : dget (jCfg out extra) "flag_em_tracking" = Some (PBool false)) by (destruct I as [<-|[<-|[<-|[<-|[]]]]]; vm_compute; reflexivity).
    split. { intros _ (v & V & (_ & Y & _)). rewrite Em in V. injection V as <-. congruence. }
    split. { intros (v & V & (_ & Y & _)). assert (E : dget (jCfg out extra) "flag_lifetime_hist" = Some (PBool false)) by (destruct I as [<-|[<-|[<-|[<-|[]]]]]; vm_compute; reflexivity).
      rewrite E in V. injection V as <-. congruence. }
    split. { right. left. right. exists (PNum 0). split; [destruct I as [<-|[<-|[<-|[<-|[]]]]]; try (vm_compute; reflexivity); destruct out; [vm_compute; reflexivity|destruct (N eq_refl eq_refl)]|]. left. split; [reflexivity|left; reflexivity]. }
    split. { intros (v & V & Y). assert (E : dget (jDescr out extra) "photoem_flag" = Some (PNum 0)) by (destruct I as [<-|[<-|[<-|[<-|[]]]]]; try (vm_compute; reflexivity); destruct out; [vm_compute; reflexivity|destruct (N eq_refl eq_refl)]).
      rewrite E in V. injection V as <-. clear - Y. destruct Y as [[Y|[[Y _]|[Y _]]]|Y]; [|discriminate|discriminate|discriminate]. assert (Z : 0 = 3) by (refine (f_equal (fun v => match v with PNum x => x | _ => 0 end) Y)). lra. }
    left. split; [destruct I as [<-|[<-|[<-|[<-|[]]]]]; vm_compute; reflexivity|]. exists (PBool false). split; [exact Em|]. clear. intros [Y|[[Y _]|[_ Y]]]; [discriminate|discriminate|lra].
  - intros v V. destruct I as [<-|[<-|[<-|[<-|[]]]]]; cbn in V; repeat (destruct V as [V|V]); try discriminate; try contradiction. injection V as <-.
    exists [[("x", PNum 1); ("y", PNum 2)]], [(PNum 1, PNum 2)]. split; [reflexivity|]. constructor; [split; reflexivity|constructor].
Qed.

(** The files of the passages: a name is cut at "__iter". *)
Lemma jFirst mode out extra o : In extra jExtra -> extra <> jThree -> jMake 0 (jArgs mode (Some out) extra) = Some o -> first_file (ec_cc o) out out.
Proof.
  intros I N H. apply make_iff in H as (_ & _ & cc & p & pr & C & _ & _ & _ & _ & _ & ->). cbn [ec_cc object]. left. split; [|reflexivity].
  assert (E : sim_kwargs (jArgs mode (Some out) extra) = ("filen_main_outp", outp_value (Some out)) :: jKw extra) by (destruct I as [<-|[<-|[<-|[<-|[]]]]]; reflexivity).
  rewrite E, (jCfg_read (Some out) extra I) in C. pose proof (f_equal (fun o => match o with Some x => x | None => [] end) C) as D. cbv beta iota in D. rewrite <- D. clear - I N. destruct I as [<-|[<-|[<-|[<-|[]]]]]; [vm_compute; reflexivity..|congruence].
Qed.
Lemma slen a b : String.length (a ++ b) = (String.length a + String.length b)%nat.
Proof. induction a as [|x a IH]; [reflexivity|]. cbn. rewrite IH. reflexivity. Qed.
Lemma jPlain : plain_name "ecl.mat" "ecl".
Proof.
  split; [right; reflexivity|]. split; intros (a & b & E).
  - assert (L : String.length "ecl" = String.length (a ++ ".mat" ++ b)) by (rewrite E; reflexivity). rewrite !slen in L. cbn in L. lia.
  - assert (L : String.length "ecl" = String.length (a ++ "__iter" ++ b)) by (rewrite E; reflexivity). rewrite !slen in L. cbn in L. lia.
Qed.
Definition jRun : list eop := [Rec "save_ele_distributions_last_track"; Pass; Pass].
Definition jSlices : list eop := [Slice; Next; Slice].
Lemma jRan (mode : bool) extra o : In extra jExtra -> extra <> jThree -> jMake 0 (jArgs mode (Some "ecl.mat") extra) = Some o ->
  exists o1 w, jDo (if mode then jSlices else jRun) o = Some (o1, w).
Proof.
  intros I N H. refine (runs _ _ _ _ _ _ _ _ _ _ _ _ (jArgs mode (Some "ecl.mat") extra) _ _ _ _ _ (jNoDup _ I) H eq_refl (jFirst _ _ _ _ I N H) jPlain _ _).
  - destruct mode; repeat constructor.
  - destruct mode; repeat split; cbn; intuition discriminate.
Qed.
Lemma jKwNo extra : In extra jExtra -> ~ In "skip_spacech_ele" (map fst (jKw extra)).
Proof. intros [<-|[<-|[<-|[<-|[]]]]]; cbn; intuition discriminate. Qed.

(** Two names, one file. *)
Lemma jNames : passage_file "a__iterX.mat" 0 = "a__iter0.mat" /\ passage_file "a__iterY.mat" 0 = "a__iter0.mat".
Proof. split; vm_compute; reflexivity. Qed.
Lemma jSaver mode o : jMake 0 (jArgs mode (Some "ecl.mat") jTwo) = Some o -> exists s, ec_saver o = Some s /\ par s "save_only" = Some (PList [PStr "Nel_timep"]).
Proof.
  intros H. destruct (make_parts _ _ _ _ _ _ _ _ _ _ _ _ _ _ H) as (t & q & (Rc & _) & D & _ & Pq & Sv & B). apply build_one in B as (q' & cross & Q & S). rewrite Pq in Q. injection Q as <-.
  cbn [ea_outp jArgs is_some negb] in S. destruct S as (s & S & Bs). exists s. split; [congruence|].
  assert (E : sim_kwargs (jArgs mode (Some "ecl.mat") jTwo) = ("filen_main_outp", outp_value (Some "ecl.mat")) :: jKw jTwo) by reflexivity. rewrite E in Rc.
  rewrite (jCfg_read (Some "ecl.mat") jTwo) in Rc by (cbn; tauto). pose proof (f_equal (fun o => match o with Some x => x | None => [] end) Rc) as Cc. cbv beta iota in Cc. rewrite <- Cc in D.
  rewrite jDescr_read in D by (cbn; try tauto; discriminate). pose proof (f_equal (fun o => match o with Some x => x | None => [] end) D) as T. cbv beta iota in T.
  clear D Cc Rc E H. revert Bs. generalize (ec_cc o) as cc. intros cc Bs.
  unfold build_saver in Bs. destruct (dget cc "Dh_electric_energy") as [d|] eqn:G; [|discriminate]. cbn [bind] in Bs.
  generalize (negb (is_none d)) as en, Bs. clear Bs d G. intros en Bs. bindof Bs B. rewrite (call_par _ _ _ _ _ _ _ _ _ Bs B).
  transitivity (dget t "save_only"); [clear; reflexivity|]. rewrite <- T. clear. vm_compute. reflexivity.
Qed.

Lemma jRecorded : recorded jRun /\ recorded jSlices.
Proof. repeat split; cbn; intuition discriminate. Qed.
Lemma jPass extra out o : In extra jExtra -> extra <> jThree -> jMake 0 (jArgs false (Some out) extra) = Some o -> exists o2, eop_do 1 1 1 gF Pass o = Some (o2, [passage_file out 0]).
Proof.
  intros I N H. refine (pass_any _ _ _ _ _ _ _ _ _ _ _ _ (jArgs false (Some out) extra) _ _ _ [] _ _ (jNoDup _ I) H eq_refl (jFirst _ _ _ _ I N H) eq_refl _ eq_refl). repeat split; cbn; tauto.
Qed.
Lemma jLost : exists o s o2 w s2, jMake 0 (jArgs false (Some "ecl.mat") jTwo) = Some o /\ ec_saver o = Some s /\ par s "save_only" = Some (PList [PStr "Nel_timep"]) /\
  eop_do 1 1 1 gF Pass o = Some (o2, w) /\ ec_saver o2 = Some s2 /\ par s2 "save_only" = Some PNone.
Proof.
  assert (I : In jTwo jExtra) by (cbn; tauto). destruct (jMakes false (Some "ecl.mat") jTwo I ltac:(discriminate)) as [o H]. destruct (jSaver _ _ H) as (s & S & V).
  destruct (jPass _ _ _ I ltac:(discriminate) H) as [o2 P].
  pose proof (good_make _ _ _ _ _ _ _ _ _ _ _ _ _ _ _ _ (jNd false (Some "ecl.mat") _ I) H eq_refl (jFirst _ _ _ _ I ltac:(discriminate) H)) as (G & _ & _).
  pose proof (good_op _ _ _ _ _ _ _ _ _ G (ltac:(discriminate) : Pass <> Replace) ltac:(discriminate) ltac:(discriminate) P) as ((L & _) & _). destruct L as (s2 & _ & _ & S2 & _).
  exists o, s, o2, [passage_file "ecl.mat" 0], s2. split; [exact H|]. split; [exact S|]. split; [exact V|]. split; [exact P|]. split; [exact S2|].
  refine (proj2 (recorder_op _ _ _ _ _ _ _ _ _ _ _ _ (jArgs false (Some "ecl.mat") jTwo) _ [] _ _ Pass _ _ _ _ (jNoDup _ I) H _ eq_refl (or_introl eq_refl) P S S2) _ _ _); [repeat split; cbn; tauto|cbn; tauto].
Qed.
Lemma jTwins : exists o w o1 o2, jMake 0 (jArgs false (Some "ecl.mat") jOne) = Some o /\ jDo [Rec "save_ele_distributions_last_track"; Once true] o = Some (o1, w) /\ jTwin 0 o1 = Some o2 /\
  ec_rec o1 = ["save_ele_distributions_last_track"] /\ ec_once o1 = true /\ ec_rec o2 = [] /\ ec_once o2 = false.
Proof.
  assert (I : In jOne jExtra) by (cbn; tauto). destruct (jMakes false (Some "ecl.mat") jOne I ltac:(discriminate)) as [o H].
  assert (R : exists o1 w, jDo [Rec "save_ele_distributions_last_track"; Once true] o = Some (o1, w) /\ ec_rec o1 = "save_ele_distributions_last_track" :: ec_rec o /\ ec_once o1 = true) by (cbn; eauto).
  destruct R as (o1 & w & R & R1 & R2).
  destruct (twin_of _ _ _ _ _ _ _ _ _ _ _ 0 0 _ _ _ _ _ H R ltac:(cbn; intuition discriminate)) as (o2 & T & _ & _ & _ & (U1 & U2 & _) & _).
  exists o, w, o1, o2. split; [exact H|]. split; [exact R|]. split; [exact T|]. apply make_iff in H as (_ & _ & cc & p & pr & _ & _ & _ & _ & _ & _ & ->). cbn [ec_rec object] in R1. auto.
Qed.
Lemma jTwinFile : exists o o1 o2 o3 f, jMake 0 (jArgs false (Some "ecl.mat") []) = Some o /\ jTwin 0 o = Some o1 /\ eop_do 1 1 1 gF Pass o = Some (o2, [f]) /\ eop_do 1 1 1 gF Pass o1 = Some (o3, [f]).
Proof.
  assert (I : In [] jExtra) by (cbn; tauto). destruct (jMakes false (Some "ecl.mat") [] I ltac:(discriminate)) as [o H]. destruct (jPass _ _ _ I ltac:(discriminate) H) as [o2 P].
  destruct (twin_of _ _ _ _ _ _ _ _ _ _ _ 0 0 _ _ [] _ _ H eq_refl ltac:(cbn; tauto)) as (o1 & T & Se & _ & _ & _ & _).
  pose proof T as T'. unfold twin in T'. assert (M : ec_map o = false) by (pose proof H as H1; apply make_iff in H1 as (_ & _ & cc & p & pr & _ & _ & _ & _ & _ & _ & ->); reflexivity).
  rewrite M in T'.
  assert (Kw : ec_kw o = jKw [] /\ ec_outp o = Some "ecl.mat" /\ ec_slicemode o = false) by (pose proof H as H1; apply make_iff in H1 as (_ & _ & cc & p & pr & _ & _ & _ & _ & _ & _ & ->); repeat split; reflexivity).
  destruct Kw as (K1 & K2 & K3).
  assert (F : first_file (ec_cc o1) "ecl.mat" "ecl.mat").
  { destruct Se as (_ & _ & _ & _ & _ & _ & _ & _ & _ & _ & _ & _ & _ & _ & _ & _ & ->). exact (jFirst _ _ _ _ I ltac:(discriminate) H). }
  assert (Nd : NoDup (map fst (ec_kw o))) by (rewrite K1; exact (jNoDup _ I)).
  match type of T' with make _ _ _ _ _ _ _ _ _ _ _ _ ?a = _ => destruct (pass_any _ _ _ _ _ _ _ _ _ _ _ _ a o1 "ecl.mat" "ecl.mat" [] o1 [] Nd T' K2 F K3 ltac:(repeat split; cbn; tauto) eq_refl) as [o3 Q] end.
  exists o, o1, o2, o3, (passage_file "ecl.mat" 0). auto.
Qed.
Lemma jTwoNames : exists a b o o' o2 o2' f, a <> b /\ jMake 0 (jArgs false (Some a) []) = Some o /\ jMake 0 (jArgs false (Some b) []) = Some o' /\
  eop_do 1 1 1 gF Pass o = Some (o2, [f]) /\ eop_do 1 1 1 gF Pass o' = Some (o2', [f]).
Proof.
  assert (I : In [] jExtra) by (cbn; tauto). destruct (jMakes false (Some "a__iterX.mat") [] I ltac:(discriminate)) as [o H]. destruct (jMakes false (Some "a__iterY.mat") [] I ltac:(discriminate)) as [o' H'].
  destruct (jPass _ _ _ I ltac:(discriminate) H) as [o2 P]. destruct (jPass _ _ _ I ltac:(discriminate) H') as [o2' P']. destruct jNames as [N1 N2]. rewrite N1 in P. rewrite N2 in P'.
  exists "a__iterX.mat", "a__iterY.mat", o, o', o2, o2', "a__iter0.mat". split; [discriminate|]. auto.
Qed.
Lemma jUnnamed : (exists o, jMake 0 (jArgs false (Some "ecl.mat") jThree) = Some o) /\ jMake 0 (jArgs false None jThree) = None.
Proof.
  assert (I : In jThree jExtra) by (cbn; tauto). split; [apply jMakes; [exact I|discriminate]|]. destruct (jMake 0 (jArgs false None jThree)) as [o|] eqn:H; [exfalso|reflexivity].
  pose proof (unnamed _ _ _ _ _ _ _ _ _ _ _ _ _ _ (jNd false None _ I) H eq_refl) as U.
  pose proof (settings_are _ _ _ _ _ _ _ _ _ _ _ _ _ _ (jNd false None _ I) H) as (_ & _ & _ & _ & V & _).
  rewrite (V "cloud_name" (PStr "ions")) in U; [discriminate|cbn; tauto|cbn; intuition discriminate|discriminate].
Qed.
