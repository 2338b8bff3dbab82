(** When a simulation can be built. *)
From Coq Require Import String Lia Bool Lra.
From Verif Require Import Num NumFacts ConfigVal ConfigTable Ckpt CkptFacts CkptFacts3 Config SpecConfig ConfigFacts Init SpecInit InitFacts InitFacts2.
Local Open Scope string_scope.
Local Open Scope list_scope.

Lemma py_mod0_spec a x : x <> 0 -> exists b, py_mod0 a x = Some b /\ (b = true <-> exists k, a = x * IZR k).
Proof.
  intros N. unfold py_mod0. destruct (Reqb x 0) eqn:E; [apply Reqb_true in E; contradiction|]. eexists. split; [reflexivity|].
  rewrite Reqb_true. split.
  - intros H. exists (rfloor (a / x)). lra.
  - intros (k & ->). replace (x * IZR k / x) with (IZR k) by (field; exact N). rewrite rfloor_IZR. ring.
Qed.
Lemma py_mod0_zero a : py_mod0 a 0 = None.
Proof. unfold py_mod0. destruct (Reqb 0 0) eqn:E; [reflexivity|]. apply Reqb_false in E. congruence. Qed.

Section Build.
Variables m_e m_p qe c : R.
Variable folder : string.
Variable isfile : string -> bool.
Variable npass : R.
Variable subset : pval -> bool.
Variable sec_name : nat -> string.
Variable cc : attrs.
Hypothesis Fcc : full m_e m_p qe (dget cc).
Let Hcc : has cc (main_names m_e m_p qe) := has_main m_e m_p qe cc Fcc.

Ltac gob Hb := eapply (call_ok cc [] (Some _) _ _ _ _ [] (main_names m_e m_p qe) (beam_names m_e m_p qe));
  [intros ? []|exact Hcc|let Z := fresh "Z" in intros ? Z; injection Z as <-; exact Hb|vm_compute; reflexivity|vm_compute; reflexivity].

Lemma beam_iff b : beam_full m_e m_p qe (dget b) ->
  (exists o, build_beam folder isfile cc b = Some o) <-> ((exists p, dget cc "progress_path" = Some (PStr p)) \/ dget cc "progress_path" = Some PNone).
Proof.
  intros F. pose proof (has_beam m_e m_p qe b F) as Hb. destruct (gbeam m_e m_p qe b "beam_long_prof_file" F eq_refl) as [p P].
  destruct (gmain m_e m_p qe cc Fcc "progress_path" eq_refl) as [g G]. unfold build_beam. rewrite P, G. cbn [bind]. split.
  - intros [o H]. destruct g; cbn in H; try discriminate; [right; reflexivity|left; eexists; reflexivity].
  - intros [[q Q]|Q]; injection Q as ->; cbn [mapgen_file as_name bind].
    + gob Hb.
    + gob Hb.
Qed.
Lemma sec_beam_iff b ii sb : beam_full m_e m_p qe (dget b) -> beam_full m_e m_p qe (dget sb) ->
  (exists o, build_sec_beam folder isfile sec_name cc b ii sb = Some o) <-> exists p, dget cc "progress_path" = Some (PStr p).
Proof.
  intros F Fs. pose proof (has_beam m_e m_p qe sb Fs) as Hb. destruct (gbeam m_e m_p qe b "beam_long_prof_file" F eq_refl) as [p P].
  destruct (gbeam m_e m_p qe sb "beam_long_prof_file" Fs eq_refl) as [p' P'].
  destruct (gmain m_e m_p qe cc Fcc "progress_path" eq_refl) as [g G]. unfold build_sec_beam. rewrite P, P', G. cbn [bind]. split.
  - intros [o H]. destruct g; try discriminate. eexists. reflexivity.
  - intros [q Q]. injection Q as ->. cbn [as_name bind]. gob Hb.
Qed.
Lemma sec_beams_iff b ii sbs : beam_full m_e m_p qe (dget b) -> Forall (fun sb => beam_full m_e m_p qe (dget sb)) sbs ->
  (exists o, build_sec_beams folder isfile sec_name cc b ii sbs = Some o) <-> (sbs = [] \/ exists p, dget cc "progress_path" = Some (PStr p)).
Proof.
  intros F Fs. revert ii. induction Fs as [|sb sbs Fb _ IH]; intros ii; cbn [build_sec_beams].
  - split; [left; reflexivity|intros _; eexists; reflexivity].
  - split.
    + intros [o H]. right. apply (sec_beam_iff b ii sb F Fb). destruct (build_sec_beam folder isfile sec_name cc b ii sb); [eauto|discriminate].
    + intros [H|H]; [discriminate|]. destruct (proj2 (sec_beam_iff b ii sb F Fb) H) as [o ->].
      destruct (proj2 (IH (S ii)) (or_intror H)) as [r ->]. cbn [bind]. eexists. reflexivity.
Qed.
Lemma passages_iff : (exists u, check_passages npass cc = Some u) <->
  exists v x k, dget cc "save_mat_every" = Some v /\ equals v x /\ x <> 0 /\ npass = x * IZR k.
Proof.
  destruct (gmain m_e m_p qe cc Fcc "save_mat_every" eq_refl) as [s S]. unfold check_passages. rewrite S. cbn [bind]. split.
  - intros [u H]. destruct (num_of s) as [x|] eqn:N; [|discriminate]. cbn [bind] in H.
    destruct (Req_dec x 0) as [Z|Z]; [subst x; rewrite py_mod0_zero in H; discriminate|].
    destruct (py_mod0_spec npass x Z) as (b & B & I). rewrite B in H. cbn [bind] in H. destruct b; [|discriminate].
    destruct (proj1 I eq_refl) as [k K]. exists s, x, k. repeat split; [apply num_of_spec; exact N|exact Z|exact K].
  - intros (v & x & k & V & E & Z & K). injection V as <-. apply num_of_spec in E. rewrite E. cbn [bind].
    destruct (py_mod0_spec npass x Z) as (b & B & I). rewrite B. cbn [bind]. rewrite (proj2 I) by eauto. eexists. reflexivity.
Qed.

Lemma sc_iff skip given b : (forall d, b = Some d -> beam_full m_e m_p qe (dget d)) ->
  (exists o, build_sc skip given cc b = Some o) <-> (skip || given = false -> field_set (dget cc) (option_map dget b)).
Proof.
  intros Fb. unfold build_sc. destruct (skip || given); [split; [intros _; discriminate|intros _; eexists; reflexivity]|].
  destruct (gmain m_e m_p qe cc Fcc "sparse_solver" eq_refl) as [sv S]. destruct (gmain m_e m_p qe cc Fcc "flag_em_tracking" eq_refl) as [em E].
  unfold field_set. rewrite S, E. cbn [bind]. destruct (truthy em) eqn:T.
  - apply truthy_yes in T. destruct b as [d|].
    + split; [intros _ _ _; discriminate|intros _]. pose proof (has_beam m_e m_p qe d (Fb d eq_refl)) as Hb.
      match goal with |- exists o, bind ?x _ = _ => enough (exists o, x = Some o) as [o ->] by (cbn [bind]; eauto) end. gob Hb.
    + split; [intros [o H]; discriminate|]. intros H. exfalso. apply (H eq_refl); [eauto|reflexivity].
  - split.
    + intros _ _ (v & V & Y). injection V as <-. apply truthy_yes in Y. congruence.
    + intros _. match goal with |- exists o, bind ?x _ = _ => enough (exists o, x = Some o) as [o ->] by (cbn [bind]; eauto) end.
      destruct b as [d|].
      * pose proof (has_beam m_e m_p qe d (Fb d eq_refl)) as Hb. gob Hb.
      * eapply (call_ok cc [] None _ _ _ _ [] (main_names m_e m_p qe) []); [intros ? []|exact Hcc|discriminate|vm_compute; reflexivity|vm_compute; reflexivity].
Qed.

Lemma build_iff skip_saver skip_sc given_sc b sbs cl :
  (forall d, b = Some d -> beam_full m_e m_p qe (dget d)) ->
  Forall (fun sb => beam_full m_e m_p qe (dget sb)) sbs ->
  cl <> [] -> Forall (fun t => cloud_full m_e m_p qe (dget t)) cl ->
  (exists p, build m_e qe c folder isfile npass subset sec_name skip_saver skip_sc given_sc cc b sbs cl = Some p) <->
  chamber_set (dget cc) /\ (b <> None -> beam_set (dget cc) npass (length sbs)) /\
  (skip_sc || given_sc = false -> field_set (dget cc) (option_map dget b)) /\ lifetime_set (dget cc) /\
  Forall (fun t => cloud_set m_e qe (dget cc) (file_for folder isfile) subset c (option_map dget b) (dget t)) cl.
Proof.
  intros Fb Fs Ncl Fcl. rewrite <- (chamber_iff m_e m_p qe folder isfile cc Fcc cl Fcl), <- (sc_iff skip_sc given_sc b Fb).
  set (bt := match b with None => PNone | Some _ => POther 3 end).
  set (sec := match b, sbs with Some _, _ :: _ => true | _, _ => false end).
  destruct (gmain m_e m_p qe cc Fcc "cross_ion_definitions" eq_refl) as [x X].
  pose proof (clouds_iff m_e m_p qe c folder isfile subset cc Fcc skip_saver bt (Nat.ltb 1 (length cl)) sec (negb (is_none x)) b cl Fb Fcl) as Ic.
  assert (Hf : Forall (fun t => lifetime_set (dget cc) /\ cloud_set m_e qe (dget cc) (file_for folder isfile) subset c (option_map dget b) (dget t)) cl <->
    lifetime_set (dget cc) /\ Forall (fun t => cloud_set m_e qe (dget cc) (file_for folder isfile) subset c (option_map dget b) (dget t)) cl).
  { split.
    - intros H. split; [destruct cl as [|t cl]; [contradiction|]; inversion H as [|y z [A _] _]; exact A|]. eapply Forall_impl; [|exact H]. intros t [_ A]. exact A.
    - intros [A H]. eapply Forall_impl; [|exact H]. intros t B. split; assumption. }
  rewrite <- Hf, <- Ic. clear Hf Ic. unfold build. rewrite X. cbn [bind].
  assert (Eb : (match b with None => Val PNone | Some _ => the_beam end) = Val bt) by (subst bt; destruct b; reflexivity). rewrite Eb. fold sec.
  assert (Hbeam : (exists o, (match b with None => Some (None, []) | Some b =>
      do o <- build_beam folder isfile cc b ; do _ <- check_passages npass cc ; do s <- build_sec_beams folder isfile sec_name cc b 0 sbs ; Some (Some o, s) end) = Some o)
    <-> (b <> None -> beam_set (dget cc) npass (length sbs))).
  { destruct b as [d|]; [|split; [intros _ N; contradiction|intros _; eexists; reflexivity]]. specialize (Fb d eq_refl).
    pose proof (beam_iff d Fb) as I1. pose proof passages_iff as I2. pose proof (sec_beams_iff d 0 sbs Fb Fs) as I3. unfold beam_set. rewrite <- I2. split.
    - intros [o H] _. destruct (build_beam folder isfile cc d) as [o1|]; [|discriminate]. cbn [bind] in H.
      destruct (check_passages npass cc) as [u|]; [|discriminate]. cbn [bind] in H.
      destruct (build_sec_beams folder isfile sec_name cc d 0 sbs) as [r|]; [|discriminate].
      split; [eauto|]. destruct (proj1 I1) as [A|A]; [eauto|left; exact A|]. destruct (proj1 I3) as [B|B]; [eauto|right; subst sbs; auto|left; exact B].
    - intros H. destruct H as ([u ->] & A); [discriminate|].
      destruct (proj2 I1) as [o1 ->]; [destruct A as [A|[A _]]; auto|]. destruct (proj2 I3) as [r ->].
      + destruct A as [A|[_ A]]; [right; exact A|left]. destruct sbs; [reflexivity|discriminate].
      + cbn [bind]. eexists. reflexivity. }
  rewrite <- Hbeam. clear Hbeam. split.
  - intros [p H]. destruct (build_chamber folder isfile cc cl) as [ch|]; [|discriminate]. cbn [bind] in H. split; [eauto|].
    match type of H with bind ?m _ = _ => destruct m as [[bo so]|] eqn:E1; [|discriminate] end. cbn [bind] in H. split; [eauto|].
    destruct (build_sc skip_sc given_sc cc b) as [sc|]; [|discriminate]. cbn [bind] in H. split; [eauto|].
    match type of H with bind ?m _ = _ => destruct m as [l|] eqn:E2; [|discriminate] end. eauto.
  - intros ([ch ->] & [[bo so] ->] & [sc ->] & [l ->]). cbn [bind]. eexists. reflexivity.
Qed.
End Build.
