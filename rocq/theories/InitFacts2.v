(** When the parts of a simulation can be built. *)
From Coq Require Import String Lia Bool Lra.
From Verif Require Import Num NumFacts ConfigVal ConfigTable Ckpt CkptFacts CkptFacts3 Config SpecConfig ConfigFacts Init SpecInit InitFacts.
Local Open Scope string_scope.
Local Open Scope list_scope.

Section Names.
Variables m_e m_p qe : R.
Definition main_names : list string :=
  simulation_parameters_mandatory ++ machine_parameters_mandatory ++ secondary_emission_parameters_mandatory ++
  map fst (simulation_parameters_optional m_e m_p qe) ++ map fst (machine_parameters_optional m_e m_p qe) ++
  map fst (secondary_emission_parameters_optional m_e m_p qe).
Definition cloud_names : list string :=
  ["cloud_name"; "filen_main_outp"] ++ additional_cloud_parameters_mandatory ++ map fst (additional_cloud_parameters_optional m_e m_p qe).
Definition beam_names : list string :=
  ["energy_J"; "gamma_rel"; "beta_rel"] ++ beam_beam_mandatory ++ map fst (beam_beam_optional m_e m_p qe).

Lemma has_main cc : full m_e m_p qe (dget cc) -> has cc main_names.
Proof.
  intros F p I. apply F. unfold main_names in I. rewrite !in_app_iff in I. unfold main_param, main_mandatory, main_default.
  destruct I as [I|[I|[I|[I|[I|I]]]]]; [left; auto|left; auto|left; auto| | |];
    apply in_map_iff in I as ((q & v) & <- & J); right; exists v; cbn [fst]; auto.
Qed.
Lemma has_cloud t : cloud_full m_e m_p qe (dget t) -> has t cloud_names.
Proof.
  intros F p I. apply F. unfold cloud_names in I. rewrite !in_app_iff in I. unfold cloud_param, cloud_mandatory, cloud_default.
  destruct I as [I|[I|I]]; [|left; left; exact I|].
  - destruct I as [<-|[<-|[]]]; right; [left|right]; reflexivity.
  - apply in_map_iff in I as ((q & v) & <- & J). left. right. exists v. exact J.
Qed.
Lemma has_beam b : beam_full m_e m_p qe (dget b) -> has b beam_names.
Proof.
  intros F p I. apply F. unfold beam_names in I. rewrite !in_app_iff in I. unfold beam_param, beam_mandatory, beam_default.
  destruct I as [I|[I|I]]; [right; exact I|left; left; exact I|].
  apply in_map_iff in I as ((q & v) & <- & J). left. right. exists v. exact J.
Qed.
End Names.

Lemma has_get d l p : has d l -> mem p l = true -> exists v, dget d p = Some v.
Proof. intros H M. apply H. apply mem_In. exact M. Qed.

(** A call whose binding is known. *)
Lemma call_ok cc t b f pos kw l ol ml bl : has t ol -> has cc ml -> (forall d, b = Some d -> has d bl) ->
  bind_args f pos kw = Some l ->
  forallb (fun q => arg_in ol ml (match b with None => [] | Some _ => bl end) (snd q)) l = true ->
  exists o, call cc t b f pos kw = Some o.
Proof.
  intros Ho Hm Hb B T. destruct b as [d|].
  - apply (call_total cc t (Some d) f pos kw l ol ml bl B T Ho Hm Hb). right. discriminate.
  - apply (call_total cc t None f pos kw l ol ml [] B T Ho Hm); [discriminate|left; reflexivity].
Qed.
Lemma call_bad cc t b f pos kw : bind_args f pos kw = None -> call cc t b f pos kw = None.
Proof. intros H. unfold call. rewrite H. reflexivity. Qed.

Ltac bound := match goal with |- bind_args _ _ _ = _ => vm_compute; reflexivity end.

Section Build.
Variables m_e m_p qe c : R.
Variable folder : string.
Variable isfile : string -> bool.
Variable subset : pval -> bool.
Variable cc : attrs.
Hypothesis Fcc : full m_e m_p qe (dget cc).
Let Hcc : has cc (main_names m_e m_p qe) := has_main m_e m_p qe cc Fcc.

Lemma gmain p : mem p (main_names m_e m_p qe) = true -> exists v, dget cc p = Some v.
Proof. exact (has_get cc _ p Hcc). Qed.

Lemma find_file_spec n : exists p, find_file folder isfile (PStr n) = Some (PStr p) /\ file_for folder isfile n p.
Proof.
  unfold find_file, file_for, in_folder. cbn [as_name bind]. destruct (isfile (folder ++ "/" ++ n)%string) eqn:A.
  - eexists. split; [reflexivity|]. left. split; reflexivity.
  - destruct (isfile (folder ++ "/" ++ n ++ ".mat")%string) eqn:B.
    + eexists. split; [reflexivity|]. right. left. repeat split.
    + eexists. split; [reflexivity|]. right. right. repeat split.
Qed.
Lemma find_file_fun n p : file_for folder isfile n p -> find_file folder isfile (PStr n) = Some (PStr p).
Proof.
  unfold find_file, file_for, in_folder. cbn [as_name bind].
  intros [(A & ->)|[(A & B & ->)|(A & B & ->)]]; rewrite A; [reflexivity|rewrite B; reflexivity|rewrite B; reflexivity].
Qed.
Lemma find_file_str v w : find_file folder isfile v = Some w -> exists n p, v = PStr n /\ w = PStr p /\ file_for folder isfile n p.
Proof.
  destruct v; try discriminate. intros H. destruct (find_file_spec s) as (p & E & F). rewrite E in H. injection H as <-. eauto.
Qed.

(** ** Chamber *)
Lemma non_units cl : Forall (fun t => cloud_full m_e m_p qe (dget t)) cl -> exists nu, mapM non_unif cl = Some nu.
Proof.
  induction 1 as [|t cl F _ IH]; [eexists; reflexivity|]. destruct IH as [nu E].
  destruct (has_get t _ "switch_model" (has_cloud m_e m_p qe t F) eq_refl) as [m G].
  cbn [mapM]. unfold non_unif at 1. rewrite G. cbn [bind]. rewrite E. eexists. reflexivity.
Qed.

Lemma chamber_iff cl : Forall (fun t => cloud_full m_e m_p qe (dget t)) cl ->
  ((exists o, build_chamber folder isfile cc cl = Some o) <-> chamber_set (dget cc)).
Proof.
  intros Hcl. destruct (non_units cl Hcl) as [nu Nu]. unfold build_chamber, chamber_set. rewrite Nu. cbn [bind].
  destruct (gmain "chamb_type" eq_refl) as [ty Ty]. rewrite Ty. cbn [bind].
  destruct (py_eqb ty (PStr "ellip")) eqn:E1; [apply py_eqb_str in E1; subst ty; split; [auto|intros _]|].
  { eapply (call_ok cc [] None _ _ _ _ [] (main_names m_e m_p qe) []); [intros p []|exact Hcc|discriminate|vm_compute; reflexivity|vm_compute; reflexivity]. }
  destruct (py_in ty [PStr "polyg"; PStr "polyg_cython"]) eqn:E2.
  { assert (Or : ty = PStr "polyg" \/ ty = PStr "polyg_cython").
    { unfold py_in in E2. cbn [existsb] in E2. rewrite orb_false_r in E2. apply orb_true_iff in E2 as [E2|E2]; apply py_eqb_str in E2; auto. }
    destruct (gmain "filename_chm" eq_refl) as [f F]. rewrite F. cbn [bind]. split.
    - intros [o H]. right. right. split; [destruct Or as [->| ->]; auto|].
      destruct (find_file folder isfile f) as [w|] eqn:G; [|discriminate]. destruct (find_file_str f w G) as (n & p & -> & _). eauto.
    - intros [X|[X|(_ & n & X)]]; [destruct Or as [->| ->]; discriminate|destruct Or as [->| ->]; discriminate|].
      injection X as ->. destruct (find_file_spec n) as (p & G & _). rewrite G. cbn [bind].
      eapply (call_ok cc [] None _ _ _ _ [] (main_names m_e m_p qe) []); [intros q []|exact Hcc|discriminate|vm_compute; reflexivity|vm_compute; reflexivity]. }
  assert (Nor : ty <> PStr "polyg" /\ ty <> PStr "polyg_cython").
  { unfold py_in in E2. cbn [existsb] in E2. rewrite orb_false_r in E2. apply orb_false_iff in E2 as [A B]. split; intros ->; [discriminate A|discriminate B]. }
  destruct (py_eqb ty (PStr "rect")) eqn:E3; [apply py_eqb_str in E3; subst ty; split; [auto|intros _]|].
  { eapply (call_ok cc [] None _ _ _ _ [] (main_names m_e m_p qe) []); [intros p []|exact Hcc|discriminate|vm_compute; reflexivity|vm_compute; reflexivity]. }
  split; [intros [o H]; discriminate|]. destruct Nor as [N1 N2].
  intros [X|[X|([X|X] & _)]]; injection X as ->; [discriminate E1|discriminate E3|congruence|congruence].
Qed.

Lemma gbeam b p : beam_full m_e m_p qe (dget b) -> mem p (beam_names m_e m_p qe) = true -> exists v, dget b p = Some v.
Proof. intros F M. exact (has_get b _ p (has_beam m_e m_p qe b F) M). Qed.

Section Cloud.
Variable t : attrs.
Hypothesis Ft : cloud_full m_e m_p qe (dget t).
Let Ht : has t (cloud_names m_e m_p qe) := has_cloud m_e m_p qe t Ft.

Lemma gown p : mem p (cloud_names m_e m_p qe) = true -> exists v, dget t p = Some v.
Proof. exact (has_get t _ p Ht). Qed.

Ltac go := eapply (call_ok cc t None _ _ _ _ (cloud_names m_e m_p qe) (main_names m_e m_p qe) []); [exact Ht|exact Hcc|discriminate|vm_compute; reflexivity|vm_compute; reflexivity].

Lemma mp_built : exists o, build_mp m_e qe cc t = Some o.
Proof. unfold build_mp. go. Qed.

(** ** Emission model *)
Lemma py_in2 v a b : py_in v [a; b] = py_eqb v a || py_eqb v b.
Proof. unfold py_in. cbn [existsb]. rewrite orb_false_r. reflexivity. Qed.
Lemma model_str m n : dget t "switch_model" = Some m -> m = PStr n -> model_is (dget t) n.
Proof. intros G ->. left. exact G. Qed.
Lemma model_not m n : dget t "switch_model" = Some m -> n <> "ECLOUD" -> n <> "ACC_LOW" -> model_is (dget t) n -> m = PStr n.
Proof.
  intros G N1 N2 [H|(v & H & [(E & _)|(E & _)])]; [|contradiction|contradiction]. rewrite G in H. injection H as ->. reflexivity.
Qed.
Lemma model_ecloud m : dget t "switch_model" = Some m -> (model_is (dget t) "ECLOUD" <-> is_ecloud m = true).
Proof.
  intros G. unfold is_ecloud. rewrite py_in2, orb_true_iff, py_eqb_num, py_eqb_str. unfold model_is. rewrite G. split.
  - intros [H|(v & H & [(_ & E)|(E & _)])]; [injection H as ->; right; reflexivity|injection H as <-; left; exact E|discriminate].
  - intros [E| ->]; [right; exists m; auto|left; reflexivity].
Qed.
Lemma model_acc m : dget t "switch_model" = Some m -> (model_is (dget t) "ACC_LOW" <-> py_in m [PNum 1; PStr "ACC_LOW"] = true).
Proof.
  intros G. rewrite py_in2, orb_true_iff, py_eqb_num, py_eqb_str. unfold model_is. rewrite G. split.
  - intros [H|(v & H & [(E & _)|(_ & E)])]; [injection H as ->; right; reflexivity|discriminate|injection H as <-; left; exact E].
  - intros [E| ->]; [right; exists m; auto|left; reflexivity].
Qed.

Lemma sey_iff : (exists o, build_sey folder isfile cc t = Some o) <-> emission_set (dget t).
Proof.
  destruct (gown "switch_model" eq_refl) as [m Gm]. destruct (gown "E0" eq_refl) as [e0 G0]. destruct (gown "s_param" eq_refl) as [s Gs].
  destruct (gown "sey_file" eq_refl) as [f Gf].
  unfold build_sey. rewrite Gm, G0, Gs. cbn [bind]. unfold emission_set. rewrite Gs, G0, Gf.
  destruct (py_eqb m (PStr "perfect_absorber")) eqn:E.
  { apply py_eqb_str in E. split; [intros _; left; exact (model_str m _ Gm E)|intros _; go]. }
  assert (N0 : ~ model_is (dget t) "perfect_absorber").
  { intros H. apply (model_not m _ Gm) in H; [|discriminate|discriminate]. subst m. discriminate E. }
  destruct (is_ecloud m) eqn:Ee.
  { split; [intros _; right; left; apply (model_ecloud m Gm); exact Ee|intros _].
    destruct (is_none s), (is_none e0); cbn [bind app]; go. }
  assert (N1 : ~ model_is (dget t) "ECLOUD") by (intros H; apply (model_ecloud m Gm) in H; congruence).
  destruct (is_none s) eqn:Es; cbn [bind].
  2: { assert (Sn : s <> PNone) by (intros ->; discriminate Es).
       split; [intros [o H]; discriminate|]. intros [X|[X|[(X & _)|(X & _)]]]; [contradiction|contradiction|congruence|congruence]. }
  apply is_none_spec in Es. subst s.
  destruct (py_in m [PNum 1; PStr "ACC_LOW"]) eqn:Ea.
  { split; [intros _; right; right; left; split; [reflexivity|]; exists "ACC_LOW"; split; [cbn; tauto|apply (model_acc m Gm); exact Ea]|intros _].
    destruct (is_none e0); go. }
  assert (N2 : ~ model_is (dget t) "ACC_LOW") by (intros H; apply (model_acc m Gm) in H; congruence).
  destruct (py_eqb m (PStr "ECLOUD_nunif")) eqn:E3.
  { apply py_eqb_str in E3. split; [intros _; right; right; left; split; [reflexivity|]; exists "ECLOUD_nunif"; split; [cbn; tauto|exact (model_str m _ Gm E3)]|intros _].
    destruct (is_none e0); go. }
  destruct (py_eqb m (PStr "ECLOUD_nunif_charging")) eqn:E4.
  { apply py_eqb_str in E4. split; [intros _; right; right; left; split; [reflexivity|]; exists "ECLOUD_nunif_charging"; split; [cbn; tauto|exact (model_str m _ Gm E4)]|intros _].
    destruct (is_none e0); go. }
  destruct (py_eqb m (PStr "cos_low_ene")) eqn:E5.
  { apply py_eqb_str in E5. split; [intros _; right; right; left; split; [reflexivity|]; exists "cos_low_ene"; split; [cbn; tauto|exact (model_str m _ Gm E5)]|intros _].
    destruct (is_none e0); go. }
  assert (N3 : forall n, In n ["ACC_LOW"; "ECLOUD_nunif"; "ECLOUD_nunif_charging"; "cos_low_ene"] -> ~ model_is (dget t) n).
  { intros n [<-|[<-|[<-|[<-|[]]]]] H; [contradiction| | |]; apply (model_not m _ Gm) in H; try discriminate; subst m; [discriminate E3|discriminate E4|discriminate E5]. }
  assert (Hmid : forall P : Prop, (model_is (dget t) "perfect_absorber" \/ model_is (dget t) "ECLOUD" \/
     (Some PNone = Some PNone /\ exists n, In n ["ACC_LOW"; "ECLOUD_nunif"; "ECLOUD_nunif_charging"; "cos_low_ene"] /\ model_is (dget t) n) \/ P) -> P).
  { intros P [X|[X|[(_ & n & I & X)|X]]]; [contradiction|contradiction|destruct (N3 n I X)|exact X]. }
  destruct (py_eqb m (PStr "flat_low_ene")) eqn:E6.
  { apply py_eqb_str in E6. destruct (is_none e0) eqn:En.
    - apply is_none_spec in En. subst e0. split; [intros _; right; right; right; repeat split; left; exact (model_str m _ Gm E6)|intros _; go].
    - split; [intros [o H]; rewrite call_bad in H by (vm_compute; reflexivity); discriminate|].
      intros H. apply Hmid in H as (_ & X & _). injection X as ->. discriminate En. }
  destruct (py_eqb m (PStr "from_file")) eqn:E7.
  { apply py_eqb_str in E7. split.
    - intros [o H]. destruct (find_file folder isfile f) as [w|] eqn:F; [|discriminate]. cbn [bind] in H.
      destruct (find_file_str f w F) as (n & p & -> & _ & _). destruct (is_none e0) eqn:En.
      + apply is_none_spec in En. subst e0. right. right. right. repeat split. right. right. split; [exact (model_str m _ Gm E7)|eauto].
      + rewrite call_bad in H by (vm_compute; reflexivity). discriminate.
    - intros H. apply Hmid in H as (_ & X & Y). injection X as ->. cbn [is_none].
      destruct Y as [Y|[Y|(_ & n & Y)]]; [apply (model_not m _ Gm) in Y; try discriminate; congruence|apply (model_not m _ Gm) in Y; try discriminate; congruence|].
      injection Y as ->. destruct (find_file_spec n) as (p & F & _). rewrite F. cbn [bind]. go. }
  destruct (py_eqb m (PStr "furman_pivi")) eqn:E8.
  { apply py_eqb_str in E8. destruct (is_none e0) eqn:En.
    - apply is_none_spec in En. subst e0. split; [intros _; right; right; right; repeat split; right; left; exact (model_str m _ Gm E8)|intros _; go].
    - split; [intros [o H]; rewrite call_bad in H by (vm_compute; reflexivity); discriminate|].
      intros H. apply Hmid in H as (_ & X & _). injection X as ->. discriminate En. }
  split; [intros [o H]; discriminate|]. intros H. apply Hmid in H as (_ & _ & [Y|[Y|(Y & _)]]); apply (model_not m _ Gm) in Y; try discriminate; subst m; [discriminate E6|discriminate E8|discriminate E7].
Qed.

(** ** Impacts, sources, recorder *)
Lemma impact_iff : (exists o, build_impact cc t = Some o) <-> lifetime_set (dget cc).
Proof.
  destruct (gown "flag_hist_impact_seg" eq_refl) as [sg Gs]. destruct (gmain "chamb_type" eq_refl) as [ty Gt].
  destruct (gmain "flag_lifetime_hist" eq_refl) as [lt Gl]. destruct (gmain "Nbin_lifetime_hist" eq_refl) as [n Gn].
  destruct (gmain "lifetime_hist_max" eq_refl) as [m Gm]. destruct (gmain "Dt_lifetime_hist" eq_refl) as [d Gd].
  unfold build_impact, lifetime_set. rewrite Gs, Gt, Gl, Gn, Gm, Gd. cbn [bind].
  destruct (truthy lt && (is_none n || is_none m || is_none d)) eqn:E.
  - apply andb_true_iff in E as [E1 E2]. apply truthy_yes in E1. split; [intros [o H]; discriminate|].
    intros H. destruct H as (A & B & C); [eauto|]. apply orb_true_iff in E2 as [E2|E2]; [apply orb_true_iff in E2 as [E2|E2]|]; apply is_none_spec in E2; subst; congruence.
  - split; [|intros _; go]. intros _ (v & V & Y). injection V as <-. apply truthy_yes in Y. rewrite Y in E. cbn [andb] in E.
    apply orb_false_iff in E as [E E3]. apply orb_false_iff in E as [E1 E2]. repeat split; intros X; injection X as ->; discriminate.
Qed.

Lemma gas_built : exists o, build_gas cc t = Some o.
Proof.
  destruct (gown "gas_ion_flag" eq_refl) as [g G]. unfold build_gas. rewrite G. cbn [bind]. destruct (py_eqb g (PNum 1)); [|eauto].
  enough (exists o, call cc t None gas_fn [Own "unif_frac"; Own "P_nTorr"; Own "sigma_ion_MBarn"; Own "Temp_K"; the_chamb; Own "E_init_ion"; Own "flag_lifetime_hist"] [] = Some o) as [o ->] by (cbn [bind]; eauto).
  go.
Qed.

Lemma photo_iff beamtim : (exists v, beamtim = Val v) ->
  (exists o, build_photo folder isfile subset beamtim cc t = Some o) <-> photo_settings (file_for folder isfile) subset (dget t).
Proof.
  intros (bv & ->). destruct (gown "photoem_flag" eq_refl) as [f G]. destruct (gown "filename_chm_photoem" eq_refl) as [n Gn].
  unfold build_photo, photo_settings, photo_is. rewrite G, Gn. cbn [bind].
  destruct (py_eqb f (PNum 1)) eqn:E1.
  { apply py_eqb_num in E1. split.
    - intros _ (v & V & Y). injection V as <-. exfalso. apply num_of_spec in E1. destruct Y as [Y| ->]; [|discriminate]. apply num_of_spec in Y. rewrite E1 in Y. injection Y. lra.
    - intros _. match goal with |- exists o, bind ?x _ = _ => enough (exists o, x = Some o) as [o ->] by (cbn [bind]; eauto) end. go. }
  destruct (py_in f [PNum 2; PStr "from_file"]) eqn:E2.
  { rewrite py_in2, orb_true_iff, py_eqb_num, py_eqb_str in E2. split.
    - intros _ (v & V & Y). injection V as <-. exfalso. destruct E2 as [E2| ->], Y as [Y|Y]; try discriminate.
      + apply num_of_spec in E2, Y. rewrite E2 in Y. injection Y. lra.
      + subst f. apply num_of_spec in E2. discriminate.
      + apply num_of_spec in Y. discriminate.
    - intros _. match goal with |- exists o, bind ?x _ = _ => enough (exists o, x = Some o) as [o ->] by (cbn [bind]; eauto) end. go. }
  destruct (py_in f [PNum 3; PStr "per_segment"]) eqn:E3.
  { rewrite py_in2, orb_true_iff, py_eqb_num, py_eqb_str in E3. split.
    - intros [o H] _. destruct (find_file folder isfile n) as [w|] eqn:F; [|discriminate]. cbn [bind] in H.
      destruct (find_file_str n w F) as (q & p & -> & -> & P). destruct (subset (PStr p)) eqn:S; [|discriminate]. exists q, p. auto.
    - intros H. destruct H as (q & p & Q & P & S); [exists f; auto|]. injection Q as ->. rewrite (find_file_fun q p P). cbn [bind]. rewrite S.
      match goal with |- exists o, bind ?x _ = _ => enough (exists o, x = Some o) as [o ->] by (cbn [bind]; eauto) end. go. }
  rewrite py_in2 in E3. apply orb_false_iff in E3 as [A B]. split; [|eauto]. intros _ (v & V & [Y|Y]); injection V as <-.
  - apply py_eqb_num in Y. congruence.
  - apply py_eqb_str in Y. congruence.
Qed.

Lemma saver_built bv last multiple sec cross : exists o, build_saver (Val bv) last multiple sec cross cc t = Some o.
Proof.
  destruct (gmain "Dh_electric_energy" eq_refl) as [d G]. unfold build_saver. rewrite G. cbn [bind]. go.
Qed.

(** ** Tracker *)
Lemma electron_iff : (is_electron m_e qe t = Some true) <-> electrons m_e qe (dget t).
Proof.
  destruct (gown "cloud_charge" eq_refl) as [q G]. destruct (gown "cloud_mass" eq_refl) as [m H].
  unfold is_electron, electrons. rewrite G, H. cbn [bind]. split.
  - destruct (num_of q) as [x|] eqn:A; [|discriminate]. destruct (num_of m) as [y|] eqn:B; [|discriminate]. cbn [bind].
    intros E. injection E as E. apply andb_true_iff in E as [E1 E2]. apply Rltb_true in E1, E2.
    exists q, x, m, y. rewrite <- !num_of_spec. replace (x + qe) with (x - - qe) by ring. auto 6.
  - intros (vq & x & vm & y & Q & X & M & Y & L1 & L2). injection Q as <-. injection M as <-. apply num_of_spec in X, Y. rewrite X, Y. cbn [bind].
    apply f_equal. apply andb_true_iff. split; apply Rltb_true; [replace (x - - qe) with (x + qe) by ring|]; assumption.
Qed.

Lemma dyn_iff b : (forall d, b = Some d -> beam_full m_e m_p qe (dget d)) ->
  (exists o, build_dyn m_e qe c cc t b = Some o) <-> tracker_set m_e qe (dget cc) c (option_map dget b) (dget t).
Proof.
  intros Fb. assert (Hb : forall d, b = Some d -> has d (beam_names m_e m_p qe)) by (intros d E; apply has_beam; exact (Fb d E)).
  destruct (gmain "track_method" eq_refl) as [m Gm]. destruct (gmain "flag_em_tracking" eq_refl) as [em Ge].
  destruct (gmain "B0x" eq_refl) as [bx Gx]. destruct (gmain "B0y" eq_refl) as [by_ Gy]. destruct (gmain "B0z" eq_refl) as [bz Gz].
  destruct (gmain "B" eq_refl) as [B GB].
  unfold build_dyn, tracker_set, tracker_is, electrostatic, bending. rewrite Gm, Ge, Gx, Gy, Gz, GB. cbn [bind].
  assert (Em : (exists v, Some em = Some v /\ ~ equals v 1) <-> py_eqb em (PBool true) = false).
  { split.
    - intros (v & V & N). injection V as <-. destruct (py_eqb em (PBool true)) eqn:E; [|reflexivity]. apply py_eqb_true in E. contradiction.
    - intros E. exists em. split; [reflexivity|]. intros N. apply py_eqb_true in N. congruence. }
  assert (gob : forall f pos kw l, bind_args f pos kw = Some l -> forallb (fun q => arg_in (cloud_names m_e m_p qe) (main_names m_e m_p qe) [] (snd q)) l = true -> exists o, call cc t b f pos kw = Some o).
  { intros f pos kw l Bd T. apply (call_ok cc t b f pos kw l (cloud_names m_e m_p qe) (main_names m_e m_p qe) (beam_names m_e m_p qe) Ht Hcc Hb Bd).
    rewrite forallb_forall in T |- *. intros q I. specialize (T q I). destruct q as [a [p|p|p|v]]; cbn in T |- *; try assumption. discriminate. }
  destruct (py_eqb m (PStr "Boris")) eqn:E1.
  { apply py_eqb_str in E1. subst m. destruct (py_eqb em (PBool true)) eqn:Ee.
    - split; [intros [o H]; discriminate|]. intros [(_ & X)|[(X & _)|[(X & _)|X]]]; [apply Em in X; discriminate|discriminate|discriminate|discriminate].
    - split; [intros _; left; split; [reflexivity|apply Em; reflexivity]|intros _].
      unfold or_zero. destruct (is_none bx), (is_none by_), (is_none bz); (eapply gob; [vm_compute; reflexivity|vm_compute; reflexivity]). }
  destruct (py_eqb m (PStr "StrongBdip")) eqn:E2.
  { apply py_eqb_str in E2. subst m. destruct (py_eqb em (PBool true)) eqn:Ee.
    - split; [intros [o H]; discriminate|]. intros [(X & _)|[(_ & X & _)|[(X & _)|X]]]; [discriminate|apply Em in X; discriminate|discriminate|discriminate].
    - destruct (is_electron m_e qe t) as [[|]|] eqn:El.
      + pose proof (proj1 electron_iff El) as Hel. cbn [bind negb]. destruct (py_eqb B (PNum (-1))) eqn:EB.
        * apply py_eqb_num in EB. split.
          -- intros [o H]. right. left. split; [reflexivity|]. split; [apply Em; reflexivity|]. split; [exact Hel|]. right.
             destruct b as [d|]; [|discriminate]. cbn [bind] in H. unfold nget in H.
             destruct (gbeam d "beta_rel" (Fb d eq_refl) eq_refl) as [v1 V1]. destruct (gbeam d "energy_J" (Fb d eq_refl) eq_refl) as [v2 V2].
             destruct (gmain "bm_totlen" eq_refl) as [v3 V3]. rewrite V1, V2, V3 in H. cbn [bind] in H.
             destruct v1 as [| |beta| | | | |]; try discriminate. destruct v2 as [| |en| | | | |]; try discriminate. destruct v3 as [| |l| | | | |]; try discriminate. cbn [as_num bind] in H.
             destruct (Reqb (c * qe * l) 0) eqn:Z; [discriminate|]. apply Reqb_false in Z.
             exists B, (dget d), beta, en, l. rewrite V1, V2, V3. auto 10.
          -- intros [(X & _)|[(_ & _ & _ & [(v & V & N)|(v & b0 & beta & en & l & V & _ & Hb0 & V1 & V2 & V3 & NZ)])|[(X & _)|X]]]; try discriminate.
             ++ injection V as <-. contradiction.
             ++ destruct b as [d|]; [|discriminate]. cbn [option_map] in Hb0. injection Hb0 as <-. cbn [bind]. unfold nget. rewrite V1, V2, V3. cbn [bind as_num].
                destruct (Reqb (c * qe * l) 0) eqn:Z; [apply Reqb_true in Z; contradiction|].
                eapply gob; [vm_compute; reflexivity|vm_compute; reflexivity].
        * split.
          -- intros _. right. left. split; [reflexivity|]. split; [apply Em; reflexivity|]. split; [exact Hel|]. left. exists B. split; [reflexivity|].
             intros X. apply py_eqb_num in X. congruence.
          -- intros _. eapply gob; [vm_compute; reflexivity|vm_compute; reflexivity].
      + cbn [bind negb]. split; [intros [o H]; discriminate|]. intros [(X & _)|[(_ & _ & X & _)|[(X & _)|X]]]; try discriminate. apply electron_iff in X. congruence.
      + cbn [bind]. split; [intros [o H]; discriminate|]. intros [(X & _)|[(_ & _ & X & _)|[(X & _)|X]]]; try discriminate. apply electron_iff in X. congruence. }
  destruct (py_eqb m (PStr "StrongBgen")) eqn:E3.
  { apply py_eqb_str in E3. subst m. destruct (py_eqb em (PBool true)) eqn:Ee.
    - split; [intros [o H]; discriminate|]. intros [(X & _)|[(X & _)|[(_ & X & _)|X]]]; try discriminate. apply Em in X. discriminate.
    - destruct (is_electron m_e qe t) as [[|]|] eqn:El.
      + pose proof (proj1 electron_iff El) as Hel. cbn [bind negb]. split.
        * intros _. right. right. left. split; [reflexivity|]. split; [apply Em; reflexivity|exact Hel].
        * intros _. eapply gob; [vm_compute; reflexivity|vm_compute; reflexivity].
      + cbn [bind negb]. split; [intros [o H]; discriminate|]. intros [(X & _)|[(X & _)|[(_ & _ & X)|X]]]; try discriminate. apply electron_iff in X. congruence.
      + cbn [bind]. split; [intros [o H]; discriminate|]. intros [(X & _)|[(X & _)|[(_ & _ & X)|X]]]; try discriminate. apply electron_iff in X. congruence. }
  destruct (py_eqb m (PStr "BorisMultipole")) eqn:E4.
  { apply py_eqb_str in E4. subst m. split; [intros _; right; right; right; reflexivity|intros _]. eapply gob; [vm_compute; reflexivity|vm_compute; reflexivity]. }
  split; [intros [o H]; discriminate|]. intros [(X & _)|[(X & _)|[(X & _)|X]]]; injection X as ->; discriminate.
Qed.

Lemma init_built : exists o, build_init cc t = Some o.
Proof.
  destruct (gown "init_unif_flag" eq_refl) as [u Gu]. destruct (gown "init_unif_edens_flag" eq_refl) as [d Gd]. destruct (gown "filename_init_MP_state" eq_refl) as [f Gf].
  unfold build_init. rewrite Gu, Gd, Gf. cbn [bind].
  destruct (py_eqb u (PNum 1)).
  all: try (match goal with |- exists o, bind (bind ?x _) _ = _ => assert (exists o, x = Some o) as [? ->] by go end).
  all: cbn [bind]; destruct (py_eqb d (PNum 1)).
  all: try (match goal with |- exists o, bind (bind ?x _) _ = _ => assert (exists o, x = Some o) as [? ->] by go end).
  all: cbn [bind]; destruct (negb (py_eqb f (PNum (-1))) && negb (is_none f)).
  all: try (match goal with |- exists o, bind (bind ?x _) _ = _ => assert (exists o, x = Some o) as [? ->] by go end).
  all: cbn [bind]; eexists; reflexivity.
Qed.

Lemma cloud_iff skip bv last multiple sec cross b : (forall d, b = Some d -> beam_full m_e m_p qe (dget d)) ->
  (exists o, build_cloud m_e qe c folder isfile subset skip (Val bv) last multiple sec cross cc b t = Some o) <->
  lifetime_set (dget cc) /\ cloud_set m_e qe (dget cc) (file_for folder isfile) subset c (option_map dget b) (dget t).
Proof.
  intros Fb. unfold build_cloud, cloud_set. rewrite <- impact_iff, <- sey_iff, <- (photo_iff (Val bv)) by eauto. rewrite <- (dyn_iff b Fb).
  destruct mp_built as [mp ->]. destruct gas_built as [g ->]. destruct (saver_built bv last multiple sec cross) as [sv Sv]. destruct init_built as [ini ->].
  cbn [bind]. split.
  - intros [o H]. destruct (build_sey folder isfile cc t) as [sey|]; [|discriminate]. destruct (build_impact cc t) as [im|]; [|discriminate]. cbn [bind] in H.
    destruct (build_photo folder isfile subset (Val bv) cc t) as [ph|]; [|discriminate]. cbn [bind] in H. rewrite Sv in H.
    destruct (build_dyn m_e qe c cc t b) as [dy|]; [repeat split; eauto|]. destruct skip; discriminate.
  - intros ([im ->] & [sey ->] & [ph ->] & [dy ->]). cbn [bind]. rewrite Sv.
    assert (Hc : forall gv pv sv', exists o, call cc t None cloud_fn
      [Own "cloud_name"; Val (POther 0); the_MP; the_impact; the_dynamics; Val sv'; Own "gas_ion_flag"; Val gv; Own "t_ion"; Own "photoem_flag"; Val pv; the_rho] [] = Some o).
    { intros gv pv sv'. go. }
    destruct skip; cbn [bind]; destruct g, ph; cbn [bind];
      match goal with |- context [call cc t None cloud_fn [_; _; _; _; _; ?a; _; ?g; _; _; ?p; _] []] =>
        let av := eval cbv in a in let gv := eval cbv in g in let pv := eval cbv in p in
        match av with Val ?x => match gv with Val ?y => match pv with Val ?z => destruct (Hc y z x) as [oc Ho] end end end end;
      unfold the_saver, the_gas, the_photo; rewrite Ho; cbn [bind]; eexists; reflexivity.
Qed.
End Cloud.

Lemma clouds_iff skip bv multiple sec cross b cl : (forall d, b = Some d -> beam_full m_e m_p qe (dget d)) ->
  Forall (fun t => cloud_full m_e m_p qe (dget t)) cl ->
  (exists o, build_clouds m_e qe c folder isfile subset skip (Val bv) multiple sec cross cc b cl = Some o) <->
  Forall (fun t => lifetime_set (dget cc) /\ cloud_set m_e qe (dget cc) (file_for folder isfile) subset c (option_map dget b) (dget t)) cl.
Proof.
  intros Fb. induction 1 as [|t cl F _ IH]; [split; [constructor|intros _; eexists; reflexivity]|].
  cbn [build_clouds]. pose proof (cloud_iff t F skip bv (match cl with [] => true | _ => false end) multiple sec cross b Fb) as Ic. split.
  - intros [o H]. destruct (build_cloud _ _ _ _ _ _ _ _ _ _ _ _ _ _ _) as [p|]; [|discriminate]. cbn [bind] in H.
    destruct (build_clouds _ _ _ _ _ _ _ _ _ _ _ _ _ cl) as [r|]; [|discriminate].
    constructor; [apply Ic; eauto|apply IH; eauto].
  - intros Hf. inversion Hf as [|x y H1 H2]; subst. apply Ic in H1 as [p ->]. apply IH in H2 as [r ->]. cbn [bind]. eexists. reflexivity.
Qed.
End Build.
