(** A simulation with two clouds and two beams. *)
From Coq Require Import String Lia Bool Lra.
From Verif Require Import Num NumFacts ConfigVal ConfigTable Ckpt CkptFacts CkptFacts3 Config SpecConfig ConfigFacts ConfigFacts2 ConfigFacts3 ConfigFacts4 ConfigFacts5 ConfigFacts6 ConfigFacts7
  ExConfig Init SpecInit SpecInitParts InitFacts InitFacts2 InitFacts3 InitFacts4 InitFacts5 InitFacts6.
Local Open Scope string_scope.
Local Open Scope list_scope.

Definition hClo : defs := fill additional_cloud_parameters_mandatory
  [("switch_model", PStr "ACC_LOW"); ("N_mp_max", PNum 500); ("N_sub_steps", PNum 7); ("Nbin_En_hist", PNum 77); ("gas_ion_flag", PNum 1)] 0.
Definition hSec : defs := ("beam_long_prof_file", PStr "sec") :: gBea.
Definition hFiles (name : string) : option defs :=
  if String.eqb name "ions.cloud" then Some hClo else if String.eqb name "sec.beam" then Some hSec else gF name.
Definition hKw (tracker : string) (em : bool) : attrs :=
  [("progress_path", PStr "prog"); ("track_method", PStr tracker); ("additional_clouds_file_list", PList [PStr "ions.cloud"]);
   ("secondary_beams_file_list", PList [PStr "sec.beam"]); ("flag_em_tracking", PBool em)].
(** The profile of the second beam has the suffix. *)
Definition hIs (f : string) : bool := String.eqb f "in/sec.mat".
Definition hName (n : nat) : string := "_mapgen_sec_0".
Definition hCfg tr em : attrs := match read_config 1 1 1 hFiles false [] (hKw tr em) with Some c => c | None => [] end.
Notation hStart tr em := (start 1 1 1 1 hFiles "in" hIs 3 (fun _ => true) hName false false false false [] (hKw tr em)).

Lemma hCfg_read tr em : read_config 1 1 1 hFiles false [] (hKw tr em) = Some (hCfg tr em).
Proof.
  unfold hCfg. assert (H : (match read_config 1 1 1 hFiles false [] (hKw tr em) with Some _ => true | None => false end) = true) by (vm_compute; reflexivity).
  destruct (read_config 1 1 1 hFiles false [] (hKw tr em)); [reflexivity|discriminate].
Qed.
Lemma hFiles_ok name f : hFiles name = Some f -> def_ok f.
Proof.
  unfold hFiles. destruct (String.eqb name "ions.cloud"); [intros H; injection H as <-; apply nodupb_ok; vm_compute; reflexivity|].
  destruct (String.eqb name "sec.beam"); [intros H; injection H as <-; apply nodupb_ok; vm_compute; reflexivity|]. apply gF_ok.
Qed.

Lemma dget_other d k v q : k <> q -> dget (dset d k v) q = dget d q.
Proof. intros N. rewrite dget_dset. apply String.eqb_neq in N. rewrite N. reflexivity. Qed.
(** The beams. *)
Section Beam.
Variable bea : defs.
Hypothesis Bea : bea = gBea \/ bea = hSec.
Variables (tr : string) (em : bool).
Notation hBv := (beam_value 1 1 1 bea (dget (hCfg tr em))).
Lemma hBv_file p x : mem p (map fst gBea) = true -> dget gBea p = Some (PNum x) -> hidden p = false -> hBv p (PNum x).
Proof.
  intros _ I H. assert (J : In (p, PNum x) bea) by (apply dget_in in I; destruct Bea as [->| ->]; [exact I|right; exact I]). exists (PNum x). split.
  - left. exists bea. split; [left; auto|]. split; auto. split; [|discriminate]. intros P. apply hidden_spec in P. congruence.
  - left. split; auto. intros [_ X]. discriminate.
Qed.
Lemma hAbsent p : mem p (map fst hSec) = false -> ~ exists f w, In f [bea] /\ given f p w.
Proof.
  intros M (f & w & [<-|[]] & G & _). apply in_key in G. apply not_true_iff_false in M. apply M, mem_in. destruct Bea as [->| ->]; [right; exact G|exact G].
Qed.
Lemma hBv_default p v : beam_default 1 1 1 p v -> mem p (map fst hSec) = false -> v <> PNone -> hBv p v.
Proof. intros D M N. exists v. split; [|left; split; auto; tauto]. right. split; [apply hAbsent; exact M|exact D]. Qed.
Lemma hBv_mach p v : beam_default 1 1 1 p PNone -> mem p (map fst hSec) = false -> optics p -> dget (hCfg tr em) p = Some v -> hBv p v.
Proof. intros D M O G. exists PNone. split; [|auto]. right. split; [apply hAbsent; exact M|exact D]. Qed.
Lemma hBv_all : hBv "energy_eV" (PNum 2) /\ hBv "m0_part" (PNum 1) /\
  plane_given hBv "sigmax" "betafx" "nemittx" "Dx" /\ plane_given hBv "sigmay" "betafy" "nemitty" "Dy".
Proof.
  split; [apply hBv_file; reflexivity|]. split; [apply hBv_file; reflexivity|]. split.
  - intros _. exists 8, 1, 0, 0. split; [|split; [|split]].
    + apply hBv_mach; [unfold beam_default; cbn; tauto|vm_compute; reflexivity|cbn; tauto|vm_compute; reflexivity].
    + apply hBv_file; reflexivity.
    + apply hBv_mach; [unfold beam_default; cbn; tauto|vm_compute; reflexivity|cbn; tauto|vm_compute; reflexivity].
    + apply hBv_default; [unfold beam_default; cbn; tauto|vm_compute; reflexivity|discriminate].
  - intros H. exfalso. destruct H as (w & V & X). assert (Y : ~ optics "sigmay") by (cbn; intuition discriminate).
    destruct X as [[_ X]|(X & _)]; [|contradiction]. subst w.
    assert (Z : given bea "sigmay" (PNum 5)).
    { split; [destruct Bea as [->| ->]; cbn; tauto|]. split; [|discriminate]. intros P. apply hidden_spec in P. discriminate. }
    assert (N : def_ok bea) by (destruct Bea as [->| ->]; apply nodupb_ok; vm_compute; reflexivity).
    destruct V as [(f & [<-|[]] & G)|[G _]].
    + destruct Z as [Z _]. destruct G as [G _]. pose proof (in_same _ _ _ _ N Z G) as E. injection E. lra.
    + apply G. exists bea, (PNum 5). split; [left; auto|auto].
Qed.
Lemma hBeam_clear : clear_names (beam_param 1 1 1) [bea].
Proof. apply clear_of; [|destruct Bea as [->| ->]; vm_compute; reflexivity]. intros H. apply beam_all, mem_in in H. vm_compute in H. discriminate. Qed.
Definition hProf : pval := if mem "beam_long_prof_file" (map fst bea) then PStr "sec" else PNone.
Lemma hBv_prof : hBv "beam_long_prof_file" hProf.
Proof.
  exists hProf. split; [|left; split; [cbn; intuition discriminate|reflexivity]]. unfold hProf. destruct Bea as [->| ->].
  - change (mem "beam_long_prof_file" (map fst gBea)) with false. right. split; [|unfold beam_default; cbn; tauto].
    intros (f & w & [<-|[]] & G & _). apply in_key, mem_in in G. discriminate.
  - change (mem "beam_long_prof_file" (map fst hSec)) with true. left. exists hSec. split; [left; reflexivity|]. split; [left; reflexivity|]. split; [|discriminate].
    intros P. apply hidden_spec in P. discriminate.
Qed.
Lemma hBeam_reads file : hFiles file = Some bea -> exists b, read_beam 1 1 1 1 hFiles (hCfg tr em) file = Some b /\ dget b "beam_long_prof_file" = Some hProf.
Proof.
  intros F. destruct hBv_all as (H1 & H2 & H3 & H4).
  assert (V : valid beam_mandatory (beam_param 1 1 1) [bea]).
  { apply beam_valid; [destruct Bea as [->| ->]; apply nodupb_ok; vm_compute; reflexivity|]. destruct Bea as [->| ->]; vm_compute; reflexivity. }
  assert (O : forall p, optics p -> dget (hCfg tr em) p <> None).
  { intros p H. assert (S : forallb (fun p => dhas (hCfg tr em) p) ["Dx"; "Dy"; "betafx"; "betafy"] = true) by (vm_compute; reflexivity).
    rewrite forallb_forall in S. apply S in H. unfold dhas in H. destruct (dget (hCfg tr em) p); discriminate. }
  destruct (beam_complete 1 1 1 hFiles hFiles_ok 1 file bea (hCfg tr em) F V hBeam_clear O 2 1 H1 H2) as (b & E & _); auto; [lra|lra|].
  unfold read_beam. rewrite E. cbn [bind]. exists (beam_obj b). split; [reflexivity|]. unfold beam_obj. rewrite !dget_other by discriminate.
  destruct (beam_sound 1 1 1 hFiles hFiles_ok 1 file bea (hCfg tr em) F V hBeam_clear O b E) as (_ & _ & _ & _ & _ & _ & _ & D & _).
  apply D. split; [right; exists PNone; unfold beam_default; cbn; tauto|exact hBv_prof].
Qed.
End Beam.

Lemma hBeams tr em : exists b sb, read_beams 1 1 1 1 hFiles false (hCfg tr em) = Some (Some b, [sb]) /\
  read_beam 1 1 1 1 hFiles (hCfg tr em) "lhc.beam" = Some b /\ read_beam 1 1 1 1 hFiles (hCfg tr em) "sec.beam" = Some sb /\
  dget b "beam_long_prof_file" = Some PNone /\ dget sb "beam_long_prof_file" = Some (PStr "sec").
Proof.
  destruct (hBeam_reads gBea (or_introl eq_refl) tr em "lhc.beam" eq_refl) as (b & B & B'). destruct (hBeam_reads hSec (or_intror eq_refl) tr em "sec.beam" eq_refl) as (sb & S & S').
  exists b, sb. split; [|auto]. unfold read_beams.
  assert (D1 : dget (hCfg tr em) "secondary_beams_file_list" = Some (PList [PStr "sec.beam"])) by (vm_compute; reflexivity).
  assert (D2 : dget (hCfg tr em) "beam_parameters_file" = Some (PStr "lhc.beam")) by (vm_compute; reflexivity).
  rewrite D1, D2. cbn [bind as_names as_name mapM]. rewrite B. cbn [bind]. rewrite S. reflexivity.
Qed.
Definition hClouds tr em : list attrs := match cloud_par_list 1 1 1 hFiles ["ions.cloud"] (hCfg tr em) with Some l => l | None => [] end.
Lemma hClouds_read tr em : cloud_par_list 1 1 1 hFiles ["ions.cloud"] (hCfg tr em) = Some (hClouds tr em).
Proof.
  unfold hClouds. assert (H : (match cloud_par_list 1 1 1 hFiles ["ions.cloud"] (hCfg tr em) with Some _ => true | None => false end) = true) by (vm_compute; reflexivity).
  destruct (cloud_par_list 1 1 1 hFiles ["ions.cloud"] (hCfg tr em)); [reflexivity|discriminate].
Qed.
Definition hMain tr em : attrs := nth 0 (hClouds tr em) [].
Definition hIons tr em : attrs := nth 1 (hClouds tr em) [].
Lemma hTwo tr em : hClouds tr em = [hMain tr em; hIons tr em].
Proof.
  unfold hMain, hIons. assert (L : List.length (hClouds tr em) = 2%nat) by (vm_compute; reflexivity).
  destruct (hClouds tr em) as [|a [|b [|? ?]]]; cbn in L; try discriminate. reflexivity.
Qed.
Lemma hRead tr em : exists b sb, read_all 1 1 1 1 hFiles false [] (hKw tr em) (hCfg tr em) (Some b) [sb] (hClouds tr em).
Proof.
  destruct (hBeams tr em) as (b & sb & H & _). exists b, sb. split; [apply hCfg_read|]. split; [exact H|].
  exists (PList [PStr "ions.cloud"]), ["ions.cloud"]. split; [vm_compute; reflexivity|]. split; [reflexivity|apply hClouds_read].
Qed.

Lemma hStarts tr : tr = "Boris" \/ tr = "BorisMultipole" -> exists p, hStart tr false = Some p.
Proof.
  intros Htr. destruct (hRead tr false) as (b & sb & Ra).
  apply (start_iff 1 1 1 1 hFiles "in" hIs 3 (fun _ => true) hName false false false false [] (hKw tr false) _ _ _ _ Ra).
  split; [left; vm_compute; reflexivity|]. split.
  { intros _. split.
    - exists (PNum 1), 1, 3%Z. split; [vm_compute; reflexivity|]. split; [left; reflexivity|]. split; lra.
    - left. exists "prog". vm_compute. reflexivity. }
  split; [intros _ _; discriminate|]. split.
  { intros (v & V & (_ & Y & _)). assert (E : dget (hCfg tr false) "flag_lifetime_hist" = Some (PBool false)) by (vm_compute; reflexivity).
    rewrite E in V. injection V as <-. congruence. }
  assert (Ht : forall t, In t (hClouds tr false) -> emission_set (dget t)).
  { rewrite hTwo. intros t [<-|[<-|[]]].
    - right. left. right. exists (PNum 0). split; [vm_compute; reflexivity|]. left. split; [reflexivity|left; reflexivity].
    - right. right. left. split; [vm_compute; reflexivity|]. exists "ACC_LOW". split; [cbn; tauto|]. left. vm_compute. reflexivity. }
  rewrite Forall_forall. intros t I. split; [exact (Ht t I)|]. split.
  - intros (v & V & Y). assert (E : dget t "photoem_flag" = Some (PNum 0)) by (rewrite hTwo in I; destruct I as [<-|[<-|[]]]; vm_compute; reflexivity).
    rewrite E in V. injection V as <-. destruct Y as [[Y|[[Y _]|[Y _]]]|Y]; [|discriminate|discriminate|discriminate]. assert (Z : 0 = 3) by (refine (f_equal (fun v => match v with PNum x => x | _ => 0 end) Y)). lra.
  - destruct Htr as [->| ->]; [left|right; right; right; vm_compute; reflexivity]. split; [vm_compute; reflexivity|].
    exists (PBool false). split; [vm_compute; reflexivity|]. intros [Y|[[Y _]|[_ Y]]]; [discriminate|discriminate|lra].
Qed.
