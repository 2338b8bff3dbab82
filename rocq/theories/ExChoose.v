(** A simulation without beam in a rectangular chamber: two clouds, with
    photoemission. *)
From Coq Require Import String Lia Bool Lra.
From Verif Require Import Num NumFacts ConfigVal ConfigTable Ckpt Config SpecConfig ConfigFacts2 ExConfig Init SpecInit SpecInitParts InitFacts InitFacts6 InitFacts7 ExInit
  Sey Source Choose SpecChoose ChooseFacts.
Local Open Scope string_scope.
Local Open Scope list_scope.

Definition jKw (angle mode chamber : string) : attrs :=
  [("track_method", PStr "BorisMultipole"); ("additional_clouds_file_list", PList [PStr "ions.cloud"]);
   ("chamb_type", PStr chamber); ("PyPICmode", PStr mode); ("secondary_angle_distribution", PStr angle);
   ("photoem_flag", PStr "from_file"); ("photoelectron_angle_distribution", PStr "cosine_2D"); ("energy_distribution", PStr "lorentz")].
Definition jCfg a m h : attrs := match read_config 1 1 1 hFiles true [] (jKw a m h) with Some c => c | None => [] end.
Lemma jCfg_read a m h : read_config 1 1 1 hFiles true [] (jKw a m h) = Some (jCfg a m h).
Proof.
  unfold jCfg. assert (H : (match read_config 1 1 1 hFiles true [] (jKw a m h) with Some _ => true | None => false end) = true) by (vm_compute; reflexivity).
  destruct (read_config 1 1 1 hFiles true [] (jKw a m h)); [reflexivity|discriminate].
Qed.
Definition jClouds a m h : list attrs := match cloud_par_list 1 1 1 hFiles ["ions.cloud"] (jCfg a m h) with Some l => l | None => [] end.
Lemma jClouds_read a m h : cloud_par_list 1 1 1 hFiles ["ions.cloud"] (jCfg a m h) = Some (jClouds a m h).
Proof.
  unfold jClouds. assert (H : (match cloud_par_list 1 1 1 hFiles ["ions.cloud"] (jCfg a m h) with Some _ => true | None => false end) = true) by (vm_compute; reflexivity).
  destruct (cloud_par_list 1 1 1 hFiles ["ions.cloud"] (jCfg a m h)); [reflexivity|discriminate].
Qed.
Lemma jRead a m h : read_all 1 1 1 1 hFiles true [] (jKw a m h) (jCfg a m h) None [] (jClouds a m h).
Proof.
  split; [apply jCfg_read|]. split; [reflexivity|].
  exists (PList [PStr "ions.cloud"]), ["ions.cloud"]. split; [vm_compute; reflexivity|]. split; [reflexivity|apply jClouds_read].
Qed.
Definition jMain a m h : attrs := nth 0 (jClouds a m h) [].
Definition jIons a m h : attrs := nth 1 (jClouds a m h) [].
Lemma jTwo a m h : jClouds a m h = [jMain a m h; jIons a m h].
Proof.
  unfold jMain, jIons. assert (L : List.length (jClouds a m h) = 2%nat) by (vm_compute; reflexivity).
  destruct (jClouds a m h) as [|x [|y [|? ?]]]; cbn in L; try discriminate. reflexivity.
Qed.
Notation jStart a m h := (start 1 1 1 1 hFiles "in" hIs 3 (fun _ => true) hName true false false false [] (jKw a m h)).

Lemma jFlag a m h t : In t (jClouds a m h) -> exists v, dget t "photoem_flag" = Some v /\ (v = PStr "from_file" \/ v = PNum 0).
Proof. rewrite jTwo. intros [<-|[<-|[]]]; eexists; (split; [vm_compute; reflexivity|auto]). Qed.
Lemma jStarts a m h : h = "rect" \/ h = "ellip" -> exists p, jStart a m h = Some p.
Proof.
  intros Hh. apply (start_iff 1 1 1 1 hFiles "in" hIs 3 (fun _ => true) hName true false false false [] (jKw a m h) _ _ _ _ (jRead a m h)).
  split; [destruct Hh as [->| ->]; [right; left|left]; vm_compute; reflexivity|]. split; [discriminate|]. split.
  { intros _ (v & V & (_ & Y & _)). assert (E : dget (jCfg a m h) "flag_em_tracking" = Some (PBool false)) by (vm_compute; reflexivity).
    rewrite E in V. injection V as <-. congruence. }
  split.
  { intros (v & V & (_ & Y & _)). assert (E : dget (jCfg a m h) "flag_lifetime_hist" = Some (PBool false)) by (vm_compute; reflexivity).
    rewrite E in V. injection V as <-. congruence. }
  rewrite Forall_forall. intros t I. split; [|split].
  - rewrite jTwo in I. destruct I as [<-|[<-|[]]].
    + right. left. right. exists (PNum 0). split; [vm_compute; reflexivity|]. left. split; [reflexivity|left; reflexivity].
    + right. right. left. split; [vm_compute; reflexivity|]. exists "ACC_LOW". split; [cbn; tauto|]. left. vm_compute. reflexivity.
  - intros (v & V & Y). destruct (jFlag _ _ _ _ I) as (w & W & Z). rewrite W in V. injection V as <-. exfalso. destruct Z as [->| ->].
    + destruct Y as [[Y|[[Y _]|[Y _]]]|Y]; discriminate.
    + destruct Y as [[Y|[[Y _]|[Y _]]]|Y]; [|discriminate|discriminate|discriminate]. assert (Z : 0 = 3) by (refine (f_equal (fun v => match v with PNum x => x | _ => 0 end) Y)). lra.
  - right. right. right. vm_compute. reflexivity.
Qed.

(** Space charge from time to time with the electric energy not evaluated; the
    first cloud has photoelectrons, both emit secondaries at the same angles. *)
Definition jChoice : choice :=
  mkChoice (Some (mkScChoice FFT_PEC true false))
    [mkCloudChoice (Some Cos3D) (Some (mkGenEnergy Lorentz (PNum (-1)) (PNum (-1)), Cos2D)); mkCloudChoice (Some Cos3D) None].
Lemma jChosen : exists p, jStart "cosine_3D" "FFT_PEC_Boundary" "rect" = Some p /\ construct p = Some jChoice.
Proof.
  destruct (jStarts "cosine_3D" "FFT_PEC_Boundary" "rect" (or_introl eq_refl)) as (p & H). exists p. split; [exact H|].
  apply (chosen _ _ _ _ _ _ _ _ _ _ _ _ _ _ _ _ _ _ _ _ p jChoice (jRead _ _ _) H). rewrite jTwo. split.
  - right. split; [reflexivity|]. eexists. split; [reflexivity|]. exists (PStr "FFT_PEC_Boundary"), (PNum 1), PNone. cbn [sc_solver sc_decimate sc_energy].
    split; [vm_compute; reflexivity|]. split; [constructor|]. split; [intros _; vm_compute; reflexivity|]. split; [vm_compute; reflexivity|]. split; [split; [discriminate|reflexivity]|].
    split; [vm_compute; reflexivity|]. split; congruence.
  - assert (No : forall t v n, dget t "switch_model" = Some v -> (forall s, v = PStr s -> s <> n) -> n <> "ECLOUD" -> n <> "ACC_LOW" -> ~ model_is (dget t) n).
    { intros t v n E D N1 N2 [X|(w & X & [[Y _]|[Y _]])]; [|contradiction|contradiction]. rewrite E in X. injection X as ->. exact (D n eq_refl eq_refl). }
    clear H p. cbn [map]. constructor; [|constructor; [|constructor]].
    + split; [|split].
      * intros [X|X]; exfalso; revert X; (apply (No _ (PNum 0)); [vm_compute; reflexivity|discriminate|discriminate|discriminate]).
      * right. split; [apply (No _ (PNum 0)); [vm_compute; reflexivity|discriminate|discriminate|discriminate]|]. exists (PStr "cosine_3D"). split; [vm_compute; reflexivity|].
        right. exists Cos3D. split; [constructor|reflexivity].
      * right. split; [right; left; exists (PStr "from_file"); split; [vm_compute; reflexivity|right; reflexivity]|]. eexists _, _. split; [reflexivity|].
        exists (PStr "lorentz"), (PStr "cosine_2D"). cbn [ge_dist ge_sigma ge_max]. split; [vm_compute; reflexivity|]. split; [constructor|]. split; [vm_compute; reflexivity|].
        split; [vm_compute; reflexivity|]. split; [vm_compute; reflexivity|constructor].
    + split; [|split].
      * intros [X|X]; exfalso; revert X; (apply (No _ (PStr "ACC_LOW")); [vm_compute; reflexivity|intros s E; injection E as <-; discriminate|discriminate|discriminate]).
      * right. split; [apply (No _ (PStr "ACC_LOW")); [vm_compute; reflexivity|intros s E; injection E as <-; discriminate|discriminate|discriminate]|].
        exists (PStr "cosine_3D"). split; [vm_compute; reflexivity|]. right. exists Cos3D. split; [constructor|reflexivity].
      * left. split; [|reflexivity]. assert (Z : dget (jIons "cosine_3D" "FFT_PEC_Boundary" "rect") "photoem_flag" = Some (PNum 0)) by (vm_compute; reflexivity).
        unfold photo_on, photo_is. rewrite Z. clear.
        assert (D : forall w x, Some (PNum 0) = Some w -> equals w x -> 0 = x).
        { intros w x E [X|[[X _]|[X _]]]; injection E as <-; [|discriminate|discriminate]. refine (f_equal (fun v => match v with PNum y => y | _ => 0 end) X). }
        intros [(w & W & X)|[(w & W & [X|X])|(w & W & [X|X])]]; try (pose proof (D w _ W X); lra); subst w; discriminate.
Qed.
Lemma head_chosen (A B : Type) (P : A -> B -> Prop) a l r : Forall2 P (a :: l) r -> exists b, P a b.
Proof. intros H. inversion H; subst. eauto. Qed.
(** The names of the other example are refused. *)
Lemma jRefused a m h : h = "rect" \/ h = "ellip" -> (forall d, ~ angle_named (PStr a) d) \/ (forall s, ~ solver_named (PStr m) s) \/ (m = "FFT_OpenBoundary" /\ h = "ellip") ->
  exists p, jStart a m h = Some p /\ construct p = None.
Proof.
  intros Hh Hr. destruct (jStarts a m h Hh) as (p & H). exists p. split; [exact H|]. destruct (construct p) as [x|] eqn:E; [exfalso|reflexivity].
  apply (chosen _ _ _ _ _ _ _ _ _ _ _ _ _ _ _ _ _ _ _ _ p x (jRead _ _ _) H) in E as (E1 & E2). clear H p.
  destruct Hr as [Ha|Hm].
  - rewrite jTwo in E2. cbn [map] in E2.
    assert (C : exists y, cloud_chosen (dget (jCfg a m h)) (dget (jMain a m h)) y) by exact (head_chosen _ _ _ _ _ _ E2). clear E1 E2. destruct C as (y & _ & C & _).
    assert (Z : dget (jMain a m h) "switch_model" = Some (PNum 0)) by (vm_compute; reflexivity).
    assert (Y : dget (jMain a m h) "secondary_angle_distribution" = Some (PStr a)) by (vm_compute; reflexivity).
    unfold secondary_angle, model_is in C. rewrite Z, Y in C. clear Z Y.
    destruct C as [([X|(v & X & [[X' _]|[X' _]])] & _)|(_ & v & V & [[X _]|(d & X & _)])]; [discriminate X|discriminate X'|discriminate X'| |].
    + injection V as V. subst v. discriminate X.
    + injection V as V. subst v. exact (Ha d X).
  - clear E2. destruct E1 as [[X _]|(_ & s & _ & (m' & dt & du & M & N & F & _))]; [discriminate X|].
    assert (Z : dget (jCfg a m h) "PyPICmode" = Some (PStr m)) by (vm_compute; reflexivity). rewrite Z in M. clear Z. injection M as <-.
    destruct Hm as [Hm|[-> ->]]; [exact (Hm _ N)|]. inversion N as [| | | |K1 K2]. rewrite <- K2 in F. specialize (F (or_intror eq_refl)).
    assert (W : dget (jCfg a "FFT_OpenBoundary" "ellip") "chamb_type" = Some (PStr "ellip")) by (vm_compute; reflexivity). rewrite W in F. discriminate F.
Qed.
