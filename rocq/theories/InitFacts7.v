(** The statements about the start of a simulation. *)
From Coq Require Import String Lia Bool Lra.
From Verif Require Import Num NumFacts ConfigFacts ConfigVal ConfigTable Ckpt Config SpecConfig Init SpecInit SpecInitParts InitFacts InitFacts2 InitFacts3 InitFacts4 InitFacts5 InitFacts6 ExInit.
Local Open Scope string_scope.
Local Open Scope list_scope.

Section Start.
Variables m_e m_p qe c : R.
Variable files : string -> option attrs.
Variable folder : string.
Variable isfile : string -> bool.
Variable npass : R.
Variable subset : pval -> bool.
Variable sec_name : nat -> string.
Variables skip_beam skip_saver skip_sc given_sc : bool.
Variable ignore : list string.
Variable kw : attrs.
Notation go := (start m_e m_p qe c files folder isfile npass subset sec_name skip_beam skip_saver skip_sc given_sc ignore kw).
Notation found := (file_for folder isfile).
Notation reads := (read_all m_e m_p qe c files skip_beam ignore kw).

Lemma read_same cc b sbs cl cc' b' sbs' cl' : reads cc b sbs cl -> reads cc' b' sbs' cl' -> cc = cc' /\ b = b' /\ sbs = sbs' /\ cl = cl'.
Proof.
  intros (A1 & A2 & v & fl & A3 & A4 & A5) (B1 & B2 & v' & fl' & B3 & B4 & B5). rewrite A1 in B1. injection B1 as <-. rewrite A2 in B2. injection B2 as <- <-.
  rewrite A3 in B3. injection B3 as <-. rewrite A4 in B4. injection B4 as <-. rewrite A5 in B5. injection B5 as <-. auto.
Qed.
Lemma start_build cc b sbs cl p : reads cc b sbs cl -> go = Some p -> build m_e qe c folder isfile npass subset sec_name skip_saver skip_sc given_sc cc b sbs cl = Some p.
Proof. intros Ra H. apply start_inv in H as (cc' & b' & sbs' & cl' & Rb & H). destruct (read_same _ _ _ _ _ _ _ _ Ra Rb) as (-> & -> & -> & ->). exact H. Qed.
Lemma start_reads p : go = Some p -> exists cc b sbs cl, reads cc b sbs cl.
Proof. intros H. apply start_inv in H as (cc' & b' & sbs' & cl' & Rb & H). eauto. Qed.

Lemma machine_is cc b sbs cl p : reads cc b sbs cl -> go = Some p ->
  chamber_part found (dget cc) (map dget cl) (pl_chamb p) /\
  (pl_beam p = None <-> skip_beam = true) /\
  (forall o, pl_beam p = Some o -> exists b0, b = Some b0 /\ beam_part found (dget cc) (dget b0) o) /\
  (pl_sc p = None <-> skip_sc || given_sc = true) /\ field_part (dget cc) (option_map dget b) (pl_sc p) /\
  (pl_cross p = false <-> dget cc "cross_ion_definitions" = Some PNone).
Proof.
  intros Ra H. apply (start_build _ _ _ _ _ Ra) in H. destruct Ra as (_ & B & _). apply beams_full in B as (Bn & _ & _).
  apply build_is in H as (H1 & H2 & H3 & H4 & H5 & _). split; [exact H1|]. rewrite <- Bn. destruct b as [b0|].
  - destruct H2 as ((o & O1 & O2) & _). rewrite O1. split; [split; discriminate|]. split; [intros o' E; injection E as <-; eauto|]. auto.
  - destruct H2 as (O1 & _). rewrite O1. split; [split; reflexivity|]. split; [discriminate|]. auto.
Qed.
Lemma secondary_is cc b sbs cl p : reads cc b sbs cl -> go = Some p ->
  List.length (pl_sec p) = List.length sbs /\
  forall i sb, nth_error sbs i = Some sb -> exists o, nth_error (pl_sec p) i = Some o /\ sec_beam_part (dget cc) (dget sb) (sec_name i) o.
Proof.
  intros Ra H. apply (start_build _ _ _ _ _ Ra) in H. destruct Ra as (_ & B & _).
  apply build_is in H as (_ & H2 & _). destruct b as [b0|].
  - destruct H2 as (_ & H2). cut (forall k l l', Forall2 (fun q o => sec_beam_part (dget cc) (dget (snd q)) (sec_name (fst q)) o /\
        exists v w, dget (snd q) "beam_long_prof_file" = Some v /\ dget b0 "beam_long_prof_file" = Some w /\ par o "beam_long_prof_file" = Some (sec_profile_file folder isfile v w))
        (combine (seq k (length l)) l) l' -> List.length l' = List.length l /\ forall i sb, nth_error l i = Some sb -> exists o, nth_error l' i = Some o /\ sec_beam_part (dget cc) (dget sb) (sec_name (k + i)%nat) o).
    { intros X. apply X in H2. exact H2. }
    clear. intros k l. revert k. induction l as [|a l IH]; intros k l' F; cbn [length seq combine] in F.
    + inversion F. split; [reflexivity|]. intros [|i]; discriminate.
    + inversion F as [|? o ? r F1 F2]. subst. apply IH in F2 as [L F2]. split; [cbn [List.length]; congruence|]. intros [|i] sb E; cbn [nth_error] in *.
      * injection E as <-. exists o. split; [reflexivity|]. replace (k + 0)%nat with k by lia. apply F1.
      * apply F2 in E. replace (k + Datatypes.S i)%nat with (Datatypes.S k + i)%nat by lia. exact E.
  - destruct H2 as (_ & ->). assert (E : sbs = []).
    { unfold read_beams in B. destruct skip_beam; [injection B as <-; reflexivity|]. exfalso.
      destruct (dget cc "secondary_beams_file_list") as [l|]; [|discriminate]. cbn [bind] in B. destruct (as_names l) as [ns|]; [|discriminate]. cbn [bind] in B.
      destruct (dget cc "beam_parameters_file") as [nv|]; [|discriminate]. cbn [bind] in B. destruct (as_name nv) as [n|]; [|discriminate]. cbn [bind] in B.
      destruct (read_beam m_e m_p qe c files cc n) as [b0|]; [|discriminate]. cbn [bind] in B.
      destruct (mapM (read_beam m_e m_p qe c files cc) ns); discriminate. }
    subst. split; [reflexivity|]. intros [|i]; discriminate.
Qed.

Lemma lasts_nth (A : Type) (l : list A) : List.length (lasts l) = List.length l /\ forall i x, nth_error l i = Some x -> nth_error (lasts l) i = Some (x, Nat.eqb (Datatypes.S i) (List.length l)).
Proof.
  induction l as [|a [|b l] [IH1 IH2]]; [split; [reflexivity|intros [|i]; discriminate]|split; [reflexivity|]|].
  - intros [|[|i]] x E; [injection E as <-; reflexivity|discriminate|discriminate].
  - change (lasts (a :: b :: l)) with ((a, false) :: lasts (b :: l)). split; [cbn [List.length] in *; congruence|].
    intros [|i] x E; [injection E as <-; reflexivity|]. cbn [nth_error] in *. apply IH2 in E. exact E.
Qed.
Lemma Forall2_get (A B : Type) (P : A -> B -> Prop) l l' : Forall2 P l l' -> List.length l = List.length l' /\ forall i x, nth_error l i = Some x -> exists y, nth_error l' i = Some y /\ P x y.
Proof.
  induction 1 as [|a b l l' H F [L IH]]; [split; [reflexivity|intros [|i]; discriminate]|]. split; [cbn; congruence|].
  intros [|i] x E; cbn [nth_error] in *; [injection E as <-; eauto|auto].
Qed.
Lemma parts_are cc b sbs cl p : reads cc b sbs cl -> go = Some p ->
  List.length (pl_clouds p) = List.length cl /\
  forall i t, nth_error cl i = Some t -> exists q, nth_error (pl_clouds p) i = Some q /\
    cloud_parts qe c found (dget cc) (dget t) (negb skip_beam) skip_saver (Nat.eqb (Datatypes.S i) (List.length cl)) (Nat.ltb 1 (List.length cl))
      (negb skip_beam && negb (Nat.eqb (List.length sbs) 0)) (pl_cross p) (option_map dget b) q.
Proof.
  intros Ra H. apply (start_build _ _ _ _ _ Ra) in H. destruct Ra as (_ & B & _). apply beams_full in B as (Bn & _ & _).
  apply build_is in H as (_ & _ & _ & _ & _ & H). destruct (lasts_nth _ cl) as [L1 L2]. apply Forall2_get in H as [L3 H]. split; [congruence|].
  intros i t E. apply L2 in E. apply H in E as (q & Q1 & Q2). exists q. split; [exact Q1|]. cbn [fst snd] in Q2.
  replace (negb skip_beam) with (match b with None => false | Some _ => true end); [exact Q2|].
  destruct b, skip_beam; try reflexivity; exfalso; [destruct Bn as [_ Bn]; specialize (Bn eq_refl)|destruct Bn as [Bn _]; specialize (Bn eq_refl)]; discriminate.
Qed.

(** * Files *)
Lemma files_are cc b sbs cl p : reads cc b sbs cl -> go = Some p ->
  (ob_name (pl_chamb p) = "polyg" -> exists n f, dget cc "filename_chm" = Some (PStr n) /\ found n f /\ par (pl_chamb p) "filename_chm" = Some (PStr f)) /\
  (forall o b0, pl_beam p = Some o -> b = Some b0 -> profile_part found (dget b0 "beam_long_prof_file") (par o "beam_long_prof_file")) /\
  (forall i t q, nth_error cl i = Some t -> nth_error (pl_clouds p) i = Some q -> ob_name (cp_sey q) = "from_file" ->
     exists n f, dget t "sey_file" = Some (PStr n) /\ found n f /\ par (cp_sey q) "sey_file" = Some (PStr f)).
Proof.
  intros Ra H. pose proof (machine_is _ _ _ _ _ Ra H) as (M1 & _ & M3 & _). pose proof (parts_are _ _ _ _ _ Ra H) as (_ & P2).
  split; [intros E; exact (proj2 (proj1 (proj2 (proj2 (proj2 M1))) E))|]. split.
  - intros o b0 O B. destruct (M3 o O) as (b1 & B1 & B2). rewrite B1 in B. injection B as <-. apply B2.
  - intros i t q Ht Hq E. destruct (P2 i t Ht) as (q' & Q1 & Q2). rewrite Hq in Q1. injection Q1 as <-. destruct Q2 as (_ & Q2 & _). apply Q2. exact E.
Qed.
Lemma sec_files_are cc b sbs cl p : reads cc (Some b) sbs cl -> go = Some p -> forall i sb o m,
  nth_error sbs i = Some sb -> nth_error (pl_sec p) i = Some o -> dget b "beam_long_prof_file" = Some (PStr m) ->
  (forall n, dget sb "beam_long_prof_file" = Some (PStr n) -> isfile (folder ++ "/" ++ m ++ ".mat")%string = isfile (folder ++ "/" ++ n ++ ".mat")%string) ->
  profile_part found (dget sb "beam_long_prof_file") (par o "beam_long_prof_file").
Proof.
  intros Ra H i sb o m Hs Ho Hm S. apply (start_build _ _ _ _ _ Ra) in H. apply build_is in H as (_ & (_ & H2) & _). apply Forall2_get in H2 as [_ H2].
  assert (E : forall k, nth_error (combine (seq k (List.length sbs)) sbs) i = Some ((k + i)%nat, sb)).
  { clear - Hs. revert i Hs. induction sbs as [|a l IH]; intros [|i] E k; cbn [nth_error] in E; try discriminate.
    - injection E as <-. cbn. f_equal. f_equal. lia.
    - cbn [List.length seq combine nth_error]. rewrite (IH i E (Datatypes.S k)). f_equal. f_equal. lia. }
  specialize (H2 i _ (E 0%nat)) as (o' & O1 & _ & v & w & V & W & X). rewrite Ho in O1. injection O1 as <-. cbn [snd] in V. rewrite V, X.
  rewrite W in Hm. injection Hm as ->. apply sec_profile_same; [|eauto]. intros n m' -> E'. injection E' as <-. apply S. exact V.
Qed.
End Start.

(** * Two clouds *)
Lemma nth_two (A : Type) (a b : A) : nth_error [a; b] 1 = Some b. Proof. reflexivity. Qed.
Lemma own_refuted : exists p q t, hStart "Boris" false = Some p /\
  (exists cc b sbs cl, read_all 1 1 1 1 hFiles false [] (hKw "Boris" false) cc b sbs cl /\ nth_error cl 1 = Some t) /\ nth_error (pl_clouds p) 1 = Some q /\
  dget t "Nbin_En_hist" = Some (PNum 77) /\ par (cp_impact q) "Nbin_En_hist" <> Some (PNum 77).
Proof.
  destruct (hStarts "Boris" (or_introl eq_refl)) as [p H]. destruct (hRead "Boris" false) as (b & sb & Ra).
  destruct (parts_are _ _ _ _ _ _ _ _ _ _ _ _ _ _ _ _ _ _ _ _ _ Ra H) as [_ P]. rewrite hTwo in P. destruct (P 1%nat _ (nth_two _ _ _)) as (q & Q1 & Q2).
  exists p, q, (hIons "Boris" false). split; [exact H|]. split; [exists (hCfg "Boris" false), (Some b), [sb], (hClouds "Boris" false); split; [exact Ra|rewrite hTwo; reflexivity]|].
  split; [exact Q1|]. split; [vm_compute; reflexivity|]. destruct Q2 as (_ & _ & (_ & I & _) & _).
  rewrite (I "Nbin_En_hist" "Nbin_En_hist") by (cbn; tauto). assert (E : dget (hCfg "Boris" false) "Nbin_En_hist" = Some (PNum 1)) by (vm_compute; reflexivity).
  rewrite E. intros X. assert (Y : 1 = 77) by (refine (f_equal (fun v => match v with Some (PNum x) => x | _ => 0 end) X)). lra.
Qed.
Lemma substeps_refuted : exists p q t, hStart "BorisMultipole" false = Some p /\
  (exists cc b sbs cl, read_all 1 1 1 1 hFiles false [] (hKw "BorisMultipole" false) cc b sbs cl /\ nth_error cl 1 = Some t) /\ nth_error (pl_clouds p) 1 = Some q /\
  dget t "N_sub_steps" = Some (PNum 7) /\ par (cp_dyn q) "N_sub_steps" <> Some (PNum 7).
Proof.
  destruct (hStarts "BorisMultipole" (or_intror eq_refl)) as [p H]. destruct (hRead "BorisMultipole" false) as (b & sb & Ra).
  destruct (parts_are _ _ _ _ _ _ _ _ _ _ _ _ _ _ _ _ _ _ _ _ _ Ra H) as [_ P]. rewrite hTwo in P. destruct (P 1%nat _ (nth_two _ _ _)) as (q & Q1 & Q2).
  exists p, q, (hIons "BorisMultipole" false). split; [exact H|]. split; [exists (hCfg "BorisMultipole" false), (Some b), [sb], (hClouds "BorisMultipole" false); split; [exact Ra|rewrite hTwo; reflexivity]|].
  split; [exact Q1|]. split; [vm_compute; reflexivity|]. destruct Q2 as (_ & _ & _ & _ & _ & _ & (D1 & _ & _ & D4 & _) & _).
  assert (N : ob_name (cp_dyn q) = "BorisMultipole").
  { assert (E : dget (hCfg "BorisMultipole" false) "track_method" = Some (PStr "BorisMultipole")) by (vm_compute; reflexivity). unfold tracker_is in D1. rewrite E in D1. injection D1. auto. }
  rewrite (D4 N "N_sub_steps" "N_sub_steps") by (cbn; tauto). assert (E : dget (hCfg "BorisMultipole" false) "N_sub_steps" = Some (PNum 1)) by (vm_compute; reflexivity).
  rewrite E. intros X. assert (Y : 1 = 7) by (refine (f_equal (fun v => match v with Some (PNum x) => x | _ => 0 end) X)). lra.
Qed.
(** The second beam's profile is in the folder, with the suffix. *)
Lemma profile_refuted : exists p o sb, hStart "Boris" false = Some p /\
  (exists cc b cl, read_all 1 1 1 1 hFiles false [] (hKw "Boris" false) cc (Some b) [sb] cl) /\ pl_sec p = [o] /\
  dget sb "beam_long_prof_file" = Some (PStr "sec") /\ file_for "in" hIs "sec" "in/sec.mat" /\ par o "beam_long_prof_file" = Some (PStr "sec").
Proof.
  destruct (hStarts "Boris" (or_introl eq_refl)) as [p H]. destruct (hRead "Boris" false) as (b & sb & Ra).
  pose proof (start_build _ _ _ _ _ _ _ _ _ _ _ _ _ _ _ _ _ _ _ _ _ Ra H) as B. apply build_is in B as (_ & (_ & B2) & _).
  cbn [List.length seq combine] in B2. inversion B2 as [|x o l l' F1 F2 X1 X2]. inversion F2. subst.
  destruct F1 as (_ & v & w & V & W & X). cbn [snd] in V.
  destruct (hBeams "Boris" false) as (b' & sb' & R1 & _ & _ & R4 & R5). pose proof (proj1 (proj2 Ra)) as Ra4. rewrite R1 in Ra4. injection Ra4 as -> ->.
  exists p, o, sb. rewrite R5 in V. injection V as <-. rewrite R4 in W. injection W as <-.
  split; [exact H|]. split; [exists (hCfg "Boris" false), b, (hClouds "Boris" false); exact Ra|]. split; [auto|]. split; [exact R5|].
  split; [right; left; repeat split; reflexivity|]. rewrite X. reflexivity.
Qed.

(** The object of a beam. *)
Lemma beam_object m_e m_p qe c files cc n b : read_beam m_e m_p qe c files cc n = Some b -> exists d, beam_descr_from_fil m_e m_p qe files c n cc = Some d /\
  dget b "sigmax" = Some (bd_sigmax d) /\ dget b "sigmay" = Some (bd_sigmay d) /\ dget b "energy_J" = Some (PNum (bd_energy_J d)) /\
  dget b "gamma_rel" = Some (PNum (bd_gamma d)) /\ dget b "beta_rel" = Some (bd_beta d) /\
  forall p, ~ In p ["sigmax"; "sigmay"; "energy_J"; "gamma_rel"; "beta_rel"] -> dget b p = dget (bd_cfg d) p.
Proof.
  unfold read_beam. destruct (beam_descr_from_fil m_e m_p qe files c n cc) as [d|]; [|discriminate]. cbn [bind]. intros H. injection H as <-. exists d. split; [reflexivity|].
  unfold beam_obj. do 5 (split; [rewrite !dget_dset; reflexivity|]).
  intros p N. rewrite !dget_dset. cbn [In] in N.
  repeat match goal with |- context [String.eqb ?a p] => destruct (String.eqb_spec a p) as [E|_]; [exfalso; subst; tauto|] end. reflexivity.
Qed.
