(** Concrete cases for the recorder. *)
From Coq Require Import String Lia Lra Bool Sorted.
From Verif Require Import Num NumFacts Fort SpecFort MP SpecMP MPFacts Impact Saver SpecSaver SaverFacts SaverFacts2 SaverFacts3 SaverFacts4 SaverFacts5 SaverFacts6 SaverFacts7 SaverFacts8 SaverFacts9 ExMP ExImpact.
Local Open Scope string_scope.
Local Open Scope list_scope.
Local Open Scope R_scope.

(** Settings: a sample every [dec] steps of length 1, energy histograms every 2. *)
Definition vC (dec : R) (probes : list (R * R * R)) (h : option hdet) : scfg :=
  mkScfg 1 dec 1 true false true probes 2 true None h 1 [] ["mine"] [] [("b_spac", VNum 25)] None 3 2 exC 0.
Definition vH : hdet := mkHdet 0 4 3 7 1 0 3.

(** A cloud of two electrons, or an empty one. *)
Definition vS (n : nat) : mpsys := sys3 n 1 1 0 true.
Definition vD : iman := mkIman [0; 1; 0; 2] [0; 1; 0; 0] [0; 10; 0; 0] [1; 2] [0; 0; 3; 0; 0] [] [] [] [] [] 3 4 5 6.
Definition vQ (t : R) (n : nat) (new : bool) : step := (mkObs t 1 (vS n) 0 (0, 0, 0) (fun _ => 7) true 3 new 0 1 2, vD).

Lemma vC_ok dec probes h : Forall (fun q => 0 < snd q) probes -> (h = None \/ h = Some vH) -> cfg_ok (vC dec probes h).
Proof.
  intros HP HH. unfold cfg_ok, vC; cbn [c_custom c_pcustom c_const c_once c_nx c_nbin c_ic c_hdet c_every c_only c_rc c_probes map fst app exC k_Dx k_DEn k_mass k_qe].
  split; [constructor|]. split; [apply nodupb_ok; reflexivity|].
  split; [intros k [[]|[<-|[]]]; exact (apartb_ok ["mine"] (own_names (vC dec probes h)) eq_refl "mine" (or_introl eq_refl))|].
  split; [intros k []|]. split; [apply nodupb_ok; reflexivity|].
  split; [intros k [<-|[]]; exact (apartb_ok ["b_spac"] (own_names (vC dec probes h) ++ ["mine"]) eq_refl "b_spac" (or_introl eq_refl))|].
  split; [lia|]. split; [lra|]. split; [lia|]. split; [lra|]. split; [lra|]. split; [lra|].
  split; [intros h' E; destruct HH as [->| ->]; [discriminate|injection E as <-; cbn; repeat split; [lia|lra|lra]]|].
  split; [lia|]. split; [reflexivity|]. split; [lra|exact HP].
Qed.

Lemma vQ_ok dec probes h t n b : (n <= 2)%nat -> step_ok (vC dec probes h) exG (vQ t n b).
Proof.
  intros Hn. split; [apply sys3_wf; lia|]. split; [|repeat split].
  unfold live, vS. cbn [vQ fst ob_mp vC c_ic exC k_bias N_mp sys3]. apply Forall_map, Forall_forall. intros i Hi. apply in_seq in Hi. cbn in Hi. destruct i as [|[|i]]; [cbn; lra|cbn; lra|lia].
Qed.

Lemma vW dec probes h : widths_ok (vC dec probes h) exG.
Proof. intros H; discriminate. Qed.

(** Five steps, two passages, a sample every other step. *)
Definition vL : list step := [vQ 1 2 false; vQ 2 2 true; vQ 3 2 false; vQ 4 1 true; vQ 5 2 false].
Lemma vL_ok dec probes h : Forall (step_ok (vC dec probes h) exG) vL.
Proof. repeat constructor; try (apply sys3_wf; lia); try (cbn; lra). Qed.

Lemma vBig dec probes h : (h = None \/ h = Some vH) -> big (vC dec probes h) exG.
Proof. intros HH. unfold big. cbn. repeat (split; [lia|]). intros x E. destruct HH as [->| ->]; [discriminate|]. injection E as <-. cbn. lia. Qed.

Lemma Rgeb_is a b : Rgeb a b = Rleb b a.
Proof. reflexivity. Qed.
Ltac due := unfold sample_due; rewrite <- ?Rgeb_is; unfold hist_due, s_time, isclose; cbn; first
  [ apply Rgeb_true; lra
  | rewrite (proj2 (Rgeb_true _ _)) by lra; reflexivity
  | apply Rgeb_false; lra
  | rewrite (proj2 (Rgeb_false _ _)) by lra; cbn [orb]; unfold Rleb; match goal with |- context [Rle_dec ?a ?b] => destruct (Rle_dec a b) as [X|X]; [exfalso; unfold Rabs in X; repeat destruct (Rcase_abs _) in X; lra|reflexivity] end ].

Lemma vL_samples2 : groups (sample_due (vC 2 [] None)) (-1) [[vQ 1 2 false]; [vQ 2 2 true; vQ 3 2 false]; [vQ 4 1 true; vQ 5 2 false]] [].
Proof.
  apply (groups_cons _ _ []); [constructor|due|]. apply (groups_cons _ _ [vQ 2 2 true]); [repeat constructor; due|due|].
  apply (groups_cons _ _ [vQ 4 1 true]); [repeat constructor; due|due|]. constructor. constructor.
Qed.
Lemma vL_passes : groups pass_ends (-1) [[vQ 1 2 false; vQ 2 2 true]; [vQ 3 2 false; vQ 4 1 true]] [vQ 5 2 false].
Proof.
  apply (groups_cons _ _ [vQ 1 2 false]); [repeat constructor|reflexivity|]. apply (groups_cons _ _ [vQ 3 2 false]); [repeat constructor|reflexivity|]. constructor. repeat constructor.
Qed.
Lemma vL_hists dec probes h : groups (hist_due (c_DtEn (vC dec probes h))) (-1) [[vQ 1 2 false]; [vQ 2 2 true; vQ 3 2 false]; [vQ 4 1 true; vQ 5 2 false]] [].
Proof.
  apply (groups_cons _ _ []); [constructor|due|]. apply (groups_cons _ _ [vQ 2 2 true]); [repeat constructor; due|due|].
  apply (groups_cons _ _ [vQ 4 1 true]); [repeat constructor; due|due|]. constructor. constructor.
Qed.

(** A run of five steps, a checkpoint after the fourth. *)
Definition vL1 : list step := [vQ 1 2 false; vQ 2 2 true; vQ 3 2 false].
Definition vL2 : list step := [vQ 5 2 false; vQ 6 2 true].

Lemma vDense l t0 : (forall a x b, l = a ++ x :: b -> s_time x - (match rev a with y :: _ => s_time y | [] => t0 end) >= 1) -> t0 = -1 -> every_step (vC 1 [] None) l.
Proof.
  intros H -> a x b E. specialize (H a x b E). unfold sample_due. cbn [vC c_dec c_Dtref]. apply Rleb_true. lra.
Qed.

Ltac splits H := match type of H with _ = ?a ++ _ :: _ => destruct a as [|? a]; cbn in H; [injection H as <- _|injection H as <- H] end.

Lemma vEvery : every_step (vC 1 [] None) ((vL1 ++ [vQ 4 1 true]) ++ vL2).
Proof.
  apply (vDense _ (-1)); [|reflexivity]. intros a x b H. cbn [vL1 vL2 app] in H.
  do 6 (destruct a as [|? a]; cbn in H; [injection H as <- _; cbn; lra|injection H as <- H]). destruct a; discriminate.
Qed.
Lemma vEvery2 : every_step (vC 1 [] None) vL2.
Proof.
  apply (vDense _ (-1)); [|reflexivity]. intros a x b H. cbn [vL2] in H.
  do 2 (destruct a as [|? a]; cbn in H; [injection H as <- _; cbn; lra|injection H as <- H]). destruct a; discriminate.
Qed.

Lemma vResumable : resumable (vC 1 [] None) exG vL1 (vQ 4 1 true) [vQ 5 2 false].
Proof.
  constructor.
  - apply vC_ok; [constructor|left; reflexivity].
  - apply vW.
  - apply vBig. left; reflexivity.
  - reflexivity.
  - reflexivity.
  - reflexivity.
  - exact (vL_ok 1 [] None).
  - reflexivity.
  - cbn. repeat constructor; cbn; lra.
  - exists (map (fun x => [x]) (vL1 ++ [vQ 4 1 true])). split; [reflexivity|]. split; [|cbn; lia].
    apply (groups_all (sample_due (vC 1 [] None)) (vL1 ++ [vQ 4 1 true]) (-1)). intros a x b E. apply (vEvery a x (b ++ vL2)). rewrite E, <- app_assoc. reflexivity.
  - cbn. lia.
  - cbn. lia.
  - exists [[vQ 1 2 false]; [vQ 2 2 true; vQ 3 2 false]; [vQ 4 1 true; vQ 5 2 false]], []. split; [reflexivity|]. split; [apply vL_hists|cbn; lia].
Qed.

(** The output of the uninterrupted run and of the run that was continued. *)
Lemma vLost : exists s1 g1 f1 sF gF fF d sL s2 g2 f2 d2 sU gU fU dU,
  started (vC 1 [] None) exG 8 (vL1 ++ [vQ 4 1 true]) = Some (s1, g1, f1) /\
  started (vC 1 [] None) exG 8 ((vL1 ++ [vQ 4 1 true]) ++ [vQ 5 2 false]) = Some (sF, gF, fF) /\ build_outp_dict (vC 1 [] None) sF = Some d /\
  resumed (vC 1 [] None) 8 d 4 (v_tEn s1) = Some sL /\ record_run (vC 1 [] None) vL2 g1 sL None = Some (s2, g2, f2) /\ build_outp_dict (vC 1 [] None) s2 = Some d2 /\
  started (vC 1 [] None) exG 8 ((vL1 ++ [vQ 4 1 true]) ++ vL2) = Some (sU, gU, fU) /\ build_outp_dict (vC 1 [] None) sU = Some dU /\
  get dU "t" = Some (VArr [1; 2; 3; 4; 5; 6]) /\ get d2 "t" = Some (VArr [1; 2; 3; 5; 6]) /\
  get dU "Nel_imp_time" = Some (VArr [3; 3; 3; 3; 3; 3]) /\ get d2 "Nel_imp_time" = Some (VArr [3; 3; 3; 3; 3]) /\
  get dU "t_hist" = Some (VArr [2; 4; 6]) /\ get d2 "t_hist" = Some (VArr [6]) /\
  get dU "U_sc_eV" = Some (VArr [3; 3; 3; 3; 3; 3]) /\ get d2 "U_sc_eV" = Some (VArr [3; 3; 3; 3; 3; 3; 3]).
Proof.
  pose proof vResumable as RS. set (c := vC 1 [] None) in *.
  assert (OK1 : Forall (step_ok c exG) (vL1 ++ [vQ 4 1 true])) by (eapply proj1, Forall_app; exact (re_ok _ _ _ _ _ RS)).
  assert (OK2 : Forall (step_ok c exG) vL2) by (repeat constructor; try (apply sys3_wf; lia); try (cbn; lra)).
  destruct (started_inv c exG 8 _ (re_cfg _ _ _ _ _ RS) (re_w _ _ _ _ _ RS) ltac:(lia) OK1) as (s1 & g1 & f1 & E1 & _).
  destruct (run_samples c exG 8 _ (re_cfg _ _ _ _ _ RS) (re_w _ _ _ _ _ RS) ltac:(lia) (re_ok _ _ _ _ _ RS)) as (sF & gF & fF & d & _ & _ & EF & BF & _).
  destruct (resumed_lost c exG 8 8 _ _ _ s1 g1 f1 sF gF fF d vL2 RS ltac:(lia) ltac:(lia) OK2 E1 EF BF vEvery vEvery2) as (sL & s2 & g2 & f2 & d2 & sU & gU & fU & dU & R1 & R2 & R3 & R4 & R5 & RC).
  destruct (resumed_run c exG 8 8 _ _ _ s1 g1 f1 sF gF fF d vL2 RS ltac:(lia) ltac:(lia) OK2 E1 EF BF)
    as (sL' & s2' & g2' & f2' & d2' & sU' & gU' & fU' & dU' & gs1 & gs2 & rest2 & ps1 & ps2 & prest2 & hs1 & hs2 & hrest2 & A1 & A2 & A3 & A4 & A5 & _ & _ & _ & _ & P1 & P2 & P3 & P4 & _ & _ & _ & _ & _ & T1 & T2 & _ & U1 & U2).
  rewrite R1 in A1. injection A1 as <-. rewrite R2 in A2. injection A2 as <- <- <-. rewrite R3 in A3. injection A3 as <-. rewrite R4 in A4. injection A4 as <- <- <-. rewrite R5 in A5. injection A5 as <-.
  exists s1, g1, f1, sF, gF, fF, d, sL, s2, g2, f2, d2, sU, gU, fU, dU. do 8 (split; [assumption|]).
  assert (Q1 : ps1 = [[vQ 1 2 false; vQ 2 2 true]; [vQ 3 2 false; vQ 4 1 true]]).
  { eapply proj1, (groups_unique pass_ends _ (-1) [] _ []); [exact P2| |rewrite app_nil_r, <- P1; reflexivity].
    apply (groups_cons _ _ [vQ 1 2 false]); [repeat constructor|reflexivity|]. apply (groups_cons _ _ [vQ 3 2 false]); [repeat constructor|reflexivity|]. constructor. constructor. }
  assert (Q2 : ps2 = [[vQ 5 2 false; vQ 6 2 true]]).
  { eapply proj1, (groups_unique pass_ends _ (-1) prest2 _ []); [exact P4| |rewrite <- P3; reflexivity].
    apply (groups_cons _ _ [vQ 5 2 false]); [repeat constructor|reflexivity|]. constructor. constructor. }
  subst ps1 ps2.
  destruct (RC "t" (now ob_t) (or_introl eq_refl)) as [X1 X2]. destruct (RC "Nel_imp_time" (total l_nimp) ltac:(unfold columns; cbn; tauto)) as [X3 X4].
  split; [exact X1|]. split; [exact X2|].
  assert (TT : forall x, In x (vL1 ++ vQ 4 1 true :: vL2) -> total l_nimp [x] = 3).
  { intros x Hx. unfold total, rsum. cbn in Hx. destruct Hx as [<-|[<-|[<-|[<-|[<-|[<-|[]]]]]]]; cbn; ring. }
  split; [rewrite X3; cbn [map vL1 vL2 app]; rewrite !TT by (cbn; tauto); reflexivity|].
  split; [rewrite X4; cbn [map vL1 vL2 app]; rewrite !TT by (cbn; tauto); reflexivity|].
  split; [exact T2|]. split; [exact T1|]. split; [exact U2|exact U1].
Qed.

(** The probes miss the last sample. *)
Lemma vProbe : exists s g f d, started (vC 1 [(1, 4, 1); (2, 5, 1)] None) exG 8 vL = Some (s, g, f) /\ build_outp_dict (vC 1 [(1, 4, 1); (2, 5, 1)] None) s = Some d /\
  exists t m, get d "t" = Some (VArr t) /\ get d "el_dens_at_probes" = Some (VMat m) /\ List.length m = 2%nat /\ Forall (fun row => (List.length row < List.length t)%nat) m.
Proof.
  set (c := vC 1 [(1, 4, 1); (2, 5, 1)] None).
  assert (CO : cfg_ok c) by (apply vC_ok; [repeat constructor; cbn; lra|left; reflexivity]). assert (OK := vL_ok 1 [(1, 4, 1); (2, 5, 1)] None). fold c in OK.
  assert (WO : widths_ok c exG) by apply vW.
  destruct (run_samples c exG 8 vL CO WO ltac:(lia) OK) as (s & g & f & d & gs & rest & E & B & S1 & S2 & C & _).
  destruct (run_probes c exG 8 vL CO WO ltac:(lia) OK) as (s' & g' & f' & d' & gs' & rest' & E' & B' & S1' & S2' & C'); [discriminate|].
  rewrite E in E'. injection E' as <- <- <-. rewrite B in B'. injection B' as <-.
  destruct (groups_unique _ _ _ _ _ _ S2 S2') as [<- <-]; [congruence|].
  assert (NE : gs <> []).
  { intros ->. inversion_clear S2 as [? ? F|]. cbn in S1. subst rest. inversion_clear F as [|? ? F1 _]. revert F1. enough (X : sample_due c (-1) (vQ 1 2 false) = true) by (rewrite X; discriminate). unfold c. due. }
  exists s, g, f, d. split; [exact E|]. split; [exact B|]. eexists. eexists. split; [apply (C "t" (now ob_t)); left; reflexivity|]. split; [exact (C' NE)|].
  split; [reflexivity|]. apply Forall_map. repeat constructor; rewrite !map_length; destruct gs as [|x gs _] using rev_ind; try congruence;
    rewrite removelast_app by discriminate; cbn [removelast]; rewrite app_nil_r, app_length; cbn; lia.
Qed.

(** A passage that ends with an empty cloud repeats the line of the previous one. *)
Definition vE : list step := [vQ 1 2 true; vQ 2 0 true].
Lemma vH_full : d_histogram vH (vS 2) = [0; 1; 1].
Proof.
  unfold d_histogram, histogram. cbn [vH hd_bias hd_Dx hd_n].
  assert (F : map (fun p => (m_x p, m_nel p)) (filter (in_window vH) (live (vS 2))) = [(1, 1); (2, 1)]).
  { unfold live. cbn [vS sys3 N_mp seq map filter]. unfold in_window at 1. cbn. rewrite !(proj2 (Rltb_true _ _)) by lra. cbn [andb]. unfold in_window. cbn. rewrite !(proj2 (Rltb_true _ _)) by lra. reflexivity. }
  rewrite F. cbn [seq map]. unfold bin_share, hat. cbn [fst snd INR].
  destruct (Rlt_dec 1 (0 + (1 + 1 + 1 - 1) * 1)) as [_|N]; [|lra]. destruct (Rlt_dec 2 (0 + (1 + 1 + 1 - 1) * 1)) as [N|_]; [lra|].
  cbn [Nat.sub Nat.eq_dec nat_rec nat_rect]. unfold rsum. cbn [fold_right].
  repeat match goal with |- context [Nat.eq_dec ?a ?b] => destruct (Nat.eq_dec a b); try lia end.
  f_equal; [|f_equal; [|f_equal]]; try reflexivity; unfold Rmax, Rabs; repeat destruct (Rcase_abs _); repeat destruct (Rle_dec _ _); lra.
Qed.

Lemma vStale : exists s g f d, started (vC 1 [] (Some vH)) exG 8 vE = Some (s, g, f) /\ build_outp_dict (vC 1 [] (Some vH)) s = Some d /\
  groups pass_ends (-1) [[vQ 1 2 true]; [vQ 2 0 true]] [] /\ live (vS 0) = [] /\ d_histogram vH (vS 0) = [0; 0; 0] /\
  get d "nel_hist_det" = Some (VMat [[0; 1; 1]; [0; 1; 1]]).
Proof.
  set (c := vC 1 [] (Some vH)).
  assert (CO : cfg_ok c) by (apply vC_ok; [constructor|right; reflexivity]). assert (WO : widths_ok c exG) by apply vW.
  assert (OK : Forall (step_ok c exG) vE) by (repeat constructor; try (apply sys3_wf; lia); try (cbn; lra)).
  assert (G : groups pass_ends (-1) [[vQ 1 2 true]; [vQ 2 0 true]] []).
  { apply (groups_cons _ _ []); [constructor|reflexivity|]. apply (groups_cons _ _ []); [constructor|reflexivity|]. constructor. constructor. }
  destruct (run_detail c exG 8 vE vH CO WO ltac:(lia) OK eq_refl) as (s & g & f & d & ps & rest & E & B & S1 & S2 & C).
  destruct (groups_unique _ _ _ _ _ _ S2 G) as [-> ->]; [rewrite <- S1; reflexivity|].
  exists s, g, f, d. split; [exact E|]. split; [exact B|]. split; [exact G|]. split; [reflexivity|]. split.
  - unfold d_histogram, histogram. cbn. unfold rsum. reflexivity.
  - rewrite C. cbn [det_lines]. unfold det_line, at_end. cbn [rev app vQ fst ob_mp vS sys3 N_mp Nat.ltb Nat.leb]. fold (vS 2). rewrite vH_full. reflexivity.
Qed.

(** A checkpoint after the first passage. *)
Definition vL3 : list step := [vQ 1 2 false; vQ 2 2 true].
Lemma vOne : exists s1 g1 f1 sF gF fF d sL,
  started (vC 1 [] None) exG 8 vL3 = Some (s1, g1, f1) /\ started (vC 1 [] None) exG 8 (vL3 ++ [vQ 3 2 false]) = Some (sF, gF, fF) /\ build_outp_dict (vC 1 [] None) sF = Some d /\
  List.length (filter (pass_ends 0) (vL3 ++ [vQ 3 2 false])) = 1%nat /\ Forall (step_ok (vC 1 [] None) exG) (vL3 ++ [vQ 3 2 false]) /\
  resumed (vC 1 [] None) 8 d 2 (v_tEn s1) = Some sL /\ Exists (fun q => ob_new (fst q) = true) [vQ 3 2 false; vQ 4 2 true].
Proof.
  set (c := vC 1 [] None). assert (CO : cfg_ok c) by (apply vC_ok; [constructor|left; reflexivity]). assert (WO : widths_ok c exG) by apply vW.
  assert (OK1 : Forall (step_ok c exG) vL3) by (repeat constructor; try (apply sys3_wf; lia); try (cbn; lra)).
  assert (OK : Forall (step_ok c exG) (vL3 ++ [vQ 3 2 false])) by (repeat constructor; try (apply sys3_wf; lia); try (cbn; lra)).
  destruct (started_inv c exG 8 vL3 CO WO ltac:(lia) OK1) as (s1 & g1 & f1 & E1 & _).
  destruct (run_recorded c exG 8 _ CO WO ltac:(lia) OK) as (sF & gF & fF & d & gs & rest & ps & prest & hs & hrest & EF & BF & G1 & G2 & P1 & P2 & H1 & H2 & [C1 C2 C3 C4 C5 C6 C7]).
  assert (EG : gs = [[vQ 1 2 false]; [vQ 2 2 true]; [vQ 3 2 false]]).
  { eapply proj1, (groups_unique (sample_due c) _ (-1) rest _ []); [exact G2| |rewrite <- G1; reflexivity]. unfold c.
    apply (groups_cons _ _ []); [constructor|due|]. apply (groups_cons _ _ []); [constructor|due|]. apply (groups_cons _ _ []); [constructor|due|]. constructor. constructor. }
  assert (EP : ps = [[vQ 1 2 false; vQ 2 2 true]]).
  { eapply proj1, (groups_unique pass_ends _ (-1) prest _ [vQ 3 2 false]); [exact P2| |rewrite <- P1; reflexivity]. apply (groups_cons _ _ [vQ 1 2 false]); [repeat constructor|reflexivity|]. constructor. repeat constructor. }
  subst gs ps.
  assert (T := C1 "t" _ (or_introl eq_refl)). assert (TN := C1 "Nel_timep" (now (fun ob => charge (ob_mp ob))) ltac:(unfold columns; cbn; tauto)). assert (TH := C3 "t_hist" _ (or_introl eq_refl)).
  destruct (load_get c d 2 (start_observing c 8) 1 0 1 (map (now (fun ob => charge (ob_mp ob))) [[vQ 1 2 false]; [vQ 2 2 true]; [vQ 3 2 false]])) as (sL & EL & _).
  { reflexivity. }
  { rewrite loaded_get, T. cbn [map squeeze]. apply (closest_sorted _ 1); [repeat constructor; cbn; lra|reflexivity]. }
  { rewrite loaded_get, TH. cbn [map squeeze]. reflexivity. }
  { rewrite loaded_get, C6. cbn [sc_times vL3 app filter vQ fst ob_check map squeeze]. apply (closest_sorted _ 1); [repeat constructor; cbn; lra|reflexivity]. }
  { intros r. rewrite loaded_get, C6. discriminate. }
  { rewrite loaded_get, TN. reflexivity. }
  exists s1, g1, f1, sF, gF, fF, d. eexists. split; [exact E1|]. split; [exact EF|]. split; [exact BF|]. split; [reflexivity|]. split; [exact OK|].
  split; [unfold resumed; rewrite EL; reflexivity|]. right. left. reflexivity.
Qed.
