(** The recorded field map. *)
From Coq Require Import String Lia Lra.
From Verif Require Import Num NumFacts MP SpecMP Push Impact Beam Source Sim PyHT SpecPyHT PyHTFacts.
Local Open Scope list_scope.
Local Open Scope R_scope.

Lemma kick_is kx ky p b E ix f : f = q_charge b * z_L p / (q_mass b * q_gamma b * (q_beta b * c_light (e_kc (z_env p))) ^ 2) ->
  with_parts b (kick_ix kx ky f E (z_xoff p) (z_yoff p) ix (q_parts b)) = kicked kx ky p E ix b.
Proof. intros ->. reflexivity. Qed.

Lemma kick_length kx ky f E xo yo ix l : List.length (kick_ix kx ky f E xo yo ix l) = List.length l.
Proof. unfold kick_ix. rewrite map_length, combine_length, seq_length. apply Nat.min_id. Qed.
Lemma kicked_length kx ky p E ix b : List.length (q_parts (kicked kx ky p E ix b)) = List.length (q_parts b).
Proof. unfold kicked. cbn. rewrite map_length, combine_length, seq_length. apply Nat.min_id. Qed.
Lemma kicked_moving kx ky p E ix b : moving p b -> moving p (kicked kx ky p E ix b).
Proof. exact (fun H => H). Qed.

Lemma inter_one p dt dts : dt_array p true dt = Some dts -> dts = [dt].
Proof.
  unfold dt_array. destruct (z_Dt p) as [D|]; [|congruence]. destruct (Rleb D 0); [discriminate|]. destruct (Rgtb dt D); [discriminate|]. congruence.
Qed.

(** * One slice *)
Lemma single_kick p b ix dz force h b' h' : interacts (q_info b) = Some true -> track_single_slice p b ix dz force h = Some (b', h') ->
  exists new g, passage p (q_info b) force h = Some (new, g) /\ b' = kicked (z_kx p) (z_ky p) p (sc_fld (m_sc (h_sim h'))) ix b /\ h_flags h' = h_flags g /\ h_map h' = h_map g /\
    push_rec (w_fld (h_flags g)) (sc_fld (m_sc (h_sim h'))) (h_fld g) = Some (h_fld h') /\ h_tracks h' = h_tracks g.
Proof.
  intros HI H. unfold track_single_slice in H. destruct (_ || _) eqn:G; [discriminate|]. rewrite HI in H. cbn [bind] in H. bd H. bd H. destruct p0 as [new g].
  apply inter_one in E. subst l. exists new, g. split; [reflexivity|]. cbn [cloud_steps] in H. bd H. destruct p0 as [b1 h1]. injection H as <- <-.
  repeat (apply Bool.orb_false_iff in G; destruct G as [G ?]). repeat match goal with K : Reqb _ _ = false |- _ => apply Reqb_false in K end.
  unfold cloud_step in E. bd E. destruct p0 as [hs n]. bd E. destruct (dummy_beam _ _ _ _ _ _ _ _ _) as [tm hb]. bd E. bds E. injection E as <- <-. cbn [h_sim h_flags h_map h_fld h_tracks].
  split; [|auto]. apply kick_is. unfold kick_fact. field. auto.
Qed.

Lemma passage_plain p b force h new g : first_of_all b = false -> passage p (q_info b) force h = Some (new, g) ->
  h_flags g = h_flags h /\ h_map g = h_map h /\ h_fld g = h_fld h /\ h_tracks g = h_tracks h.
Proof.
  unfold passage, first_of_all. cbv zeta. destruct (q_info b) as [| |io [ib|] is zl zr]; intros F H; try (injection H as <- <-; auto).
  rewrite F in H. cbn [bind] in H. destruct (h_bunch h <? ib)%Z; injection H as <- <-; auto.
Qed.

Lemma passage_any p b force h new g : passage p (q_info b) force h = Some (new, g) ->
  h_flags g = h_flags h /\ h_map g = h_map h /\ (w_fld (h_flags h) = true -> h_fld h = Lst [] -> h_fld g = Lst []) /\ h_tracks g = h_tracks h.
Proof.
  unfold passage. cbv zeta. destruct (q_info b) as [| |io [ib|] is zl zr]; intros H; try (injection H as <- <-; auto). bd H.
  assert (K : h_flags p0 = h_flags h /\ h_map p0 = h_map h /\ (w_fld (h_flags h) = true -> h_fld h = Lst [] -> h_fld p0 = Lst []) /\ h_tracks p0 = h_tracks h).
  { destruct (_ && _); [|injection E as <-; auto]. unfold finalize_and_reinitialize in E. destruct (z_slicemode p); [|discriminate]. bd E. unfold reinitialize in E. bd E. injection E as <-. cbn.
    unfold finalize in E0. bds E0. injection E0 as <-. cbn. split; auto. split; auto. split; auto. intros -> _. reflexivity. }
  destruct (h_bunch p0 <? ib)%Z; injection H as <- <-; exact K.
Qed.

(** * Slice by slice *)
Lemma list_fields p : forall bs h bs' h' l, Forall (fun b => interacts (q_info b) = Some true) bs -> Forall (fun b => first_of_all b = false) bs ->
  w_fld (h_flags h) = true -> h_fld h = Lst l -> track_list p bs h = Some (bs', h') ->
  exists Es, passes p h bs Es h' /\ h_fld h' = Lst (l ++ Es) /\ bs' = map2 (fun b E => kicked (z_kx p) (z_ky p) p E (all_of b) b) bs Es /\
    List.length Es = List.length bs /\ h_flags h' = h_flags h /\ h_map h' = h_map h.
Proof.
  induction bs as [|b bs IH]; intros h bs' h' l FI FF W L H; cbn [track_list] in H.
  - injection H as <- <-. exists []. rewrite app_nil_r. repeat split; auto. constructor.
  - inversion FI; subst. inversion FF; subst. bd H. destruct p0 as [b1 h1]. bd H. destruct p0 as [r h2]. injection H as <- <-.
    assert (TS := E). unfold track_slice in E. destruct (q_info b) eqn:Q; [discriminate|cbn in H2; discriminate|]. rewrite <- Q in *.
    destruct (single_kick _ _ _ _ _ _ _ _ H2 E) as (new & g & P1 & P2 & P3 & P4 & P5 & _).
    destruct (passage_plain _ _ _ _ _ _ H4 P1) as (Q1 & Q2 & Q3 & _). rewrite Q1, Q3, W, L in P5. cbn in P5. injection P5 as P5.
    destruct (IH h1 r h2 (l ++ [sc_fld (m_sc (h_sim h1))])) as (Es & R1 & R2 & R3 & R4 & R5 & R6); auto; [congruence|].
    exists (sc_fld (m_sc (h_sim h1)) :: Es). split; [econstructor; eauto|]. split; [rewrite R2, <- app_assoc; auto|].
    split; [cbn [map2]; rewrite R3, P2; auto|]. split; [cbn; auto|]. split; congruence.
Qed.

Lemma list_fields_first p bs h bs' h' : Forall (fun b => interacts (q_info b) = Some true) bs -> Forall (fun b => first_of_all b = false) (tl bs) ->
  w_fld (h_flags h) = true -> h_fld h = Lst [] -> track_list p bs h = Some (bs', h') ->
  exists Es, passes p h bs Es h' /\ h_fld h' = Lst Es /\ bs' = map2 (fun b E => kicked (z_kx p) (z_ky p) p E (all_of b) b) bs Es /\
    List.length Es = List.length bs /\ h_flags h' = h_flags h /\ h_map h' = h_map h.
Proof.
  destruct bs as [|b bs]; intros FI FF W L H.
  - cbn [track_list] in H. injection H as <- <-. exists []. repeat split; auto. constructor.
  - cbn [track_list] in H. inversion FI; subst. cbn [tl] in FF. bd H. destruct p0 as [b1 h1]. bd H. destruct p0 as [r h2]. injection H as <- <-.
    assert (TS := E). unfold track_slice in E. destruct (q_info b) eqn:Q; [discriminate|cbn in H2; discriminate|]. rewrite <- Q in *.
    destruct (single_kick _ _ _ _ _ _ _ _ H2 E) as (new & g & P1 & P2 & P3 & P4 & P5 & _).
    destruct (passage_any _ _ _ _ _ _ P1) as (Q1 & Q2 & Q3 & _). rewrite Q1, W, (Q3 W L) in P5. cbn in P5. injection P5 as P5.
    destruct (list_fields p bs h1 r h2 [sc_fld (m_sc (h_sim h1))]) as (Es & R1 & R2 & R3 & R4 & R5 & R6); auto; [congruence|].
    exists (sc_fld (m_sc (h_sim h1)) :: Es). split; [econstructor; eauto|]. split; [rewrite R2; auto|].
    split; [cbn [map2]; rewrite R3, P2; auto|]. split; [cbn; auto|]. split; congruence.
Qed.

Lemma once_slices p bs h bs' h' : Forall (fun b => interacts (q_info b) = Some true) bs -> Forall (fun b => first_of_all b = false) (tl bs) -> h_map h = None ->
  track_once_slices p bs h = Some (bs', h') ->
  exists g Es hN, reinitialize p (with_flags true (with_fld true (h_flags h)) h) = Some g /\ passes p g bs Es hN /\ List.length Es = List.length bs /\
    bs' = map2 (fun b E => kicked (z_kx p) (z_ky p) p E (all_of b) b) bs Es /\ h_map h' = Some (mkFmap (rev Es) 0).
Proof.
  intros FI FF HM H. unfold track_once_slices in H. bd H. rename p0 into g. bd H. destruct p0 as [bs1 hN]. bd H. bd H. injection H as <- <-.
  exists g. assert (G : w_fld (h_flags g) = true /\ h_fld g = Lst [] /\ h_map g = None).
  { unfold reinitialize in E. bd E. injection E as <-. cbn. auto. }
  destruct G as (G1 & G2 & G3). destruct (list_fields_first _ _ _ _ _ FI FF G1 G2 E0) as (Es & R1 & R2 & R3 & R4 & R5 & R6).
  exists Es, hN. split; [auto|]. split; [auto|]. split; [auto|]. split; [auto|].
  unfold finalize in E1. rewrite R5, R2, G1 in E1. cbn [reversed bind] in E1. bds E1. injection E1 as <-.
  unfold replace_with_recorded_field_map in E2. cbn [with_flags h_map h_fld] in E2. rewrite R6, G3 in E2. injection E2 as <-. reflexivity.
Qed.

Lemma map_slice_kick p E sid pid b f : moving p b -> (forall j, In j pid -> (j < List.length (q_parts b))%nat) -> py_nth E sid = Some f ->
  map_slice p E sid pid b = Some (kicked true true p f pid b).
Proof.
  intros (M1 & M2 & M3 & M4 & M5) HP HE. unfold map_slice. assert (P0 : q_p0 b <> 0) by (rewrite M5; repeat apply Rmult_integral_contrapositive_currified; auto).
  rewrite !(proj2 (Reqb_false _ _)) by auto. cbn [orb].
  assert (PK : exists r, pick (q_parts b) pid = Some r).
  { clear -HP. induction pid as [|j pid IH]; cbn; [eauto|]. destruct (nth_error (q_parts b) j) eqn:N; [|apply nth_error_None in N; specialize (HP j (or_introl eq_refl)); lia].
    destruct IH as [r ->]; [intros; apply HP; right; auto|]. cbn. eauto. }
  destruct PK as [r ->]. cbn [bind]. rewrite HE. cbn [bind]. f_equal. apply kick_is. unfold momentum_ok in M5. rewrite M5. field. auto.
Qed.

Lemma py_nth_end {A} (l : list A) k : (1 <= k <= List.length l)%nat -> py_nth l (- Z.of_nat k) = nth_error l (List.length l - k).
Proof.
  intros H. unfold py_nth. replace (0 <=? - Z.of_nat k)%Z with false by (symmetry; apply Z.leb_gt; lia).
  replace (0 <=? - Z.of_nat k + Z.of_nat (List.length l))%Z with true by (symmetry; apply Z.leb_le; lia).
  f_equal. lia.
Qed.

Lemma all_in b j : In j (all_of b) -> (j < List.length (q_parts b))%nat.
Proof. unfold all_of. intros H. apply in_seq in H. lia. Qed.

Lemma replay_list p : forall Es cs done, List.length cs = List.length Es -> Forall (moving p) cs -> Forall is_slice cs ->
  map_track_list p (mkFmap (rev (done ++ Es)) (- Z.of_nat (List.length done))) cs =
    Some (map2 (fun b E => kicked true true p E (all_of b) b) cs Es, mkFmap (rev (done ++ Es)) (- Z.of_nat (List.length (done ++ Es)))).
Proof.
  induction Es as [|E Es IH]; intros [|c cs] done L FM FS; try discriminate.
  - cbn [map_track_list map2]. rewrite app_nil_r. reflexivity.
  - cbn [map_track_list map2]. inversion FM; subst. inversion FS; subst. cbn in L. injection L as L.
    assert (N : py_nth (rev (done ++ E :: Es)) (- Z.of_nat (List.length done) - 1) = Some E).
    { replace (- Z.of_nat (List.length done) - 1)%Z with (- Z.of_nat (S (List.length done)))%Z by lia.
      assert (LL : List.length (rev (done ++ E :: Es)) = (List.length done + S (List.length Es))%nat) by (rewrite rev_length, app_length; reflexivity).
      rewrite py_nth_end by (rewrite LL; lia). rewrite LL. rewrite rev_app_distr. cbn [rev]. rewrite <- !app_assoc. cbn [app].
      rewrite nth_error_app2 by (rewrite rev_length; lia). rewrite rev_length. replace (_ - _ - _)%nat with 0%nat by lia. reflexivity. }
    unfold map_track_slice at 1. cbn [j_sid j_E]. unfold is_slice in H3. destruct (q_info c) eqn:Q; try contradiction.
    rewrite (map_slice_kick _ _ _ _ _ E) by (auto; intros j Hj; apply all_in; auto). cbn [bind].
    specialize (IH cs (done ++ [E]) L H2 H4). rewrite <- !app_assoc in IH. cbn [app] in IH. rewrite app_length in IH. cbn [List.length] in IH.
    replace (- Z.of_nat (List.length done) - 1)%Z with (- Z.of_nat (List.length done + 1))%Z by lia.
    rewrite IH. reflexivity.
Qed.

(** * Whole bunches *)
Lemma slices_fields p sl : forall n b h b' h' l, z_slicemode p = false -> interacts (q_info b) = Some true -> w_fld (h_flags h) = true -> h_fld h = Lst l ->
  track_slices p sl n b h = Some (b', h') ->
  exists Es, sliced p sl n b h Es b' h' /\ List.length Es = n /\ h_fld h' = Lst (l ++ rev Es) /\
    b' = slice_kicks (z_kx p) (z_ky p) p (fun i => sl_idx sl (Z.of_nat i)) Es n b /\ h_flags h' = h_flags h /\ h_map h' = h_map h.
Proof.
  induction n as [|n IH]; intros b h b' h' l SM HI W L H; cbn [track_slices] in H.
  - injection H as <- <-. exists []. rewrite app_nil_r. repeat split; auto. constructor.
  - bd H. bd H. bd H. destruct p0 as [b1 h1]. destruct (single_kick _ _ _ _ _ _ _ _ HI E1) as (new & g & P1 & P2 & P3 & P4 & P5 & _).
    assert (FA : h_flags g = h_flags h /\ h_map g = h_map h /\ h_fld g = h_fld h).
    { destruct (first_of_all b) eqn:F; [|pose proof (passage_plain _ _ _ _ _ _ F P1); tauto].
      exfalso. unfold passage in P1. unfold first_of_all in F. destruct (q_info b) as [| |io [ib|] is zl zr]; try discriminate. rewrite F in P1. unfold finalize_and_reinitialize in P1. rewrite SM in P1. discriminate. }
    destruct FA as (Q1 & Q2 & Q3). rewrite Q1, Q3, W, L in P5. cbn in P5. injection P5 as P5.
    destruct (IH b1 h1 b' h' (l ++ [sc_fld (m_sc (h_sim h1))])) as (Es & R1 & R2 & R3 & R4 & R5 & R6); auto; [rewrite P2; exact HI|congruence|].
    exists (Es ++ [sc_fld (m_sc (h_sim h1))]). split; [econstructor; eauto|]. split; [rewrite app_length, R2; cbn; lia|].
    split; [rewrite R3, rev_app_distr; cbn; rewrite <- app_assoc; auto|]. split; [|split; congruence].
    cbn [slice_kicks]. rewrite app_nth2, R2, Nat.sub_diag by lia. cbn [nth]. rewrite <- P2, R4.
    clear -R2. revert b1. assert (K : forall m b, (m <= n)%nat -> slice_kicks (z_kx p) (z_ky p) p (fun i => sl_idx sl (Z.of_nat i)) Es m b =
      slice_kicks (z_kx p) (z_ky p) p (fun i => sl_idx sl (Z.of_nat i)) (Es ++ [sc_fld (m_sc (h_sim h1))]) m b).
    { induction m as [|m IH]; intros b Hm; cbn [slice_kicks]; auto. rewrite app_nth1 by lia. apply IH. lia. }
    intros b1. apply K. lia.
Qed.

Lemma once_bunch p slices b h b' h' : z_slicemode p = false -> interacts (q_info b) = Some true -> h_map h = None -> h_tracks h = 0%nat ->
  track_once_bunch p slices b h = Some (b', h') ->
  exists g Es hN, reinitialize p (with_flags true (with_fld true (h_flags h)) h) = Some g /\ sliced p (slices b) (sl_n (slices b)) b g Es b' hN /\
    List.length Es = sl_n (slices b) /\ b' = slice_kicks (z_kx p) (z_ky p) p (fun i => sl_idx (slices b) (Z.of_nat i)) Es (sl_n (slices b)) b /\ h_map h' = Some (mkFmap Es 0).
Proof.
  intros SM HI HM HT H. unfold track_once_bunch in H. bd H. destruct p0 as [b1 h1]. bd H. injection H as <- <-.
  unfold track_bunch in E. cbn [with_flags h_tracks h_once] in E. rewrite HT in E. cbn [Nat.ltb Nat.leb andb] in E. bd E. rename p1 into g. bd E. destruct p1 as [b2 hN]. bd E. injection E as <- <-.
  assert (G : w_fld (h_flags g) = true /\ h_fld g = Lst [] /\ h_map g = None).
  { unfold reinitialize in E1. bd E1. injection E1 as <-. cbn. auto. }
  destruct G as (G1 & G2 & G3). destruct (slices_fields p (slices b) _ _ _ _ _ [] SM HI G1 G2 E2) as (Es & R1 & R2 & R3 & R4 & R5 & R6).
  exists g, Es, hN. split; [auto|]. split; [auto|]. split; [auto|]. split; [auto|].
  unfold finalize in E3. rewrite R5, R3, G1 in E3. cbn [reversed bind app] in E3. bds E3. injection E3 as <-.
  unfold replace_with_recorded_field_map in E0. cbn [with_flags with_tracks h_map h_fld] in E0. rewrite R6, G3, rev_involutive in E0. injection E0 as <-. reflexivity.
Qed.

Lemma replay_idx p sl Es (idx : nat -> list nat) : List.length Es = sl_n sl ->
  (forall k, (1 <= k <= sl_n sl)%nat -> sl_idx sl (- Z.of_nat k) = idx (sl_n sl - k)%nat) -> forall n c, (n <= sl_n sl)%nat -> moving p c ->
  (forall i, (i < sl_n sl)%nat -> Forall (fun j => (j < List.length (q_parts c))%nat) (idx i)) ->
  map_slices p Es sl n (- Z.of_nat (sl_n sl - n)) c = Some (slice_kicks true true p idx Es n c).
Proof.
  intros L FE. induction n as [|n IH]; intros c Hn M OB; cbn [map_slices slice_kicks]; auto.
  replace (- Z.of_nat (sl_n sl - S n) - 1)%Z with (- Z.of_nat (sl_n sl - n))%Z by lia.
  rewrite FE by lia. replace (sl_n sl - (sl_n sl - n))%nat with n by lia.
  rewrite (map_slice_kick _ _ _ _ _ (nth n Es (fun _ _ => (0, 0)))); auto.
  - cbn [bind]. apply IH; [lia|apply kicked_moving; auto|]. intros i Hi. rewrite kicked_length. apply OB; auto.
  - apply Forall_forall. apply OB. lia.
  - rewrite py_nth_end by lia. rewrite L. replace (sl_n sl - (sl_n sl - n))%nat with n by lia. apply nth_error_nth'. lia.
Qed.

Lemma replay_bunch p slices Es c : List.length Es = sl_n (slices c) -> from_end (slices c) -> moving p c -> of_beam c (slices c) ->
  map_track p (mkFmap Es 0) slices c = Some (slice_kicks true true p (fun i => sl_idx (slices c) (Z.of_nat i)) Es (sl_n (slices c)) c).
Proof.
  intros L FE M OB. unfold map_track. cbn [j_E].
  rewrite <- (replay_idx p (slices c) Es (fun i => sl_idx (slices c) (Z.of_nat i)) L FE _ c (le_n _) M OB). rewrite Nat.sub_diag. reflexivity.
Qed.

Lemma position_from_end sl : by_position sl -> forall k, (1 <= k <= sl_n sl)%nat -> sl_idx sl (- Z.of_nat k) = next_slice sl (sl_n sl - k).
Proof.
  intros (pos & ids & L & H0 & HI) k Hk. unfold next_slice. rewrite !HI. rewrite py_nth_end by lia. rewrite L.
  destruct (Nat.eq_dec k 1) as [->|K].
  - replace (- Z.of_nat 1 + 1)%Z with 0%Z by lia. replace (py_nth pos 0) with (nth_error pos 0) by (destruct pos; reflexivity). rewrite H0.
    replace (Nat.ltb (S (sl_n sl - 1)) (sl_n sl)) with false by (symmetry; apply Nat.ltb_ge; lia).
    destruct (nth_error pos (S (sl_n sl) - 1)) as [a|]; reflexivity.
  - replace (- Z.of_nat k + 1)%Z with (- Z.of_nat (k - 1))%Z by lia. rewrite py_nth_end by lia. rewrite L.
    replace (Nat.ltb (S (sl_n sl - k)) (sl_n sl)) with true by (symmetry; apply Nat.ltb_lt; lia).
    unfold py_nth. replace (0 <=? Z.of_nat (S (sl_n sl - k)))%Z with true by (symmetry; apply Z.leb_le; lia).
    replace (0 <=? Z.of_nat (S (sl_n sl - k)) + 1)%Z with true by (symmetry; apply Z.leb_le; lia).
    replace (Z.to_nat (Z.of_nat (S (sl_n sl - k)))) with (S (sl_n sl) - k)%nat by lia.
    replace (Z.to_nat (Z.of_nat (S (sl_n sl - k)) + 1)) with (S (sl_n sl) - (k - 1))%nat by lia. reflexivity.
Qed.

Lemma replay_by_position p slices Es c : List.length Es = sl_n (slices c) -> by_position (slices c) -> moving p c -> of_beam c (slices c) ->
  map_track p (mkFmap Es 0) slices c = Some (slice_kicks true true p (next_slice (slices c)) Es (sl_n (slices c)) c).
Proof.
  intros L BP M OB. unfold map_track. cbn [j_E].
  assert (OB' : forall i, (i < sl_n (slices c))%nat -> Forall (fun j => (j < List.length (q_parts c))%nat) (next_slice (slices c) i)).
  { intros i Hi. unfold next_slice. destruct (Nat.ltb (S i) (sl_n (slices c))) eqn:T; [|constructor]. apply OB. apply Nat.ltb_lt in T. auto. }
  rewrite <- (replay_idx p (slices c) Es (next_slice (slices c)) L (position_from_end _ BP) _ c (le_n _) M OB'). rewrite Nat.sub_diag. reflexivity.
Qed.

(** * Recording and replay together *)
Lemma slices_replayed p bs h bs' h' : Forall (fun b => interacts (q_info b) = Some true) bs -> Forall (fun b => first_of_all b = false) (tl bs) -> h_map h = None ->
  track_once_slices p bs h = Some (bs', h') ->
  exists g Es hN j, reinitialize p (with_flags true (with_fld true (h_flags h)) h) = Some g /\ passes p g bs Es hN /\
    bs' = map2 (fun b E => kicked (z_kx p) (z_ky p) p E (all_of b) b) bs Es /\ h_map h' = Some j /\ map_reinitialize j = j /\
    forall cs, List.length cs = List.length bs -> Forall (moving p) cs -> Forall is_slice cs -> exists j',
      map_track_list p j cs = Some (map2 (fun b E => kicked true true p E (all_of b) b) cs Es, j') /\ map_reinitialize j' = j.
Proof.
  intros FI FF HM H. destruct (once_slices _ _ _ _ _ FI FF HM H) as (g & Es & hN & G & P & L & B & M).
  exists g, Es, hN, (mkFmap (rev Es) 0). repeat (split; [auto|]). intros cs LC MC SC.
  eexists. split; [apply (replay_list p Es cs []); auto; congruence|]. reflexivity.
Qed.

Lemma bunch_replayed p slices b h b' h' : z_slicemode p = false -> interacts (q_info b) = Some true -> h_map h = None -> h_tracks h = 0%nat ->
  track_once_bunch p slices b h = Some (b', h') ->
  exists g Es hN j, reinitialize p (with_flags true (with_fld true (h_flags h)) h) = Some g /\ sliced p (slices b) (sl_n (slices b)) b g Es b' hN /\
    b' = slice_kicks (z_kx p) (z_ky p) p (fun i => sl_idx (slices b) (Z.of_nat i)) Es (sl_n (slices b)) b /\ h_map h' = Some j /\
    forall c, sl_n (slices c) = sl_n (slices b) -> from_end (slices c) -> moving p c -> of_beam c (slices c) ->
      map_track p j slices c = Some (slice_kicks true true p (fun i => sl_idx (slices c) (Z.of_nat i)) Es (sl_n (slices c)) c).
Proof.
  intros SM HI HM HT H. destruct (once_bunch _ _ _ _ _ _ SM HI HM HT H) as (g & Es & hN & G & S & L & B & M).
  exists g, Es, hN, (mkFmap Es 0). repeat (split; [auto|]). intros c N FE MO OB. apply replay_bunch; auto. congruence.
Qed.

Lemma same_slices_again p bs h bs' h' : z_kx p = true -> z_ky p = true -> Forall (fun b => interacts (q_info b) = Some true) bs -> Forall (fun b => first_of_all b = false) (tl bs) -> h_map h = None ->
  Forall (moving p) bs -> Forall is_slice bs -> track_once_slices p bs h = Some (bs', h') ->
  exists j j', h_map h' = Some j /\ map_track_list p j bs = Some (bs', j').
Proof.
  intros KX KY FI FF HM MO IS H. destruct (slices_replayed _ _ _ _ _ FI FF HM H) as (g & Es & hN & j & _ & _ & B & M & _ & A).
  rewrite KX, KY in B. destruct (A bs eq_refl MO IS) as (j' & A' & _). exists j, j'. split; auto. congruence.
Qed.

Lemma same_bunch_again p slices b h b' h' : z_kx p = true -> z_ky p = true -> z_slicemode p = false -> interacts (q_info b) = Some true -> h_map h = None -> h_tracks h = 0%nat ->
  from_end (slices b) -> moving p b -> of_beam b (slices b) -> track_once_bunch p slices b h = Some (b', h') ->
  exists j, h_map h' = Some j /\ map_track p j slices b = Some b'.
Proof.
  intros KX KY SM HI HM HT FE MO OB H. destruct (bunch_replayed _ _ _ _ _ _ SM HI HM HT H) as (g & Es & hN & j & _ & _ & B & M & A).
  rewrite KX, KY in B. exists j. split; auto. rewrite (A b); auto. congruence.
Qed.

Lemma replaced_flags h h' : replace_with_recorded_field_map (with_flags false (with_fld false (h_flags h)) h) = Some h' ->
  h_once h' = false /\ h_flags h' = mkFlags (w_rho (h_flags h)) false (w_bfld (h_flags h)) (w_mp (h_flags h)) (w_probe (h_flags h)).
Proof.
  unfold replace_with_recorded_field_map. cbn [with_flags h_map h_fld]. destruct (h_map h); [intros H; injection H as <-; cbn; auto|].
  destruct (h_fld h); try discriminate. intros H; injection H as <-; cbn; auto.
Qed.
Lemma slices_flags p bs h bs' h' : track_once_slices p bs h = Some (bs', h') -> h_once h' = false /\ w_fld (h_flags h') = false.
Proof.
  unfold track_once_slices. cbv zeta. destruct (reinitialize _ _); [|discriminate]. cbn [bind]. destruct (track_list _ _ _) as [[r h1]|]; [|discriminate]. cbn [bind].
  destruct (finalize h1) as [h2|]; [|discriminate]. cbn [bind]. destruct (replace_with_recorded_field_map _) as [h3|] eqn:E; [|discriminate]. cbn [bind]. intros H. injection H as _ <-.
  apply replaced_flags in E. destruct E as [A B]. rewrite B. auto.
Qed.
Lemma bunch_flags p sl b h b' h' : track_once_bunch p sl b h = Some (b', h') -> h_once h' = false /\ w_fld (h_flags h') = false.
Proof.
  unfold track_once_bunch. cbv zeta. destruct (track_bunch _ _ _ _) as [[r h1]|]; [|discriminate]. cbn [bind].
  destruct (replace_with_recorded_field_map _) as [h3|] eqn:E; [|discriminate]. cbn [bind]. intros H. injection H as _ <-.
  apply replaced_flags in E. destruct E as [A B]. rewrite B. auto.
Qed.

Lemma ctor_accepts p m fl b0 :
  (ecloud_ctor p m fl b0 <> None <-> e_boris (z_env p) = true /\ (List.length (m_clouds m) <= 1)%nat) /\
  forall p' h, ecloud_ctor p m fl b0 = Some (p', h) -> h_sim h = m /\ h_t h = 0 /\ h_bunch h = (-1)%Z /\ h_reinit h = 0%nat /\ h_tracks h = 0%nat.
Proof.
  unfold ecloud_ctor. destruct (e_boris (z_env p)); cbn [negb orb].
  - destruct (Nat.ltb_spec 1 (List.length (m_clouds m))) as [H|H].
    + split; [split; [congruence|intros (_ & Q); lia]|discriminate].
    + split; [split; [auto|discriminate]|]. intros p' h E. injection E as <- <-. auto.
  - split; [split; [congruence|intros (Q & _); discriminate]|discriminate].
Qed.
