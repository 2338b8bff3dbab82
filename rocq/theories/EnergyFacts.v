(** Facts about the electric energy. *)
From Coq Require Import String Lra Lia.
From Verif Require Import Num NumFacts MP Impact SpecImpact Beam SpecBeam CrossIon SpecCrossIon Sim SpecSim Saver SpecSaver SaverFacts6 Whole SpecWhole WholeFacts5 Energy SpecEnergy.
Local Open Scope list_scope.
Local Open Scope R_scope.

Lemma arange_cells a h : 0 < h -> 0 < a ->
  exists n, (0 < n)%nat /\ arange (- a * (101/100)) (a * (101/100)) h = map (edge a h) (seq 0 n) /\ cells a h n /\ 202/100 * a <= INR n * h < 202/100 * a + h.
Proof.
  intros H A. set (q := (a * (101/100) - - a * (101/100)) / h). exists (Z.to_nat (rceil q)).
  assert (Q : 0 < q) by (unfold q; apply Rdiv_lt_0_compat; lra).
  assert (Qh : q * h = 202/100 * a) by (unfold q; field; lra).
  destruct (rceil_bounds q) as [C1 C2]. assert (Z0 : (0 < rceil q)%Z) by (apply lt_IZR; lra).
  assert (E : INR (Z.to_nat (rceil q)) = IZR (rceil q)) by (rewrite INR_IZR_INZ, Z2Nat.id by lia; reflexivity).
  set (n := Z.to_nat (rceil q)) in *.
  split; [lia|]. split; [|split; [split|]].
  - unfold arange. fold q. fold n. apply map_ext. intros i. unfold edge. lra.
  - intros s [S1 S2]. set (u := (s + 101/100 * a) / h). assert (Uh : u * h = s + 101/100 * a) by (unfold u; field; lra).
    assert (U0 : 0 <= u) by (apply (Rmult_le_reg_r h); lra). assert (U1 : u < q) by (apply (Rmult_lt_reg_r h); lra).
    destruct (rfloor_bounds u) as [F1 F2]. assert (FZ : (0 <= rfloor u)%Z) by (assert (-1 < rfloor u)%Z; [apply lt_IZR; lra|lia]).
    assert (FE : INR (Z.to_nat (rfloor u)) = IZR (rfloor u)) by (rewrite INR_IZR_INZ, Z2Nat.id by lia; reflexivity).
    exists (Z.to_nat (rfloor u)). split.
    + split; [apply INR_lt; lra|]. unfold edge. rewrite FE. assert (IZR (rfloor u) * h <= u * h) by (apply Rmult_le_compat_r; lra).
      assert (u * h < (IZR (rfloor u) + 1) * h) by (apply Rmult_lt_compat_r; lra). lra.
    + intros i [I1 [I2 I3]]. unfold edge in I2, I3.
      assert (L1 : INR i <= u) by (apply (Rmult_le_reg_r h); lra). assert (L2 : u < INR i + 1) by (apply (Rmult_lt_reg_r h); lra).
      assert (G1 : INR (Z.to_nat (rfloor u)) < INR (S i)) by (rewrite S_INR; lra). assert (G2 : INR i < INR (S (Z.to_nat (rfloor u)))) by (rewrite S_INR; lra).
      apply INR_lt in G1, G2. lia.
  - intros i Hi. unfold edge. assert (I1 : INR i + 1 <= INR n) by (rewrite <- S_INR; apply le_INR; lia).
    assert (INR i * h < q * h) by (apply Rmult_lt_compat_r; lra). lra.
  - rewrite E. split; [rewrite <- Qh; apply Rmult_le_compat_r; lra|].
    assert (IZR (rceil q) * h < (q + 1) * h) by (apply Rmult_lt_compat_r; lra). lra.
Qed.

Lemma map2_mesh {A B C} (f : A -> B -> C) xs ys :
  map2 f (flat_map (fun x => map (fun _ => x) ys) xs) (flat_map (fun _ => ys) xs) = flat_map (fun x => map (f x) ys) xs.
Proof.
  induction xs as [|x xs IH]; [reflexivity|]. cbn [flat_map].
  assert (G : forall l a b, map2 f (map (fun _ => x) l ++ a) (l ++ b) = map (f x) l ++ map2 f a b).
  { induction l as [|y l IHl]; intros a b; [reflexivity|]. cbn [map app map2]. f_equal. apply IHl. }
  rewrite G, IH. reflexivity.
Qed.
Lemma rsum_flat_map {A B} (g : B -> R) (f : A -> list B) l : rsum (map g (flat_map f l)) = rsum (map (fun x => rsum (map g (f x))) l).
Proof. induction l as [|x l IH]; [reflexivity|]. cbn [flat_map map]. rewrite map_app, rsum_app, IH, rsum_cons. reflexivity. Qed.

Lemma ctor_energy eps0 qe c h : 0 < h -> 0 < x_aper c -> 0 < y_aper c -> qe <> 0 ->
  exists u nx ny, sampling_ctor c (Some h) = Some (Some u) /\ cells (x_aper c) h nx /\ cells (y_aper c) h ny /\ (0 < nx)%nat /\ (0 < ny)%nat /\
    202/100 * x_aper c <= INR nx * h < 202/100 * x_aper c + h /\ 202/100 * y_aper c <= INR ny * h < 202/100 * y_aper c + h /\
    forall sc, get_potential_electric_energy eps0 qe (Some u) sc = Some (field_energy eps0 qe (sc_fld sc) (x_aper c) (y_aper c) h nx ny).
Proof.
  intros H A B Q. destruct (arange_cells _ h H A) as (nx & N1 & EX & CX & WX). destruct (arange_cells _ h H B) as (ny & N2 & EY & CY & WY).
  unfold sampling_ctor. rewrite (proj2 (Reqb_false h 0)) by lra. eexists. exists nx, ny. split; [reflexivity|]. repeat (split; [assumption|]).
  intros sc. rewrite EX, EY. unfold get_potential_electric_energy. cbn [u_x u_y u_h]. rewrite map2_mesh. f_equal. unfold field_energy.
  assert (E : forall (f : R -> R -> R * R), rsum (map (fun p => fst p ^ 2 + snd p ^ 2) (flat_map (fun x => map (f x) (map (edge (y_aper c) h) (seq 0 ny))) (map (edge (x_aper c) h) (seq 0 nx))))
    = field_squares f (x_aper c) (y_aper c) h nx ny).
  { intros f. rewrite rsum_flat_map, map_map. unfold field_squares. f_equal. apply map_ext. intros i. rewrite !map_map. f_equal. apply map_ext. intros j.
    destruct (f (edge (x_aper c) h i) (edge (y_aper c) h j)) as [ex ey]. cbn [fst snd]. ring. }
  rewrite E. field. exact Q.
Qed.

Lemma ctor_missing eps0 qe c sc : exists u, sampling_ctor c None = Some u /\ get_potential_electric_energy eps0 qe u sc = None.
Proof. exists None. auto. Qed.

(** * Size of the energy *)
Lemma seq_Forall (P : nat -> Prop) n s : (forall i, (s <= i < s + n)%nat -> P i) -> Forall P (seq s n).
Proof. intros H. apply Forall_forall. intros i Hi. apply in_seq in Hi. apply H. lia. Qed.
Lemma squares_bounds f a b h nx ny lo hi :
  (forall i j, (i < nx)%nat -> (j < ny)%nat -> lo <= (let '(ex, ey) := f (edge a h i) (edge b h j) in ex * ex + ey * ey) <= hi) ->
  INR nx * (INR ny * lo) <= field_squares f a b h nx ny <= INR nx * (INR ny * hi).
Proof.
  intros H. unfold field_squares.
  assert (G : forall (g : nat -> R) n l u, (forall i, (i < n)%nat -> l <= g i <= u) -> INR n * l <= rsum (map g (seq 0 n)) <= INR n * u).
  { intros g n. induction n as [|n IH]; intros l u L; [cbn [seq map]; change (INR 0) with 0; change (rsum []) with 0; lra|]. rewrite seq_S, map_app, rsum_app, S_INR. cbn [map Nat.add].
    rewrite rsum_cons. destruct (IH l u) as [I1 I2]; [intros i Hi; apply L; lia|]. destruct (L n ltac:(lia)) as [L1 L2]. replace (rsum []) with 0 by reflexivity. lra. }
  apply G. intros i Hi. apply G. intros j Hj. apply H; assumption.
Qed.

Lemma squares_nonneg f a b h nx ny : 0 <= field_squares f a b h nx ny.
Proof.
  unfold field_squares. apply rsum_nonneg. apply Forall_map. apply seq_Forall. intros i _. apply rsum_nonneg. apply Forall_map. apply seq_Forall. intros j _.
  destruct (f _ _) as [ex ey]. assert (S1 := Rle_0_sqr ex). assert (S2 := Rle_0_sqr ey). unfold Rsqr in *. lra.
Qed.

Lemma energy_nonneg eps0 qe f a b h nx ny : 0 < eps0 -> 0 < qe -> 0 <= field_energy eps0 qe f a b h nx ny.
Proof.
  intros E Q. unfold field_energy. apply Rmult_le_pos; [left; apply Rdiv_lt_0_compat; lra|]. apply Rmult_le_pos; [apply squares_nonneg|].
  assert (S := Rle_0_sqr h). unfold Rsqr in S. exact S.
Qed.

Lemma rsum_zero_iff l : Forall (fun x => 0 <= x) l -> (rsum l = 0 <-> Forall (fun x => x = 0) l).
Proof.
  intros P. split; [|apply rsum_0]. induction P as [|x l Hx P IH]; [constructor|]. rewrite rsum_cons. intros H. assert (N := rsum_nonneg _ P).
  constructor; [lra|apply IH; lra].
Qed.

Lemma energy_zero eps0 qe f a b h nx ny : 0 < eps0 -> 0 < qe -> 0 < h ->
  (field_energy eps0 qe f a b h nx ny = 0 <-> forall i j, (i < nx)%nat -> (j < ny)%nat -> f (edge a h i) (edge b h j) = (0, 0)).
Proof.
  intros E Q H. assert (K : 0 < eps0 / (2 * qe)) by (apply Rdiv_lt_0_compat; lra). assert (HH : 0 < h * h) by nra.
  assert (SQ : forall i j, 0 <= (let '(ex, ey) := f (edge a h i) (edge b h j) in ex * ex + ey * ey)).
  { intros i j. destruct (f _ _) as [ex ey]. assert (S1 := Rle_0_sqr ex). assert (S2 := Rle_0_sqr ey). unfold Rsqr in *. lra. }
  unfold field_energy. split.
  - intros Z i j Hi Hj. apply Rmult_integral in Z. destruct Z as [Z|Z]; [lra|]. apply Rmult_integral in Z. destruct Z as [Z|Z]; [|lra].
    unfold field_squares in Z. apply rsum_zero_iff in Z; [|apply Forall_map, seq_Forall; intros k _; apply rsum_nonneg, Forall_map, seq_Forall; intros; apply SQ].
    rewrite Forall_map, Forall_forall in Z. specialize (Z i ltac:(apply in_seq; lia)). cbv beta in Z.
    apply rsum_zero_iff in Z; [|apply Forall_map, seq_Forall; intros; apply SQ]. rewrite Forall_map, Forall_forall in Z. specialize (Z j ltac:(apply in_seq; lia)). cbv beta in Z.
    destruct (f (edge a h i) (edge b h j)) as [ex ey]. assert (S1 := Rle_0_sqr ex). assert (S2 := Rle_0_sqr ey). unfold Rsqr in *.
    f_equal; apply Rsqr_0_uniq; unfold Rsqr; lra.
  - intros Z. replace (field_squares f a b h nx ny) with 0; [ring|]. symmetry. unfold field_squares. apply rsum_0, Forall_map, seq_Forall. intros i Hi. apply rsum_0, Forall_map, seq_Forall.
    intros j Hj. rewrite Z by lia. ring.
Qed.

Lemma energy_scale eps0 qe f a b h nx ny k :
  field_energy eps0 qe (fun x y => let '(ex, ey) := f x y in (k * ex, k * ey)) a b h nx ny = k * k * field_energy eps0 qe f a b h nx ny.
Proof.
  unfold field_energy. replace (field_squares _ a b h nx ny) with (k * k * field_squares f a b h nx ny); [ring|]. unfold field_squares.
  rewrite <- rsum_map_scal. f_equal. apply map_ext. intros i. rewrite <- rsum_map_scal. f_equal. apply map_ext. intros j. destruct (f _ _). ring.
Qed.

Lemma energy_size eps0 qe f a b h nx ny M : 0 < eps0 -> 0 < qe -> 0 < h -> 0 <= M ->
  (forall i j, (i < nx)%nat -> (j < ny)%nat -> (let '(ex, ey) := f (edge a h i) (edge b h j) in ex * ex + ey * ey) <= M) ->
  INR nx * h < 202/100 * a + h -> INR ny * h < 202/100 * b + h ->
  field_energy eps0 qe f a b h nx ny <= eps0 / (2 * qe) * (M * ((202/100 * a + h) * (202/100 * b + h))).
Proof.
  intros E Q H M0 B X Y. unfold field_energy. apply Rmult_le_compat_l; [left; apply Rdiv_lt_0_compat; lra|].
  destruct (squares_bounds f a b h nx ny 0 M) as [_ S].
  { intros i j Hi Hj. split; [|apply B; assumption]. destruct (f _ _) as [ex ey]. assert (S1 := Rle_0_sqr ex). assert (S2 := Rle_0_sqr ey). unfold Rsqr in *. lra. }
  apply Rle_trans with (INR nx * (INR ny * M) * (h * h)); [apply Rmult_le_compat_r; [nra|exact S]|].
  replace (INR nx * (INR ny * M) * (h * h)) with (M * ((INR nx * h) * (INR ny * h))) by ring. apply Rmult_le_compat_l; [exact M0|].
  assert (P1 : 0 <= INR nx * h) by (apply Rmult_le_pos; [apply pos_INR|lra]). assert (P2 : 0 <= INR ny * h) by (apply Rmult_le_pos; [apply pos_INR|lra]).
  apply Rmult_le_compat; lra.
Qed.

Lemma energy_uniform eps0 qe f a b h nx ny ex ey : (forall i j, (i < nx)%nat -> (j < ny)%nat -> f (edge a h i) (edge b h j) = (ex, ey)) ->
  field_energy eps0 qe f a b h nx ny = eps0 / (2 * qe) * ((ex * ex + ey * ey) * ((INR nx * h) * (INR ny * h))).
Proof.
  intros H. unfold field_energy. destruct (squares_bounds f a b h nx ny (ex * ex + ey * ey) (ex * ex + ey * ey)) as [S1 S2].
  { intros i j Hi Hj. rewrite H by assumption. lra. }
  replace (field_squares f a b h nx ny) with (INR nx * (INR ny * (ex * ex + ey * ey))) by lra. ring.
Qed.

(** * What is recorded *)
Lemma shown_energy e y j : forall l m rs tr rs1 steps, whole_run e y l m rs = Some (tr, rs1) -> shown_run e y j l (m :: map snd tr) = Some steps ->
  Forall2 (fun p (st : step) => ob_elec (fst st) = y_elec y (m_sc (fst p)) /\ ob_U (fst st) = y_U y (m_sc (fst p)) /\ ob_check (fst st) = sc_check (m_sc (fst p))) tr steps.
Proof.
  induction l as [|q l IH]; intros m rs tr rs1 steps H S.
  - cbn in H. injection H as <- <-. cbn in S. injection S as <-. constructor.
  - cbn [whole_run] in H. unfold whole_step in H. destruct (step_main e (q_args q) (q_main q) (q_secs q) m) as [m1|] eqn:E1; cbn [bind] in H; [|discriminate].
    destruct (save_output y (q_main q) (q_pass q) m1 rs (m_clouds m1)) as [[rs2 cl]|]; cbn [bind] in H; [|discriminate].
    destruct (clean_loop e (q_args q) (ti_new (q_main q)) (m_k m1) cl) as [[cl2 k2]|]; cbn [bind] in H; [|discriminate].
    destruct (whole_run e y l _ rs2) as [[t1 r1]|] eqn:E2; cbn [bind] in H; [|discriminate]. injection H as <- <-.
    cbn [map snd shown_run] in S. unfold shown in S. rewrite E1 in S. cbn [bind] in S. destruct (nth_error (m_clouds m1) j) as [c|]; cbn [bind] in S; [|discriminate].
    destruct (step_main e (q_args q) (q_main q) (q_secs q) (emptied m)) as [m2|]; cbn [bind] in S; [|discriminate].
    destruct (nth_error (m_clouds m2) j) as [d|]; cbn [bind] in S; [|discriminate].
    destruct (shown_run e y j l _) as [ss|] eqn:E3; cbn [bind] in S; [|discriminate]. injection S as <-.
    constructor; [cbn [fst observe ob_elec ob_U ob_check m_sc]; auto|]. eapply IH; [exact E2|exact E3].
Qed.

Lemma output_energy e y l m rs tr rs1 j k c w n eps0 qe u : chamber_ok e -> Forall (fun q => args_ok (q_args q) /\ Forall beam_ok (q_main q :: q_secs q)) l ->
  sound_sim e m -> whole_run e y l m rs = Some (tr, rs1) -> Forall xion_ok (m :: map snd tr) -> Forall (fun p => m_full (snd p) = false) tr ->
  nth_error (m_clouds m) j = Some k -> o_iman k = blank w -> nth_error rs j = Some (Some (mkRecorder c (start_observing c n) None)) ->
  cfg_ok c -> widths_ok c w -> (0 < n)%nat -> (forall x y, w_out (e_wall e) x y = false -> k_bias (c_ic c) <= x) ->
  c_elec c = true -> (forall sc, get_potential_electric_energy eps0 qe u sc = Some (y_elec y sc)) ->
  exists steps r1 d gs rest, nth_error rs1 j = Some (Some r1) /\ build_outp_dict c (r_st r1) = Some d /\
    Forall2 (fun p (st : step) => get_potential_electric_energy eps0 qe u (m_sc (fst p)) = Some (ob_elec (fst st))) tr steps /\
    steps = concat gs ++ rest /\ groups (sample_due c) (-1) gs rest /\
    get d "En_electric_eV_time" = Some (VArr (map (now ob_elec) gs)).
Proof.
  intros CO OK SS H XO NF C IM R CF WI N0 BI EL YE.
  destruct (output_samples _ _ _ _ _ _ _ _ _ _ _ _ CO OK SS H XO NF C IM R CF WI N0 BI) as (steps & r1 & d & gs & rest & A1 & A2 & A3 & A4 & A5 & A6 & A7).
  exists steps, r1, d, gs, rest. repeat (split; [assumption|]). split; [|split; [assumption|split; [assumption|]]].
  - pose proof (shown_energy _ _ _ _ _ _ _ _ _ H A1) as F. clear - F YE. induction F as [|p st tr steps (F1 & _) F IH]; constructor; [|exact IH]. rewrite YE, F1. reflexivity.
  - apply A7. apply in_or_app. left. unfold columns. rewrite EL. apply in_or_app. right. apply in_or_app. right. apply in_or_app. right. left. reflexivity.
Qed.

Lemma output_U e y l m rs tr rs1 j k c w n : chamber_ok e -> Forall (fun q => args_ok (q_args q) /\ Forall beam_ok (q_main q :: q_secs q)) l ->
  sound_sim e m -> whole_run e y l m rs = Some (tr, rs1) -> Forall xion_ok (m :: map snd tr) -> Forall (fun p => m_full (snd p) = false) tr ->
  nth_error (m_clouds m) j = Some k -> o_iman k = blank w -> nth_error rs j = Some (Some (mkRecorder c (start_observing c n) None)) ->
  cfg_ok c -> widths_ok c w -> (0 < n)%nat -> (forall x y, w_out (e_wall e) x y = false -> k_bias (c_ic c) <= x) ->
  (forall sc, y_U y sc = U_sc_eV_stp sc) ->
  exists r1 d us, nth_error rs1 j = Some (Some r1) /\ build_outp_dict c (r_st r1) = Some d /\ get d "U_sc_eV" = Some (VArr us) /\
    List.length us = List.length (filter (fun p => sc_check (m_sc (fst p))) tr) /\ Forall (fun v => v = 0) us.
Proof.
  intros CO OK SS H XO NF C IM R CF WI N0 BI YU.
  destruct (output_main _ _ _ _ _ _ _ _ _ _ _ _ CO OK SS H XO NF C IM R CF WI N0 BI) as (steps & r1 & g & A & B & ST & SO & F).
  destruct (run_recorded c w n steps CF WI N0 SO) as (s & g' & file & d & gs & rest & ps & prest & hs & hrest & S1 & S2 & _ & _ & _ & _ & _ & _ & RC).
  rewrite ST in S1. injection S1 as <- _ _. exists r1, d, (sc_energies steps). split; [exact B|]. split; [exact S2|]. split; [exact (rec_Usc _ _ _ _ _ _ _ RC)|].
  pose proof (shown_energy _ _ _ _ _ _ _ _ _ H A) as G. clear - G YU. unfold sc_energies. induction G as [|p st tr steps (G1 & G2 & G3) G IH]; [split; constructor|].
  cbn [filter]. rewrite G3. destruct (sc_check (m_sc (fst p))); [|exact IH]. destruct IH as [I1 I2]. cbn [map List.length]. split; [f_equal; exact I1|]. constructor; [|exact I2].
  rewrite G2, YU. reflexivity.
Qed.
