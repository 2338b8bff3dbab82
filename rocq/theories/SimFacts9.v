(** The forces in a step. *)
From Coq Require Import String Lra Lia.
From Verif Require Import Num NumFacts MP SpecMP MPFacts Push SpecPush PushFacts PushOde PushFacts2 SpecMagnet PushFacts4 Geom Poly Sey Impact SpecImpact Beam SpecBeam BeamFacts
  Source SpecSource CrossIon SpecCrossIon Sim SpecSim SimFacts SimFacts2 SimFacts7.
Local Open Scope list_scope.
Local Open Scope R_scope.

Lemma gather_is sc main secs f0 fs s : acts main f0 -> Forall2 acts secs fs ->
  exists E, gather_field sc false main secs s = Some E /\ forall i, (i < N_mp s)%nat -> E i = force_at sc (f0 :: fs) (get6 s i).
Proof.
  intros A0 AS. unfold gather_field, total_field, field_from_beams. destruct (A0 (mp_pos s)) as [B1 B2]. destruct (ti_f main (mp_pos s)) as [ex ey]. cbn [fst snd] in B1, B2.
  destruct (beams_is _ _ _ AS _ _ _ _ B1 B2) as (rx & ry & -> & RX & RY). cbn [bind].
  assert (V : forall g : R * R -> R, fld_is (mp_pos s) (Vec (map g (map (fun p => sc_fld sc (fst p) (snd p)) (mp_pos s)))) (fun p => g (sc_fld sc (fst p) (snd p)))) by (intros g; cbn; apply map_map).
  destruct (fadd_is _ _ _ _ _ (V fst) RX) as (cx & -> & CX). destruct (fadd_is _ _ _ _ _ (V snd) RY) as (cy & -> & CY). cbn [bind].
  eexists. split; [reflexivity|]. intros i Hi. cbv beta.
  assert (LP : List.length (mp_pos s) = N_mp s) by (unfold mp_pos; rewrite map_length, seq_length; reflexivity).
  rewrite (fld_is_at _ _ _ i (0, 0) CX), (fld_is_at _ _ _ i (0, 0) CY) by lia.
  assert (NP : nth i (mp_pos s) (0, 0) = (px (get6 s i), py (get6 s i))).
  { unfold mp_pos. rewrite (nth_indep _ (0, 0) ((fun i => (nth i (x_mp s) 0, nth i (y_mp s) 0)) 0%nat)) by (rewrite map_length, seq_length; exact Hi).
    rewrite (map_nth (fun i => (nth i (x_mp s) 0, nth i (y_mp s) 0))), seq_nth by exact Hi. reflexivity. }
  rewrite NP. unfold force_at. cbn [map fst snd]. unfold rsum. cbn [fold_right]. reflexivity.
Qed.

Lemma custom_noB charge mass E h n s i : (i < N_mp s)%nat ->
  accelerated (charge / mass) (E i) h n (get6 s i) (get6 (boris_stepcustomDt charge mass (B_none 0 0 0) E h n s) i).
Proof.
  intros Hi. destruct n as [|n].
  - unfold accelerated, boris_stepcustomDt. rewrite push_get by exact Hi. cbn [boris_substeps INR]. cbv zeta. repeat split; lra.
  - assert (N0 : INR (S n) <> 0) by (apply not_0_INR; lia). destruct (boris_step_noB charge mass E (INR (S n) * h) (S n) s i Hi ltac:(lia)) as (A & B & C & D & F & G).
    unfold boris_step in *. replace (INR (S n) * h / INR (S n)) with h in * by (field; exact N0). unfold accelerated. cbv zeta. auto 10.
Qed.

Lemma pieces_of e a main d sub : sub_steps e a main d = Some sub -> 
  match sub with Some (h, n) => pieces a main d h n | None => s_Nsub a = None /\ ti_unif main = true /\ d_Nsub d = None end.
Proof.
  unfold sub_steps, pieces. destruct (s_Nsub a) as [n|] eqn:NS.
  - destruct (e_boris e); [|discriminate]. destruct (s_Dtsub a) as [h|] eqn:DS; [|discriminate]. cbn [bind]. intros H. injection H as <-. left. auto.
  - destruct (ti_unif main); cbn [negb].
    + destruct (d_Nsub d) as [n|]; [|intros H; injection H as <-; auto]. destruct (Nat.eqb n 0); [discriminate|]. intros H. injection H as <-. right. left. auto.
    + destruct (e_boris e); [|discriminate]. destruct (d_Nsub d) as [m|]; [|discriminate]. cbn [bind]. destruct (Nat.eqb m 0 || Reqb (d_Dt d) 0); [discriminate|].
      cbv zeta. intros H. injection H as <-. right. right. split; [reflexivity|]. split; [reflexivity|]. exists m. auto.
Qed.

Lemma motion_forces e a main secs sc c s f0 fs s' : s_kick a = false -> e_reinterp e = false -> s_force_re a = false -> acts main f0 -> Forall2 acts secs fs ->
  cloud_motion e a main secs sc c s = Some s' ->
  exists E, (forall i, (i < N_mp s)%nat -> E i = force_at sc (f0 :: fs) (get6 s i)) /\
    ((s_Nsub a = None /\ ti_unif main = true /\ d_Nsub (a_dyn c) = None /\ s' = d_step (a_dyn c) E s) \/
     exists h n, pieces a main (a_dyn c) h n /\ s' = d_custom (a_dyn c) E h n s).
Proof.
  intros K R1 R2 A0 AS H. unfold cloud_motion in H. destruct (sub_steps _ _ _ _) as [sub|] eqn:SB; [|discriminate]. cbn [bind] in H. rewrite K, R1, R2 in H. cbn [bind orb] in H.
  destruct (gather_is sc main secs f0 fs s A0 AS) as (E & G & EF). exists E. split; [exact EF|]. apply pieces_of in SB.
  destruct sub as [[h n]|]; cbn [motion_loop] in H; rewrite G in H; cbn [bind] in H; injection H as <-.
  - right. exists h, n. auto.
  - left. intuition.
Qed.

Lemma motion_forces_loop a main secs sc c f0 fs h q m D N : a_dyn c = boris_dyn q m (B_none 0 0 0) D N -> acts main f0 -> Forall2 acts secs fs -> s_kick a = false ->
  forall n s s', motion_loop n (fun E s => d_custom (a_dyn c) E h 1 s) sc (s_kick a) main secs s = Some s' ->
  in_a_row (fun s1 s2 => N_mp s2 = N_mp s1 /\ forall i, (i < N_mp s1)%nat -> accelerated (q / m) (force_at sc (f0 :: fs) (get6 s1 i)) h 1 (get6 s1 i) (get6 s2 i)) n s s'.
Proof.
  intros HD A0 AS K. rewrite K. induction n as [|n IH]; intros s s' H; cbn [motion_loop] in H; [injection H as <-; constructor|].
  destruct (gather_is sc main secs f0 fs s A0 AS) as (E & G & EF). rewrite G in H. cbn [bind] in H. eapply RowS; [|apply IH; exact H].
  rewrite HD. cbn [boris_dyn d_custom]. split; [reflexivity|]. intros i Hi. rewrite <- (EF i Hi). apply custom_noB. exact Hi.
Qed.

Lemma motion_pieces e a main secs sc c s f0 fs s' q m D N : a_dyn c = boris_dyn q m (B_none 0 0 0) D N -> 
  s_kick a = false -> e_reinterp e = true \/ s_force_re a = true -> acts main f0 -> Forall2 acts secs fs ->
  cloud_motion e a main secs sc c s = Some s' ->
  exists h n, pieces a main (a_dyn c) h n /\
  in_a_row (fun s1 s2 => N_mp s2 = N_mp s1 /\ forall i, (i < N_mp s1)%nat -> accelerated (q / m) (force_at sc (f0 :: fs) (get6 s1 i)) h 1 (get6 s1 i) (get6 s2 i)) n s s'.
Proof.
  intros HD K RE A0 AS H. unfold cloud_motion in H. destruct (sub_steps _ _ _ _) as [sub|] eqn:SB; [|discriminate]. cbn [bind] in H.
  replace (e_reinterp e || s_force_re a) with true in H by (destruct RE as [-> | ->]; [reflexivity|symmetry; apply Bool.orb_true_r]).
  assert (K' := K). rewrite K in H. cbn [bind] in H. rewrite <- K' in H. apply pieces_of in SB. destruct sub as [[h n]|]; [|discriminate]. exists h, n. split; [exact SB|].
  eapply motion_forces_loop; eauto.
Qed.

Lemma motion_free e a main secs sc c s f0 fs s' q m D N : a_dyn c = boris_dyn q m (B_none 0 0 0) D N -> 
  s_kick a = false -> e_reinterp e = false -> s_force_re a = false -> acts main f0 -> Forall2 acts secs fs ->
  cloud_motion e a main secs sc c s = Some s' ->
  exists h n, pieces a main (a_dyn c) h n /\ N_mp s' = N_mp s /\
    forall i, (i < N_mp s)%nat -> accelerated (q / m) (force_at sc (f0 :: fs) (get6 s i)) h n (get6 s i) (get6 s' i).
Proof.
  intros HD K R1 R2 A0 AS H. destruct (motion_forces e a main secs sc c s f0 fs s' K R1 R2 A0 AS H) as (E & EF & [(_ & _ & X & _)|(h & n & P & ->)]).
  - rewrite HD in X. discriminate.
  - exists h, n. split; [exact P|]. rewrite HD. cbn [boris_dyn d_custom]. split; [reflexivity|]. intros i Hi. rewrite <- (EF i Hi). apply custom_noB. exact Hi.
Qed.

Lemma motion_strongB e a main secs sc c s f0 fs s' Dt B0x B0y src thr : a_dyn c = strongB_dyn Dt B0x B0y src thr -> 0 < thr ->
  s_kick a = false -> s_Nsub a = None -> e_reinterp e = false -> s_force_re a = false -> acts main f0 -> Forall2 acts secs fs ->
  cloud_motion e a main secs sc c s = Some s' -> N_mp s' = N_mp s /\
  forall i b, (i < N_mp s)%nat -> magnet src (px (get6 s i)) (py (get6 s i)) b ->
    let Bx := fst b + B0x in let By := snd b + B0y in thr <= sqrt (Bx * Bx + By * By) ->
    exists q, q 0 = get6 s i /\ (forall t, lorentz qm_e (force_at sc (f0 :: fs) (get6 s i)) (Bx, By) q t) /\ get6 s' i = q Dt.
Proof.
  intros HD T1 K KN R1 R2 A0 AS H. destruct (motion_forces e a main secs sc c s f0 fs s' K R1 R2 A0 AS H) as (E & EF & [(_ & _ & X & ->)|(h & n & P & _)]).
  - rewrite HD. cbn [strongB_dyn d_step]. split; [reflexivity|]. intros i b Hi HM T2. exists (fun t => strongB_one t B0x B0y src thr (E i) (get6 s i)).
    split; [apply strongB_start; exact T1|]. split; [|unfold strongB_step; apply push_get; exact Hi].
    rewrite <- (EF i Hi). destruct (E i) as [Ex Ey]. apply (magnet_motion src B0x B0y thr Ex Ey (get6 s i) b T1 HM). exact T2.
  - exfalso. rewrite HD in P. unfold pieces in P. cbn [strongB_dyn d_Nsub] in P. destruct P as [(P & _)|[(_ & _ & P & _)|(_ & _ & m & P & _)]]; congruence.
Qed.

Lemma motion_dipole e a main secs sc c s f0 fs s' Dt B : a_dyn c = dipole_dyn Dt B -> 1 / 10000 <= Rabs (B * qm_e * Dt) ->
  s_kick a = false -> s_Nsub a = None -> e_reinterp e = false -> s_force_re a = false -> acts main f0 -> Forall2 acts secs fs ->
  cloud_motion e a main secs sc c s = Some s' -> N_mp s' = N_mp s /\
  forall i, (i < N_mp s)%nat -> exists q, q 0 = get6 s i /\ (forall t, lorentz qm_e (force_at sc (f0 :: fs) (get6 s i)) (0, B) q t) /\ get6 s' i = q Dt.
Proof.
  intros HD TH K KN R1 R2 A0 AS H. destruct (motion_forces e a main secs sc c s f0 fs s' K R1 R2 A0 AS H) as (E & EF & [(_ & _ & X & ->)|(h & n & P & _)]).
  - assert (B0 : 0 < Rabs B).
    { apply Rabs_pos_lt. intros ->. replace (0 * qm_e * Dt) with 0 in TH by ring. rewrite Rabs_R0 in TH. lra. }
    rewrite HD. cbn [dipole_dyn d_step]. rewrite <- (strongB_dipole_step Dt B (Rabs B)) by (auto; lra). split; [reflexivity|].
    intros i Hi. exists (fun t => strongB_one t 0 B SrcNone (Rabs B) (E i) (get6 s i)).
    split; [apply strongB_start; exact B0|]. split; [|unfold strongB_step; apply push_get; exact Hi].
    intros t. rewrite <- (EF i Hi). destruct (E i) as [Ex Ey]. apply strongB_lorentz; auto.
    replace (0 * 0 + B * B) with (Rsqr B) by (unfold Rsqr; ring). rewrite sqrt_Rsqr_abs. lra.
  - exfalso. rewrite HD in P. unfold pieces in P. cbn [dipole_dyn d_Nsub] in P. destruct P as [(P & _)|[(_ & _ & P & _)|(_ & _ & m & P & _)]]; congruence.
Qed.

(** * The beams of a run *)
Lemma map_beam_acts f t D l n u sx sy x y : acts (mkTim t D l n u (get_beam_eletric_field f) sx sy x y) (beam_at f).
Proof.
  intros pos. cbn [ti_f]. pose proof (beam_field_ok f pos) as B. destruct (get_beam_eletric_field f pos) as [ex ey]. cbn [fst snd]. destruct B as (S1 & S2 & V).
  assert (G : forall F k, shaped (List.length pos) F -> (forall i, (i < List.length pos)%nat -> fat F i = k (nth i pos (0, 0))) -> fld_is pos F k).
  { intros [r|v] k SF VF; cbn in *.
    - apply Forall_forall. intros p Hp. apply (In_nth _ _ (0, 0)) in Hp. destruct Hp as (i & Hi & <-). symmetry. apply VF. exact Hi.
    - apply (nth_ext _ _ 0 (k (0, 0))); [rewrite map_length; exact SF|]. intros i Hi. rewrite (map_nth k). apply VF. rewrite <- SF. exact Hi. }
  split; apply G; auto; intros i Hi; specialize (V i (0, 0) Hi); [apply (f_equal fst) in V|apply (f_equal snd) in V]; exact V.
Qed.

Lemma tim_acts g b : match b_now b with
  | None => tim_of g b = None
  | Some w => exists tm, tim_of g b = Some tm /\ ti_t tm = w_t w /\ ti_Dt tm = w_Dt w /\ ti_lam tm = w_lam w /\ ti_new tm = w_new w /\ ti_unif tm = b_unif b /\
      ti_sx tm = bg_sx g /\ ti_sy tm = bg_sy g /\ ti_x tm = bg_x g /\ ti_y tm = bg_y g /\
      let f := bg_f g in
      acts tm (beam_at (mkBfield (f_q f) (w_lam w) (f_th f) (f_x0 f) (f_y0 f) (f_dx f) (f_dy f) (f_nx f) (f_ny f) (f_Ex f) (f_Ey f)))
  end.
Proof.
  unfold tim_of. destruct (b_now b) as [w|]; [|reflexivity]. cbn [bind]. eexists. split; [reflexivity|]. cbn. do 9 (split; [reflexivity|]).
  exact (map_beam_acts (with_lam (bg_f g) (w_lam w)) _ _ _ _ _ _ _ _ _).
Qed.
