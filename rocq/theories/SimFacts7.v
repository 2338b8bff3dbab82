(** Kick mode. *)
From Coq Require Import String Lra Lia FunctionalExtensionality.
From Verif Require Import Num NumFacts MP SpecMP MPFacts RegenFacts Push SpecPush PushFacts Geom Poly Sey Impact SpecImpact Beam SpecBeam BeamFacts
  Source SpecSource CrossIon SpecCrossIon Sim SpecSim SimFacts SimFacts2.
Local Open Scope list_scope.
Local Open Scope R_scope.

Lemma fadd_is pos a b g h : fld_is pos a g -> fld_is pos b h -> exists c, fadd a b = Some c /\ fld_is pos c (fun p => g p + h p).
Proof.
  destruct a as [r|l], b as [u|m]; cbn [fld_is fadd]; intros A B.
  - eexists. split; [reflexivity|]. cbn. rewrite Forall_forall in *. intros p P. rewrite A, B by exact P. reflexivity.
  - eexists. split; [reflexivity|]. cbn. subst m. rewrite map_map. apply map_ext_in. rewrite Forall_forall in A. intros p P. rewrite A by exact P. reflexivity.
  - eexists. split; [reflexivity|]. cbn. subst l. rewrite map_map. apply map_ext_in. rewrite Forall_forall in B. intros p P. rewrite B by exact P. reflexivity.
  - subst l m. rewrite !map_length, Nat.eqb_refl. eexists. split; [reflexivity|]. cbn. clear. induction pos; cbn; f_equal; auto.
Qed.

Lemma beams_is pos : forall secs fs, Forall2 acts secs fs -> forall ex ey g h, fld_is pos ex g -> fld_is pos ey h ->
  exists rx ry, add_sec_beams (map ti_f secs) pos ex ey = Some (rx, ry) /\
    fld_is pos rx (fun p => g p + rsum (map fst (map (fun f => f p) fs))) /\ fld_is pos ry (fun p => h p + rsum (map snd (map (fun f => f p) fs))).
Proof.
  induction 1 as [|b f secs fs HB F IH]; intros ex ey g h GX GY; cbn [map add_sec_beams].
  - exists ex, ey. split; [reflexivity|]. unfold rsum; cbn [fold_right]. split.
    + destruct ex; cbn in *; [eapply Forall_impl; [|exact GX]; cbv beta; intros p <-; ring|]. rewrite GX. apply map_ext. intros. ring.
    + destruct ey; cbn in *; [eapply Forall_impl; [|exact GY]; cbv beta; intros p <-; ring|]. rewrite GY. apply map_ext. intros. ring.
  - destruct (HB pos) as [B1 B2]. destruct (ti_f b pos) as [sx sy]. cbn [fst snd] in B1, B2.
    destruct (fadd_is _ _ _ _ _ GX B1) as (cx & -> & CX). destruct (fadd_is _ _ _ _ _ GY B2) as (cy & -> & CY). cbn [bind].
    destruct (IH _ _ _ _ CX CY) as (rx & ry & E & RX & RY). exists rx, ry. split; [exact E|].
    assert (X : forall (k : R * R -> R) g0 p, g0 p + k (f p) + rsum (map k (map (fun f => f p) fs)) = g0 p + rsum (k (f p) :: map k (map (fun f0 => f0 p) fs))).
    { intros. change (rsum (k (f p) :: map k (map (fun f0 => f0 p) fs))) with (k (f p) + rsum (map k (map (fun f0 => f0 p) fs))). ring. }
    split; [destruct rx|destruct ry]; cbn [fld_is] in *.
    + eapply Forall_impl; [|exact RX]. cbv beta. intros p <-. symmetry. apply (X fst).
    + rewrite RX. apply map_ext. intros p. apply (X fst).
    + eapply Forall_impl; [|exact RY]. cbv beta. intros p <-. symmetry. apply (X snd).
    + rewrite RY. apply map_ext. intros p. apply (X snd).
Qed.

Lemma fld_is_at pos F g i d : fld_is pos F g -> (i < length pos)%nat -> fld_at F i = g (nth i pos d).
Proof.
  destruct F as [r|l]; cbn; intros H L.
  - rewrite Forall_forall in H. symmetry. apply H, nth_In. exact L.
  - subst l. rewrite (nth_indep _ 0 (g d)) by (rewrite map_length; exact L). apply map_nth.
Qed.

Lemma kick_is q m main secs f0 fs D s : wf s -> acts main f0 -> Forall2 acts secs fs ->
  exists s1, apply_kick q m main secs D s = Some s1 /\ moves_each (fun i p => mkP6 (px p) (py p) (pz p)
     (pvx p + q / m * rsum (map fst (map (fun f => f (px p, py p)) (f0 :: fs))) * D)
     (pvy p + q / m * rsum (map snd (map (fun f => f (px p, py p)) (f0 :: fs))) * D) (pvz p)) s s1.
Proof.
  intros W A0 AS. unfold apply_kick, field_from_beams. destruct (A0 (mp_pos s)) as [B1 B2]. destruct (ti_f main (mp_pos s)) as [ex ey]. cbn [fst snd] in B1, B2.
  destruct (beams_is _ _ _ AS _ _ _ _ B1 B2) as (rx & ry & -> & RX & RY). cbn [bind]. eexists. split; [reflexivity|].
  match goal with |- context[push_live ?g s] => destruct (push_moves g s) as (P1 & P2 & P3 & P4 & P5 & P6 & P7 & P8 & P9) end.
  do 7 (split; [assumption|]). split; [|exact P9]. intros i Hi. rewrite P8 by exact Hi.
  assert (LP : length (mp_pos s) = N_mp s) by (unfold mp_pos; rewrite map_length, seq_length; reflexivity).
  rewrite (fld_is_at _ _ _ i (0, 0) RX), (fld_is_at _ _ _ i (0, 0) RY) by lia.
  assert (NP : nth i (mp_pos s) (0, 0) = (px (get6 s i), py (get6 s i))).
  { unfold mp_pos. rewrite (nth_indep _ (0, 0) ((fun i => (nth i (x_mp s) 0, nth i (y_mp s) 0)) 0%nat)) by (rewrite map_length, seq_length; exact Hi).
    rewrite (map_nth (fun i => (nth i (x_mp s) 0, nth i (y_mp s) 0))), seq_nth by exact Hi. reflexivity. }
  rewrite NP. cbn [map]. set (p := get6 s i). 
  change (rsum (fst (f0 (px p, py p)) :: map fst (map (fun f => f (px p, py p)) fs))) with (fst (f0 (px p, py p)) + rsum (map fst (map (fun f => f (px p, py p)) fs))).
  change (rsum (snd (f0 (px p, py p)) :: map snd (map (fun f => f (px p, py p)) fs))) with (snd (f0 (px p, py p)) + rsum (map snd (map (fun f => f (px p, py p)) fs))).
  f_equal; unfold Rdiv; ring.
Qed.

Lemma kick_live q m main secs f0 fs D s : wf s -> acts main f0 -> Forall2 acts secs fs ->
  exists s1, apply_kick q m main secs D s = Some s1 /\ wf s1 /\ Forall2 (kicked q m D (f0 :: fs)) (live s) (live s1).
Proof.
  intros W A0 AS. destruct (kick_is q m main secs f0 fs D s W A0 AS) as (s1 & E & N & NE & TL & WF & _ & _ & _ & G & _).
  destruct (WF W) as [W1 SC]. assert (FL : flag_lifetime_hist s1 = flag_lifetime_hist s) by (unfold same_cfg in SC; intuition).
  exists s1. split; [exact E|]. split; [exact W1|]. unfold live. rewrite N. apply seq_Forall2. intros i Hi. specialize (G i ltac:(lia)).
  unfold get6 in G. cbn [px py pz pvx pvy pvz] in G. injection G. intros V1 V2 V3 V4 V5 V6. unfold kicked, mp_at. cbn [m_x m_y m_z m_vx m_vy m_vz m_nel m_t]. rewrite NE, TL, FL. cbv zeta. repeat (split; [first [exact V1|exact V2|exact V3|exact V4|exact V5|exact V6|reflexivity]|]). reflexivity.
Qed.

Lemma gather_dark sc main secs s : gather_field sc true main secs s = gather_field sc false (dark main) [] s.
Proof.
  unfold gather_field. cbv zeta. set (l := map (fun p => sc_fld sc (fst p) (snd p)) (mp_pos s)). unfold total_field, field_from_beams, dark. cbn [ti_f map add_sec_beams bind fadd].
  f_equal. apply functional_extensionality. intros i. cbn [fld_at]. rewrite !map_map. clearbody l.
  assert (X : forall g : R * R -> R, g (0, 0) = 0 -> nth i (map (fun x => g x + 0) l) 0 = g (nth i l (0, 0))).
  { intros g G0. revert i. induction l as [|a l IH]; intros [|i]; cbn; auto; ring. }
  rewrite (X fst), (X snd) by reflexivity. destruct (nth i l (0, 0)); reflexivity.
Qed.

Lemma loop_dark st sc main secs : forall n s, motion_loop n st sc true main secs s = motion_loop n st sc false (dark main) [] s.
Proof. induction n as [|n IH]; intros s; cbn [motion_loop]; [reflexivity|]. rewrite gather_dark. destruct (gather_field _ _ _ _ _); cbn [bind]; auto. Qed.

Lemma kick_mode e a main secs sc c s n h f0 fs : s_kick a = true -> s_Nsub a = Some n -> s_Dtsub a = Some h -> wf s ->
  acts main f0 -> Forall2 acts secs fs ->
  exists s1, wf s1 /\ Forall2 (kicked (a_charge c) (a_mass c) (h * INR n) (f0 :: fs)) (live s) (live s1) /\
    cloud_motion e a main secs sc c s = cloud_motion e (unkicked a) (dark main) [] sc c s1.
Proof.
  intros K N H W A0 AS. destruct (kick_live (a_charge c) (a_mass c) main secs f0 fs (h * INR n) s W A0 AS) as (s1 & E & W1 & F). exists s1. split; [exact W1|]. split; [exact F|].
  unfold cloud_motion, sub_steps. cbn [unkicked s_Nsub s_Dtsub s_kick s_force_re]. rewrite K, N, H. destruct (e_boris e); [|reflexivity]. cbn [bind]. rewrite E. cbn [bind].
  destruct (e_reinterp e || s_force_re a); apply loop_dark.
Qed.

Lemma kick_needs_steps e a main secs sc c s : s_kick a = true -> s_Nsub a = None \/ s_Dtsub a = None -> cloud_motion e a main secs sc c s = None.
Proof.
  intros K Q. unfold cloud_motion. destruct (sub_steps _ _ _ _); [|reflexivity]. cbn [bind]. rewrite K. destruct (s_Nsub a), (s_Dtsub a); try reflexivity. destruct Q; discriminate.
Qed.

Lemma kick_drift e a main secs sc c s n h f0 fs s' : s_kick a = true -> s_Nsub a = Some n -> s_Dtsub a = Some h -> wf s ->
  acts main f0 -> Forall2 acts secs fs -> drifts (a_dyn c) -> d_Nsub (a_dyn c) <> None -> (forall x y, sc_fld sc x y = (0, 0)) ->
  cloud_motion e a main secs sc c s = Some s' ->
  exists mid, Forall2 (kicked (a_charge c) (a_mass c) (h * INR n) (f0 :: fs)) (live s) mid /\ Forall2 (drifted (INR n * h)) mid (live s').
Proof.
  intros K N H W A0 AS D DN SC E. destruct (kick_mode e a main secs sc c s n h f0 fs K N H W A0 AS) as (s1 & W1 & F & EQ). rewrite EQ in E.
  exists (live s1). split; [exact F|]. eapply (motion_drift_custom e (unkicked a) (dark main) [] sc c s1 n h); eauto; try reflexivity.
  split; [exact SC|]. constructor; [|constructor]. intros pos. cbn. auto.
Qed.
