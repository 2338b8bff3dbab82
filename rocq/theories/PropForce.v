(** C80: the forces in a time step. *)
From Coq Require Import String Lra Lia.
From Verif Require Import Num NumFacts MP SpecMP Push SpecPush SpecMagnet Geom Poly Sey Impact SpecImpact Beam SpecBeam
  Source SpecSource CrossIon SpecCrossIon Sim SpecSim SimFacts9 ExSey ExImpact ExSource ExSim ExForce.
Local Open Scope list_scope.
Local Open Scope R_scope.

(** In the step of a cloud each macroparticle is pushed by the field of the
    clouds plus that of the main beam and of every secondary beam, all at the
    position of that macroparticle.  Here without magnetic field, with the field
    looked up once: velocities and positions after [n] pieces of length [h]. *)
Theorem C80_free : forall e a main secs sc c s f0 fs s' q m D N, a_dyn c = boris_dyn q m (B_none 0 0 0) D N ->
  s_kick a = false -> e_reinterp e = false -> s_force_re a = false -> acts main f0 -> Forall2 acts secs fs ->
  cloud_motion e a main secs sc c s = Some s' ->
  exists h n, pieces a main (a_dyn c) h n /\ N_mp s' = N_mp s /\
    forall i, (i < N_mp s)%nat -> accelerated (q / m) (force_at sc (f0 :: fs) (get6 s i)) h n (get6 s i) (get6 s' i).
Proof. exact motion_free. Qed.
Print Assumptions C80_free.

(** With the field looked up again in each piece, the position at the start of
    the piece counts. *)
Theorem C80_each_piece : forall e a main secs sc c s f0 fs s' q m D N, a_dyn c = boris_dyn q m (B_none 0 0 0) D N ->
  s_kick a = false -> e_reinterp e = true \/ s_force_re a = true -> acts main f0 -> Forall2 acts secs fs ->
  cloud_motion e a main secs sc c s = Some s' ->
  exists h n, pieces a main (a_dyn c) h n /\
  in_a_row (fun s1 s2 => N_mp s2 = N_mp s1 /\ forall i, (i < N_mp s1)%nat ->
    accelerated (q / m) (force_at sc (f0 :: fs) (get6 s1 i)) h 1 (get6 s1 i) (get6 s2 i)) n s s'.
Proof. exact motion_pieces. Qed.
Print Assumptions C80_each_piece.

(** For any tracker: the field that it is given. *)
Theorem C80_field : forall e a main secs sc c s f0 fs s', s_kick a = false -> e_reinterp e = false -> s_force_re a = false -> acts main f0 -> Forall2 acts secs fs ->
  cloud_motion e a main secs sc c s = Some s' ->
  exists E, (forall i, (i < N_mp s)%nat -> E i = force_at sc (f0 :: fs) (get6 s i)) /\
    ((s_Nsub a = None /\ ti_unif main = true /\ d_Nsub (a_dyn c) = None /\ s' = d_step (a_dyn c) E s) \/
     exists h n, pieces a main (a_dyn c) h n /\ s' = d_custom (a_dyn c) E h n s).
Proof. exact motion_forces. Qed.
Print Assumptions C80_field.

(** With the trackers for strong fields a step is exactly the motion of an
    electron in the magnetic field of the magnet and this electric field. *)
Theorem C80_strong_field : forall e a main secs sc c s f0 fs s' Dt B0x B0y src thr,
  a_dyn c = strongB_dyn Dt B0x B0y src thr -> 0 < thr ->
  s_kick a = false -> s_Nsub a = None -> e_reinterp e = false -> s_force_re a = false -> acts main f0 -> Forall2 acts secs fs ->
  cloud_motion e a main secs sc c s = Some s' -> N_mp s' = N_mp s /\
  forall i b, (i < N_mp s)%nat -> magnet src (px (get6 s i)) (py (get6 s i)) b ->
    let Bx := fst b + B0x in let By := snd b + B0y in thr <= sqrt (Bx * Bx + By * By) ->
    exists q, q 0 = get6 s i /\ (forall t, lorentz qm_e (force_at sc (f0 :: fs) (get6 s i)) (Bx, By) q t) /\ get6 s' i = q Dt.
Proof. exact motion_strongB. Qed.
Print Assumptions C80_strong_field.

Theorem C80_dipole : forall e a main secs sc c s f0 fs s' Dt B, a_dyn c = dipole_dyn Dt B -> 1 / 10000 <= Rabs (B * qm_e * Dt) ->
  s_kick a = false -> s_Nsub a = None -> e_reinterp e = false -> s_force_re a = false -> acts main f0 -> Forall2 acts secs fs ->
  cloud_motion e a main secs sc c s = Some s' -> N_mp s' = N_mp s /\
  forall i, (i < N_mp s)%nat -> exists q, q 0 = get6 s i /\ (forall t, lorentz qm_e (force_at sc (f0 :: fs) (get6 s i)) (0, B) q t) /\ get6 s' i = q Dt.
Proof. exact motion_dipole. Qed.
Print Assumptions C80_dipole.

(** The beams of a run act with their field map times their charge and the
    density of the current step, above the threshold of the density. *)
Theorem C80_beams : forall g b, match b_now b with
  | None => tim_of g b = None
  | Some w => exists tm, tim_of g b = Some tm /\ ti_t tm = w_t w /\ ti_Dt tm = w_Dt w /\ ti_lam tm = w_lam w /\ ti_new tm = w_new w /\ ti_unif tm = b_unif b /\
      ti_sx tm = bg_sx g /\ ti_sy tm = bg_sy g /\ ti_x tm = bg_x g /\ ti_y tm = bg_y g /\
      let f := bg_f g in
      acts tm (beam_at (mkBfield (f_q f) (w_lam w) (f_th f) (f_x0 f) (f_y0 f) (f_dx f) (f_dy f) (f_nx f) (f_ny f) (f_Ex f) (f_Ey f)))
  end.
Proof. exact tim_acts. Qed.
Print Assumptions C80_beams.

Example C80_case : acts kBeam (fun _ => (2, 0)) /\ acts oBeam (fun _ => (0, 1)) /\
  (exists s', cloud_motion sEnv no_args kBeam [oBeam] sSc (o_set sE) exS0 = Some s') /\
  (exists s', cloud_motion sEnv again_args kBeam [oBeam] sSc (o_set sE) exS0 = Some s') /\
  (exists s', cloud_motion sEnv no_args kBeam [oBeam] sSc (fSet (strongB_dyn 1 3 4 SrcNone (1/10))) exS0 = Some s') /\
  (1/10 <= sqrt (3 * 3 + 4 * 4)) /\
  (exists s', cloud_motion sEnv no_args kBeam [oBeam] sSc (fSet (dipole_dyn (1 / 10 ^ 11) 1)) exS0 = Some s') /\ 1 / 10000 <= Rabs (1 * qm_e * (1 / 10 ^ 11)).
Proof.
  split; [exact kActs|]. split; [exact oActs|]. split; [exact fFree|]. split; [exact fAgain|]. split; [exact fStrong|]. split; [exact fNorm|]. split; [exact fDip|exact fAngle].
Qed.
