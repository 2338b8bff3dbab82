(** C19-C21: the trackers. *)
From Coq Require Import Lra Lia Reals.
From Verif Require Import Num NumFacts MP SpecMP MPFacts ExMP Push SpecPush PushFacts PushOde PushFacts2 PushFacts3 ExPush SpecMagnet PushFacts4.

(** C19.  In any magnetic field, with no electric field at the MP, the Boris
    tracker leaves the speed of each live MP unchanged, for any number of
    sub-steps, time step, charge and mass. *)
Theorem C19_boris_keeps_speed :
  forall charge mass getB E Dt n s i,
  (i < N_mp s)%nat -> E i = (0, 0) ->
  speed2 (get6 (boris_step charge mass getB E Dt n s) i) = speed2 (get6 s i).
Proof. exact boris_step_energy. Qed.
Print Assumptions C19_boris_keeps_speed.

(** C19, same for the multipole tracker, with any coefficients, constructor
    field and call field. *)
Theorem C19_multipole_keeps_speed :
  forall charge mass bf bs b0 bn E Dt n s i,
  (i < N_mp s)%nat -> E i = (0, 0) ->
  speed2 (get6 (multipole_stepcustomDt charge mass bf bs b0 bn E Dt n s) i) = speed2 (get6 s i).
Proof. exact mult_step_energy. Qed.
Print Assumptions C19_multipole_keeps_speed.

(** C19.  Without magnetic field the velocity changes by exactly (q/m) E Dt and
    the position by v Dt plus the kick term (with the first-order excess of
    one sub-step). *)
Theorem C19_no_field_kick :
  forall charge mass E Dt n s i,
  (i < N_mp s)%nat -> (0 < n)%nat ->
  let p := get6 s i in
  let p' := get6 (boris_step charge mass (B_none 0 0 0) E Dt n s) i in
  let qm := charge / mass in
  pvx p' = pvx p + qm * fst (E i) * Dt /\ pvy p' = pvy p + qm * snd (E i) * Dt /\ pvz p' = pvz p /\
  px p' = px p + pvx p * Dt + qm * fst (E i) * Dt * (Dt + Dt / INR n) / 2 /\
  py p' = py p + pvy p * Dt + qm * snd (E i) * Dt * (Dt + Dt / INR n) / 2 /\
  pz p' = pz p + pvz p * Dt.
Proof. exact boris_step_noB. Qed.
Print Assumptions C19_no_field_kick.

(** C19.  The trackers act on each live MP separately and leave the charges,
    the impact times, the number of MPs and the free slots alone. *)
Theorem C19_tracker_frame :
  forall charge mass getB E Dt n s,
  exists g, moves_each g s (boris_step charge mass getB E Dt n s).
Proof. intros. eexists. apply push_moves. Qed.
Print Assumptions C19_tracker_frame.

(** C19.  A particle whose velocity balances the fields ([E = - v x B]) keeps
    its velocity: the E x B drift is an exact fixed point of a Boris step. *)
Theorem C19_exb_drift :
  forall qm Dtt B p,
  let v := (pvx p, pvy p, pvz p) in
  let '(cx, cy, cz) := cross v B in
  let p' := boris_one qm Dtt (- cx, - cy, - cz) B p in
  pvx p' = pvx p /\ pvy p' = pvy p /\ pvz p' = pvz p.
Proof. exact boris_drift. Qed.
Print Assumptions C19_exb_drift.

(** C19.  The velocity component along the magnetic field is kept. *)
Theorem C19_parallel_velocity :
  forall qm Dtt Bx By Bz p,
  let p' := boris_one qm Dtt (0, 0, 0) (Bx, By, Bz) p in
  pvx p' * Bx + pvy p' * By + pvz p' * Bz = pvx p * Bx + pvy p * By + pvz p * Bz.
Proof. exact boris_parallel. Qed.
Print Assumptions C19_parallel_velocity.

Example C19_case : (1 < N_mp (sys3 2 1 1 1 true))%nat /\ speed2 (get6 (sys3 2 1 1 1 true) 1) = 14.
Proof. split; [simpl; lia|]. unfold speed2; simpl; ring. Qed.

(** C20.  Without electric field the dipole tracker and the strong-field
    tracker (any field source) leave the speed of each live MP unchanged. *)
Theorem C20_dipole_keeps_speed :
  forall Dt B E s i,
  (i < N_mp s)%nat -> E i = (0, 0) ->
  speed2 (get6 (dipole_step Dt B E s) i) = speed2 (get6 s i).
Proof. exact dipole_step_energy. Qed.
Print Assumptions C20_dipole_keeps_speed.

Theorem C20_strongB_keeps_speed :
  forall Dt B0x B0y src thr E s i,
  0 < thr -> (i < N_mp s)%nat -> E i = (0, 0) ->
  speed2 (get6 (strongB_step Dt B0x B0y src thr E s) i) = speed2 (get6 s i).
Proof. exact strongB_step_energy. Qed.
Print Assumptions C20_strongB_keeps_speed.

(** C20.  The charge over mass of the two trackers is that of the electron, in
    C/kg: 1.602176565e-19 over 9.10938291e-31. *)
Theorem C20_electron : qm_e * (910938291 / 10 ^ 39) = 1602176565 / 10 ^ 28.
Proof. exact electron_ratio. Qed.
Print Assumptions C20_electron.

(** C20.  In a vertical dipole field the two trackers give the same system,
    unless the rotation angle is below 1e-4. *)
Theorem C20_trackers_agree :
  forall Dt B thr E s,
  0 < thr -> thr <= Rabs B -> 1 / 10000 <= Rabs (B * qm_e * Dt) ->
  strongB_step Dt 0 B SrcNone thr E s = dipole_step Dt B E s.
Proof. exact strongB_dipole_step. Qed.
Print Assumptions C20_trackers_agree.

(** C20.  Below that angle they agree to a relative 1e-8. *)
Theorem C20_trackers_close :
  forall Dt B thr Ex Ey p,
  0 < thr -> thr <= Rabs B -> Rabs (B * qm_e * Dt) < 1 / 10000 ->
  close_states p Dt (B * qm_e * Dt) (qm_e * Ex * Dt)
    (strongB_one Dt 0 B SrcNone thr (Ex, Ey) p) (dipole_one Dt B (Ex, Ey) p).
Proof. exact strongB_near_dipole. Qed.
Print Assumptions C20_trackers_close.

(** C20.  In uniform transverse fields the strong-field tracker is the exact
    solution of the equations of motion of an electron: it starts from the
    given state and its derivative with respect to the step satisfies the
    Lorentz force law. *)
Theorem C20_exact_motion :
  forall B0x B0y thr Ex Ey p,
  0 < thr -> thr <= sqrt (B0x * B0x + B0y * B0y) ->
  let q t := strongB_one t B0x B0y SrcNone thr (Ex, Ey) p in
  q 0 = p /\ forall t, lorentz qm_e (Ex, Ey) (B0x, B0y) q t.
Proof.
  exact (fun B0x B0y thr Ex Ey p H1 H2 =>
    conj (strongB_start B0x B0y SrcNone thr (Ex, Ey) p H1)
         (fun t => strongB_lorentz B0x B0y thr Ex Ey p t H1 H2)).
Qed.
Print Assumptions C20_exact_motion.

Theorem C20_exact_motion_no_field :
  forall B0x B0y thr Ex Ey p,
  0 < thr -> sqrt (B0x * B0x + B0y * B0y) < thr ->
  let q t := strongB_one t B0x B0y SrcNone thr (Ex, Ey) p in
  q 0 = p /\ forall t, lorentz qm_e (Ex, Ey) (0, 0) q t.
Proof.
  exact (fun B0x B0y thr Ex Ey p H1 H2 =>
    conj (strongB_start B0x B0y SrcNone thr (Ex, Ey) p H1)
         (fun t => strongB_zero_lorentz B0x B0y thr Ex Ey p t H2)).
Qed.
Print Assumptions C20_exact_motion_no_field.

(** C20.  The same in any magnet: with a gradient the horizontal field is the
    gradient times the height and the vertical one the gradient times the
    distance, with a map it is interpolated from the nodes; both add to the
    constant field and are taken where the macroparticle is at the start. *)
Theorem C20_magnets : forall src B0x B0y thr Ex Ey p b, 0 < thr -> magnet src (px p) (py p) b ->
  let Bx := fst b + B0x in let By := snd b + B0y in
  let q t := strongB_one t B0x B0y src thr (Ex, Ey) p in
  q 0 = p /\ (thr <= sqrt (Bx * Bx + By * By) -> forall t, lorentz qm_e (Ex, Ey) (Bx, By) q t) /\
  (sqrt (Bx * Bx + By * By) < thr -> forall t, lorentz qm_e (Ex, Ey) (0, 0) q t).
Proof. exact magnet_motion. Qed.
Print Assumptions C20_magnets.

(** C20.  The Boris tracker takes the field of a map in the same way. *)
Theorem C20_map_field : forall B0x B0y B0z m x y bx by_, on_map m (bm_x m) x y bx -> on_map m (bm_y m) x y by_ ->
  (bm_z m = None -> B_file B0x B0y B0z m x y = (bx + B0x, by_ + B0y, B0z)) /\
  (forall g bz, bm_z m = Some g -> on_map m g x y bz -> B_file B0x B0y B0z m x y = (bx + B0x, by_ + B0y, bz + B0z)).
Proof. exact file_field. Qed.
Print Assumptions C20_map_field.

Example C20_magnets_case : magnet (SrcMap exMap) (1/2) (1/4) (1/2, 1).
Proof. exact exMap_ok. Qed.

Example C20_case :
  0 < 1/2 /\ 1/2 <= Rabs 1 /\ 1 / 10000 <= Rabs (1 * qm_e * (1 / 10 ^ 11)) /\
  Rabs (1 * qm_e * (1 / 10 ^ 16)) < 1 / 10000 /\ 1/2 <= sqrt (0 * 0 + 1 * 1).
Proof.
  rewrite sqrt_abs, Rabs_R1.
  split; [lra|]. split; [lra|]. split; [exact ex_angle|]. split; [exact ex_small|]. lra.
Qed.

(** C21.  The field of the multipole tracker is the harmonic series of its
    coefficients plus the constant field. *)
Theorem C21_harmonic_series :
  forall k sk c x y,
  k <> [] ->
  mult_field k sk (Some c) x y =
  (snd (harmonic k sk (x, y)) + fst (fst c), fst (harmonic k sk (x, y)) + snd (fst c), snd c).
Proof. exact mult_field_custom. Qed.
Print Assumptions C21_harmonic_series.

Theorem C21_harmonic_series_no_custom :
  forall k sk x y,
  k <> [] ->
  mult_field k sk None x y = (snd (harmonic k sk (x, y)), fst (harmonic k sk (x, y)), 0).
Proof. exact mult_field_harmonic. Qed.
Print Assumptions C21_harmonic_series_no_custom.

(** C21.  The field at a macroparticle is the series, plus the constant field
    given to the constructor, plus the field given to the call; components not
    given count as zero. *)
Theorem C21_fields_add :
  forall charge mass k sk b0 bn E Dt n s i,
  k <> [] -> (i < N_mp s)%nat ->
  get6 (multipole_stepcustomDt charge mass k sk b0 bn E Dt n s) i =
  get6 (boris_stepcustomDt charge mass (fun x y =>
    (snd (harmonic k sk (x, y)) + given (fst (fst b0)) + given (fst (fst (bn i))),
     fst (harmonic k sk (x, y)) + given (snd (fst b0)) + given (snd (fst (bn i))),
     given (snd b0) + given (snd (bn i)))) E Dt n s) i.
Proof. exact multipole_step_adds. Qed.
Print Assumptions C21_fields_add.

(** C21.  The constructor divides coefficient n by n!, when the skew list is
    absent or as long as the normal one.  Without coefficients there is no field. *)
Theorem C21_coefficients :
  forall k s,
  k <> [] -> length s = length k ->
  let norm l := map (fun i => nth i l 0 / INR (fact i)) (seq 0 (length k)) in
  mult_ctor (Some k) (Some s) = Some (norm k, norm s) /\
  mult_ctor (Some k) None = Some (norm k, repeat 0 (length k)) /\
  (forall o c x y, o = None \/ o = Some [] -> exists bf bs, mult_ctor o None = Some (bf, bs) /\ mult_field bf bs None x y = (0, 0, 0) /\
    mult_field bf bs (Some c) x y = c).
Proof. exact (fun k s H1 H2 => conj (mult_ctor_spec k s H1 H2) (conj (mult_ctor_noskew k H1) no_multipoles)). Qed.
Print Assumptions C21_coefficients.

(** C21.  With a dipole and a quadrupole term the multipole tracker makes the
    same step as the Boris tracker with the analytic quadrupole map. *)
Theorem C21_two_terms_is_quadrupole :
  forall charge mass k0 k1 b0x b0y b0z E Dt n s,
  multipole_stepcustomDt charge mass [k0; k1] [0; 0] (Some b0x, Some b0y, Some b0z) (fun _ => (None, None, None)) E Dt n s =
  boris_stepcustomDt charge mass (B_quad b0x (k0 + b0y) b0z k1) E Dt n s.
Proof.
  intros. apply multipole_is_boris; [discriminate|]. intros x y.
  symmetry. exact (quad_is_mult k0 k1 (Some b0x, Some b0y, Some b0z) x y).
Qed.
Print Assumptions C21_two_terms_is_quadrupole.

(** C21.  With a dipole term only it is the step in a uniform field. *)
Theorem C21_one_term_is_uniform :
  forall charge mass k0 s0 b0x b0y b0z E Dt n s,
  multipole_stepcustomDt charge mass [k0] [s0] (Some b0x, Some b0y, Some b0z) (fun _ => (None, None, None)) E Dt n s =
  boris_stepcustomDt charge mass (B_none (s0 + b0x) (k0 + b0y) b0z) E Dt n s.
Proof.
  intros. apply multipole_is_boris; [discriminate|]. intros x y.
  symmetry. exact (dip_is_mult k0 s0 (Some b0x, Some b0y, Some b0z) x y).
Qed.
Print Assumptions C21_one_term_is_uniform.

(** C21.  What happens to a skew list of any length: as long as the normal
    list, it is used as it is; with one entry, the entry is used for all
    orders; beside a one-entry normal list, it is kept without the division;
    otherwise the constructor fails. *)
Theorem C21_skew_lengths :
  forall k s, k <> [] ->
  mult_ctor (Some k) (Some s) =
  (let kn := map (fun i => nth i k 0 / INR (fact i)) (seq 0 (length k)) in
   if Nat.eqb (length s) (length k) then Some (kn, map (fun i => nth i s 0 / INR (fact i)) (seq 0 (length k)))
   else if Nat.eqb (length s) 1 then Some (kn, map (fun i => nth 0 s 0 / INR (fact i)) (seq 0 (length k)))
   else if Nat.eqb (length k) 1 then Some (kn, s)
   else None).
Proof. exact mult_ctor_lengths. Qed.
Print Assumptions C21_skew_lengths.
Example C21_skew_lengths_case : [1; 2; 3] <> ([] : list R).
Proof. discriminate. Qed.

(** C21 does not extend to skew lists of another length.  A one-entry skew
    list (a skew dipole of 1) is spread over all orders: at (1, 0) the field is
    2 instead of 1. *)
Theorem C21_short_skew_refuted :
  exists k s bf bs, mult_ctor (Some k) (Some s) = Some (bf, bs) /\
    mult_field bf bs None 1 0 = (2, 0, 0) /\ k = [0; 0] /\ s = [1].
Proof.
  destruct short_skew as (bf & bs & H1 & H2). exists [0; 0], [1], bf, bs. repeat split; assumption.
Qed.
Print Assumptions C21_short_skew_refuted.

(** C21.  A skew quadrupole given beside a one-entry normal list is ignored. *)
Theorem C21_long_skew_refuted :
  exists k s bf bs, mult_ctor (Some k) (Some s) = Some (bf, bs) /\
    (forall x y, mult_field bf bs None x y = (0, 0, 0)) /\ k = [0] /\ s = [0; 1].
Proof.
  destruct long_skew as (bf & bs & H1 & H2). exists [0], [0; 1], bf, bs. repeat split; assumption.
Qed.
Print Assumptions C21_long_skew_refuted.

Example C21_case : mult_field [1; 2; 3] [0; 1; 0] (Some (0, 1, 0)) 1 1 = (9, 3, 0).
Proof. unfold mult_field; simpl. f_equal; try f_equal; ring. Qed.
