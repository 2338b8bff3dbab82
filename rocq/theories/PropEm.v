(** C82: the electromagnetic mode of the space charge. *)
From Coq Require Import String Lra Lia.
From Verif Require Import Num NumFacts MP SpecMP Push SpecPush Beam SpecBeam Sim SpecSim Em SpecEm EmFacts ExPush ExSey ExImpact ExSource ExSim ExForce ExEm.
Local Open Scope list_scope.
Local Open Scope R_scope.

(** Charge and densities are treated as in the electrostatic mode. *)
Theorem C82_charge : forall p phi k0 cl em, let '(cl', em') := em_loop p phi k0 [] cl em in
  recompute_loop p [] cl (em_sc em) = (cl', em_sc em').
Proof. exact (fun p phi k0 cl em => em_loop_sc p phi k0 cl [] em). Qed.
Print Assumptions C82_charge.

(** After two recomputations of the fields, at [q1] and [q2], and any steps
    around them: the field of all clouds at [q2], minus the change of the vector
    potential of their currents between [q1] and [q2] over [Dt_sc]; the
    transverse magnetic field is that change over the speed of the beam, turned
    by a right angle; the longitudinal one is the curl of the vector potential
    ([G] has the sign of an electric field). *)
Theorem C82_fields : forall n p phi k0 tsc D gamma sc pre q1 mid q2 post, grid_size p n -> sc_Dt sc = Some D -> D <> 0 -> 1 < gamma ->
  e_clouds q1 <> [] -> e_clouds q2 <> [] ->
  let em0 := em_ctor n sc gamma in
  let em1 := em_steps p phi k0 tsc pre em0 in let em2 := em_steps p phi k0 tsc [q1] em1 in
  let em3 := em_steps p phi k0 tsc mid em2 in let em4 := em_steps p phi k0 tsc [q2] em3 in
  renews tsc q1 em1 -> idle p phi k0 tsc mid em2 -> renews tsc q2 em3 -> idle p phi k0 tsc post em4 ->
  forall x y, let A k q := phi (all_deposits p n k (e_clouds q)) x y in
  let G k := pi_solve p (all_deposits p n k (e_clouds q2)) x y in
  em_at (em_steps p phi k0 tsc (pre ++ [q1] ++ mid ++ [q2] ++ post) em0) x y =
  Some (induced (G chg) ((A (curx k0) q2 - A (curx k0) q1) / D) ((A (cury k0) q2 - A (cury k0) q1) / D)
        (snd (G (curx k0)) - fst (G (cury k0))) (sqrt (1 - 1 / (gamma * gamma)))).
Proof. exact (fun n p phi k0 tsc D gamma sc pre q1 mid q2 post G HD _ _ => two_recomputations n p phi k0 tsc D gamma sc pre q1 mid q2 post G HD). Qed.
Print Assumptions C82_fields.

(** Before the first recomputation there is no magnetic field; after it the
    potential counts as having been zero one [Dt_sc] earlier. *)
Theorem C82_first : forall n p phi k0 tsc D gamma sc pre q1 post, grid_size p n -> sc_Dt sc = Some D -> D <> 0 -> 1 < gamma -> e_clouds q1 <> [] ->
  let em0 := em_ctor n sc gamma in
  let em1 := em_steps p phi k0 tsc pre em0 in let em2 := em_steps p phi k0 tsc [q1] em1 in
  idle p phi k0 tsc pre em0 -> renews tsc q1 em1 -> idle p phi k0 tsc post em2 ->
  forall x y, let A k q := phi (all_deposits p n k (e_clouds q)) x y in
  let G k := pi_solve p (all_deposits p n k (e_clouds q1)) x y in
  em_at em1 x y = Some (sc_fld sc x y, (0, 0, 0)) /\
  em_at (em_steps p phi k0 tsc (pre ++ [q1] ++ post) em0) x y =
  Some (induced (G chg) (A (curx k0) q1 / D) (A (cury k0) q1 / D) (snd (G (curx k0)) - fst (G (cury k0))) (sqrt (1 - 1 / (gamma * gamma)))).
Proof. exact (fun n p phi k0 tsc D gamma sc pre q1 post G HD _ _ => first_recomputation n p phi k0 tsc D gamma sc pre q1 post G HD). Qed.
Print Assumptions C82_first.

(** With clouds at rest at both recomputations: the electrostatic field and no
    magnetic field. *)
Theorem C82_at_rest : forall n p phi k0 tsc D gamma sc pre q1 mid q2 post, grid_size p n -> silent p phi n -> sc_Dt sc = Some D -> D <> 0 -> 1 < gamma ->
  e_clouds q1 <> [] -> e_clouds q2 <> [] -> at_rest (e_clouds q1) -> at_rest (e_clouds q2) ->
  let em0 := em_ctor n sc gamma in
  let em1 := em_steps p phi k0 tsc pre em0 in let em2 := em_steps p phi k0 tsc [q1] em1 in
  let em3 := em_steps p phi k0 tsc mid em2 in let em4 := em_steps p phi k0 tsc [q2] em3 in
  renews tsc q1 em1 -> idle p phi k0 tsc mid em2 -> renews tsc q2 em3 -> idle p phi k0 tsc post em4 ->
  forall x y, em_at (em_steps p phi k0 tsc (pre ++ [q1] ++ mid ++ [q2] ++ post) em0) x y =
  Some (pi_solve p (all_deposits p n chg (e_clouds q2)) x y, (0, 0, 0)).
Proof. exact rest_field. Qed.
Print Assumptions C82_at_rest.

(** Each macroparticle then moves in the multipoles of the magnet, the constant
    field, the magnetic field of the clouds at its position, and the sum of the
    electric fields of the clouds and of all beams at its position. *)
Theorem C82_motion : forall e a main secs em chargeq m bf bs b0 Dt N s f0 fs s', bf <> [] -> s_kick a = false -> e_reinterp e = false -> s_force_re a = false ->
  acts main f0 -> Forall2 acts secs fs ->
  em_motion e a main secs em chargeq m bf bs b0 Dt N s = Some s' ->
  exists h n, pieces a main (multipole_dyn chargeq m bf bs b0 Dt N) h n /\ forall i, (i < N_mp s)%nat -> 
  let x := px (get6 s i) in let y := py (get6 s i) in exists ec bc, em_at em x y = Some (ec, bc) /\
    get6 s' i = get6 (boris_stepcustomDt chargeq m (fun u v =>
      (snd (harmonic bf bs (u, v)) + given (fst (fst b0)) + fst (fst bc), fst (harmonic bf bs (u, v)) + given (snd (fst b0)) + snd (fst bc), given (snd b0) + snd bc))
      (fun _ => (fst ec + rsum (map (fun f => fst (f (x, y))) (f0 :: fs)), snd ec + rsum (map (fun f => snd (f (x, y))) (f0 :: fs)))) h n s) i.
Proof. exact em_moves. Qed.
Print Assumptions C82_motion.

(** Without a [Dt_sc] every step after the first recomputation fails. *)
Theorem C82_needs_interval : forall n p phi k0 tsc gamma sc pre q1 post s e a main secs chargeq m bf bs b0 Dt N, grid_size p n -> sc_Dt sc = None ->
  e_clouds q1 <> [] -> Forall (fun q => e_clouds q <> []) post -> tsc < e_time q1 -> s_kick a = false -> e_reinterp e = false -> s_force_re a = false ->
  em_motion e a main secs (em_steps p phi k0 tsc (pre ++ [q1] ++ post) (em_ctor n sc gamma)) chargeq m bf bs b0 Dt N s = None.
Proof. exact no_interval. Qed.
Print Assumptions C82_needs_interval.

(** Not the difference quotient over the time between the recomputations when
    more than [Dt_sc] has passed between them. *)
Theorem C82_elapsed_refuted : exists p phi k0 n tsc D gamma sc q1 q2, grid_size p n /\ silent p phi n /\ sc_Dt sc = Some D /\ 0 < D /\ 1 < gamma /\
  e_clouds q1 <> [] /\ e_clouds q2 <> [] /\ snd (fst q1) = false /\ snd (fst q2) = false /\
  let em0 := em_ctor n sc gamma in
  renews tsc q1 em0 /\ renews tsc q2 (em_steps p phi k0 tsc [q1] em0) /\ D < e_time q2 - e_time q1 /\
  exists x y E B, em_at (em_steps p phi k0 tsc [q1; q2] em0) x y = Some (E, B) /\
  let A k q := phi (all_deposits p n k (e_clouds q)) x y in
  fst E <> fst (pi_solve p (all_deposits p n chg (e_clouds q2)) x y) - (A (curx k0) q2 - A (curx k0) q1) / (e_time q2 - e_time q1).
Proof. exact e_elapsed. Qed.
Print Assumptions C82_elapsed_refuted.

(** Recomputations at 1, 2 and 4, with one step in between that does not
    recompute; electrons of which one moves, and ions at rest. *)
Example C82_case : grid_size ePic 1 /\ silent ePic ePhi 1 /\ renews 0 eMoving e0 /\
  idle ePic ePhi 1 0 [eBetween] (em_steps ePic ePhi 1 0 [eMoving] e0) /\
  renews 0 eLater (em_steps ePic ePhi 1 0 [eBetween] (em_steps ePic ePhi 1 0 [eMoving] e0)) /\
  renews 0 eSoon (em_steps ePic ePhi 1 0 [eMoving] e0) /\ renews 0 eRest (em_steps ePic ePhi 1 0 [eSoon] (em_steps ePic ePhi 1 0 [eMoving] e0)) /\
  at_rest (e_clouds eSoon) /\ at_rest (e_clouds eRest) /\
  exists s', em_motion sEnv no_args kBeam [oBeam] (em_steps ePic ePhi 1 0 [eMoving; eLater] e0) (-1) 1 [0; 1] [0; 0] (None, None, None) (3/2) 2 exS0 = Some s'.
Proof.
  split; [exact eGrid|]. split; [exact eQuiet|]. split; [exact e_first|]. split; [exact e_between|]. split; [apply e_third; lra|]. split; [apply e_second; lra|].
  split; [exact e_fourth|]. split; [exact e_rest|]. split; [exact e_rest|exact e_move].
Qed.
