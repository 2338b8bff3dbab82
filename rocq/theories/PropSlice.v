(** C83: beam and cloud act on each other slice by slice. *)
From Coq Require Import String Lia Lra.
From Verif Require Import Num NumFacts MP SpecMP Push Impact Beam Source Sim SpecSim PyHT SpecPyHT PyHTFacts7 ExImpact ExPyHT.
Local Open Scope list_scope.
Local Open Scope R_scope.

(** A slice that interacts makes one step of the cloud.  In it the beam acts with
    the field of the particles [ps] of the slice, at their positions, and has
    their line density, mean position and width; the space charge is
    recomputed; nothing is cleaned or regenerated.  The particles of the slice,
    and no others, are then kicked by the field of the cloud after the step. *)
Theorem C83_interacts : forall p b ix dz force h b' h', meets (q_info b) -> track_single_slice p b ix dz force h = Some (b', h') ->
  exists new g ps a tm, passage p (q_info b) force h = Some (new, g) /\ Forall2 (fun i q => nth_error (q_parts b) i = Some q) ix ps /\
    sim_time_step (z_env p) a tm [] (h_sim g) = Some (h_sim h') /\ s_force_sc a = true /\ s_noclean a = true /\ s_noregen a = true /\ s_kick a = z_kick p /\
    ti_new tm = new /\ ti_unif tm = true /\ ti_lam tm * dz = q_ppmp b * INR (List.length ix) /\
    acts tm (match ix with [] => fun _ => (0, 0) | _ => fun r => field_of p b dz ps (fst r) (snd r) end) /\
    (ix <> [] -> centre (map (fun q => bp_x q + z_xoff p) ps) (ti_x tm) /\ centre (map (fun q => bp_y q + z_yoff p) ps) (ti_y tm) /\
                 width (map bp_x ps) (ti_sx tm) /\ width (map bp_y ps) (ti_sy tm)) /\
    b' = SpecPyHT.kicked (z_kx p) (z_ky p) p (sc_fld (m_sc (h_sim h'))) ix b.
Proof. exact slice_meets. Qed.
Print Assumptions C83_interacts.

(** A slice that does not interact leaves the beam as it is, and the cloud
    advances without beam. *)
Theorem C83_skips : forall p b ix dz force h b' h', skips (q_info b) -> track_single_slice p b ix dz force h = Some (b', h') ->
  b' = b /\ exists new g, passage p (q_info b) force h = Some (new, g) /\ unlit (z_env p) (h_sim g) (h_sim h').
Proof. exact slice_skips. Qed.
Print Assumptions C83_skips.

(** A slice handed over by the bunch tracker starts a new passage of the cloud
    exactly when its bunch is the first, with its first slice, or a later one
    than before; the first slice of the first bunch also starts a new cloud. *)
Theorem C83_new_passage : forall p clean b h b' h' o ib is zl zr, track_slice p clean b h = Some (b', h') -> q_info b = Info o ib is zl zr ->
  exists g a tm m1, sim_time_step (z_env p) a tm [] (h_sim g) = Some m1 /\
    (ti_new tm = true <-> exists n, ib = Some n /\ ((n = 0 /\ is = 0) \/ h_bunch h < n)%Z) /\
    ((ib = Some 0%Z /\ is = 0%Z /\ finalize_and_reinitialize p h = Some g) \/ (~ (ib = Some 0%Z /\ is = 0%Z) /\ h_sim g = h_sim h)).
Proof. exact slice_new. Qed.
Print Assumptions C83_new_passage.

Example C83_passage_case : exists b' h', track_slice (hP true true) false (hB (Info None None 0 0 (1/2))) (hH false) = Some (b', h').
Proof.
  eexists _, _. change (hH false) with (hState false (1/4) 0 0 0 true [0] [0] exG 0 (-1) 0 0 false hB0 Missing). unfold track_slice.
  change (q_info (hB (Info None None 0 0 (1/2)))) with (Info None None 0%Z 0 (1/2)). cbv iota beta. change (seq 0 (List.length (q_parts (hB (Info None None 0 0 (1/2)))))) with [0%nat].
  eapply (hShort true true false true); [reflexivity|reflexivity|lra|left; reflexivity|reflexivity].
Qed.

Example C83_case : (exists b' h', meets (q_info (hB (Info None None 0 0 (1/2)))) /\
    track_single_slice (hP true true) (hB (Info None None 0 0 (1/2))) [0%nat] (1/2 - 0) false (hH false) = Some (b', h') /\ b' <> hB (Info None None 0 0 (1/2))) /\
  (exists b' h', skips (q_info hB1) /\ track_single_slice (hP true true) hB1 [0%nat] (1 - 0) false (hH false) = Some (b', h')).
Proof.
  split.
  - eexists _, _. split; [right; exists None, None, 0%Z, 0, (1/2); split; [reflexivity|discriminate]|]. split.
    + change (hH false) with (hState false (1/4) 0 0 0 true [0] [0] exG 0 (-1) 0 0 false hB0 Missing).
      eapply (hShort true true false true); [reflexivity|reflexivity|lra|left; reflexivity|reflexivity].
    + intros K. injection K as K. lra.
  - eexists _, _. split; [exists None, 1%Z, 0, 1; reflexivity|].
    change (hH false) with (hState false (1/4) 0 0 0 true [0] [0] exG 0 (-1) 0 0 false hB0 Missing).
    eapply (hLong true true false); [reflexivity|reflexivity|lra|lra|lra|reflexivity|reflexivity].
Qed.
