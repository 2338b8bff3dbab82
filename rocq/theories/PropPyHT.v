(** C08, C44, C45, C67: coupling to PyHEADTAIL. *)
From Coq Require Import Lra Lia.
From Verif Require Import Num MP SpecMP Sim PyHT SpecPyHT PyHTFacts PyHTFacts4 PyHTFacts5 PyHTFacts6 ExPyHT.

(** C08.  After any sequence of passages, single slices, resets, changes of the
    flags and replacements by a field map, re-initialisation succeeds and puts
    back the macroparticles the object was made with (same number, positions,
    velocities and sizes), the first reference size and the sizes that follow
    from it. *)
Theorem C08_reset :
  forall p0 p m fl b0 h0 l h,
  Forall (fun c => wf (o_mp c)) (m_clouds m) -> trackers (m_clouds m) -> ecloud_ctor p0 m fl b0 = Some (p, h0) -> acts_run p l h0 = Some h ->
  exists h', reinitialize p h = Some h' /\ Forall2 restored (m_clouds m) (m_clouds (h_sim h')).
Proof. exact reinit_after_any. Qed.
Print Assumptions C08_reset.

Example C08_reset_case : exists h, Forall (fun c => wf (o_mp c)) (m_clouds hM) /\ trackers (m_clouds hM) /\
  ecloud_ctor (hP0 true true) hM (hFl false) hB0 = Some (hP true true, hH false) /\ acts_run (hP true true) [ASlice hB2; ASlice hB2] (hH false) = Some h.
Proof. destruct hSlices as (h & H & _). exists h. split; [exact hWf|]. split; [exact hTr|]. split; [apply hCtor|exact H]. Qed.

(** C96.  The element is made exactly with a Boris tracker and at most one
    cloud; nothing of the simulation it is made from is changed, and it starts
    at time zero before the first bunch. *)
Theorem C96_element_made : forall p m fl b0,
  (ecloud_ctor p m fl b0 <> None <-> e_boris (z_env p) = true /\ (List.length (m_clouds m) <= 1)%nat) /\
  forall p' h, ecloud_ctor p m fl b0 = Some (p', h) -> h_sim h = m /\ h_t h = 0 /\ h_bunch h = (-1)%Z /\ h_reinit h = 0%nat /\ h_tracks h = 0%nat.
Proof. exact ctor_accepts. Qed.
Print Assumptions C96_element_made.
Example C96_element_made_case : ecloud_ctor (hP0 true true) hM (hFl false) hB0 = Some (hP true true, hH false). Proof. apply hCtor. Qed.

(** C08.  Nothing of an earlier history leaks in through the macroparticle
    arrays: if two histories leave the same clock, densities, counters,
    space-charge state and flags, the same bunch gets the same kicks, leaves
    the same cloud and records the same, whatever the macroparticles were. *)
Theorem C08_passage :
  forall p0 p m fl b0 h0, trackers (m_clouds m) -> Forall life_agrees (m_clouds m) -> ecloud_ctor p0 m fl b0 = Some (p, h0) ->
  forall l1 l2 h1 h2 sl b b' h1',
  acts_run p l1 h0 = Some h1 -> acts_run p l2 h0 = Some h2 -> aside h1 h2 -> interacts (q_info b) = Some true -> h_once h1 = false ->
  track_bunch p sl b h1 = Some (b', h1') ->
  exists h2', track_bunch p sl b h2 = Some (b', h2') /\ same_passage h1' h2'.
Proof. exact passage_bunch. Qed.
Print Assumptions C08_passage.

Example C08_passage_case : exists h1 h2 b' h1', trackers (m_clouds hM) /\ Forall life_agrees (m_clouds hM) /\
  ecloud_ctor (hP0 true false) hM (hFl false) hB0 = Some (hP true false, hH false) /\
  acts_run (hP true false) [ABunch hSl (hB NoInfo)] (hH false) = Some h1 /\
  acts_run (hP true false) [AFlags true (hFl true); ABunch hSl (hB NoInfo); AFlags false (hFl false)] (hH false) = Some h2 /\ aside h1 h2 /\
  interacts (q_info (hB NoInfo)) = Some true /\ h_once h1 = false /\ track_bunch (hP true false) hSl (hB NoInfo) h1 = Some (b', h1').
Proof.
  assert (F1 : (1/4 + (0 - 0)) * (1/4 + (0 - 0)) < 1) by lra.
  destruct (hPass true false (1/4) 0 0 0 true [0] [0] ExImpact.exG 0 (-1) 0 0 false hB0 Missing Missing eq_refl F1 eq_refl) as (fs1 & R1 & T1).
  destruct (hPass true true (1/4) 0 0 0 true [0] [0] ExImpact.exG 0 (-1) 0 0 true hB0 Missing _ eq_refl F1 eq_refl) as (fs2 & R2 & T2).
  set (f := - ((1/4 + (0 - 0)) / 8)) in *.
  assert (F2 : (1/4 + (0 - f)) * (1/4 + (0 - f)) < 1) by (unfold f; lra).
  destruct (hPass true false (1/4 + (0 - 0)) (0 - 0) f 0 true [f] [f] (Impact.zero_last ExImpact.exG) (0 + 1) 0 1 1 false (slice_field (hP true false) (hB NoInfo) (1/2 - 0) [mkBp 0 0 0 0]) fs1 fs1 eq_refl F2 eq_refl) as (fs3 & R3 & T3).
  eexists _, _, _, _. split; [exact hTr|]. split; [exact hLife|]. split; [apply hCtor|]. split; [|split; [|split; [|split; [reflexivity|split; [|exact T3]]]]]; try reflexivity.
  - cbn [acts_run act_run]. change (hH false) with (hState false (1/4) 0 0 0 true [0] [0] ExImpact.exG 0 (-1) 0 0 false hB0 Missing). rewrite T1. reflexivity.
  - cbn [acts_run act_run bind]. change (with_flags true (hFl true) (hH false)) with (hState true (1/4) 0 0 0 true [0] [0] ExImpact.exG 0 (-1) 0 0 true hB0 Missing). rewrite T2. reflexivity.
  - repeat split. constructor; [|constructor]. repeat split.
Qed.

(** C08.  The same slice by slice, after [finalize_and_reinitialize]. *)
Theorem C08_passage_slices :
  forall p0 p m fl b0 h0, trackers (m_clouds m) -> Forall life_agrees (m_clouds m) -> ecloud_ctor p0 m fl b0 = Some (p, h0) ->
  forall l1 l2 h1 h2 bs bs' g1 g2 h1',
  acts_run p l1 h0 = Some h1 -> acts_run p l2 h0 = Some h2 -> aside h1 h2 ->
  finalize_and_reinitialize p h1 = Some g1 -> finalize_and_reinitialize p h2 = Some g2 ->
  Forall (fun b => interacts (q_info b) = Some true) bs -> track_list p bs g1 = Some (bs', h1') ->
  exists h2', track_list p bs g2 = Some (bs', h2') /\ same_passage h1' h2'.
Proof. exact passage_slices. Qed.
Print Assumptions C08_passage_slices.

(** C67.  The field is not reset: the same bunch sent twice through the cloud,
    which is re-initialised before each passage, gets different kicks. *)
Theorem C67_same_kicks_refuted :
  exists p0 p m fl b0 h0 sl b b1 b2 h1 h2,
    Forall (fun c => wf (o_mp c)) (m_clouds m) /\ trackers (m_clouds m) /\ ecloud_ctor p0 m fl b0 = Some (p, h0) /\
    track_bunch p sl b h0 = Some (b1, h1) /\ track_bunch p sl b h1 = Some (b2, h2) /\ b1 <> b2.
Proof. exact twice_differs. Qed.
Print Assumptions C67_same_kicks_refuted.

(** C44.  A slice of length [dz] advances the cloud by steps that add up to
    [dz / (beta c)]; none is longer than the build-up step; each is made of at
    least one sub-step and the sub-steps add up to it; the sub-steps are close
    to the reference step; the clock of the object advances by the same. *)
Theorem C44_slice :
  forall p b ix dz force h b' h',
  0 < dz -> 0 < q_beta b -> 0 < Source.c_light (e_kc (z_env p)) -> track_single_slice p b ix dz force h = Some (b', h') ->
  exists new g l, passage p (q_info b) force h = Some (new, g) /\ advanced (z_env p) (h_t h) l (h_sim g) (h_sim h') /\
    duration l = dz / (q_beta b * Source.c_light (e_kc (z_env p))) /\ (forall D, z_Dt p = Some D -> Forall (fun q => fst (fst q) <= D) l) /\ Forall (step_ok p) l /\
    h_t h' = h_t h + dz / (q_beta b * Source.c_light (e_kc (z_env p))) /\ q_beta b' = q_beta b.
Proof. exact slice_advances. Qed.
Print Assumptions C44_slice.

Example C44_slice_case : exists b' h', 0 < 1 - 0 /\ 0 < q_beta hB1 /\ 0 < Source.c_light (e_kc (z_env (hP true true))) /\
  track_single_slice (hP true true) hB1 [0%nat] (1 - 0) false (hH false) = Some (b', h') /\ h_t h' = 0 + 1 + 1.
Proof.
  eexists _, _. split; [lra|]. split; [cbn; lra|]. split; [cbn; lra|].
  split; [apply (hLong true true false (Info (Some false) None 1 0 1) (1/4) 0 0 0 true [0] [0] ExImpact.exG 0 (-1) 0 0 0 false hB0 Missing Missing Missing); try reflexivity; lra|reflexivity].
Qed.

(** C44.  The clock of a whole bunch advances by its length over its speed. *)
Theorem C44_bunch :
  forall p slices b h b' h' z0 zn, h_once h && Nat.ltb 0 (h_tracks h) = false ->
  (forall i zl zr, (i < sl_n (slices b))%nat -> nth_error (sl_bins (slices b)) i = Some zl -> nth_error (sl_bins (slices b)) (S i) = Some zr -> zl < zr) ->
  0 < q_beta b -> 0 < Source.c_light (e_kc (z_env p)) -> nth_error (sl_bins (slices b)) 0 = Some z0 -> nth_error (sl_bins (slices b)) (sl_n (slices b)) = Some zn ->
  track_bunch p slices b h = Some (b', h') -> h_t h' = h_t h + (zn - z0) / (q_beta b * Source.c_light (e_kc (z_env p))).
Proof. exact bunch_time. Qed.
Print Assumptions C44_bunch.

Example C44_bunch_case : exists b' h', h_once (hH false) && Nat.ltb 0 (h_tracks (hH false)) = false /\
  (forall i zl zr, (i < sl_n (hSl (hB NoInfo)))%nat -> nth_error (sl_bins (hSl (hB NoInfo))) i = Some zl -> nth_error (sl_bins (hSl (hB NoInfo))) (S i) = Some zr -> zl < zr) /\
  0 < q_beta (hB NoInfo) /\ nth_error (sl_bins (hSl (hB NoInfo))) 0 = Some 0 /\ nth_error (sl_bins (hSl (hB NoInfo))) 1 = Some (1/2) /\
  track_bunch (hP true false) hSl (hB NoInfo) (hH false) = Some (b', h').
Proof.
  destruct hTwice as (h1 & h2 & k1 & k2 & T1 & _). eexists _, _. split; [reflexivity|].
  split; [|split; [cbn; lra|]; split; [reflexivity|]; split; [reflexivity|exact T1]].
  intros i zl zr Hi A B. destruct i; [|cbn in Hi; lia]. injection A as <-. injection B as <-. lra.
Qed.

(** C45.  Slice by slice: [track_once_and_replace_with_recorded_field_map] sends
    the slices through the re-initialised cloud, each is kicked with the field
    found at that moment, and from then on any slices that are sent through,
    in the same number, are kicked with the same fields in the same order, as
    often as one re-initialises. *)
Theorem C45_slices :
  forall p bs h bs' h', Forall (fun b => interacts (q_info b) = Some true) bs -> Forall (fun b => first_of_all b = false) (tl bs) -> h_map h = None ->
  track_once_slices p bs h = Some (bs', h') ->
  exists g Es hN j, reinitialize p (with_flags true (with_fld true (h_flags h)) h) = Some g /\ passes p g bs Es hN /\
    bs' = map2 (fun b E => kicked (z_kx p) (z_ky p) p E (all_of b) b) bs Es /\ h_map h' = Some j /\ map_reinitialize j = j /\
    forall cs, length cs = length bs -> Forall (moving p) cs -> Forall is_slice cs -> exists j',
      map_track_list p j cs = Some (map2 (fun b E => kicked true true p E (all_of b) b) cs Es, j') /\ map_reinitialize j' = j.
Proof. exact slices_replayed. Qed.
Print Assumptions C45_slices.

(** C45.  With both kicks enabled the same slices get the same kicks again. *)
Theorem C45_slices_again :
  forall p bs h bs' h', z_kx p = true -> z_ky p = true -> Forall (fun b => interacts (q_info b) = Some true) bs -> Forall (fun b => first_of_all b = false) (tl bs) -> h_map h = None ->
  Forall (moving p) bs -> Forall is_slice bs -> track_once_slices p bs h = Some (bs', h') ->
  exists j j', h_map h' = Some j /\ map_track_list p j bs = Some (bs', j').
Proof. exact same_slices_again. Qed.
Print Assumptions C45_slices_again.

Example C45_slices_case : exists bs' h', Forall (fun b => interacts (q_info b) = Some true) [hB2; hB2] /\ Forall (fun b => first_of_all b = false) (tl [hB2; hB2]) /\
  h_map (hH false) = None /\ Forall (moving (hP true true)) [hB2; hB2] /\ Forall is_slice [hB2; hB2] /\ track_once_slices (hP true true) [hB2; hB2] (hH false) = Some (bs', h').
Proof.
  destruct hRecorded as (bs' & h' & H). exists bs', h'. split; [repeat constructor|]. split; [repeat constructor|]. split; [reflexivity|].
  split; [constructor; [apply hMoving|constructor; [apply hMoving|constructor]]|]. split; [repeat constructor|exact H].
Qed.

(** C45.  Whole bunches, if the slicing counts negative numbers from the end
    ([from_end]): each slice is kicked with the field recorded for it. *)
Theorem C45_bunch :
  forall p slices b h b' h', z_slicemode p = false -> interacts (q_info b) = Some true -> h_map h = None -> h_tracks h = 0%nat ->
  track_once_bunch p slices b h = Some (b', h') ->
  exists g Es hN j, reinitialize p (with_flags true (with_fld true (h_flags h)) h) = Some g /\ sliced p (slices b) (sl_n (slices b)) b g Es b' hN /\
    b' = slice_kicks (z_kx p) (z_ky p) p (fun i => sl_idx (slices b) (Z.of_nat i)) Es (sl_n (slices b)) b /\ h_map h' = Some j /\
    forall c, sl_n (slices c) = sl_n (slices b) -> from_end (slices c) -> moving p c -> of_beam c (slices c) ->
      map_track p j slices c = Some (slice_kicks true true p (fun i => sl_idx (slices c) (Z.of_nat i)) Es (sl_n (slices c)) c).
Proof. exact bunch_replayed. Qed.
Print Assumptions C45_bunch.

(** C45.  With both kicks enabled the same bunch gets the same kicks again. *)
Theorem C45_bunch_again :
  forall p slices b h b' h', z_kx p = true -> z_ky p = true -> z_slicemode p = false -> interacts (q_info b) = Some true -> h_map h = None -> h_tracks h = 0%nat ->
  from_end (slices b) -> moving p b -> of_beam b (slices b) -> track_once_bunch p slices b h = Some (b', h') ->
  exists j, h_map h' = Some j /\ map_track p j slices b = Some b'.
Proof. exact same_bunch_again. Qed.
Print Assumptions C45_bunch_again.

Example C45_bunch_case : exists b' h', interacts (q_info (hB NoInfo)) = Some true /\ h_map (hH false) = None /\ h_tracks (hH false) = 0%nat /\
  from_end (hSl (hB NoInfo)) /\ moving (hP true false) (hB NoInfo) /\ of_beam (hB NoInfo) (hSl (hB NoInfo)) /\ track_once_bunch (hP true false) hSl (hB NoInfo) (hH false) = Some (b', h').
Proof.
  destruct hOnce as (b' & h' & H). exists b', h'. repeat (split; [reflexivity|]). split; [intros k _; reflexivity|]. split; [apply hMoving|].
  split; [|exact H]. intros i _. repeat constructor.
Qed.

(** C45.  Afterwards the object tracks more than once again and records no more
    fields. *)
Theorem C45_afterwards :
  (forall p bs h bs' h', track_once_slices p bs h = Some (bs', h') -> h_once h' = false /\ w_fld (h_flags h') = false) /\
  (forall p slices b h b' h', track_once_bunch p slices b h = Some (b', h') -> h_once h' = false /\ w_fld (h_flags h') = false).
Proof. exact (conj slices_flags bunch_flags). Qed.
Print Assumptions C45_afterwards.

(** C45.  If the slicing looks up the limits of slice [i] in a table at [i] and
    [i + 1], as [z_bins] is looked up in the same loop, the replay of a bunch
    is shifted: field [i] is used for slice [i + 1], the first slice is not
    kicked and the last field is not used. *)
Theorem C45_bunch_shifted_partial :
  forall p slices Es c, length Es = sl_n (slices c) -> by_position (slices c) -> moving p c -> of_beam c (slices c) ->
  map_track p (mkFmap Es 0) slices c = Some (slice_kicks true true p (next_slice (slices c)) Es (sl_n (slices c)) c).
Proof. exact replay_by_position. Qed.
Print Assumptions C45_bunch_shifted_partial.

Example C45_shifted_case : by_position hSl2 /\ moving (hP true false) hB3 /\ of_beam hB3 hSl2.
Proof.
  split; [exact (proj1 hSl2_pos)|]. split; [repeat split; cbn; try lra; unfold momentum_ok; cbn; field|].
  intros [|[|i]] Hi; cbn in *; [repeat constructor|repeat constructor|lia].
Qed.

(** C45.  With a kick disabled the recorded passage leaves that plane alone, the
    replay does not. *)
Theorem C45_disabled_kick_refuted :
  exists p slices b h b' h' j c, z_kx p = false /\ interacts (q_info b) = Some true /\ h_map h = None /\ h_tracks h = 0%nat /\
    track_once_bunch p slices b h = Some (b', h') /\ h_map h' = Some j /\ map_track p j slices b = Some c /\ q_parts b' <> q_parts c.
Proof. exact disabled_kick. Qed.
Print Assumptions C45_disabled_kick_refuted.

(** C45.  A slice that does not interact and is longer than the build-up step
    puts more than one field into the record: in the replay it is kicked, and
    the next slice is kicked with a field that is not its own. *)
Theorem C45_long_slice_refuted :
  exists p h b1 b2 b1' b2' h' j c1 c2 j', z_kx p = true /\ z_ky p = true /\ h_map h = None /\ moving p b1 /\ moving p b2 /\
    interacts (q_info b1) = Some false /\ interacts (q_info b2) = Some true /\
    track_once_slices p [b1; b2] h = Some ([b1'; b2'], h') /\ h_map h' = Some j /\ map_track_list p j [b1; b2] = Some ([c1; c2], j') /\
    b1' = b1 /\ q_parts c1 <> q_parts b1 /\ q_parts c2 <> q_parts b2'.
Proof. exact long_slice. Qed.
Print Assumptions C45_long_slice_refuted.
