(** Handling of the macroparticles (MPs) at the wall: C09, C10, C53, C54. *)
From Coq Require Import Lra Lia Reals.
From Verif Require Import Num Fort MP SpecMP Push SpecPush PushFacts Geom SpecGeom GeomFacts Poly
  Sey SpecSey ExSey Impact SpecImpact ImpactFacts ImpactFacts3 ImpactFacts4 ImpactFacts5 ExImpact.

(** C53.  The chambers of the code give one impact point per track, and tracks
    that start inside give impact points inside. *)
Theorem C53_ellipse_wall : forall e resc, ellip_ok e -> wall_ok (ell_wall e resc).
Proof. exact ell_wall_ok. Qed.
Print Assumptions C53_ellipse_wall.

Theorem C53_polygon_wall : forall p resc, 0 < resc < 1 -> wall_ok (poly_wall p resc).
Proof. exact poly_wall_ok. Qed.
Print Assumptions C53_polygon_wall.

(** C10.  The emission models of the code give arrays of the right size, with
    the emitted charge shared by the MPs at the impact points. *)
Theorem C10_emission_models : forall w m c sr, emitter_ok w (std_emitter m c sr).
Proof. exact std_emitter_ok. Qed.
Print Assumptions C10_emission_models.

Theorem C10_charging_model : forall w segs E0 gs c sr, emitter_ok w (charging_emitter segs E0 gs c sr).
Proof. exact charging_emitter_ok. Qed.
Print Assumptions C10_charging_model.

Theorem C10_absorber_model : (forall w, emitter_ok w absorber) /\ (forall ps, rsum (o_tot (absorb_surface ps)) = 0) /\
  forall ps, absorbed ps (absorb_surface ps).
Proof. exact (conj absorber_ok (conj absorber_charge absorber_absorbs)). Qed.
Print Assumptions C10_absorber_model.

(** C09.  A MP inside the chamber keeps its slot and all its attributes; no MP
    is removed. *)
Theorem C09_untouched :
  forall (S : Type) w c (em : R -> bool -> list imp -> S -> option (emis * S)) time old g s st g' s' st',
  wall_ok w -> emitter_ok w em -> wf s -> k_life c = flag_lifetime_hist s ->
  old_sized (N_mp s) old -> 0 < nel_mp_split s ->
  backtrack_and_second_emiss w c em time old g s st = Some (g', s', st') -> (N_mp s' <= capacity s)%nat ->
  (N_mp s <= N_mp s')%nat /\
  forall i, (i < N_mp s)%nat -> beyond_wall w (mp_at s i) = false -> mp_at s' i = mp_at s i.
Proof.
  intros S w c em time old g s st g' s' st' HW HE W KL OS SP H HN. split; [exact (call_mono _ _ _ _ _ _ _ _ _ _ _ H)|].
  intros i Hi Hb. eapply call_untouched; eauto.
Qed.
Print Assumptions C09_untouched.

(** C09.  The reference sizes, the free slots and the settings are kept. *)
Theorem C09_frame :
  forall (S : Type) w c (em : R -> bool -> list imp -> S -> option (emis * S)) time old g s st g' s' st',
  wall_ok w -> emitter_ok w em -> wf s -> k_life c = flag_lifetime_hist s ->
  old_sized (N_mp s) old -> 0 < nel_mp_split s ->
  backtrack_and_second_emiss w c em time old g s st = Some (g', s', st') -> (N_mp s' <= capacity s)%nat ->
  wf s' /\ (tail_zero s -> tail_zero s') /\ same_cfg s s' /\ (N_mp s <= N_mp s')%nat /\
  nel_mp_ref s' = nel_mp_ref s /\ nel_mp_split s' = nel_mp_split s /\ nel_mp_cl_th s' = nel_mp_cl_th s.
Proof. exact @call_wf. Qed.
Print Assumptions C09_frame.

(** C10.  The charge of the cloud changes by the reported emitted charge minus
    the reported impacting charge; the latter is the charge of the MPs outside
    the chamber. *)
Theorem C10_balance :
  forall (S : Type) w c (em : R -> bool -> list imp -> S -> option (emis * S)) time old g s st g' s' st',
  wall_ok w -> emitter_ok w em -> wf s -> k_life c = flag_lifetime_hist s ->
  old_sized (N_mp s) old -> 0 < nel_mp_split s ->
  backtrack_and_second_emiss w c em time old g s st = Some (g', s', st') -> (N_mp s' <= capacity s)%nat ->
  charge s' = charge s - l_nimp g' + l_nemit g' /\ l_nimp g' = charge_of (hitters w s).
Proof. exact @call_charge. Qed.
Print Assumptions C10_balance.

(** C10.  The reported emitted charge is the total returned by the emission
    model for impacts with the charge, velocity and energy of the MPs that hit
    the wall, in order. *)
Theorem C10_emitted :
  forall (S : Type) w c (em : R -> bool -> list imp -> S -> option (emis * S)) time old g s st g' s' st',
  wall_ok w -> emitter_ok w em -> wf s -> k_life c = flag_lifetime_hist s ->
  old_sized (N_mp s) old -> 0 < nel_mp_split s ->
  backtrack_and_second_emiss w c em time old g s st = Some (g', s', st') -> (N_mp s' <= capacity s)%nat ->
  hitters w s <> [] -> exists hs ps e,
  Forall2 (fun hm q => impact_of c (fst hm) (snd hm) q) (combine hs (hitters w s)) ps /\
  length hs = length (hitters w s) /\
  em (nel_mp_split s) (k_seg c) ps st = Some (e, st') /\ l_nemit g' = rsum (o_tot e).
Proof. exact @call_emission. Qed.
Print Assumptions C10_emitted.

(** C10.  Over a whole sequence of moves, each followed by the wall handling:
    final charge = initial charge - all impacting + all emitted. *)
Theorem C10_run :
  forall (S : Type) w c (em : R -> bool -> list imp -> S -> option (emis * S)) l,
  wall_ok w -> emitter_ok w em -> Forall (fun tp => motion (snd tp)) l ->
  forall g s st s2 st2 h, wf s -> k_life c = flag_lifetime_hist s -> 0 < nel_mp_split s ->
  move_run w c em l g s st = Some (s2, st2, h) -> (N_mp s2 <= capacity s)%nat ->
  wf s2 /\ length h = length l /\ (N_mp s <= N_mp s2)%nat /\
  charge s2 = charge s - rsum (map fst h) + rsum (map snd h).
Proof. exact @move_run_charge. Qed.
Print Assumptions C10_run.

(** The trackers are motions in the sense of [C10_run]. *)
Theorem C10_boris_motion : forall charge mass getB E Dt n, motion (boris_step charge mass getB E Dt n).
Proof. intros charge mass getB E Dt n s. eexists. apply push_moves. Qed.
Print Assumptions C10_boris_motion.

(** C10.  With an absorbing wall no charge is emitted. *)
Theorem C10_absorber : forall w c time old g s st g' s' st',
  wall_ok w -> wf s -> k_life c = flag_lifetime_hist s -> old_sized (N_mp s) old -> 0 < nel_mp_split s ->
  backtrack_and_second_emiss w c absorber time old g s st = Some (g', s', st') -> (N_mp s' <= capacity s)%nat ->
  charge s' = charge s - charge_of (hitters w s).
Proof. exact absorber_call. Qed.
Print Assumptions C10_absorber.

(** C09, C10.  The call does not fail when the old positions are inside, the
    MPs that hit the wall move, the emission model answers and there is room. *)
Theorem C10_returns :
  forall (S : Type) w c (em : R -> bool -> list imp -> S -> option (emis * S)) time old g s st,
  wall_ok w -> emitter_ok w em -> wf s -> k_life c = flag_lifetime_hist s ->
  old_sized (N_mp s) old -> 0 < nel_mp_split s -> old_inside w old -> hist_ok w c g ->
  Forall (fun p => m_vx p * m_vx p + m_vy p * m_vy p + m_vz p * m_vz p <> 0) (hitters w s) ->
  (k_life c = true -> forall p, In p (live s) -> m_t p <= time) ->
  (k_seg c = true -> k_segline c = true -> Forall (fun h => h <> []) (g_seglines g)) ->
  (forall hs ps, (exists ks, w_hit w ks = Some hs) -> length hs = length (hitters w s) ->
     Forall2 (fun hm q => impact_of c (fst hm) (snd hm) q) (combine hs (hitters w s)) ps ->
     exists e st', em (nel_mp_split s) (k_seg c) ps st = Some (e, st') /\
     (N_mp s + length (n_nel e) <= capacity s)%nat) ->
  exists g' s' st', backtrack_and_second_emiss w c em time old g s st = Some (g', s', st') /\
    (N_mp s' <= capacity s)%nat.
Proof. exact @call_returns. Qed.
Print Assumptions C10_returns.

(** The hypotheses hold together: a round chamber, one of two MPs hits the
    wall, the yield is 2, so charge 1 arrives, charge 2 leaves on two MPs. *)
Example C10_case : wall_ok exW /\ emitter_ok exW exEm /\ wf exS /\ k_life exC = flag_lifetime_hist exS /\
  old_sized (N_mp exS) exOld /\ 0 < nel_mp_split exS /\ old_inside exW exOld /\ hist_ok exW exC exG /\
  beyond_wall exW (mp_at exS 0) = false /\ hitters exW exS = [mp_at exS 1] /\
  exists g' s' k', backtrack_and_second_emiss exW exC exEm 5 exOld exG exS 0%nat = Some (g', s', k') /\
  (N_mp s' <= capacity exS)%nat /\ l_nimp g' = 1 /\ l_nemit g' = 2 /\ charge s' = 5.
Proof.
  split; [exact (ell_wall_ok exE (99/100) exE_ok)|]. split; [exact (std_emitter_ok exW exM ex_cfg ex_sr)|].
  split; [exact exS_wf|]. split; [reflexivity|]. split; [repeat split|]. split; [cbn; lra|].
  split; [exact exOld_in|]. split; [exact exHist|]. split; [apply exW_in; cbn; lra|]. split; [exact exHit|exact exCall].
Qed.

(** C53.  After the wall handling every MP is inside the chamber, if the old
    positions were inside. *)
Theorem C53_call_inside :
  forall (S : Type) w c (em : R -> bool -> list imp -> S -> option (emis * S)) time old g s st g' s' st',
  wall_ok w -> emitter_ok w em -> wf s -> k_life c = flag_lifetime_hist s ->
  old_sized (N_mp s) old -> 0 < nel_mp_split s ->
  backtrack_and_second_emiss w c em time old g s st = Some (g', s', st') -> (N_mp s' <= capacity s)%nat ->
  old_inside w old -> Forall (fun p => beyond_wall w p = false) (live s').
Proof. exact @call_inside. Qed.
Print Assumptions C53_call_inside.

(** C53.  Over any number of steps (motion with wall handling, new MPs placed
    inside, cleaning, soft regeneration) the MPs stay inside the chamber. *)
Theorem C53_run_inside :
  forall (S : Type) w c (em : R -> bool -> list imp -> S -> option (emis * S)) s st s' st',
  wall_ok w -> emitter_ok w em ->
  wf s -> k_life c = flag_lifetime_hist s -> sizes_ok s -> 0 < fact_split s -> 0 < nel_mp_ref_0 s <= nel_mp_ref s ->
  Forall (fun p => beyond_wall w p = false) (live s) ->
  cloud_run w c em (s, st) (s', st') ->
  wf s' /\ sizes_ok s' /\ 0 < nel_mp_ref_0 s' <= nel_mp_ref s' /\ Forall (fun p => beyond_wall w p = false) (live s').
Proof. exact @cloud_run_inside. Qed.
Print Assumptions C53_run_inside.

(** A run: one MP moves from (1/2, 0) through the wall; with emission. *)
Example C53_case : exists s' st',
  cloud_run exW exC exEm (exS0, 0%nat) (s', st') /\ charge s' = 5 /\
  wf exS0 /\ k_life exC = flag_lifetime_hist exS0 /\ sizes_ok exS0 /\ 0 < fact_split exS0 /\
  0 < nel_mp_ref_0 exS0 <= nel_mp_ref exS0 /\ Forall (fun p => beyond_wall exW p = false) (live exS0).
Proof. exact exRun. Qed.

(** C54.  Accounting of the histograms over one call.  [hit]: the MPs outside
    the chamber; [out]: the MPs that left the wall. *)
Theorem C54_histograms :
  forall (S : Type) w c (em : R -> bool -> list imp -> S -> option (emis * S)) time old g s st g' s' st',
  wall_ok w -> emitter_ok w em -> wf s -> k_life c = flag_lifetime_hist s ->
  old_sized (N_mp s) old -> 0 < nel_mp_split s ->
  backtrack_and_second_emiss w c em time old g s st = Some (g', s', st') -> (N_mp s' <= capacity s)%nat ->
  old_inside w old -> hist_ok w c g ->
  let hit := hitters w s in
  let out := emitted w s s' in
  rsum (g_tot g') = rsum (g_tot g) + charge_of hit /\ length (g_tot g') = length (g_tot g) /\
  rsum (g_scrub g') = rsum (g_scrub g) + charge_of (filter (fun m => Rgtb (mp_eV c m) (k_scrub c)) hit) /\
  length (g_scrub g') = length (g_scrub g) /\
  rsum (g_line g') = rsum (g_line g) + charge_of hit /\ length (g_line g') = length (g_line g) /\
  (k_cos c = true -> rsum (g_cos g') = rsum (g_cos g) + charge_of hit /\ length (g_cos g') = length (g_cos g)) /\
  rsum (g_en g') = rsum (g_en g) + energy_of c hit - energy_of c out /\ length (g_en g') = length (g_en g) /\
  l_eimp g' = energy_of c hit /\ l_eemit g' = energy_of c out /\
  l_nimp g' = charge_of hit /\ l_nemit g' = charge_of out /\
  (k_life c = true -> (forall p, In p (live s) -> m_t p <= time) ->
     length (g_life g') = length (g_life g) /\
     rsum (g_life g') = rsum (g_life g) + charge_of (filter (fun m => Rgtb (m_t m) 0) hit)) /\
  (k_seg c = true -> exists edges oedges,
     length edges = length hit /\ length oedges = length out /\
     length (g_seg g') = length (g_seg g) /\ length (g_segen g') = length (g_segen g) /\
     length (g_segemit g') = length (g_segemit g) /\
     (forall k, (k < length (g_seg g))%nat -> nth k (g_seg g') 0 = nth k (g_seg g) 0 + edge_sum k edges (map m_nel hit)) /\
     (forall k, (k < length (g_segemit g))%nat -> nth k (g_segemit g') 0 = nth k (g_segemit g) 0 + edge_sum k oedges (map m_nel out)) /\
     (forall k, (k < length (g_segen g))%nat -> nth k (g_segen g') 0 = nth k (g_segen g) 0
        + edge_sum k edges (map (fun p => m_nel p * mp_eV c p) hit) - edge_sum k oedges (map (fun p => m_nel p * mp_eV c p) out)) /\
     (forall i, (i < length out)%nat -> exists j, (j < length hit)%nat /\ nth i oedges 0%nat = nth j edges 0%nat) /\
     (k_segline c = true -> Forall (fun h => h <> []) (g_seglines g) ->
       length (g_seglines g') = length (g_seglines g) /\
       forall k, (k < length (g_seglines g))%nat -> rsum (nth k (g_seglines g') [])
         = rsum (nth k (g_seglines g) []) + edge_sum k edges (map m_nel hit))).
Proof. exact @call_hist. Qed.
Print Assumptions C54_histograms.

(** C54.  The constructor sets up histograms that meet the hypotheses, all
    empty. *)
Theorem C54_constructor :
  forall w xap nvert Dx scrub Nbin Enmax Nl lmax life seg segline cosw cosh mass qe c g,
  iman_ctor xap nvert Dx scrub Nbin Enmax Nl lmax life seg segline cosw cosh mass qe = Some (c, g) ->
  0 < xap -> (forall x y, w_out w x y = false -> - xap <= x) ->
  0 < Dx -> 0 < Enmax -> 0 < lmax -> 0 < cosw -> 0 < mass -> 0 < qe ->
  hist_ok w c g /\ Forall (fun h => h <> []) (g_seglines g) /\
  rsum (g_tot g) = 0 /\ rsum (g_scrub g) = 0 /\ rsum (g_en g) = 0 /\ rsum (g_line g) = 0 /\ rsum (g_cos g) = 0 /\ rsum (g_life g) = 0.
Proof. exact iman_ctor_ok. Qed.
Print Assumptions C54_constructor.

Example C54_case : hist_ok exW exC exG /\ exists c g,
  iman_ctor 1 (Some 4%nat) (1/10) 20 50 3000 100 1 true true true (1/20) true 600 1 = Some (c, g).
Proof. split; [exact exHist|]. eexists _, _. reflexivity. Qed.
