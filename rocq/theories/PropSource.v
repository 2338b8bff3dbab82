(** Properties of the primary sources: C47, C48, C57, C58, C71. *)
From Coq Require Import Lra Lia.
From Verif Require Import Num NumFacts MP SpecMP Geom Poly Sey SpecSey ExSey Impact SpecImpact ExImpact
  Source SpecSource SourceFacts SourceFacts2 SourceFacts3 SourceFacts4 SourceFacts5 ExSource.

(** C47, C48: ionisation of the residual gas.  Whenever the call returns, the
    number of new macroparticles is the number of reference charges in the
    ionised charge (rounded with a random number), each has the reference
    charge, none is outside the chamber and the old ones are untouched. *)
Theorem C47_gas_ionisation fuel kc g c mass lam Dt sx sy xb yb sr k s s' k' :
  wf s -> (N_mp s < capacity s)%nat -> 0 < nel_mp_ref s -> (forall j, 0 <= s_uni sr j < 1) ->
  gs_life g = flag_lifetime_hist s ->
  0 < kB kc -> 0 <= c_light kc -> 0 <= gs_P g -> 0 <= gs_sigma g -> 0 < gs_T g -> 0 <= lam -> 0 <= Dt ->
  gas_generate fuel kc g c mass lam Dt sx sy xb yb sr k s = Some (s', k') ->
  exists new, generated (outside c) s s' new /\ never_hit new /\
    rounded (ionised kc (gs_P g) (gs_sigma g) (gs_T g) lam Dt / nel_mp_ref s) (s_uni sr k) (length new) /\
    close_charge (ionised kc (gs_P g) (gs_sigma g) (gs_T g) lam Dt) s s'.
Proof. exact (gas_thm fuel kc g c mass lam Dt sx sy xb yb sr k s s' k'). Qed.
Print Assumptions C47_gas_ionisation.

Example C47_gas_ionisation_nonvacuous : exists s' k',
  gas_generate 0 exK exGas exChamb 1 (3/2) 1 (1/10) (1/10) (1/2) 0 ex_sr 0 exS = Some (s', k') /\ N_mp s' = 3%nat /\
  wf exS /\ (N_mp exS < capacity exS)%nat /\ 0 < nel_mp_ref exS /\ (forall j, 0 <= s_uni ex_sr j < 1) /\
  gs_life exGas = flag_lifetime_hist exS /\ 0 < kB exK /\ 0 <= c_light exK /\ 0 <= gs_P exGas /\ 0 <= gs_sigma exGas /\ 0 < gs_T exGas.
Proof.
  destruct exGas_run as (s' & k' & E & N). exists s', k'. split; [exact E|]. split; [exact N|]. split; [exact exS_wf|].
  split; [cbn; lia|]. split; [cbn; lra|]. split; [intros; cbn; lra|]. split; [reflexivity|]. cbn -[pow]. repeat split; lra.
Qed.

(** C47, C48, C57: photoemission, model 1.  [ks] are the photon tracks and
    [hs] their points of impact; the electron [i] starts at the impact point
    [i], with an energy of the chosen distribution, and not into the wall. *)
Theorem C47_photoemission_1 fuel kc ph refl al x0 y0 cdf w p mass lam Dt sr k s s' k' :
  photo1_ctor ph refl al x0 y0 cdf w = Some p ->
  wf s -> (N_mp s < capacity s)%nat -> 0 < nel_mp_ref s -> src_ok sr -> 0 < q_e kc -> 0 < mass -> 0 < ph_sig ph ->
  wall_ok w -> w_out w 0 0 = false ->
  0 <= photo_DNel kc (ph_k ph) (ph_mean ph) lam Dt ->
  photo1_generate fuel kc p w mass lam Dt sr k s = Some (s', k') ->
  exists new, generated (w_out w) s s' new /\ never_hit new /\
    rounded (photo_DNel kc (ph_k ph) (ph_mean ph) lam Dt / nel_mp_ref s) (s_uni sr k) (length new) /\
    close_charge (photo_DNel kc (ph_k ph) (ph_mean ph) lam Dt) s s' /\
    exists ks hs, length ks = length new /\ Forall (starts_inside w) ks /\ w_hit w ks = Some hs /\
      Forall2 (photo_mp kc ph mass) (map hit4 (map fst hs)) new.
Proof. exact (photo1_main fuel kc ph refl al x0 y0 cdf w p mass lam Dt sr k s s' k'). Qed.
Print Assumptions C47_photoemission_1.

Example C47_photoemission_1_nonvacuous : exists p s' k',
  photo1_ctor exPh (1/4) 1 (1/2) 0 None exW = Some p /\ photo1_generate 0 exK p exW 1 (3/2) 1 ex_sr 0 exS = Some (s', k') /\
  wf exS /\ (N_mp exS < capacity exS)%nat /\ 0 < nel_mp_ref exS /\ src_ok ex_sr /\ 0 < q_e exK /\ 0 < ph_sig exPh /\
  wall_ok exW /\ w_out exW 0 0 = false /\ photo_DNel exK (ph_k exPh) (ph_mean exPh) (3/2) 1 = 3/2.
Proof.
  destruct exPh1_run as (s' & k' & E). eexists _, s', k'. split; [exact exPh1_ctor|]. split; [exact E|]. split; [exact exS_wf|].
  split; [cbn; lia|]. split; [cbn; lra|]. split; [exact ex_src_ok|]. split; [cbn; lra|]. split; [cbn; lra|].
  split; [exact exW_ok|]. split; [exact exW_origin|]. apply exPh_charge.
Qed.

(** C47, C48, C57: photoemission, model 2. *)
Theorem C47_photoemission_2 fuel kc ph cdf w mass lam Dt sr k s s' k' :
  wf s -> (N_mp s < capacity s)%nat -> 0 < nel_mp_ref s -> src_ok sr -> 0 < q_e kc -> 0 < mass -> 0 < ph_sig ph ->
  wall_ok w -> w_out w 0 0 = false ->
  0 <= photo_DNel kc (ph_k ph) (ph_mean ph) lam Dt ->
  photo2_generate fuel kc ph cdf w mass lam Dt sr k s = Some (s', k') ->
  exists new, generated (w_out w) s s' new /\ never_hit new /\
    rounded (photo_DNel kc (ph_k ph) (ph_mean ph) lam Dt / nel_mp_ref s) (s_uni sr k) (length new) /\
    close_charge (photo_DNel kc (ph_k ph) (ph_mean ph) lam Dt) s s' /\
    exists ks hs, length ks = length new /\ Forall (starts_inside w) ks /\ w_hit w ks = Some hs /\
      Forall2 (photo_mp kc ph mass) (map hit4 (map fst hs)) new.
Proof. exact (photo2_main fuel kc ph cdf w mass lam Dt sr k s s' k'). Qed.
Print Assumptions C47_photoemission_2.

Example C47_photoemission_2_nonvacuous : exists s' k',
  photo2_generate 0 exK exPh None exW 1 (3/2) 1 ex_sr 0 exS = Some (s', k') /\
  wf exS /\ (N_mp exS < capacity exS)%nat /\ 0 < nel_mp_ref exS /\ src_ok ex_sr /\ 0 < q_e exK /\ 0 < ph_sig exPh /\
  wall_ok exW /\ w_out exW 0 0 = false /\ photo_DNel exK (ph_k exPh) (ph_mean exPh) (3/2) 1 = 3/2.
Proof.
  destruct exPh2_run as (s' & k' & E). eexists s', k'. split; [exact E|]. split; [exact exS_wf|].
  split; [cbn; lia|]. split; [cbn; lra|]. split; [exact ex_src_ok|]. split; [cbn; lra|]. split; [cbn; lra|].
  split; [exact exW_ok|]. split; [exact exW_origin|]. apply exPh_charge.
Qed.

(** The charge of one step of photoemission. *)
Theorem C47_photo_charge kc k mean lam Dt : photo_DNel kc k mean lam Dt = photoemitted kc k mean lam Dt.
Proof. exact (photo_DNel_is kc k mean lam Dt). Qed.
Print Assumptions C47_photo_charge.

(** C47, C48, C57, C58: photoemission per segment (model 3).  The number of
    new electrons at segment [i] is the number of draws that fall between the
    entries [i-1] and [i] of the cumulative distribution, and they start next
    to that segment. *)
Theorem C58_photoemission_per_segment vxs vys cx cy cdf pc fuel kc ph mass lam Dt sr k s s' k' :
  phcham_ctor vxs vys cx cy cdf = Some pc -> length vxs = length vys ->
  wf s -> (N_mp s < capacity s)%nat -> 0 < nel_mp_ref s -> src_ok sr -> 0 < q_e kc -> 0 < mass -> 0 < ph_sig ph ->
  0 <= photo_DNel kc (ph_k ph) (ph_mean ph) lam Dt ->
  photo3_generate fuel kc ph pc mass lam Dt sr k s = Some (s', k') ->
  exists new, generated (p_outside (pc_poly pc)) s s' new /\ never_hit new /\
    rounded (photo_DNel kc (ph_k ph) (ph_mean ph) lam Dt / nel_mp_ref s) (s_uni sr k) (length new) /\
    close_charge (photo_DNel kc (ph_k ph) (ph_mean ph) lam Dt) s s' /\
    exists groups, new = concat groups /\ length groups = length cdf /\
      forall i g, nth_error groups i = Some g ->
        length g = in_bin (0 :: cdf) (draw (s_uni sr) (S k) (length new)) i /\
        Forall (fun p => exists nx ny, near_segment (pc_poly pc) i (m_x p) (m_y p) nx ny /\
                         photo_mp kc ph mass (m_x p, m_y p, nx, ny) p) g.
Proof. exact (photo3_main vxs vys cx cy cdf pc fuel kc ph mass lam Dt sr k s s' k'). Qed.
Print Assumptions C58_photoemission_per_segment.

Example C58_photoemission_per_segment_nonvacuous : exists pc s' k',
  phcham_ctor sqx sqy (99/100) (99/100) sqcdf = Some pc /\ photo3_generate 1 exK exPh pc 1 (3/2) 1 ex_sr 0 exS = Some (s', k') /\
  length sqx = length sqy /\ wf exS /\ (N_mp exS < capacity exS)%nat /\ 0 < nel_mp_ref exS /\ src_ok ex_sr /\
  photo_DNel exK (ph_k exPh) (ph_mean exPh) (3/2) 1 = 3/2.
Proof.
  destruct exPh3_run as (pc & s' & k' & C & E). exists pc, s', k'. split; [exact C|]. split; [exact E|]. split; [reflexivity|].
  split; [exact exS_wf|]. split; [cbn; lia|]. split; [cbn; lra|]. split; [exact ex_src_ok|]. apply exPh_charge.
Qed.

(** C58: the chamber that places the electrons is the polygon of the given
    vertices and inscribed ellipse. *)
Theorem C58_same_chamber vxs vys cx cy cdf pc : phcham_ctor vxs vys cx cy cdf = Some pc -> length vxs = length vys ->
  exists cvx, poly_ctor vxs vys cx cy cvx = Some (pc_poly pc).
Proof. exact (phcham_same vxs vys cx cy cdf pc). Qed.
Print Assumptions C58_same_chamber.

Example C58_same_chamber_case : exists pc, phcham_ctor sqx sqy (99/100) (99/100) sqcdf = Some pc /\ length sqx = length sqy.
Proof. destruct sq_ctor as (pc & p & C & _). exists pc. split; [exact C|reflexivity]. Qed.

(** C58: no electron is left without a segment (the code would otherwise read
    uninitialised memory for its normal). *)
Theorem C58_every_electron_on_a_segment vxs vys cx cy cdf pc fuel sr k n counts pts k' :
  phcham_ctor vxs vys cx cy cdf = Some pc -> length vxs = length vys -> (forall j, 0 <= s_uni sr j < 1) ->
  np_histogram (draw (s_uni sr) k n) (pc_bins pc) = Some counts ->
  segments_loop fuel pc sr (k + n) 0 counts = Some (pts, k') ->
  length pts = n /\ get_photoelectron_positions fuel pc sr k n = Some (pts, k').
Proof. exact (positions_all_filled vxs vys cx cy cdf pc fuel sr k n counts pts k'). Qed.
Print Assumptions C58_every_electron_on_a_segment.

(** C57: energies of photoelectrons. *)
Theorem C57_energies fuel d sig mx sr k n en k' : src_ok sr -> 0 < sig ->
  get_energy fuel d sig mx sr k n = Some (en, k') ->
  length en = n /\ Forall (energy_range d sig mx) en.
Proof. exact (get_energy_ok fuel d sig mx sr k n en k'). Qed.
Print Assumptions C57_energies.

Example C57_energies_nonvacuous : exists en k', get_energy 1 Gaussian 1 5 ex_sr 0 2 = Some (en, k') /\ src_ok ex_sr.
Proof.
  cbn [get_energy draw seq map s_norm ex_sr redraw_neg]. replace (0 * 1 + 5) with 5 by ring.
  rewrite (proj2 (Rltb_false 5 0)) by lra. cbn [count_true Nat.eqb]. eexists _, _. split; [reflexivity|exact ex_src_ok].
Qed.

(** C57: every energy is the one of the chosen distribution for a random
    number that is used only once. *)
Theorem C57_fresh_draws fuel d sig mx sr k n en k' : (forall i, 0 <= s_uni sr i < 1) -> 0 < sig ->
  get_energy fuel d sig mx sr k n = Some (en, k') ->
  exists idx, length idx = n /\ Forall2 (energy_draw d sig mx sr) idx en /\
    (d <> Mono -> NoDup idx /\ Forall (fun i => (k <= i < k')%nat) idx).
Proof. exact (energies_fresh fuel d sig mx sr k n en k'). Qed.
Print Assumptions C57_fresh_draws.

(** C57 fails for the rectangular distribution: nothing rejects a negative
    energy, of which the speed is then NaN. *)
Theorem C57_rectangular_refuted : exists sig mx sr en k, 0 < sig /\ 0 < mx /\ src_ok sr /\
  get_energy 0 Rectangular sig mx sr 0 1 = Some ([en], k) /\ en < 0.
Proof.
  destruct rect_negative as (en & k & E & N). eexists _, _, _, en, k. split; [|split; [|split; [|split; [exact E|exact N]]]]; try lra.
  split; intros; cbn; lra.
Qed.
Print Assumptions C57_rectangular_refuted.

(** C47, C48: the uniform initial distribution of a given total charge. *)
Theorem C47_uniform_charge fuel c DNel v0 oxa oxi oya oyi rng k s s' k' :
  let xmax := odef oxa (x_aper c) in let xmin := odef oxi (- x_aper c) in
  let ymax := odef oya (y_aper c) in let ymin := odef oyi (- y_aper c) in
  wf s -> (N_mp s < capacity s)%nat -> 0 < nel_mp_ref s -> (forall j, 0 <= rng j < 1) -> 0 <= DNel ->
  xmin <= xmax -> ymin <= ymax ->
  add_uniform_MP_distrib fuel c DNel v0 oxa oxi oya oyi rng k s = Some (s', k') ->
  exists new, generated (outside c) s s' new /\ (flag_lifetime_hist s = false -> never_hit new) /\
    rounded (DNel / nel_mp_ref s) (rng k) (length new) /\ close_charge DNel s s' /\
    Forall (in_box xmin xmax ymin ymax) new.
Proof. exact (uniform_main fuel c DNel v0 oxa oxi oya oyi rng k s s' k'). Qed.
Print Assumptions C47_uniform_charge.

Example C47_uniform_charge_nonvacuous : exists s' k',
  add_uniform_MP_distrib 0 exChamb (3/2) 1 None None None None (fun _ => 1/2) 0 exS = Some (s', k') /\
  N_mp s' = 3%nat /\ wf exS /\ (N_mp exS < capacity exS)%nat /\ 0 < nel_mp_ref exS.
Proof.
  destruct exUnif_run as (s' & k' & E & N). exists s', k'. split; [exact E|]. split; [exact N|]. split; [exact exS_wf|].
  split; [cbn; lia|cbn; lra].
Qed.

(** C57 (last impact times) fails for the uniform distribution with the
    lifetime histogram: a new macroparticle takes over the last impact time
    that its slot had before. *)
Theorem C47_stale_impact_time_refuted : exists c s s' k' p, wf s /\ tail_zero s /\ flag_lifetime_hist s = true /\
  add_uniform_MP_distrib 0 c (3/2) 1 None None None None (fun _ => 1/2) 0 s = Some (s', k') /\
  live s' = live s ++ [p] /\ m_t p = 7.
Proof.
  destruct stale_time as (s' & k' & p & E & L & T). exists exChamb, exSlot, s', k', p.
  split; [exact (proj1 exSlot_ok)|]. split; [exact (proj2 exSlot_ok)|]. auto.
Qed.
Print Assumptions C47_stale_impact_time_refuted.

(** C47, C48: the uniform initial density.  The points drawn in the rectangle
    are kept exactly when they are inside the chamber. *)
Theorem C47_uniform_density c n_ele v0 oxa oxi oya oyi rng k s s' k' :
  let xmax := odef oxa (x_aper c) in let xmin := odef oxi (- x_aper c) in
  let ymax := odef oya (y_aper c) in let ymin := odef oyi (- y_aper c) in
  let req := n_ele * (xmax - xmin) * (ymax - ymin) in
  wf s -> (N_mp s < capacity s)%nat -> 0 < nel_mp_ref s -> (forall j, 0 <= rng j < 1) -> 0 <= n_ele ->
  xmin <= xmax -> ymin <= ymax ->
  add_uniform_ele_density c n_ele v0 oxa oxi oya oyi rng k s = Some (s', k') ->
  exists new all, generated (outside c) s s' new /\ never_hit new /\
    rounded (req / nel_mp_ref s) (rng k) (length all) /\
    map (fun p => (m_x p, m_y p)) new = filter (fun q => negb (outside c (fst q) (snd q))) all /\
    Forall (fun q => xmin <= fst q <= xmax /\ ymin <= snd q <= ymax) all /\
    charge s' - charge s < req + nel_mp_ref s.
Proof. exact (density_main c n_ele v0 oxa oxi oya oyi rng k s s' k'). Qed.
Print Assumptions C47_uniform_density.

Example C47_uniform_density_nonvacuous : exists s' k',
  add_uniform_ele_density exChamb (3/8) 1 None None None None (fun _ => 1/2) 0 exS = Some (s', k') /\
  N_mp s' = 3%nat /\ wf exS /\ (N_mp exS < capacity exS)%nat /\ 0 < nel_mp_ref exS.
Proof.
  destruct exDens_run as (s' & k' & E & N). exists s', k'. split; [exact E|]. split; [exact N|]. split; [exact exS_wf|].
  split; [cbn; lia|cbn; lra].
Qed.

(** C48: whatever the source, a cloud that is inside the chamber is inside it
    afterwards. *)
Theorem C48_gas_inside fuel kc g c mass lam Dt sx sy xb yb sr k s s' k' :
  wf s -> (N_mp s < capacity s)%nat -> 0 < nel_mp_ref s -> (forall j, 0 <= s_uni sr j < 1) ->
  gs_life g = flag_lifetime_hist s ->
  0 < kB kc -> 0 <= c_light kc -> 0 <= gs_P g -> 0 <= gs_sigma g -> 0 < gs_T g -> 0 <= lam -> 0 <= Dt ->
  gas_generate fuel kc g c mass lam Dt sx sy xb yb sr k s = Some (s', k') ->
  Forall (fun p => outside c (m_x p) (m_y p) = false) (live s) ->
  Forall (fun p => outside c (m_x p) (m_y p) = false) (live s').
Proof.
  intros. destruct (gas_thm fuel kc g c mass lam Dt sx sy xb yb sr k s s' k') as (new & G & _); auto.
  exact (generated_inside _ _ _ _ G H12).
Qed.
Print Assumptions C48_gas_inside.

Theorem C48_photoemission_1_inside fuel kc ph refl al x0 y0 cdf w p mass lam Dt sr k s s' k' :
  photo1_ctor ph refl al x0 y0 cdf w = Some p ->
  wf s -> (N_mp s < capacity s)%nat -> 0 < nel_mp_ref s -> src_ok sr -> 0 < q_e kc -> 0 < mass -> 0 < ph_sig ph ->
  wall_ok w -> w_out w 0 0 = false ->
  0 <= photo_DNel kc (ph_k ph) (ph_mean ph) lam Dt ->
  photo1_generate fuel kc p w mass lam Dt sr k s = Some (s', k') ->
  Forall (fun p => w_out w (m_x p) (m_y p) = false) (live s) ->
  Forall (fun p => w_out w (m_x p) (m_y p) = false) (live s').
Proof.
  intros CT. intros. destruct (photo1_main fuel kc ph refl al x0 y0 cdf w p mass lam Dt sr k s s' k') as (new & G & _); auto.
  exact (generated_inside _ _ _ _ G H10).
Qed.
Print Assumptions C48_photoemission_1_inside.

Theorem C48_photoemission_2_inside fuel kc ph cdf w mass lam Dt sr k s s' k' :
  wf s -> (N_mp s < capacity s)%nat -> 0 < nel_mp_ref s -> src_ok sr -> 0 < q_e kc -> 0 < mass -> 0 < ph_sig ph ->
  wall_ok w -> w_out w 0 0 = false ->
  0 <= photo_DNel kc (ph_k ph) (ph_mean ph) lam Dt ->
  photo2_generate fuel kc ph cdf w mass lam Dt sr k s = Some (s', k') ->
  Forall (fun p => w_out w (m_x p) (m_y p) = false) (live s) ->
  Forall (fun p => w_out w (m_x p) (m_y p) = false) (live s').
Proof.
  intros. destruct (photo2_main fuel kc ph cdf w mass lam Dt sr k s s' k') as (new & G & _); auto.
  exact (generated_inside _ _ _ _ G H10).
Qed.
Print Assumptions C48_photoemission_2_inside.

Theorem C48_photoemission_3_inside vxs vys cx cy cdf pc fuel kc ph mass lam Dt sr k s s' k' :
  phcham_ctor vxs vys cx cy cdf = Some pc -> length vxs = length vys ->
  wf s -> (N_mp s < capacity s)%nat -> 0 < nel_mp_ref s -> src_ok sr -> 0 < q_e kc -> 0 < mass -> 0 < ph_sig ph ->
  0 <= photo_DNel kc (ph_k ph) (ph_mean ph) lam Dt ->
  photo3_generate fuel kc ph pc mass lam Dt sr k s = Some (s', k') ->
  Forall (fun p => p_outside (pc_poly pc) (m_x p) (m_y p) = false) (live s) ->
  Forall (fun p => p_outside (pc_poly pc) (m_x p) (m_y p) = false) (live s').
Proof.
  intros CT LL. intros. destruct (photo3_main vxs vys cx cy cdf pc fuel kc ph mass lam Dt sr k s s' k') as (new & G & _); auto.
  exact (generated_inside _ _ _ _ G H8).
Qed.
Print Assumptions C48_photoemission_3_inside.

Theorem C48_uniform_inside fuel c DNel v0 oxa oxi oya oyi rng k s s' k' :
  wf s -> (N_mp s < capacity s)%nat -> 0 < nel_mp_ref s -> (forall j, 0 <= rng j < 1) -> 0 <= DNel ->
  odef oxi (- x_aper c) <= odef oxa (x_aper c) -> odef oyi (- y_aper c) <= odef oya (y_aper c) ->
  add_uniform_MP_distrib fuel c DNel v0 oxa oxi oya oyi rng k s = Some (s', k') ->
  Forall (fun p => outside c (m_x p) (m_y p) = false) (live s) ->
  Forall (fun p => outside c (m_x p) (m_y p) = false) (live s').
Proof.
  intros. destruct (uniform_main fuel c DNel v0 oxa oxi oya oyi rng k s s' k') as (new & G & _); auto.
  exact (generated_inside _ _ _ _ G H7).
Qed.
Print Assumptions C48_uniform_inside.

(** The models 1 and 2 send the photons from the origin without looking
    whether it is in the chamber: see the hypothesis [w_out w 0 0 = false].
    The examples of C47 satisfy the hypotheses of the theorems above. *)
Example C48_nonvacuous : Forall (fun p => w_out exW (m_x p) (m_y p) = false) (live exS0).
Proof.
  unfold live. cbn [N_mp exS0 seq map]. constructor; [|constructor; [|constructor]]; apply exW_in; cbn; lra.
Qed.

(** C71: where the electrons freed from the gas start.  The [j]-th new electron
    takes its coordinates from the beam profile, or uniformly over the chamber
    when its own random number is below the uniform fraction; every coordinate
    uses its own random number.  All electrons of one step start with the same
    velocity, of at most a quarter of the given energy. *)
Theorem C71_gas_positions fuel kc g c mass lam Dt sx sy xb yb sr k s s' k' :
  wf s -> (N_mp s < capacity s)%nat -> 0 < nel_mp_ref s -> (forall j, 0 <= s_uni sr j < 1) ->
  gs_life g = flag_lifetime_hist s ->
  0 < kB kc -> 0 <= c_light kc -> 0 <= gs_P g -> 0 <= gs_sigma g -> 0 < gs_T g -> 0 <= lam -> 0 <= Dt ->
  gas_generate fuel kc g c mass lam Dt sx sy xb yb sr k s = Some (s', k') ->
  exists new ix iy iv, generated (outside c) s s' new /\ length ix = length new /\ length iy = length new /\
    NoDup (ix ++ iy ++ [iv; S iv; S (S iv)]) /\
    (new <> [] -> Forall (fun i => (k + 1 + length new <= i < k')%nat) (ix ++ iy ++ [iv; S iv; S (S iv)])) /\
    (forall j p, nth_error new j = Some p ->
       gas_place sr sx xb (x_aper c) (s_uni sr (k + 1 + j) < gs_unif g) (nth j ix 0%nat) (m_x p) /\
       gas_place sr sy yb (y_aper c) (s_uni sr (k + 1 + j) < gs_unif g) (nth j iy 0%nat) (m_y p)) /\
    Forall (fun p => let v := sqrt (2 * (gs_E g / 3) * q_e kc / mass) in
       m_vx p = v * (1/2 - s_uni sr iv) /\ m_vy p = v * (1/2 - s_uni sr (S iv)) /\ m_vz p = v * (1/2 - s_uni sr (S (S iv)))) new.
Proof.
  intros. exact (gas_places fuel kc g c mass lam Dt sx sy xb yb sr k s s' k' H H0 H1 H2 H3
    (gas_DNel_nonneg kc g lam Dt H4 H5 H6 H7 H8 H9 H10) H11).
Qed.
Print Assumptions C71_gas_positions.

Theorem C71_gas_energy fuel kc g c mass lam Dt sx sy xb yb sr k s s' k' :
  wf s -> (N_mp s < capacity s)%nat -> 0 < nel_mp_ref s -> (forall j, 0 <= s_uni sr j < 1) ->
  gs_life g = flag_lifetime_hist s ->
  0 < kB kc -> 0 <= c_light kc -> 0 <= gs_P g -> 0 <= gs_sigma g -> 0 < gs_T g -> 0 <= lam -> 0 <= Dt ->
  0 < q_e kc -> 0 < mass -> 0 <= gs_E g ->
  gas_generate fuel kc g c mass lam Dt sx sy xb yb sr k s = Some (s', k') ->
  exists new, live s' = live s ++ new /\ Forall (fun p => kin_eV (q_e kc) mass (m_vx p) (m_vy p) (m_vz p) <= gs_E g / 4) new.
Proof. exact (gas_energies fuel kc g c mass lam Dt sx sy xb yb sr k s s' k'). Qed.
Print Assumptions C71_gas_energy.

(** The run of [C47_gas_ionisation_nonvacuous] satisfies the hypotheses. *)
Example C71_nonvacuous : exists s' k',
  gas_generate 0 exK exGas exChamb 1 (3/2) 1 (1/10) (1/10) (1/2) 0 ex_sr 0 exS = Some (s', k') /\ N_mp s' = 3%nat /\
  0 < q_e exK /\ gs_E exGas = 1.
Proof. destruct exGas_run as (s' & k' & E & N). exists s', k'. cbn. repeat split; auto; lra. Qed.
