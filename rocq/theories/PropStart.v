(** Properties of where primaries come from: C78, C79. *)
From Coq Require Import Lra Lia.
From Verif Require Import Num NumFacts MP SpecMP Geom Poly Sey SpecSey ExSey Impact SpecImpact ExImpact
  Source SpecSource SourceFacts SourceFacts2 SourceFacts4 SourceFacts6 ExSource.

(** C78: the photons of model 1.  The electron [j] starts where the photon [j]
    meets the wall.  The random number [k + 1 + j] decides whether this photon is
    a reflected one.  A photon that is not goes from the origin at an angle of
    the normal distribution of the given width; a reflected one goes from the
    origin in any direction, or, with a table of angles, from the given point on
    the axis backwards at an angle of the table.  No two directions use the same
    random number. *)
Theorem C78_photons_1 fuel kc ph refl al x0 y0 cdf w p mass lam Dt sr k s s' k' :
  photo1_ctor ph refl al x0 y0 cdf w = Some p ->
  wf s -> (N_mp s < capacity s)%nat -> 0 < nel_mp_ref s -> src_ok sr -> 0 < q_e kc -> 0 < mass -> 0 < ph_sig ph ->
  wall_ok w -> w_out w 0 0 = false ->
  0 <= photo_DNel kc (ph_k ph) (ph_mean ph) lam Dt ->
  photo1_generate fuel kc p w mass lam Dt sr k s = Some (s', k') ->
  exists new ks hs ix, live s' = live s ++ new /\ length ks = length new /\ w_hit w ks = Some hs /\
    Forall2 (photo_mp kc ph mass) (map hit4 (map fst hs)) new /\
    length ix = length new /\ NoDup ix /\ Forall (fun i => (k + length new < i < k + 1 + 2 * length new)%nat) ix /\
    forall j t, nth_error ks j = Some t -> photon1 (mkPhoto1 ph refl al x0 cdf) sr (s_uni sr (k + 1 + j)) (nth j ix 0%nat) t.
Proof. exact (photo1_tracks fuel kc ph refl al x0 y0 cdf w p mass lam Dt sr k s s' k'). Qed.
Print Assumptions C78_photons_1.

Example C78_photons_1_case : exists p s' k',
  photo1_ctor exPh (1/4) 1 (1/2) 0 None exW = Some p /\ photo1_generate 0 exK p exW 1 (3/2) 1 ex_sr 0 exS = Some (s', k') /\
  wf exS /\ (N_mp exS < capacity exS)%nat /\ 0 < nel_mp_ref exS /\ src_ok ex_sr /\ 0 < q_e exK /\ 0 < ph_sig exPh /\
  wall_ok exW /\ w_out exW 0 0 = false /\ photo_DNel exK (ph_k exPh) (ph_mean exPh) (3/2) 1 = 3/2.
Proof.
  destruct exPh1_run as (s' & k' & E). eexists _, s', k'. split; [exact exPh1_ctor|]. split; [exact E|]. split; [exact exS_wf|].
  split; [cbn; lia|]. split; [cbn; lra|]. split; [exact ex_src_ok|]. split; [cbn; lra|]. split; [cbn; lra|].
  split; [exact exW_ok|]. split; [exact exW_origin|]. apply exPh_charge.
Qed.

(** C78: the photons of model 2 start at the origin, in any direction or at an
    angle of the table. *)
Theorem C78_photons_2 fuel kc ph cdf w mass lam Dt sr k s s' k' :
  wf s -> (N_mp s < capacity s)%nat -> 0 < nel_mp_ref s -> src_ok sr -> 0 < q_e kc -> 0 < mass -> 0 < ph_sig ph ->
  wall_ok w -> w_out w 0 0 = false ->
  0 <= photo_DNel kc (ph_k ph) (ph_mean ph) lam Dt ->
  photo2_generate fuel kc ph cdf w mass lam Dt sr k s = Some (s', k') ->
  exists new ks hs, live s' = live s ++ new /\ length ks = length new /\ w_hit w ks = Some hs /\
    Forall2 (photo_mp kc ph mass) (map hit4 (map fst hs)) new /\
    forall j t, nth_error ks j = Some t -> photon2 ph cdf sr (k + 1 + j) t.
Proof. exact (photo2_tracks fuel kc ph cdf w mass lam Dt sr k s s' k'). Qed.
Print Assumptions C78_photons_2.

Example C78_photons_2_case : exists s' k',
  photo2_generate 0 exK exPh None exW 1 (3/2) 1 ex_sr 0 exS = Some (s', k') /\
  wf exS /\ (N_mp exS < capacity exS)%nat /\ 0 < nel_mp_ref exS /\ src_ok ex_sr /\ 0 < q_e exK /\ 0 < ph_sig exPh /\
  wall_ok exW /\ w_out exW 0 0 = false /\ photo_DNel exK (ph_k exPh) (ph_mean exPh) (3/2) 1 = 3/2.
Proof.
  destruct exPh2_run as (s' & k' & E). eexists s', k'. split; [exact E|]. split; [exact exS_wf|].
  split; [cbn; lia|]. split; [cbn; lra|]. split; [exact ex_src_ok|]. split; [cbn; lra|]. split; [cbn; lra|].
  split; [exact exW_ok|]. split; [exact exW_origin|]. apply exPh_charge.
Qed.

(** C79: the initial distribution of a given charge.  Each coordinate is spread
    over its range by its own random number; all macroparticles start with the
    same velocity. *)
Theorem C79_uniform_charge fuel c DNel v0 oxa oxi oya oyi rng k s s' k' :
  let xmax := odef oxa (x_aper c) in let xmin := odef oxi (- x_aper c) in
  let ymax := odef oya (y_aper c) in let ymin := odef oyi (- y_aper c) in
  wf s -> (N_mp s < capacity s)%nat -> 0 < nel_mp_ref s -> (forall j, 0 <= rng j < 1) -> 0 <= DNel ->
  add_uniform_MP_distrib fuel c DNel v0 oxa oxi oya oyi rng k s = Some (s', k') ->
  exists new ix iy iv, live s' = live s ++ new /\ length ix = length new /\ length iy = length new /\
    NoDup (ix ++ iy ++ [iv; S iv; S (S iv)]) /\ (new <> [] -> Forall (fun i => (k < i < k')%nat) (ix ++ iy ++ [iv; S iv; S (S iv)])) /\
    (forall j p, nth_error new j = Some p -> m_x p = spread xmin xmax (rng (nth j ix 0%nat)) /\ m_y p = spread ymin ymax (rng (nth j iy 0%nat))) /\
    Forall (same_velocity v0 rng iv) new.
Proof. exact (uniform_places fuel c DNel v0 oxa oxi oya oyi rng k s s' k'). Qed.
Print Assumptions C79_uniform_charge.

Example C79_uniform_charge_case : exists s' k',
  add_uniform_MP_distrib 0 exChamb (3/2) 1 None None None None (fun _ => 1/2) 0 exS = Some (s', k') /\
  N_mp s' = 3%nat /\ wf exS /\ (N_mp exS < capacity exS)%nat /\ 0 < nel_mp_ref exS.
Proof.
  destruct exUnif_run as (s' & k' & E & N). exists s', k'. split; [exact E|]. split; [exact N|]. split; [exact exS_wf|].
  split; [cbn; lia|cbn; lra].
Qed.

(** C79: the initial distribution of a given density.  The points are drawn once,
    and those outside the chamber are left out. *)
Theorem C79_uniform_density c n_ele v0 oxa oxi oya oyi rng k s s' k' :
  let xmax := odef oxa (x_aper c) in let xmin := odef oxi (- x_aper c) in
  let ymax := odef oya (y_aper c) in let ymin := odef oyi (- y_aper c) in
  let req := n_ele * (xmax - xmin) * (ymax - ymin) in
  wf s -> (N_mp s < capacity s)%nat -> 0 < nel_mp_ref s -> (forall j, 0 <= rng j < 1) -> 0 <= n_ele -> xmin <= xmax -> ymin <= ymax ->
  add_uniform_ele_density c n_ele v0 oxa oxi oya oyi rng k s = Some (s', k') ->
  exists new n, live s' = live s ++ new /\ rounded (req / nel_mp_ref s) (rng k) n /\
    map (fun p => (m_x p, m_y p)) new =
      filter (fun q => negb (outside c (fst q) (snd q))) (map (fun j => (spread xmin xmax (rng (k + 1 + j)%nat), spread ymin ymax (rng (k + 1 + n + j)%nat))) (seq 0 n)) /\
    Forall (same_velocity v0 rng (k + 1 + 2 * n)) new /\ (n <> 0%nat -> k' = (k + 1 + 2 * n + 3)%nat).
Proof. exact (density_places c n_ele v0 oxa oxi oya oyi rng k s s' k'). Qed.
Print Assumptions C79_uniform_density.

Example C79_uniform_density_case : exists s' k',
  add_uniform_ele_density exChamb (3/8) 1 None None None None (fun _ => 1/2) 0 exS = Some (s', k') /\
  N_mp s' = 3%nat /\ wf exS /\ (N_mp exS < capacity exS)%nat /\ 0 < nel_mp_ref exS.
Proof.
  destruct exDens_run as (s' & k' & E & N). exists s', k'. split; [exact E|]. split; [exact N|]. split; [exact exS_wf|].
  split; [cbn; lia|cbn; lra].
Qed.
