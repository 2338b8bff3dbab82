(** Specification side of the primary sources. *)
From Verif Require Import Num MP SpecMP Geom Poly Sey SpecSey Impact SpecImpact Source.

(** [n] is the number of whole reference charges in [q], plus one when the
    uniform number [u] is below the fraction that is left. *)
Definition rounded (q u : R) (n : nat) : Prop :=
  exists m : nat, INR m <= q < INR m + 1 /\ n = if Rlt_dec u (q - INR m) then S m else m.

(** The cloud [s'] is the cloud [s] with the macroparticles [new] added at the
    end: each carries the reference charge and lies inside the chamber, in the
    plane z = 0; nothing else changes. *)
Record generated (out : R -> R -> bool) (s s' : mpsys) (new : list mp) : Prop := mkGen {
  ge_live : live s' = live s ++ new;
  ge_size : Forall (fun p => m_nel p = nel_mp_ref s) new;
  ge_plane : Forall (fun p => m_z p = 0) new;
  ge_inside : Forall (fun p => out (m_x p) (m_y p) = false) new;
  ge_wf : wf s';
  ge_tail : tail_zero s -> tail_zero s';
  ge_cfg : same_cfg s s';
  ge_ref : nel_mp_ref s' = nel_mp_ref s /\ nel_mp_split s' = nel_mp_split s /\
           nel_mp_cl_th s' = nel_mp_cl_th s }.

(** The new macroparticles have not hit the wall yet (only recorded with the
    lifetime histogram; the default value is -1). *)
Definition never_hit (new : list mp) : Prop := Forall (fun p => m_t p = -1) new.

(** Requested charge and generated charge differ by less than one reference
    charge. *)
Definition close_charge (req : R) (s s' : mpsys) : Prop :=
  Rabs (charge s' - charge s - req) < nel_mp_ref s.

(** A particle of velocity [v] leaves a wall with unit normal [(nx, ny)] with
    energy [E] (in eV) and not into the wall. *)
Definition leaves_wall (qe mass E nx ny : R) (p : mp) : Prop :=
  kin_eV qe mass (m_vx p) (m_vy p) (m_vz p) = E /\ 0 <= normal_comp nx ny (m_vx p) (m_vy p).

(** Energies that a distribution may give. *)
Definition energy_range (d : edist) (sig mx E : R) : Prop :=
  match d with
  | Lognormal => 0 <= E
  | Gaussian => 0 <= E
  | Lorentz => 0 <= E
  | Mono => E = mx
  | Rectangular => mx - sig / 2 <= E < mx + sig / 2
  end.

(** The macroparticle [p] is at the point [(x, y)] with normal [(nx, ny)] and
    starts with an energy of the distribution, not into the wall. *)
Definition photo_mp (kc : consts) (ph : photo) (mass : R) (q : R * R * R * R) (p : mp) : Prop :=
  let '(x, y, nx, ny) := q in
  m_x p = x /\ m_y p = y /\
  exists E, energy_range (ph_dist ph) (ph_sig ph) (ph_max ph) E /\
    (0 <= E -> nx * nx + ny * ny = 1 -> leaves_wall (q_e kc) mass E nx ny p).

(** Point and normal of an impact. *)
Definition hit4 (h : hit) : R * R * R * R := (h_x h, h_y h, h_nx h, h_ny h).

Definition starts_inside (w : wall) (k : track) : Prop := w_out w (t_xin k) (t_yin k) = false.

(** A point of segment [i] of the polygon (not its end point), moved by
    10^-14 along the unit normal to the left of the segment (inwards for
    a counter-clockwise polygon). *)
Definition near_segment (p : poly) (i : nat) (x y nx ny : R) : Prop :=
  nx * nx + ny * ny = 1 /\
  nx * (vx p (S i) - vx p i) + ny * (vy p (S i) - vy p i) = 0 /\
  0 <= ny * (vx p (S i) - vx p i) - nx * (vy p (S i) - vy p i) /\
  exists r, 0 <= r < 1 /\
    x = vx p i + r * (vx p (S i) - vx p i) + 1 / 10 ^ 14 * nx /\
    y = vy p i + r * (vy p (S i) - vy p i) + 1 / 10 ^ 14 * ny.

(** How many of the numbers [us] lie between the entries [i] and [i+1] of
    [bins]. *)
Definition in_bin (bins us : list R) (i : nat) : nat :=
  length (filter (fun u => Rleb (nth i bins 0) u && Rltb u (nth (S i) bins 0)) us).

(** The macro-particle lies in the rectangle. *)
Definition in_box (xmin xmax ymin ymax : R) (p : mp) : Prop := xmin <= m_x p <= xmax /\ ymin <= m_y p <= ymax.

(** Electrons (per unit length) that a beam of density [lam] frees from the
    gas in a time [Dt]: gas density (pressure in nTorr, 1 nTorr =
    133.32e-9 Pa) times cross section (in Mbarn, 1e-22 m^2) times the path of
    the beam times its density. *)
Definition ionised (kc : consts) (P_nTorr sigma_MBarn T lam Dt : R) : R :=
  (P_nTorr * (13332 / 10 ^ 11)) / (kB kc * T) * (sigma_MBarn / 10 ^ 22) * (c_light kc * Dt) * lam.

(** Photoelectrons freed in a time [Dt]: [k] per beam particle and unit length,
    from the current beam density or, with continuous emission, its mean. *)
Definition photoemitted (kc : consts) (k : R) (mean : option R) (lam Dt : R) : R :=
  k * (c_light kc * Dt) * match mean with Some m => m | None => lam end.

(** One coordinate of an electron freed from the gas: uniform over the chamber
    width, or Gaussian around the beam; [i] is the position of the random
    number that is used. *)
Definition gas_place (sr : src) (sigma pos aper : R) (unif : Prop) (i : nat) (x : R) : Prop :=
  (unif -> x = aper * (2 * s_uni sr i - 1)) /\ (~ unif -> x = pos + sigma * s_norm sr i).

(** The energy that the draw number [i] stands for: the Lorentz distribution
    is the one of mode [mx] and half width [sig], restricted to positive
    energies. *)
Definition lorentz_cdf (sig mx E : R) : R := 1/2 + atan ((E - mx) / sig) / PI.
Definition energy_draw (d : edist) (sig mx : R) (sr : src) (i : nat) (E : R) : Prop :=
  match d with
  | Lognormal => E = s_logn sr i
  | Gaussian => E = mx + sig * s_norm sr i
  | Rectangular => E = mx - sig / 2 + sig * s_uni sr i
  | Mono => E = mx
  | Lorentz => lorentz_cdf sig mx E = lorentz_cdf sig mx 0 + s_uni sr i * (1 - lorentz_cdf sig mx 0)
  end.

(** Value at [x] of the table of points: the first or the last value off the
    table, the straight line between two neighbours in it. *)
Definition interpolated (tab : list (R * R)) (x v : R) : Prop :=
  (exists x0 f0 l, tab = (x0, f0) :: l /\ x < x0 /\ v = f0) \/
  (exists l x1 f1, tab = l ++ [(x1, f1)] /\ x1 <= x /\ v = f1) \/
  (exists l x0 f0 x1 f1 l', tab = l ++ (x0, f0) :: (x1, f1) :: l' /\ x0 <= x < x1 /\ v = f0 + (f1 - f0) * (x - x0) / (x1 - x0)).

(** The way of a photon in the plane z = 0: from [(x, y)], a length [len] in the
    direction of the angle [th]. *)
Definition photon (x y len th : R) : track := mkTrack x y 0 (x + len * cos th) (y + len * sin th) 0.

(** Photons of model 1: [u] decides whether the photon is reflected, [i] is the
    position of the random number of its direction. *)
Definition photon1 (p : photo1) (sr : src) (u : R) (i : nat) (t : track) : Prop :=
  let r := ph_radius (p1_ph p) in
  (u < p1_refl p -> match p1_cdf p with
    | None => t = photon 0 0 r (2 * PI * s_uni sr i)
    | Some tab => exists psi, interpolated tab (s_uni sr i) psi /\ t = photon (p1_x0 p) 0 (2 * r) (PI - psi)
    end) /\
  (p1_refl p <= u -> t = photon 0 0 r (p1_alimit p * s_norm sr i)).

(** Photons of model 2. *)
Definition photon2 (ph : photo) (cdf : option (list (R * R))) (sr : src) (i : nat) (t : track) : Prop :=
  exists th, t = photon 0 0 (ph_radius ph) th /\
    match cdf with None => th = 2 * PI * s_uni sr i | Some tab => interpolated tab (s_uni sr i) th end.

(** A macroparticle of the initial distribution: [i] and [j] are the positions
    of the random numbers of its coordinates, [l] the first of the three of its
    velocity. *)
Definition spread (lo hi u : R) : R := lo + u * (hi - lo).
Definition same_velocity (v0 : R) (rng : nat -> R) (l : nat) (p : mp) : Prop :=
  m_vx p = v0 * (rng l - 1/2) /\ m_vy p = v0 * (rng (S l) - 1/2) /\ m_vz p = v0 * (rng (S (S l)) - 1/2).
