(** Specification side of cross ionisation. *)
From Coq Require Import String.
From Verif Require Import Num MP SpecMP CrossIon.
Local Open Scope list_scope.
Local Open Scope R_scope.

(** The energies of the table are [e0], [e0 + h], [e0 + 2 h], ...; the step is
    a multiple of 1e-8. *)
Definition uniform_grid (energy : list R) (e0 h : R) : Prop :=
  (forall i, (i < length energy)%nat -> nth i energy 0 = e0 + INR i * h) /\ 0 < h /\ exists z : Z, h * 10 ^ 8 = IZR z.

(** The same for the logarithms of the energies, with an uneven spacing of the
    energies themselves. *)
Definition log_grid (energy : list R) (l0 h : R) : Prop :=
  (forall i, (i < length energy)%nat -> 0 < nth i energy 0 /\ ln (nth i energy 0) / ln 10 = l0 + INR i * h) /\ 0 < h /\
  (exists z : Z, h * 10 ^ 8 = IZR z) /\
  exists i, (S (S i) < length energy)%nat /\
    round8 (nth (S (S i)) energy 0 - nth (S i) energy 0) <> round8 (nth 1 energy 0 - nth 0 energy 0).

(** Straight line between the points [i] and [i + 1] of the table; [r] is the
    fraction of the way.  Square centimetres to square metres. *)
Definition between (sigma : list R) (i : nat) (r : R) : R :=
  (nth i sigma 0 + r * (nth (S i) sigma 0 - nth i sigma 0)) / 10 ^ 4.

(** The new macroparticle is where a macroparticle of [l] is. *)
Definition where_one_is (l : list mp) (p : mp) : Prop :=
  exists q, In q l /\ m_x p = m_x q /\ m_y p = m_y q /\ m_z p = m_z q.

(** Macroparticles of the clouds that act as projectiles. *)
Definition is_projectile (x : xion) (cl : list xcloud) (p : mp) : Prop :=
  exists name c, In name (map fst (xi_procs x)) /\ In c cl /\ xc_name c = name /\ where_one_is (live (xc_mp c)) p.

(** The sizes are the same, and free slots stay free of charge. *)
Definition same_sizes (s s' : mpsys) : Prop :=
  nel_mp_ref s' = nel_mp_ref s /\ nel_mp_split s' = nel_mp_split s /\ nel_mp_cl_th s' = nel_mp_cl_th s /\ (tail_zero s -> tail_zero s').

(** Cloud [c'] is cloud [c] with macroparticles added, all of them where
    projectiles are; the counters of the cloud have grown by their charge and
    number. *)
Definition grown (P : mp -> Prop) (cnt cnt' : counters) (c c' : xcloud) : Prop :=
  xc_name c' = xc_name c /\ xc_mass c' = xc_mass c /\ wf (xc_mp c') /\ same_cfg (xc_mp c) (xc_mp c') /\
  same_sizes (xc_mp c) (xc_mp c') /\
  exists new, live (xc_mp c') = live (xc_mp c) ++ new /\
    Forall (fun p => P p /\ 0 < m_nel p /\ m_t p = -1) new /\
    c_nel cnt' (xc_name c) = c_nel cnt (xc_name c) + rsum (map m_nel new) /\
    c_N cnt' (xc_name c) = (c_N cnt (xc_name c) + Z.of_nat (length new))%Z.

(** The targets of all processes are not exhausted. *)
Definition procs_of (x : xion) : list xproc := flat_map snd (xi_procs x).
Definition targets_ok (x : xion) : Prop := Forall (fun p => 0 <= x_dens p) (procs_of x).
(** No negative cross section. *)
Definition tables_ok (x : xion) : Prop :=
  Forall (fun p => forall E s, get_sigma (x_tab p) E = Some s -> 0 <= s) (procs_of x).
Definition prods_ok (x : xion) : Prop := Forall (fun p => NoDup (x_prods p)) (procs_of x).

Definition clouds_ok (cl : list xcloud) : Prop :=
  NoDup (map xc_name cl) /\
  Forall (fun c => wf (xc_mp c) /\ (N_mp (xc_mp c) < capacity (xc_mp c))%nat /\ 0 < nel_mp_ref (xc_mp c) /\
    Forall (fun p => 0 <= m_nel p) (live (xc_mp c))) cl.

(** A process before and after a call in which [dn] target particles are
    ionised: nothing happens without projectiles, and otherwise the number is
    rounded to three decimals. *)
Definition depleted (p p' : xproc) (dn : R) : Prop :=
  (p' = p /\ dn = 0) \/
  (Rabs (x_N p' - (x_N p - dn)) <= 1 / 2000 /\ x_dens p' = x_N p' / x_area p' /\
   x_area p' = x_area p /\ x_tab p' = x_tab p /\ x_prods p' = x_prods p /\ x_E p' = x_E p /\ x_equal p' = x_equal p).

(** What a process that ionises [dn] target particles adds to the counter of
    ionisations of cloud [m]. *)
Definition produced (m : string) (p : xproc) (dn : R) : R := if existsb (String.eqb m) (x_prods p) then dn else 0.

(** All processes of a call: each ionises some number [dn >= 0] of target
    particles, which leave its target and are counted for each of its
    products.  [cnt] is the counter of ionisations before and the last argument
    the counter after. *)
Inductive fired (cnt : string -> R) : list xproc -> list xproc -> (string -> R) -> Prop :=
| fired_nil : forall cnt', (forall m, cnt' m = cnt m) -> fired cnt [] [] cnt'
| fired_cons : forall p p' dn ps ps' c1 c2, 0 <= dn -> depleted p p' dn -> fired cnt ps ps' c1 ->
    (forall m, c2 m = c1 m + produced m p dn) -> fired cnt (p :: ps) (p' :: ps') c2.

(** Ionisations expected from one projectile [q]: cross section at its kinetic
    energy, times target density, times its path, times its charge. *)
Definition speed (q : mp) : R := sqrt (m_vx q * m_vx q + m_vy q * m_vy q + m_vz q * m_vz q).
Definition hits (qe : R) (p : xproc) (Dt mass : R) (q : mp) (dn : R) : Prop :=
  exists sg, get_sigma (x_tab p) (1/2 * mass / qe * (speed q * speed q)) = Some sg /\
    dn = sg * x_dens p * (speed q * Dt) * m_nel q.

(** Histories: calls of [generate], reads of the counters of a cloud, and
    anything else that happens to the clouds.  [total m] is what the calls
    have added to cloud [m], [read m] what the reads have returned. *)
Definition charge_of (cl : list xcloud) (m : string) : R :=
  rsum (map (fun c => if String.eqb (xc_name c) m then charge (xc_mp c) else 0) cl).
Definition number_of (cl : list xcloud) (m : string) : Z :=
  fold_right Z.add 0%Z (map (fun c => if String.eqb (xc_name c) m then Z.of_nat (N_mp (xc_mp c)) else 0%Z) cl).

Record ledger := mkLed { added : string -> R; addedN : string -> Z; read : string -> R; readN : string -> Z }.

Inductive hstep (qe : R) : xion * list xcloud * ledger -> xion * list xcloud * ledger -> Prop :=
| H_gen : forall Dt rng k x cl x' cl' k' L, 0 <= Dt -> (forall j, 0 <= rng j < 1) ->
    targets_ok x -> tables_ok x -> prods_ok x -> clouds_ok cl ->
    cross_generate qe Dt x cl rng k = Some (x', cl', k') ->
    hstep qe (x, cl, L) (x', cl', mkLed (fun m => added L m + (charge_of cl' m - charge_of cl m))
      (fun m => (addedN L m + (number_of cl' m - number_of cl m))%Z) (read L) (readN L))
| H_read : forall x cl L name a n d x', In name (map xc_name cl) -> save_cross_ion_data x name = ((a, n, d), x') ->
    hstep qe (x, cl, L) (x', cl, mkLed (added L) (addedN L) (bump (read L) name (fun v => v + a)) (bump (readN L) name (fun v => (v + n)%Z)))
| H_world : forall x cl cl' L, map xc_name cl' = map xc_name cl -> hstep qe (x, cl, L) (x, cl', L).

Inductive hrun (qe : R) : xion * list xcloud * ledger -> xion * list xcloud * ledger -> Prop :=
| R_nil : forall s, hrun qe s s
| R_cons : forall s1 s2 s3, hstep qe s1 s2 -> hrun qe s2 s3 -> hrun qe s1 s3.

(** The fraction of the target a call can ionise: the sum over the projectiles
    of cross section, path and charge is an area, at most the area filled by
    the target. *)
Definition swept (qe : R) (p : xproc) (Dt mass : R) (q : mp) (a : R) : Prop :=
  exists sg, get_sigma (x_tab p) (1/2 * mass / qe * (speed q * speed q)) = Some sg /\ a = sg * (speed q * Dt) * m_nel q.
Definition gentle (qe Dt : R) (x : xion) (cl : list xcloud) : Prop :=
  forall name ps c p areas, In (name, ps) (xi_procs x) -> In p ps -> In c cl -> xc_name c = name ->
    Forall2 (swept qe p Dt (xc_mass c)) (live (xc_mp c)) areas -> rsum areas <= x_area p.

(** Number, density and area of the target agree, and the target exists. *)
Definition target_full (p : xproc) : Prop := 0 < x_area p /\ x_dens p = x_N p / x_area p /\ 0 <= x_N p.

(** A run: calls of [generate], each with any clouds. *)
Inductive gentle_run (qe : R) : xion -> xion -> Prop :=
| G_nil : forall x, gentle_run qe x x
| G_cons : forall x Dt cl rng k x1 cl1 k1 x2, 0 <= Dt -> gentle qe Dt x cl ->
    cross_generate qe Dt x cl rng k = Some (x1, cl1, k1) -> gentle_run qe x1 x2 -> gentle_run qe x x2.

(** The velocities of the macroparticles given to a product: [a], [b] and [d]
    are the positions of the random numbers used for the three components, and
    the speed is that of a third of the initial energy [E]. *)
Definition ids (t : list nat * list nat * list nat) : list nat := let '(a, b, d) := t in a ++ b ++ d.
Definition started_by (qe E : R) (rng : nat -> R) (cl : list xcloud) (i : string * xinfo) (t : list nat * list nat * list nat) : Prop :=
  exists c, In c cl /\ xc_name c = fst i /\
    let v := sqrt (2 * (E / 3) * qe / xc_mass c) in let '(a, b, d) := t in
    n_vx (snd i) = map (fun u => v * (rng u - 1/2)) a /\ n_vy (snd i) = map (fun u => v * (rng u - 1/2)) b /\
    n_vz (snd i) = map (fun u => v * (rng u - 1/2)) d.

(** The velocity of a new macroparticle: the initial energy of its process and
    the positions of the three random numbers used. *)
Definition vtag : Type := R * (nat * nat * nat).
Definition used (t : vtag) : list nat := let '(_, (a, b, d)) := t in [a; b; d].
Definition thrown (qe mass : R) (rng : nat -> R) (q : mp) (t : vtag) : Prop :=
  let '(E, (a, b, d)) := t in let v := sqrt (2 * (E / 3) * qe / mass) in
  m_vx q = v * (rng a - 1/2) /\ m_vy q = v * (rng b - 1/2) /\ m_vz q = v * (rng d - 1/2).
(** Cloud [c'] is [c] with new macroparticles, each thrown by a process of [x]
    that has this cloud among its products. *)
Definition newly (qe : R) (rng : nat -> R) (x : xion) (T : string -> list vtag) (c c' : xcloud) : Prop :=
  exists new, live (xc_mp c') = live (xc_mp c) ++ new /\
    Forall2 (fun q t => thrown qe (xc_mass c) rng q t /\
      exists p, In p (procs_of x) /\ In (xc_name c) (x_prods p) /\ fst t = x_E p) new (T (xc_name c)).
