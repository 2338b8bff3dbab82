(** Models of the primary sources of macroparticles (MPs):
    gas_ionization_class.py, gen_photoemission_class.py, the photoelectron
    energies of electron_emission.py and the photoemission chamber of
    geom_impact_poly_fast_impact.py.  (The uniform distributions of
    MP_system.py are in MP.v.)  No proofs in this file. *)
From Verif Require Import Num MP Geom Poly Sey Impact.

(** scipy.constants: Boltzmann constant, speed of light, elementary charge. *)
Record consts := mkConsts { kB : R; c_light : R; q_e : R }.

(** * Residual gas ionisation *)

(** gas_ionization_class.py:61-78.  The chamber is a separate argument. *)
Record gas := mkGas {
  gs_unif : R; gs_P : R; gs_sigma : R; gs_T : R; gs_E : R; gs_life : bool }.

(** gas_ionization_class.py:87-93: charge generated in one step. *)
Definition gas_DNel (kc : consts) (g : gas) (lambda_t Dt : R) : R :=
  let P_Pa := gs_P g * (13332 / 10 ^ 11) in
  let sigma_ion_mq := gs_sigma g * (1 / 10 ^ 22) in
  let n_gas := P_Pa / (kB kc * gs_T g) in
  let k_ion := n_gas * sigma_ion_mq * c_light kc in
  k_ion * lambda_t * Dt.

(** gas_ionization_class.py:104-105, 112-113: one coordinate of new MPs;
    [randn(n)] is drawn first, then [rand(n)].  The products with the boolean
    masks are a choice between the two terms. *)
Definition gas_coord (sigma pos aper : R) (sr : src) (k : nat) (unif : list bool) : list R * nat :=
  let n := length unif in
  (map3 (fun (b : bool) g u => if b then aper * (2 * (u - 1/2)) else sigma * g + pos)
     unif (draw (s_norm sr) k n) (draw (s_uni sr) (k + n) n),
   (k + n + n)%nat).

(** gas_ionization_class.py:107-115: redraw the positions that are outside.
    [fuel] bounds the rounds of the [while] loop; [None] = still running. *)
Fixpoint redraw_gas (fuel : nat) (c : chamber) (sigmax sigmay xb yb : R) (sr : src) (k : nat)
  (unif : list bool) (xt yt : list R) : option (list R * list R * nat) :=
  let flag := map2 (outside c) xt yt in
  if Nat.eqb (count_true flag) 0 then Some (xt, yt, k)
  else match fuel with
  | O => None
  | S f =>
      let unif1 := mask_get flag unif in
      let '(xs, k) := gas_coord sigmax xb (x_aper c) sr k unif1 in
      let '(ys, k) := gas_coord sigmay yb (y_aper c) sr k unif1 in
      redraw_gas f c sigmax sigmay xb yb sr k unif (mask_put flag xt xs) (mask_put flag yt ys)
  end.

(** gas_ionization_class.py:81-131.  With [flag_lifetime_hist] set here and
    not in the MP system the attribute [t_last_impact] does not exist
    ([None]).  Lines 117-123 are those of [write_uniform]. *)
Definition gas_generate (fuel : nat) (kc : consts) (g : gas) (c : chamber) (mass lambda_t Dt : R)
  (sigmax sigmay xb yb : R) (sr : src) (k : nat) (s : mpsys) : option (mpsys * nat) :=
  let v0 := - sqrt (2 * (gs_E g / 3) * q_e kc / mass) in
  let nz := stoch_round (gas_DNel kc g lambda_t Dt / nel_mp_ref s) (s_uni sr k) in
  let k := S k in
  if (0 <? nz)%Z then
    let n := Z.to_nat nz in
    let unif := map (fun u => Rltb u (gs_unif g)) (draw (s_uni sr) k n) in
    let '(xt, k) := gas_coord sigmax xb (x_aper c) sr (k + n) unif in
    let '(yt, k) := gas_coord sigmay yb (y_aper c) sr k unif in
    do (xt, yt, k) <- redraw_gas fuel c sigmax sigmay xb yb sr k unif xt yt ;
    do t <- (if gs_life g then
               if flag_lifetime_hist s
               then Some (slice_fill (t_last_impact s) (N_mp s) (N_mp s + n) (-1))
               else None
             else Some (t_last_impact s)) ;
    do s' <- write_uniform s n xt yt (v0 * (s_uni sr k - 1/2)) (v0 * (s_uni sr (k+1)%nat - 1/2))
               (v0 * (s_uni sr (k+2)%nat - 1/2)) t ;
    Some (s', (k + 3)%nat)
  else Some (s, k).

(** * Photoemission *)

(** gen_photoemission_class.py:71-74: [mean_lambda] is given when
    [flag_continuous_emission]. *)
Definition photo_DNel (kc : consts) (k_pe_st : R) (mean_lambda : option R) (lambda_t Dt : R) : R :=
  let lambda_t := match mean_lambda with Some m => m | None => lambda_t end in
  k_pe_st * c_light kc * lambda_t * Dt.

(** gen_photoemission_class.py:75-77: [np.modf] splits towards zero. *)
Definition photo_number (q u : R) : Z :=
  let n := rtrunc q in
  if Rltb u (q - IZR n) then (n + 1)%Z else n.

(** electron_emission.py:236-272: energy distributions of photoelectrons. *)
Inductive edist := Lognormal | Gaussian | Rectangular | Mono | Lorentz.

(** electron_emission.py:246-255: redraw the negative energies. *)
Fixpoint redraw_neg (fuel : nat) (sig mx : R) (sr : src) (k : nat) (en : list R)
  : option (list R * nat) :=
  let flag := map (fun e => Rltb e 0) en in
  let n := count_true flag in
  if Nat.eqb n 0 then Some (en, k)
  else match fuel with
  | O => None
  | S f => redraw_neg f sig mx sr (k + n)
             (mask_put flag en (map (fun g => g * sig + mx) (draw (s_norm sr) k n)))
  end.

(** [scipy.stats.cauchy.cdf] and [ppf] with location and scale. *)
Definition cauchy_cdf (x loc scale : R) : R := 1/2 + atan ((x - loc) / scale) / PI.
Definition cauchy_ppf (u loc scale : R) : R := loc + scale * tan (PI * (u - 1/2)).

(** electron_emission.py:239-272, the [__call__] methods.  [s_logn] gives the
    draws of [lognormal(e_pe_max, e_pe_sigma)]. *)
Definition get_energy (fuel : nat) (d : edist) (sig mx : R) (sr : src) (k n : nat)
  : option (list R * nat) :=
  match d with
  | Lognormal => Some (draw (s_logn sr) k n, (k + n)%nat)
  | Gaussian => redraw_neg fuel sig mx sr (k + n) (map (fun g => g * sig + mx) (draw (s_norm sr) k n))
  | Rectangular => Some (map (fun u => mx + (u - 1/2) * sig) (draw (s_uni sr) k n), (k + n)%nat)
  | Mono => Some (repeat (1 * mx) n, k)
  | Lorentz =>
      let xx_min := cauchy_cdf 0 mx sig in
      Some (map (fun u => cauchy_ppf (u * (1 - xx_min) + xx_min) mx sig) (draw (s_uni sr) k n), (k + n)%nat)
  end.

(** Settings common to the photoemission classes (gen_photoemission_class.py). *)
Record photo := mkPhoto {
  ph_k : R; ph_mean : option R; ph_dist : edist; ph_sig : R; ph_max : R;
  ph_angle : adist; ph_radius : R }.

(** gen_photoemission_class.py:85-94: the new MPs once the points and normals
    are known; scalars are lists of length one.  [None] from
    [angle_dist_func] arrays of unequal length cannot occur here. *)
Definition photo_set (fuel : nat) (kc : consts) (ph : photo) (mass : R) (sr : src) (k n : nat)
  (xs ys nx ny : list R) (s : mpsys) : option (mpsys * nat) :=
  do (en, k) <- get_energy fuel (ph_dist ph) (ph_sig ph) (ph_max ph) sr k n ;
  let '(v, k) := angle_dist_func (ph_angle ph) (q_e kc) mass sr k n en nx ny in
  do s' <- add_new_MPs n (mkBatch [nel_mp_ref s] xs ys [0] (map fst3 v) (map snd3 v) (map thd3 v) [-1]) s ;
  Some (s', k).

(** gen_photoemission_class.py:79-94.  All points have [z = 0]. *)
Definition gen_energy_and_set_MPs (fuel : nat) (kc : consts) (ph : photo) (w : wall) (mass : R) (sr : src)
  (k n : nat) (xy : list (R * R * R * R)) (s : mpsys) : option (mpsys * nat) :=
  do hs <- w_hit w (map (fun '(xi, yi, xo, yo) => mkTrack xi yi 0 xo yo 0) xy) ;
  let h := map fst hs in
  photo_set fuel kc ph mass sr k n (map h_x h) (map h_y h) (map h_nx h) (map h_ny h) s.

(** [np.interp(x, xp, fp)] for sorted [xp]: clamped at both ends and linear
    between the points. *)
Fixpoint interp_from (x x0 f0 : R) (tab : list (R * R)) : R :=
  match tab with
  | [] => f0
  | (x1, f1) :: tab' =>
      if Rltb x x1 then f0 + (f1 - f0) / (x1 - x0) * (x - x0) else interp_from x x1 f1 tab'
  end.
Definition np_interp (x : R) (tab : list (R * R)) : option R :=
  match tab with
  | [] => None
  | (x0, f0) :: tab' => Some (if Rltb x x0 then f0 else interp_from x x0 f0 tab')
  end.

Fixpoint mapM {A B} (f : A -> option B) (l : list A) : option (list B) :=
  match l with
  | [] => Some []
  | a :: l' => do b <- f a ; do bs <- mapM f l' ; Some (b :: bs)
  end.

(** gen_photoemission_class.py:98-165: the additional settings of model 1;
    [p1_cdf = None] for 'unif_no_file', otherwise the pairs of
    [u_sam_CDF_refl] and [inv_CDF_refl].  The constructor raises when
    [y0_refl] is not zero or [(x0_refl, 0)] is outside; its checks of the
    outer circle at 10000 points and the options 'left' and 'right' of
    [x0_refl] are not modelled. *)
Record photo1 := mkPhoto1 {
  p1_ph : photo; p1_refl : R; p1_alimit : R; p1_x0 : R; p1_cdf : option (list (R * R)) }.

Definition photo1_ctor (ph : photo) (refl alimit x0 y0 : R) (cdf : option (list (R * R))) (w : wall)
  : option photo1 :=
  if negb (Reqb y0 0) then None
  else if w_out w x0 y0 then None
  else Some (mkPhoto1 ph refl alimit x0 cdf).

(** Lines 184-196: a reflected photon with random number [u]. *)
Definition refl_track (p : photo1) (u : R) : option (R * R * R * R) :=
  let r := ph_radius (p1_ph p) in
  match p1_cdf p with
  | None => let psi := 2 * PI * u in Some (0, 0, r * cos psi, r * sin psi)
  | Some tab =>
      do psi <- np_interp u tab ;
      Some (p1_x0 p, 0, - 2 * r * cos psi + p1_x0 p, 2 * r * sin psi)
  end.
(** Lines 201-203: a photon that is not reflected, with normal draw [g]. *)
Definition gauss_track (p : photo1) (g : R) : R * R * R * R :=
  let r := ph_radius (p1_ph p) in
  let th := p1_alimit p * g in (0, 0, r * cos th, r * sin th).

(** gen_photoemission_class.py:167-207. *)
Definition photo1_generate (fuel : nat) (kc : consts) (p : photo1) (w : wall) (mass lambda_t Dt : R)
  (sr : src) (k : nat) (s : mpsys) : option (mpsys * nat) :=
  let ph := p1_ph p in
  let nz := photo_number (photo_DNel kc (ph_k ph) (ph_mean ph) lambda_t Dt / nel_mp_ref s) (s_uni sr k) in
  let k := S k in
  if (0 <? nz)%Z then
    let n := Z.to_nat nz in
    let refl := map (fun u => Rltb u (p1_refl p)) (draw (s_uni sr) k n) in
    let N_refl := count_true refl in
    let k := (k + n)%nat in
    do rt <- mapM (refl_track p) (draw (s_uni sr) k N_refl) ;
    let k := (k + N_refl)%nat in
    let N_gauss := count_true (map negb refl) in
    let gt := map (gauss_track p) (draw (s_norm sr) k N_gauss) in
    let k := (k + N_gauss)%nat in
    let xy := mask_put (map negb refl) (mask_put refl (repeat (0, 0, 0, 0) n) rt) gt in
    gen_energy_and_set_MPs fuel kc ph w mass sr k n xy s
  else Some (s, k).

(** gen_photoemission_class.py:210-260 (model 2): [cdf = None] for
    'unif_no_file', otherwise the pairs of [u_sam] and [angles]. *)
Definition photo2_generate (fuel : nat) (kc : consts) (ph : photo) (cdf : option (list (R * R))) (w : wall)
  (mass lambda_t Dt : R) (sr : src) (k : nat) (s : mpsys) : option (mpsys * nat) :=
  let nz := photo_number (photo_DNel kc (ph_k ph) (ph_mean ph) lambda_t Dt / nel_mp_ref s) (s_uni sr k) in
  let k := S k in
  if (0 <? nz)%Z then
    let n := Z.to_nat nz in
    do th <- match cdf with
             | None => Some (map (fun u => u * 2 * PI) (draw (s_uni sr) k n))
             | Some tab => mapM (fun u => np_interp u tab) (draw (s_uni sr) k n)
             end ;
    let r := ph_radius ph in
    gen_energy_and_set_MPs fuel kc ph w mass sr (k + n) n (map (fun t => (0, 0, r * cos t, r * sin t)) th) s
  else Some (s, k).

(** * Photoemission per segment *)

(** geom_impact_poly_fast_impact.py:366-422: the polygon of the photoemission
    chamber with its per-segment fractions. *)
Record phcham := mkPhcham {
  pc_poly : poly; pc_bins : list R; pc_x0 : list R; pc_y0 : list R;
  pc_nrm : list (R * R) }.

(** Line 366: [distance_new_phem]. *)
Definition phem_dist : R := 1 / 10 ^ 14.

(** Lines 368-422; the convexity test selects the routine of [is_outside].
    Vertex lists of unequal length are not modelled. *)
Definition phcham_ctor (vxs vys : list R) (cx cy : R) (cdf : list R) : option phcham :=
  match rev cdf, vxs, vys with
  | l :: _, vx0 :: _, vy0 :: _ =>
      if negb (Reqb l 1) then None
      else if existsb (fun d => Rltb d 0) (np_diff cdf) then None
      else
        let Vx := vxs ++ [vx0] in
        let Vy := vys ++ [vy0] in
        let area := poly_area Vx Vy in
        if Rltb area 0 then None
        else if existsb (fun d => Rltb d (1 / 10 ^ 9))
                  (map2 (fun dx dy => sqrt (dx ^ 2 + dy ^ 2)) (np_diff Vx) (np_diff Vy)) then None
        else
          let N := map2 edge_normal (np_diff Vx) (np_diff Vy) in
          let p := mkPoly Vx Vy N (length vxs) cx cy (is_convex Vx Vy (length vxs)) area in
          do nrm <- mapM (fun o => o) N ;
          Some (mkPhcham p (0 :: cdf)
            (map2 (fun v n => v + phem_dist * fst n) vxs nrm)
            (map2 (fun v n => v + phem_dist * snd n) vys nrm) nrm)
  | _, _, _ => None
  end.

(** [np.histogram(us, bins)]: the bins are half open except the last one;
    [ValueError] ([None]) when they decrease. *)
Fixpoint hist_bins (us bins : list R) : list nat :=
  match bins with
  | a :: ((b :: l) as bins') =>
      count_true (map (fun u => Rleb a u && (match l with [] => Rleb u b | _ => Rltb u b end)) us)
        :: hist_bins us bins'
  | _ => []
  end.
Definition np_histogram (us bins : list R) : option (list nat) :=
  if existsb (fun d => Rltb d 0) (np_diff bins) then None else Some (hist_bins us bins).

(** geom_impact_poly_fast_impact.py:455-479: points of one segment, redrawn
    while outside; [fuel] bounds the recursion. *)
Fixpoint segment_points (fuel : nat) (out : R -> R -> bool) (x0 y0 dx dy : R) (sr : src) (k n : nat)
  : option (list R * list R * nat) :=
  match fuel with
  | O => None
  | S f =>
      let rr := draw (s_uni sr) k n in
      let k := (k + n)%nat in
      let xs := map (fun r => x0 + r * dx) rr in
      let ys := map (fun r => y0 + r * dy) rr in
      let flag := map2 out xs ys in
      if Nat.eqb (count_true flag) 0 then Some (xs, ys, k)
      else
        do (xo, yo, k) <- segment_points f out x0 y0 dx dy sr k (count_true flag) ;
        Some (mask_put flag xs xo, mask_put flag ys yo, k)
  end.

(** geom_impact_poly_fast_impact.py:443-453: the loop over segments; a point
    is (x, y, normal x, normal y). *)
Fixpoint segments_loop (fuel : nat) (pc : phcham) (sr : src) (k i : nat) (counts : list nat)
  : option (list (R * R * R * R) * nat) :=
  match counts with
  | [] => Some ([], k)
  | c :: counts' =>
      do (pts, k) <-
        (if Nat.eqb c 0 then Some ([], k)
         else
           do x0 <- nth_error (pc_x0 pc) i ;
           do y0 <- nth_error (pc_y0 pc) i ;
           do (nx, ny) <- nth_error (pc_nrm pc) i ;
           do (xs, ys, k) <- segment_points fuel (p_outside (pc_poly pc)) x0 y0
              (vx (pc_poly pc) (S i) - vx (pc_poly pc) i) (vy (pc_poly pc) (S i) - vy (pc_poly pc) i) sr k c ;
           Some (map2 (fun x y => (x, y, nx, ny)) xs ys, k)) ;
      do (rest, k) <- segments_loop fuel pc sr k (S i) counts' ;
      Some (pts ++ rest, k)
  end.

(** geom_impact_poly_fast_impact.py:424-453.  Slots that no segment fills
    keep the position (0, 0); their normals are uninitialised memory, modelled
    by [None] (see PropSource: it does not happen). *)
Definition get_photoelectron_positions (fuel : nat) (pc : phcham) (sr : src) (k n : nat)
  : option (list (R * R * R * R) * nat) :=
  do counts <- np_histogram (draw (s_uni sr) k n) (pc_bins pc) ;
  do (pts, k) <- segments_loop fuel pc sr (k + n) 0 counts ;
  if Nat.eqb (length pts) n then Some (pts, k) else None.

(** gen_photoemission_class.py:263-290 (model 3). *)
Definition photo3_generate (fuel : nat) (kc : consts) (ph : photo) (pc : phcham) (mass lambda_t Dt : R)
  (sr : src) (k : nat) (s : mpsys) : option (mpsys * nat) :=
  let nz := photo_number (photo_DNel kc (ph_k ph) (ph_mean ph) lambda_t Dt / nel_mp_ref s) (s_uni sr k) in
  let k := S k in
  if (0 <? nz)%Z then
    let n := Z.to_nat nz in
    do (pts, k) <- get_photoelectron_positions fuel pc sr k n ;
    photo_set fuel kc ph mass sr k n (map (fun '(x, _, _, _) => x) pts) (map (fun '(_, y, _, _) => y) pts)
      (map (fun '(_, _, nx, _) => nx) pts) (map (fun '(_, _, _, ny) => ny) pts) s
  else Some (s, k).
