(** Model of the trackers: boris_step.f, dynamics_Boris_f2py.py,
    boris_c_function.c, dynamics_Boris_multipole.py, dynamics_dipole.py,
    dynamics_strong_B_generalized.py.  No proofs in this file. *)
From Verif Require Import Num Fort MP.

(** Position and velocity of one macroparticle (MP). *)
Record p6 := mkP6 { px : R; py : R; pz : R; pvx : R; pvy : R; pvz : R }.

(** A magnetic field as a function of the transverse position. *)
Definition bfun := R -> R -> R * R * R.

(** boris_step.f:53-98: the body of the loop for one MP, with [qm] the ratio
    charge/mass computed at line 51.  [E] and [B] are the fields at the MP. *)
Definition boris_one (qm Dtt : R) (E B : R * R * R) (p : p6) : p6 :=
  let '(Ex, Ey, Ez) := E in
  let '(Bx, By, Bz) := B in
  let tBx := (1/2) * qm * Dtt * Bx in
  let tBy := (1/2) * qm * Dtt * By in
  let tBz := (1/2) * qm * Dtt * Bz in
  let tBsq := tBx * tBx + tBy * tBy + tBz * tBz in
  let sBx := 2 * tBx / (1 + tBsq) in
  let sBy := 2 * tBy / (1 + tBsq) in
  let sBz := 2 * tBz / (1 + tBsq) in
  let vx_min := pvx p + (1/2) * qm * Ex * Dtt in
  let vy_min := pvy p + (1/2) * qm * Ey * Dtt in
  let vz_min := pvz p + (1/2) * qm * Ez * Dtt in
  let vx_prime := vy_min * tBz - vz_min * tBy + vx_min in
  let vy_prime := vz_min * tBx - vx_min * tBz + vy_min in
  let vz_prime := vx_min * tBy - vy_min * tBx + vz_min in
  let vx_plus := vy_prime * sBz - vz_prime * sBy + vx_min in
  let vy_plus := vz_prime * sBx - vx_prime * sBz + vy_min in
  let vz_plus := vx_prime * sBy - vy_prime * sBx + vz_min in
  let vx := vx_plus + (1/2) * qm * Ex * Dtt in
  let vy := vy_plus + (1/2) * qm * Ey * Dtt in
  let vz := vz_plus + (1/2) * qm * Ez * Dtt in
  mkP6 (px p + vx * Dtt) (py p + vy * Dtt) (pz p + vz * Dtt) vx vy vz.

(** dynamics_Boris_f2py.py:67-78. *)
Definition B_none (B0x B0y B0z : R) : bfun := fun x y => (B0x, B0y, B0z).

(** dynamics_Boris_f2py.py:81-95. *)
Definition B_quad (B0x B0y B0z fact : R) : bfun :=
  fun x y => (fact * y + B0x, fact * x + B0y, B0z).

(** dynamics_Boris_f2py.py:98-134.  The maps are already multiplied by
    [fact_Bmap] (lines 104-108); [mz = None] when the file has no [Bz]. *)
Record bmap := mkBmap {
  bm_x0 : R; bm_y0 : R; bm_dx : R; bm_dy : R; bm_nx : Z; bm_ny : Z;
  bm_x : grid; bm_y : grid; bm_z : option grid }.

Definition B_file (B0x B0y B0z : R) (m : bmap) : bfun := fun x y =>
  let it g := interp_one (bm_x0 m) (bm_y0 m) (bm_dx m) (bm_dy m) (bm_nx m) (bm_ny m) g x y in
  (it (bm_x m) + B0x, it (bm_y m) + B0y,
   match bm_z m with Some g => it g | None => 0 end + B0z).

(** dynamics_Boris_f2py.py:182-185, 213-216: the sub-step loop seen from one
    MP (the Fortran loop treats the MPs independently; the electric field is
    kept over the sub-steps). *)
Fixpoint boris_substeps (n : nat) (qm Dtt : R) (getB : bfun) (E : R * R * R) (p : p6) : p6 :=
  match n with
  | O => p
  | S n' => boris_substeps n' qm Dtt getB E (boris_one qm Dtt E (getB (px p) (py p)) p)
  end.

(** The MP in slot [i]. *)
Definition get6 (s : mpsys) (i : nat) : p6 :=
  mkP6 (nth i (x_mp s) 0) (nth i (y_mp s) 0) (nth i (z_mp s) 0)
       (nth i (vx_mp s) 0) (nth i (vy_mp s) 0) (nth i (vz_mp s) 0).

(** The frame shared by all [step] methods (dynamics_Boris_f2py.py:167-192,
    dynamics_dipole.py:78-101, dynamics_strong_B_generalized.py:119-194):
    the live slots of the six arrays are read, transformed and written
    back; nothing else of the system is touched.  With no live MP the system
    is returned unchanged, which is what the formula gives too. *)
Definition push_live (f : nat -> p6 -> p6) (s : mpsys) : mpsys :=
  let n := N_mp s in
  let new (g : p6 -> R) := map (fun i => g (f i (get6 s i))) (seq 0 n) in
  mkSys (new px ++ skipn n (x_mp s)) (new py ++ skipn n (y_mp s)) (new pz ++ skipn n (z_mp s))
        (new pvx ++ skipn n (vx_mp s)) (new pvy ++ skipn n (vy_mp s)) (new pvz ++ skipn n (vz_mp s))
        (nel_mp s) (t_last_impact s) n (flag_lifetime_hist s)
        (nel_mp_ref s) (nel_mp_split s) (nel_mp_cl_th s)
        (nel_mp_ref_0 s) (fact_split s) (fact_clean s).

(** dynamics_Boris_f2py.py:196-225 ([stepcustomDt]).  The longitudinal field
    argument is 0 or an array; an array argument makes line 210 raise, so
    only 0 is modelled.  The magnetic field arguments are overwritten at line
    214 and play no role.  [E i] is the transverse field at slot [i]. *)
Definition boris_stepcustomDt (charge mass : R) (getB : bfun) (E : nat -> R * R)
  (Dt_substep : R) (N_sub : nat) (s : mpsys) : mpsys :=
  push_live (fun i p =>
    boris_substeps N_sub (charge / mass) Dt_substep getB (fst (E i), snd (E i), 0) p) s.

(** dynamics_Boris_f2py.py:146, 165-194 ([step]): [Dtt = Dt / N_sub_steps]. *)
Definition boris_step (charge mass : R) (getB : bfun) (E : nat -> R * R)
  (Dt : R) (N_sub : nat) (s : mpsys) : mpsys :=
  boris_stepcustomDt charge mass getB E (Dt / INR N_sub) N_sub s.

(** boris_c_function.c:48-60: the multipole loop; [k] and [sk] are the tails
    (orders 1, 2, ...) of [B_field] and [B_skew]; the loop runs over the
    orders of [B_field] ([N_multipoles = len(B_field)], boris_cython.pyx:38). *)
Fixpoint mult_loop (k sk : list R) (x y rexy imxy Bx By : R) : R * R :=
  match k with
  | [] => (Bx, By)
  | kn :: k' =>
      let sn := hd 0 sk in
      let re' := rexy * x - imxy * y in
      let im' := imxy * x + rexy * y in
      mult_loop k' (tl sk) x y re' im' (Bx + (kn * im' + sn * re')) (By + (kn * re' - sn * im'))
  end.

(** boris_c_function.c:42-46 and 62-66.  [B_field] has at least one entry.
    [custom] is the field added when [custom_B] is set.  Reading [B_skew]
    past its end (undefined behaviour in C) is modelled as 0; it does not
    happen for the arrays built by the constructor (see [mult_ctor]). *)
Definition mult_field (k sk : list R) (custom : option (R * R * R)) (x y : R) : R * R * R :=
  let '(Bx, By) := mult_loop (tl k) (tl sk) x y 1 0 (hd 0 sk) (hd 0 k) in
  match custom with
  | None => (Bx, By, 0)
  | Some (cx, cy, cz) => (Bx + cx, By + cy, 0 + cz)
  end.

(** boris_c_function.c:39-98: the sub-steps of one MP.  The code differs from
    boris_step.f only by the absence of a longitudinal electric field. *)
Fixpoint boris_c (n : nat) (qm Dtt : R) (k sk : list R) (custom : option (R * R * R))
  (Ex Ey : R) (p : p6) : p6 :=
  match n with
  | O => p
  | S n' =>
      let '(Bx, By, Bz) := mult_field k sk custom (px p) (py p) in
      let tBx := (1/2) * qm * Dtt * Bx in
      let tBy := (1/2) * qm * Dtt * By in
      let tBz := (1/2) * qm * Dtt * Bz in
      let tBsq := tBx * tBx + tBy * tBy + tBz * tBz in
      let sBx := 2 * tBx / (1 + tBsq) in
      let sBy := 2 * tBy / (1 + tBsq) in
      let sBz := 2 * tBz / (1 + tBsq) in
      let vx_min := pvx p + (1/2) * qm * Ex * Dtt in
      let vy_min := pvy p + (1/2) * qm * Ey * Dtt in
      let vz_min := pvz p in
      let vx_prime := vy_min * tBz - vz_min * tBy + vx_min in
      let vy_prime := vz_min * tBx - vx_min * tBz + vy_min in
      let vz_prime := vx_min * tBy - vy_min * tBx + vz_min in
      let vx_plus := vy_prime * sBz - vz_prime * sBy + vx_min in
      let vy_plus := vz_prime * sBx - vx_prime * sBz + vy_min in
      let vz_plus := vx_prime * sBy - vy_prime * sBx + vz_min in
      let vx := vx_plus + (1/2) * qm * Ex * Dtt in
      let vy := vy_plus + (1/2) * qm * Ey * Dtt in
      let vz := vz_plus in
      boris_c n' qm Dtt k sk custom Ex Ey
        (mkP6 (px p + vx * Dtt) (py p + vy * Dtt) (pz p + vz * Dtt) vx vy vz)
  end.

(** numpy division [a / b] of one-dimensional arrays: equal lengths, or one
    of the two has length one (broadcast); otherwise [ValueError]. *)
Definition np_div (a b : list R) : option (list R) :=
  if Nat.eqb (length a) (length b) then Some (map2 Rdiv a b)
  else match a, b with
  | [c], _ => Some (map (fun y => c / y) b)
  | _, [c] => Some (map (fun x => x / c) a)
  | _, _ => None
  end.

(** dynamics_Boris_multipole.py:71-83.  [B_multip = None] stands for [None]
    or an empty list. *)
Definition mult_ctor (B_multip B_skew : option (list R)) : option (list R * list R) :=
  let bm := match B_multip with
            | None => [0] | Some [] => [0] | Some l => l end in
  let factorial := map (fun i => INR (fact i)) (seq 0 (length bm)) in
  do bf <- np_div bm factorial ;
  do bs <- (match B_skew with
            | None => Some (repeat 0 (length bf))
            | Some l => np_div l factorial end) ;
  Some (bf, bs).

(** dynamics_Boris_multipole.py:98-121: sum of the constant field given to
    the constructor and the field given to the call; [None] (flag 0) when no
    component was given. *)
Definition custom_B (b0 bn : option R * option R * option R) : option (R * R * R) :=
  let '(b0x, b0y, b0z) := b0 in
  let '(bnx, bny, bnz) := bn in
  let plus_eq (v : R) (o : option R) := match o with Some w => v + w | None => v end in
  match b0x, b0y, b0z, bnx, bny, bnz with
  | None, None, None, None, None, None => None
  | _, _, _, _, _, _ => Some (plus_eq (plus_eq 0 b0x) bnx, plus_eq (plus_eq 0 b0y) bny, plus_eq (plus_eq 0 b0z) bnz)
  end.

(** dynamics_Boris_multipole.py:93-142.  [bn i] are the optional components
    of the field given to the call at slot [i]. *)
Definition multipole_stepcustomDt (charge mass : R) (bf bs : list R)
  (b0 : option R * option R * option R) (bn : nat -> option R * option R * option R)
  (E : nat -> R * R) (Dt_substep : R) (N_sub : nat) (s : mpsys) : mpsys :=
  push_live (fun i p =>
    boris_c N_sub (charge / mass) Dt_substep bf bs (custom_B b0 (bn i)) (fst (E i)) (snd (E i)) p) s.

(** dynamics_dipole.py:57-59, dynamics_strong_B_generalized.py:58-60. *)
Definition me : R := 910938291 / 10 ^ 39.
Definition qe : R := 1602176565 / 10 ^ 28.
Definition qm_e : R := qe / me.

(** sincc_cosincc_cubsincc.py:56-64. *)
Definition sincc (x : R) : R :=
  if Rltb (Rabs x) (1 / 10000) then 1 else sin x / x.
(** sincc_cosincc_cubsincc.py:67-74. *)
Definition cosincc (x : R) : R :=
  if Rltb (Rabs x) (1 / 10000) then 1/2 else (1 - cos x) / (x * x).
(** sincc_cosincc_cubsincc.py:77-84. *)
Definition cubsincc (x : R) : R :=
  if Rltb (Rabs x) (1 / 10000) then 1 / 6 else (x - sin x) / (x * x * x).

(** dynamics_dipole.py:66-73 and 87-95, one MP.  [Ez] and the magnetic field
    arguments are ignored by the code. *)
Definition dipole_one (Dt B : R) (E : R * R) (p : p6) : p6 :=
  let (Ex, Ey) := E in
  let omegac := B * qm_e in
  let sincc_v := sincc (omegac * Dt) in
  let cosincc_v := cosincc (omegac * Dt) in
  let cubsincc_v := cubsincc (omegac * Dt) in
  let sin_v := sin (omegac * Dt) in
  let cos_v := cos (omegac * Dt) in
  let xn1 := px p + pvx p * sincc_v * Dt + pvz p * cosincc_v * omegac * Dt * Dt
             - qm_e * Ex * cosincc_v * Dt * Dt in
  let yn1 := py p + pvy p * Dt - (1/2) * qm_e * Ey * Dt * Dt in
  let zn1 := pz p + pvz p * sincc_v * Dt - pvx p * cosincc_v * omegac * Dt * Dt
             + qm_e * Ex * cubsincc_v * omegac * Dt * Dt * Dt in
  let vxn1 := pvx p * cos_v + pvz p * sin_v - qm_e * Ex * sincc_v * Dt in
  let vyn1 := pvy p - qm_e * Ey * Dt in
  let vzn1 := pvz p * cos_v - pvx p * sin_v + qm_e * Ex * cosincc_v * omegac * Dt * Dt in
  mkP6 xn1 yn1 zn1 vxn1 vyn1 vzn1.

Definition dipole_step (Dt B : R) (E : nat -> R * R) (s : mpsys) : mpsys :=
  push_live (fun i p => dipole_one Dt B (E i) p) s.

(** dynamics_strong_B_generalized.py:73-91, 127-137: where the transverse
    field comes from.  The identity test [is] of line 76 is taken as string
    equality. *)
Inductive bsource := SrcNone | SrcQuad (fact : R) | SrcMap (m : bmap).

Definition src_field (src : bsource) (x y : R) : R * R :=
  match src with
  | SrcMap m =>
      (interp_one (bm_x0 m) (bm_y0 m) (bm_dx m) (bm_dy m) (bm_nx m) (bm_ny m) (bm_x m) x y,
       interp_one (bm_x0 m) (bm_y0 m) (bm_dx m) (bm_dy m) (bm_nx m) (bm_ny m) (bm_y m) x y)
  | SrcQuad f => (f * y, f * x)
  | SrcNone => (0, 0)
  end.

(** dynamics_strong_B_generalized.py:139-187, one MP. *)
Definition strongB_one (Dt B0x B0y : R) (src : bsource) (thr : R) (E : R * R) (p : p6) : p6 :=
  let (Ex, Ey) := E in
  let Bx := fst (src_field src (px p) (py p)) + B0x in
  let By := snd (src_field src (px p) (py p)) + B0y in
  let B_mod0 := sqrt (Bx * Bx + By * By) in
  let flag_B_zero := Rltb B_mod0 thr in
  let B_mod := if flag_B_zero then 1 else B_mod0 in
  let omegac := B_mod * qm_e in
  let sinw := sin (omegac * Dt) in
  let cosw := cos (omegac * Dt) in
  let vB := (pvx p * By - pvy p * Bx) / B_mod in
  let EB := (Ex * By - Ey * Bx) / (B_mod * B_mod) in
  let Dz := pvz p * sinw / omegac + vB * cosw / omegac + EB * (Dt - sinw / omegac) - vB / omegac in
  let Dzt := (pvz p * (1 - cosw) + vB * sinw) / (omegac * omegac)
             + EB * (Dt * Dt / 2 + (cosw - 1) / (omegac * omegac)) - vB * Dt / omegac in
  let vzn1 := pvz p * cosw - vB * sinw + EB * (1 - cosw) in
  let vxn1 := pvx p - qm_e * (Ex * Dt - By * Dz) in
  let vyn1 := pvy p - qm_e * (Ey * Dt + Bx * Dz) in
  let xn1 := px p + pvx p * Dt - qm_e * (Ex * Dt * Dt / 2 - By * Dzt) in
  let yn1 := py p + pvy p * Dt - qm_e * (Ey * Dt * Dt / 2 + Bx * Dzt) in
  let zn1 := pz p + Dz in
  if flag_B_zero then
    mkP6 (px p + pvx p * Dt - (1/2) * qm_e * Ex * Dt * Dt)
         (py p + pvy p * Dt - (1/2) * qm_e * Ey * Dt * Dt)
         (pz p + pvz p * Dt)
         (pvx p - qm_e * Ex * Dt) (pvy p - qm_e * Ey * Dt) (pvz p)
  else mkP6 xn1 yn1 zn1 vxn1 vyn1 vzn1.

Definition strongB_step (Dt B0x B0y : R) (src : bsource) (thr : R)
  (E : nat -> R * R) (s : mpsys) : mpsys :=
  push_live (fun i p => strongB_one Dt B0x B0y src thr (E i) p) s.
