(** Models of the secondary emission code: electron_emission.py and the
    sec_emission_model_*.py files except Furman-Pivi.  No proofs in this file.

    numpy operations on arrays of impacts act elementwise; an impact is a
    record and arrays of impacts are lists of records. *)
From Verif Require Import Num.

(** Sources of random numbers: at stream position [k] the generator would
    return [s_uni k] for [rand], [s_logn k] for [lognormal(mu, sigma)] and
    [s_norm k] for [randn].  Each draw consumes one position. *)
Record src := mkSrc { s_uni : nat -> R; s_logn : nat -> R; s_norm : nat -> R }.

(** impact_management_class.py:304-308, the arguments of
    [impacts_on_surface] for one impact. *)
Record imp := mkImp {
  i_nel : R; i_x : R; i_y : R; i_z : R; i_vx : R; i_vy : R; i_vz : R;
  i_nx : R; i_ny : R; i_seg : nat; i_vn : R; i_E : R; i_ct : R }.

(** [x**s] for [x >= 0] and [s > 0] ([Rpower 0 s] is not 0 in Coq). *)
Definition pw (x s : R) : R := if Reqb x 0 then 0 else Rpower x s.

(** * Yield curves *)

(** sec_emission_model_ECLOUD.py:61-73: true secondaries.  The other models
    repeat these lines with both flags on and [s = 1.35]. *)
Definition true_sec (Emax del_max s : R) (scale shift : bool) (E ct : R) : R :=
  let del_max_tilde := if scale then del_max * exp ((1/2) * (1 - ct)) else del_max in
  let E_max_tilde := if shift then Emax * (1 + (7/10) * (1 - ct)) else Emax in
  let x := E / E_max_tilde in
  del_max_tilde * (s * x) / (s - 1 + pw x s).

Definition s135 : R := 135 / 100.

(** sec_emission_model_ECLOUD.py:74. *)
Definition reflected (R0 E0 E : R) : R :=
  R0 * ((sqrt E - sqrt (E + E0)) / (sqrt E + sqrt (E + E0))) ^ 2.

(** sec_emission_model_ECLOUD.py:76-81 (also sec_emission_model_from_file.py:
    167-171): total and reflected fraction. *)
Definition total_frac (t r : R) : R * R :=
  let delta := t + r in
  (delta, if Rgtb delta 0 then r / delta else 0).

(** sec_emission_model_ECLOUD.py:58-81; sec_emission_model_ECLOUD_nunif.py:
    60-77 is the same with both flags on and [s = 1.35]. *)
Definition yield_ECLOUD (Emax del_max R0 E0 s : R) (scale shift : bool) (E ct : R) : R * R :=
  total_frac (true_sec Emax del_max s scale shift E ct) (reflected R0 E0 E).

(** sec_emission_model_accurate_low_ene.py:58-74: true secondaries and
    reflected part (the returned fraction is not used). *)
Definition yield_acc (Emax del_max R0 E0 : R) (E ct : R) : R * R :=
  (true_sec Emax del_max s135 true true E ct, reflected R0 E0 E).

(** A division that gives NaN when both operands are zero; comparing NaN is
    always false.  (A non-zero numerator over zero does not occur below.) *)
Definition frac (r d : R) : option R := if Reqb d 0 then None else Some (r / d).

(** sec_emission_model_cos_low_ener.py:58-76. *)
Definition yield_cos (Emax del_max R0 E0 : R) (E ct : R) : R * option R :=
  let t := true_sec Emax del_max s135 true true E ct in
  let r := if Rltb E E0 then R0 * cos ((1/2) * PI * E / E0) ^ 2 else 0 in
  let delta := t + r in
  (delta, frac r delta).

(** sec_emission_model_flat_low_ener.py:58-77.  [delta = true_sec] makes both
    names refer to one array, so the assignment to [delta[mask_change]] also
    changes [true_sec]. *)
Definition yield_flat (Emax del_max R0 : R) (E ct : R) : R * option R :=
  let a := true_sec Emax del_max s135 true true E ct in
  let a := if Rltb a R0 && Rltb E Emax then R0 else a in
  let delta := a in
  let true_sec := a in
  let r := delta - true_sec in
  (delta, frac r delta).

(** * SEY tables read from file (sec_emission_model_from_file.py) *)
Record seytab := mkTab {
  st_min : R; st_max : R; st_de : R;
  st_true : list R; st_elast : list R; st_true_diff : list R; st_elast_diff : list R;
  st_gt : R; st_ct : R; st_ge : R; st_ce : R;
  st_scale : bool; st_shift : bool }.

(** [np.round(x, 3)]. *)
Definition round3 (x : R) : R := IZR (raround (x * 1000)) / 1000.

Fixpoint diffs (l : list R) : list R :=
  match l with
  | a :: (b :: _) as l' => (b - a) :: diffs l'
  | _ => []
  end.

Definition list_min (x : R) (l : list R) : R := fold_left Rmin l x.
Definition list_max (x : R) (l : list R) : R := fold_left Rmax l x.

(** sec_emission_model_from_file.py:105-136.  [None]: not equally spaced
    (ValueError), or fewer than two energies (IndexError of [diff_e[0]]).
    Finding and loading the file: SeyFile.v. *)
Definition tab_ctor (energy true_ elast : list R) (gt ct ge ce : R) (scale shift : bool)
  : option seytab :=
  match energy, map round3 (diffs energy) with
  | e0 :: es, de :: rest =>
      if existsb (fun d => negb (Reqb d de)) rest then None
      else Some (mkTab (list_min e0 es) (list_max e0 es) de true_ elast
             (diffs true_ ++ [0]) (diffs elast ++ [0]) gt ct ge ce scale shift)
  | _, _ => None
  end.

(** sec_emission_model_from_file.py:184-191 for one energy: [np.modf] cuts
    towards zero; negative indices count from the end.  A spacing rounded to
    zero gives infinite indices (IndexError). *)
Definition tab_interp (t : seytab) (E : R) : option (R * R) :=
  if Reqb (st_de t) 0 then None else
  let fi := (E - st_min t) / st_de t in
  let i := rtrunc fi in
  let rem := fi - IZR i in
  do a <- py_nth (st_true t) i ;
  do da <- py_nth (st_true_diff t) i ;
  do b <- py_nth (st_elast t) i ;
  do db <- py_nth (st_elast_diff t) i ;
  Some (a + rem * da, b + rem * db).

(** sec_emission_model_from_file.py:143-148 and 154-158, one energy. *)
Definition tab_curve (t : seytab) (E : R) : option (R * R) :=
  if Rgtb E (st_max t) then Some (st_ct t + st_gt t * E, st_ce t + st_ge t * E)
  else tab_interp t E.

Definition clip10 (x : R) : R := if Rltb x (1 / 10 ^ 10) then 0 else x.

(** sec_emission_model_from_file.py:138-173. *)
Definition tab_values (t : seytab) (E ct : R) : option (R * R) :=
  do (dt, de) <- tab_curve t E ;
  do (dt, _) <- (if st_shift t then tab_curve t (E / (1 + (7/10) * (1 - ct))) else Some (dt, de)) ;
  let dt := if st_scale t then dt * exp ((1/2) * (1 - ct)) else dt in
  Some (total_frac (clip10 dt) (clip10 de)).

(** * Emission event of one impact *)

Inductive seymod :=
| MEcloud (Emax del_max R0 E0 s : R) (scale shift : bool)
| MAcc (Emax del_max R0 E0 : R)
| MCos (Emax del_max R0 E0 : R)
| MFlat (Emax del_max R0 : R)
| MFile (t : seytab)
| MNonUnif (segs : list (R * R * R)) (E0 : R).

(** Emitted charge and elastic flag of one impact, with the uniform random
    number [u].  ECLOUD:123-132, accurate_low_ene:101-113, cos_low_ener:
    106-113, flat_low_ener:106-113, from_file:175-182, nunif:114-126.
    [None] is an exception (index out of the table).  [beta_ts] of the
    accurate model is only used for true secondaries. *)
Definition sey_one (m : seymod) (u : R) (p : imp) : option (R * bool) :=
  match m with
  | MEcloud Emax dm R0 E0 s sc sh =>
      let '(d, f) := yield_ECLOUD Emax dm R0 E0 s sc sh (i_E p) (i_ct p) in
      Some (i_nel p * d, Rltb u f)
  | MAcc Emax dm R0 E0 =>
      let '(t, r) := yield_acc Emax dm R0 E0 (i_E p) (i_ct p) in
      let el := Rltb u r in
      Some (if el then i_nel p else i_nel p * (t / (1 - r)), el)
  | MCos Emax dm R0 E0 =>
      let '(d, f) := yield_cos Emax dm R0 E0 (i_E p) (i_ct p) in
      Some (i_nel p * d, match f with Some f => Rltb u f | None => false end)
  | MFlat Emax dm R0 =>
      let '(d, f) := yield_flat Emax dm R0 (i_E p) (i_ct p) in
      Some (i_nel p * d, match f with Some f => Rltb u f | None => false end)
  | MFile t =>
      do (d, f) <- tab_values t (i_E p) (i_ct p) ;
      Some (i_nel p * d, Rltb u f)
  | MNonUnif segs E0 =>
      do (Emax, dm, R0) <- nth_error segs (i_seg p) ;
      let '(d, f) := yield_ECLOUD Emax dm R0 E0 s135 true true (i_E p) (i_ct p) in
      Some (i_nel p * d, Rltb u f)
  end.

(** Elementwise evaluation that may raise. *)
Fixpoint mapM2 {A B C} (f : A -> B -> option C) (a : list A) (b : list B) : option (list C) :=
  match a, b with
  | x :: a', y :: b' => do z <- f x y ; do l <- mapM2 f a' b' ; Some (z :: l)
  | _, _ => Some []
  end.

(** The [SEY_process] methods. *)
Definition SEY_process (m : seymod) (sr : src) (k : nat) (ps : list imp)
  : option (list (R * bool) * nat) :=
  do l <- mapM2 (sey_one m) (draw (s_uni sr) k (length ps)) ps ;
  Some (l, (k + length ps)%nat).

(** sec_emission_model_ECLOUD_nunif.py:80-112: parameters of the segments; a
    negative value means "use the global one". *)
Definition nunif_segs (Emax del_max R0 : R) (l : list (R * R * R)) : list (R * R * R) :=
  map (fun '(e, d, r) => (if Rltb e 0 then Emax else e,
                          if Rltb d 0 then del_max else d,
                          if Rltb r 0 then R0 else r)) l.

(** * Segments that charge up (sec_emission_model_ECLOUD_nunif.py:129-189) *)
Record chseg := mkChseg { g_flag : bool; g_Qmax : R; g_EQ : R; g_tau : R; g_L : R }.

(** Lines 164-170: charge clipped to [0, Q_max] and resulting yield. *)
Definition charged_yield (g : chseg) (Q yiel E : R) : R :=
  let Q := if Rltb Q 0 then 0 else Q in
  let Q := if Rgtb Q (g_Qmax g) then g_Qmax g else Q in
  yiel * (1 - Q / g_Qmax g) + (1 - exp (- E / g_EQ g)) * (Q / g_Qmax g).

(** Lines 150-180 for one impact. *)
Definition charging_one (segs : list (R * R * R)) (E0 : R) (gs : list chseg) (Qs : list R)
  (u : R) (p : imp) : option (R * bool) :=
  do (Emax, dm, R0) <- nth_error segs (i_seg p) ;
  do g <- nth_error gs (i_seg p) ;
  do Q <- nth_error Qs (i_seg p) ;
  let '(d, f) := yield_ECLOUD Emax dm R0 E0 s135 true true (i_E p) (i_ct p) in
  let d := if g_flag g then charged_yield g Q d (i_E p) else d in
  Some (i_nel p * d, Rltb u f).

(** Lines 182-189: net charge deposited on edge [i]. *)
Definition on_seg (i : nat) (ps : list imp) : list bool := map (fun p => Nat.eqb (i_seg p) i) ps.
Definition charge_update (qe : R) (gs : list chseg) (ps : list imp) (emit : list R)
  (Qs : list R) : list R :=
  map2 (fun ig Q =>
    let '(i, g) := ig in
    if g_flag g then
      let n_imp := rsum (mask_get (on_seg i ps) (map i_nel ps)) in
      let n_emit := rsum (mask_get (on_seg i ps) emit) in
      Q + (n_imp - n_emit) * (- qe) / g_L g
    else Q) (combine (seq 0 (length gs)) gs) Qs.

(** Lines 150-191. *)
Definition charging_process (qe : R) (segs : list (R * R * R)) (E0 : R) (gs : list chseg)
  (sr : src) (k : nat) (ps : list imp) (Qs : list R) : option (list (R * bool) * list R * nat) :=
  do l <- mapM2 (charging_one segs E0 gs Qs) (draw (s_uni sr) k (length ps)) ps ;
  Some (l, charge_update qe gs ps (map fst l) Qs, (k + length ps)%nat).

(** Lines 193-195 ([SEY_model_evol]). *)
Definition charging_evol (gs : list chseg) (Dt : R) (Qs : list R) : list R :=
  map2 (fun g Q => if g_flag g && Rgtb (g_tau g) 0 then Q * exp (- Dt / g_tau g) else Q) gs Qs.

(** * Energies and angles (electron_emission.py) *)

(** Lines 67-74 and 83-90: redraw the energies above their limit until none
    is.  An entry without limit is never redrawn (low energy impacts).
    [fuel] bounds the rounds; [None] = still running. *)
Definition above (lim : list (option R)) (en : list R) : list bool :=
  map2 (fun l e => match l with Some m => Rgtb e m | None => false end) lim en.

Fixpoint redraw (fuel : nat) (sr : src) (k : nat) (lim : list (option R)) (en : list R)
  : option (list R * nat) :=
  let flag := above lim en in
  let n := count_true flag in
  if Nat.eqb n 0 then Some (en, k)
  else match fuel with
  | O => None
  | S f => redraw f sr (k + n) lim (mask_put flag en (draw (s_logn sr) k n))
  end.

(** electron_emission.py:63-130.  Switch value 1 raises; any other value
    than 0 and 2 is an UnboundLocalError. *)
Definition sec_energy_hilleret_model2 (switch : Z) (fuel : nat) (sr : src) (k Ngen : nat)
  (E_th : R) (En_impact : list R) (thresh_low : R) : option (list R * nat) :=
  if (switch =? 0)%Z then
    redraw fuel sr (k + Ngen) (repeat (Some E_th) Ngen) (draw (s_logn sr) k Ngen)
  else if (switch =? 2)%Z then
    let En_emit_max := map (fun E => if Rgtb E E_th then E_th else E) En_impact in
    let low := map (fun E => Rltb E thresh_low) En_impact in
    let lim := map2 (fun (b : bool) m => if b then None else Some m) low En_emit_max in
    do (en, k) <- redraw fuel sr (k + Ngen) lim (draw (s_logn sr) k Ngen) ;
    let N_low := count_true low in
    let en := mask_put low en
      (map2 (fun E u => E * sqrt u) (mask_get low En_impact) (draw (s_uni sr) k N_low)) in
    Some (en, (k + N_low)%nat)
  else None.

Inductive adist := Cos3D | Cos2D | NormalEmission.

(** electron_emission.py:161-174 for one new particle. *)
Definition vel_angle (qe mass En nx ny sin_t phi : R) : R * R * R :=
  let v := sqrt (2 * qe / mass * En) in
  let sp := sin phi in
  let cp := cos phi in
  let ct := sqrt (1 - sin_t ^ 2) in
  (v * (ct * nx + sin_t * sp * ny), v * (ct * ny - sin_t * sp * nx), v * (sin_t * cp)).

(** electron_emission.py:177-184 for one new particle. *)
Definition vel_normal (qe mass En nx ny : R) : R * R * R :=
  let v := sqrt (2 * qe / mass * En) in (v * nx, v * ny, 0).

(** electron_emission.py:147-184: [n] sines are drawn, then [n] azimuths.
    The arrays have [n] entries. *)
Definition angle_dist_func (d : adist) (qe mass : R) (sr : src) (k n : nat)
  (En nx ny : list R) : list (R * R * R) * nat :=
  let enxy := combine En (combine nx ny) in
  match d with
  | NormalEmission => (map (fun '(e, (a, b)) => vel_normal qe mass e a b) enxy, k)
  | _ =>
      let sin_t := match d with
                   | Cos3D => map sqrt (draw (s_uni sr) k n)
                   | _ => draw (s_uni sr) k n end in
      let phi := map (fun u => u * 2 * PI) (draw (s_uni sr) (k + n) n) in
      (map2 (fun '(e, (a, b)) '(s, p) => vel_angle qe mass e a b s p) enxy (combine sin_t phi),
       (k + n + n)%nat)
  end.

(** electron_emission.py:226-229. *)
Definition specular_velocity (vx vy nx ny vn : R) : R * R := (vx - 2 * vn * nx, vy - 2 * vn * ny).

(** * [impacts_on_surface] of the ECLOUD family *)

(** Settings shared by the models (sec_emission_model_ECLOUD.py:91-111). *)
Record ecfg := mkEcfg {
  c_switch : Z; c_Eth : R; c_thlow : R; c_angle : option adist; c_qe : R; c_mass : R; c_fuel : nat }.

(** The returned arrays. *)
Record emis := mkEmis {
  o_tot : list R; o_type : list nat; o_ext : list nat;
  o_nel : list R; o_x : list R; o_y : list R; o_z : list R;
  o_vx : list R; o_vy : list R; o_vz : list R; o_seg : list nat;
  n_nel : list R; n_x : list R; n_y : list R; n_z : list R;
  n_vx : list R; n_vy : list R; n_vz : list R; n_seg : list nat }.

(** Line 173: number of clones of a true secondary ([n_add < 0] is set to 0). *)
Definition n_clones (q th : R) : nat := Z.to_nat (rceil (q / th) - 1).

Definition fst3 {A B C} (t : A * B * C) : A := fst (fst t).
Definition snd3 {A B C} (t : A * B * C) : B := snd (fst t).
Definition thd3 {A B C} (t : A * B * C) : C := snd t.

(** Lines 165-206: energies and velocities of [n] emitted particles. *)
Definition gen_vel (c : ecfg) (sr : src) (k n : nat) (E nx ny : list R)
  : option (list (R * R * R) * nat) :=
  do (en, k) <- sec_energy_hilleret_model2 (c_switch c) (c_fuel c) sr k n (c_Eth c) E (c_thlow c) ;
  do d <- c_angle c ;
  Some (angle_dist_func d (c_qe c) (c_mass c) sr k n en nx ny).

(** sec_emission_model_ECLOUD.py:138-230, after [SEY_process] has returned
    [pr].  [i_found] is an array (for chambers without segments it is [None]
    and [flag_seg] is off; the segment outputs are then not used). *)
Definition emit_surface (c : ecfg) (th : R) (flag_seg : bool) (sr : src) (k : nat)
  (ps : list imp) (pr : list (R * bool)) : option (emis * nat) :=
  let tot := map fst pr in
  let el := map snd pr in
  let ts := map negb el in
  let ety := map (fun b : bool => if b then 1%nat else 0%nat) ts in
  let xs := map i_x ps in let ys := map i_y ps in let zs := map i_z ps in
  let vxs := map i_vx ps in let vys := map i_vy ps in let vzs := map i_vz ps in
  let nxs := map i_nx ps in let nys := map i_ny ps in
  let Es := map i_E ps in let segs := map i_seg ps in
  (* elastics *)
  let sv := map (fun p => specular_velocity (i_vx p) (i_vy p) (i_nx p) (i_ny p) (i_vn p)) (mask_get el ps) in
  do vxr <- mask_set el vxs (map fst sv) ;
  do vyr <- mask_set el vys (map snd sv) ;
  (* true secondaries *)
  let Nts := count_true ts in
  if Nat.eqb Nts 0 then
    Some (mkEmis tot ety ety tot xs ys zs vxr vyr vzs segs [] [] [] [] [] [] [] [], k)
  else
    let n_add := mask_put ts (map (fun _ => 0%nat) ps) (map (fun q => n_clones q th) (mask_get ts tot)) in
    do nelr <- mask_set ts tot (map2 (fun q n => q / (INR n + 1)) (mask_get ts tot) (mask_get ts n_add)) ;
    do (vel, k) <- gen_vel c sr k Nts (mask_get ts Es) (mask_get ts nxs) (mask_get ts nys) ;
    do vxr <- mask_set ts vxr (map fst3 vel) ;
    do vyr <- mask_set ts vyr (map snd3 vel) ;
    do vzr <- mask_set ts vzs (map thd3 vel) ;
    let tot_add := nsum n_add in
    if Nat.eqb tot_add 0 then
      Some (mkEmis tot ety ety nelr xs ys zs vxr vyr vzr segs [] [] [] [] [] [] [] [], k)
    else
      do (vel, k) <- gen_vel c sr k tot_add (repeat_each Es n_add) (repeat_each nxs n_add) (repeat_each nys n_add) ;
      Some (mkEmis tot ety (ety ++ repeat_each ety n_add) nelr xs ys zs vxr vyr vzr segs
        (repeat_each nelr n_add) (repeat_each xs n_add) (repeat_each ys n_add) (repeat_each zs n_add)
        (map fst3 vel) (map snd3 vel) (map thd3 vel)
        (if flag_seg then repeat_each segs n_add else []), k).

(** sec_emission_model_ECLOUD.py:134-230. *)
Definition impacts_on_surface (m : seymod) (c : ecfg) (th : R) (flag_seg : bool) (sr : src) (k : nat)
  (ps : list imp) : option (emis * nat) :=
  do (pr, k) <- SEY_process m sr k ps ;
  emit_surface c th flag_seg sr k ps pr.

(** The same method with the charging [SEY_process]
    (sec_emission_model_ECLOUD_nunif.py:129-191). *)
Definition impacts_on_surface_charging (segs : list (R * R * R)) (E0 : R) (gs : list chseg)
  (c : ecfg) (th : R) (flag_seg : bool) (sr : src) (k : nat) (ps : list imp) (Qs : list R)
  : option (emis * list R * nat) :=
  do (pr, Qs, k) <- charging_process (c_qe c) segs E0 gs sr k ps Qs ;
  do (e, k) <- emit_surface c th flag_seg sr k ps pr ;
  Some (e, Qs, k).

(** sec_emission_model_perfect_absorber.py:78-115. *)
Definition absorb_surface (ps : list imp) : emis :=
  let z := map (fun p => i_nel p * 0) ps in
  let ety := map (fun _ => 0%nat) ps in
  mkEmis z ety ety z (map i_x ps) (map i_y ps) (map i_z ps)
    (map i_vx ps) (map i_vy ps) (map i_vz ps) (map i_seg ps) [] [] [] [] [] [] [] [].
