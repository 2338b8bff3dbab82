(** beam_and_timing.py: longitudinal profile, time axis, clock and field of a
    beam; the time loop of buildup_simulation.py. *)
From Verif Require Import Num Fort.

(** * Longitudinal profile *)

(** beam_and_timing.py:63. *)
Definition c_light : R := 299792458.

(** beam_and_timing.py:78-79: density of one bunch at the distance [d]. *)
Definition bunch_shape (ppb sigmaz d : R) : R :=
  ppb / (sigmaz * sqrt (2 * PI)) * exp (- d * d / (2 * sigmaz * sigmaz)).

(** beam_and_timing.py:72-79: one pass of the loop over the slots. *)
Definition train_slot (b_spac t_offs : R) (zz : list R) (ii : nat) (ppb sigmaz : R) (val : list R) : list R :=
  if Rgtb sigmaz 0 then
    let z0 := c_light * (t_offs + INR ii * b_spac) in
    let m := map (fun z => Rltb (Rabs (z - z0)) (10 * sigmaz)) zz in
    mask_put m val (map2 (fun v z => v + bunch_shape ppb sigmaz (z - z0)) (mask_get m val) (mask_get m zz))
  else val.

(** beam_and_timing.py:61-81.  [None]: the array of bunch lengths is too short
    (IndexError).  The progress messages are left out. *)
Fixpoint train_loop (b_spac t_offs : R) (zz : list R) (ii : nat) (ppb sigmaz : list R) (val : list R)
  : option (list R) :=
  match ppb, sigmaz with
  | [], _ => Some val
  | q :: ppb', s :: sigmaz' => train_loop b_spac t_offs zz (S ii) ppb' sigmaz' (train_slot b_spac t_offs zz ii q s val)
  | _ :: _, [] => None
  end.
Definition bunch_train4 (t : list R) (b_spac t_offs : R) (ppb sigmaz : list R) : option (list R) :=
  train_loop b_spac t_offs (map (fun x => c_light * x) t) 0 ppb sigmaz (map (fun x => 0 * x) t).

(** [np.arange(0., stop, step)]. *)
Definition arange0 (stop step : R) : list R :=
  map (fun i => INR i * step) (seq 0 (Z.to_nat (rceil (stop / step)))).

(** * The beam object *)

(** What changes at every step (beam_and_timing.py:358-367). *)
Record now := mkNow { w_t : R; w_Dt : R; w_lam : R; w_pass : Z; w_new : bool }.

(** beam_and_timing.py:334-356.  [b_ii]: [ii_curr]; [b_old]: [_pass_numb_old];
    [b_now]: the other attributes of the current step, [None] before the first
    one. *)
Record beam := mkBeam {
  b_t : list R; b_lam : list R; b_spac : R; b_Nt : nat; b_Dt : R; b_unif : bool; b_Npass : Z;
  b_ii : Z; b_old : Z; b_now : option now }.

(** [t[-1]]. *)
Definition last_of (t : list R) : option R := py_nth t (-1).

(** beam_and_timing.py:126-133: bunch length of each slot.  [sv]: the array of
    the filling pattern file, if it has one. *)
Definition slot_lengths (sv : option (list R)) (sigmaz : R) (ppb : list R) : option (list R) :=
  match sv with
  | Some l => Some l
  | None => if Reqb sigmaz (-1) then None
            else Some (map (fun q => if Rgtb q 0 then sigmaz else 0) ppb)
  end.

(** beam_and_timing.py:156-160: comparison with the time axis of the primary
    beam. *)
Definition same_axis (tp : option (list R)) (t : list R) (Dt : R) : bool :=
  match tp with
  | None => true
  | Some p => Nat.eqb (length t) (length p) &&
              forallb (fun q => Rleb (Rabs (fst q - snd q) / Dt) (1 / 10 ^ 4)) (combine t p)
  end.

(** beam_and_timing.py:162-166, 334-356. *)
Definition finish (tp : option (list R)) (t prof : list R) (b_spac Dt fact coast : R) (unif : bool) : option beam :=
  if negb (same_axis tp t Dt) then None else
  do tl <- last_of t ;
  if Reqb b_spac 0 then None else
  Some (mkBeam t (map (fun l => fact * l + coast) prof) b_spac (length t) Dt unif (rceil (tl / b_spac)) (-1) (-1) None).

(** beam_and_timing.py:100-136: bunched beam; [tp]: time axis of the primary
    beam if this is a secondary one. *)
Definition beam_bunched (tp : option (list R)) (b_spac sigmaz t_offs Dt t_end fact coast : R)
  (ppb : list R) (sv : option (list R)) : option beam :=
  let t := match tp with
           | Some t => t
           | None => arange0 (INR (length ppb) * b_spac + t_end + 2 * Dt) Dt
           end in
  do sz <- slot_lengths sv sigmaz ppb ;
  do prof <- bunch_train4 t b_spac t_offs ppb sz ;
  finish tp t prof b_spac Dt fact coast true.

(** beam_and_timing.py:146-153: steps of a loaded time axis. *)
Definition diffs (t : list R) : list R := map2 (fun a b => b - a) t (tl t).
Definition max_abs (l : list R) : R := fold_right (fun x m => Rmax (Rabs x) m) 0 l.
Definition mean_abs (l : list R) : R := rsum (map Rabs l) / INR (length l).

(** beam_and_timing.py:138-154: profile from a file. *)
Definition beam_file (tp : option (list R)) (t prof : list R) (b_spac Dt fact coast : R) : option beam :=
  match t with
  | t0 :: t1 :: _ =>
      let d := diffs t in
      let unif := negb (Rgtb (max_abs d - mean_abs d) (1 / 10 ^ 4 * mean_abs d)) in
      finish tp t prof b_spac (if unif then t1 - t0 else Dt) fact coast unif
  | _ => None
  end.

(** beam_and_timing.py:358-367.  [None]: IndexError. *)
Definition next_time_step (b : beam) : option beam :=
  let i := (b_ii b + 1)%Z in
  do t0 <- py_nth (b_t b) i ;
  do t1 <- py_nth (b_t b) (i + 1) ;
  do lam <- py_nth (b_lam b) i ;
  let pass := rfloor (t0 / b_spac b) in
  let new := (b_old b <? pass)%Z in
  Some (mkBeam (b_t b) (b_lam b) (b_spac b) (b_Nt b) (b_Dt b) (b_unif b) (b_Npass b) i
          (if new then pass else b_old b) (Some (mkNow t0 (t1 - t0) lam pass new))).

(** beam_and_timing.py:369-370. *)
Definition end_simulation (b : beam) : bool := (Z.of_nat (b_Nt b) <=? b_ii b + 2)%Z.

Fixpoint next_all (l : list beam) : option (list beam) :=
  match l with
  | [] => Some []
  | b :: l' => do b' <- next_time_step b ; do r <- next_all l' ; Some (b' :: r)
  end.

(** buildup_simulation.py:143-147: the user-defined end time is reached. *)
Definition reached (t_end : option R) (b : beam) : bool :=
  match t_end, b_now b with
  | Some te, Some w => Rgeb (w_t w) te
  | _, _ => false
  end.

(** buildup_simulation.py:131-160, [run].  [sim]: [sim_time_step], a function
    of the beams and of the state of the rest of the simulation.  [None]: an
    exception, or the loop is still running when [fuel] is used up. *)
Fixpoint run {S : Type} (sim : beam -> list beam -> S -> option S) (t_end : option R) (fuel : nat)
  (b : beam) (secs : list beam) (s : S) : option (beam * list beam * S) :=
  if end_simulation b then Some (b, secs, s)
  else if reached t_end b then Some (b, secs, s)
  else match fuel with
  | O => None
  | Datatypes.S fu =>
      do b <- next_time_step b ;
      do secs <- next_all secs ;
      do s <- sim b secs s ;
      run sim t_end fu b secs s
  end.

(** * Field of the beams *)

(** A float that is broadcast, or an array with one entry per macroparticle. *)
Inductive fld := Scal (r : R) | Vec (l : list R).
Definition fmap (g : R -> R) (f : fld) : fld := match f with Scal r => Scal (g r) | Vec l => Vec (map g l) end.
(** [a + b] in numpy. *)
Definition fadd (a b : fld) : option fld :=
  match a, b with
  | Scal x, Scal y => Some (Scal (x + y))
  | Scal x, Vec l => Some (Vec (map (fun y => x + y) l))
  | Vec l, Scal y => Some (Vec (map (fun x => x + y) l))
  | Vec l, Vec m => if Nat.eqb (length l) (length m) then Some (Vec (map2 Rplus l m)) else None
  end.

(** A beam with its field map and the density in the current step. *)
Record bfield := mkBfield {
  f_q : R; f_lam : R; f_th : R; f_x0 : R; f_y0 : R; f_dx : R; f_dy : R; f_nx : Z; f_ny : Z; f_Ex : grid; f_Ey : grid }.

(** beam_and_timing.py:372-385 ([pos]: positions of the live
    macroparticles). *)
Definition get_beam_eletric_field (f : bfield) (pos : list (R * R)) : fld * fld :=
  if Rgtb (f_lam f) (f_th f) && negb (Nat.eqb (length pos) 0) then
    let e := int_field (f_x0 f) (f_y0 f) (f_dx f) (f_dy f) (f_nx f) (f_ny f) (f_Ex f) (f_Ey f) pos in
    (Vec (map (fun v => f_q f * f_lam f * fst v) e), Vec (map (fun v => f_q f * f_lam f * snd v) e))
  else (Scal 0, Scal 0).

(** The method [get_beam_eletric_field] of a beam object. *)
Definition bmeth := list (R * R) -> fld * fld.

(** buildup_simulation.py:227-235. *)
Fixpoint add_sec_beams (secs : list bmeth) (pos : list (R * R)) (ex ey : fld) : option (fld * fld) :=
  match secs with
  | [] => Some (ex, ey)
  | f :: l =>
      let '(sx, sy) := f pos in
      do ex <- fadd ex sx ; do ey <- fadd ey sy ; add_sec_beams l pos ex ey
  end.
Definition field_from_beams (main : bmeth) (secs : list bmeth) (pos : list (R * R)) : option (fld * fld) :=
  let '(ex, ey) := main pos in add_sec_beams secs pos ex ey.

(** buildup_simulation.py:237-248 and 362-375, electrostatic case: field of
    the clouds plus field of the beams. *)
Definition total_field (sc : list (R * R)) (main : bmeth) (secs : list bmeth) (pos : list (R * R))
  : option (fld * fld) :=
  do (bx, by_) <- field_from_beams main secs pos ;
  do ex <- fadd (Vec (map fst sc)) bx ; do ey <- fadd (Vec (map snd sc)) by_ ; Some (ex, ey).
