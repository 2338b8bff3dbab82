(** Model of MP_system.py: the macroparticle (MP) arrays and the operations
    on them.  No proofs in this file. *)
From Verif Require Import Num Fort.

(** MP_system.py:67-96.  State of an [MP_system]: seven capacity-sized arrays,
    the optional array of last impact times, the number of live MPs, and the
    size parameters.  [t_last_impact] only exists when [flag_lifetime_hist];
    the model always carries it and only updates it when the flag is set.
    Names, charge and mass are not modelled (they are never modified). *)
Record mpsys := mkSys {
  x_mp : list R; y_mp : list R; z_mp : list R;
  vx_mp : list R; vy_mp : list R; vz_mp : list R;
  nel_mp : list R; t_last_impact : list R;
  N_mp : nat;
  flag_lifetime_hist : bool;
  nel_mp_ref : R; nel_mp_split : R; nel_mp_cl_th : R;
  nel_mp_ref_0 : R; fact_split : R; fact_clean : R }.

(** MP_system.py:67-96: the constructor. *)
Definition mp_init (N_mp_max : nat) (ref_0 f_split f_clean : R) (lifetime : bool)
  : mpsys :=
  let z := repeat 0 N_mp_max in
  mkSys z z z z z z z (repeat (-1) N_mp_max) 0 lifetime
    ref_0 (f_split * ref_0) (f_clean * ref_0) ref_0 f_split f_clean.

(** MP_system.py:163-166. *)
Definition set_nel_mp_ref (s : mpsys) (val : R) : mpsys :=
  mkSys (x_mp s) (y_mp s) (z_mp s) (vx_mp s) (vy_mp s) (vz_mp s)
    (nel_mp s) (t_last_impact s) (N_mp s) (flag_lifetime_hist s)
    val (fact_split s * val) (fact_clean s * val)
    (nel_mp_ref_0 s) (fact_split s) (fact_clean s).

(** The pattern [a[0:n] = a[flag_keep].copy()] used in MP_system.py:144-150,
    189-195, 263-269. *)
Definition compact (keep : list bool) (n : nat) (a : list R) : option (list R) :=
  slice_set a 0 n (mask_get keep a).

(** MP_system.py:141-155 (and 186-200, 260-271): given the mask of MPs to be
    kept, compact all arrays, zero the charge of the freed slots and update
    [N_mp].  [with_t] says whether the last impact times are compacted too
    (they are in 154-155 and 199-200, not in 260-271). *)
Definition keep_masked (s : mpsys) (keep : list bool) (with_t : bool)
  : option mpsys :=
  let n := count_true keep in
  do x <- compact keep n (x_mp s) ;
  do y <- compact keep n (y_mp s) ;
  do z <- compact keep n (z_mp s) ;
  do vx <- compact keep n (vx_mp s) ;
  do vy <- compact keep n (vy_mp s) ;
  do vz <- compact keep n (vz_mp s) ;
  do nel <- compact keep n (nel_mp s) ;
  let nel := slice_fill nel n (length nel) 0 in
  do t <- (if with_t && flag_lifetime_hist s
           then compact keep n (t_last_impact s)
           else Some (t_last_impact s)) ;
  Some (mkSys x y z vx vy vz nel t n (flag_lifetime_hist s)
    (nel_mp_ref s) (nel_mp_split s) (nel_mp_cl_th s)
    (nel_mp_ref_0 s) (fact_split s) (fact_clean s)).

(** MP_system.py:135-161.  The log messages are dropped. *)
Definition clean_small_MPs (s : mpsys) : option mpsys :=
  let flag_clean := map (fun q => Rltb q (nel_mp_cl_th s)) (nel_mp s) in
  let flag_keep := map negb flag_clean in
  let flag_keep := slice_fill flag_keep (N_mp s) (length flag_keep) false in
  do s' <- keep_masked s flag_keep true ;
  if Nat.eqb (N_mp s') 0
  then Some (set_nel_mp_ref s' (nel_mp_ref_0 s'))
  else Some s'.

Definition set_nel (s : mpsys) (nel : list R) : mpsys :=
  mkSys (x_mp s) (y_mp s) (z_mp s) (vx_mp s) (vy_mp s) (vz_mp s)
    nel (t_last_impact s) (N_mp s) (flag_lifetime_hist s)
    (nel_mp_ref s) (nel_mp_split s) (nel_mp_cl_th s)
    (nel_mp_ref_0 s) (fact_split s) (fact_clean s).

(** MP_system.py:174-176 and 237-239: new reference size. *)
Definition new_ref (s : mpsys) (target : nat) : R :=
  let r := rsum (nel_mp s) / INR target in
  if Rltb r (nel_mp_ref_0 s) then nel_mp_ref_0 s else r.

(** MP_system.py:168-213.  [rng]/[k]: the stream behind [rand].  The energies
    that are only printed are dropped. *)
Definition perform_soft_regeneration (target : nat) (rng : nat -> R) (k : nat)
  (s : mpsys) : option (mpsys * nat) :=
  if Nat.ltb target (N_mp s) then
    let chrg := rsum (nel_mp s) in
    let s1 := set_nel_mp_ref s (new_ref s target) in
    let death_prob := INR (N_mp s - target) / INR (N_mp s) in
    let flag_keep := repeat false (length (x_mp s)) in
    let sel := map (fun u => Rgtb u death_prob) (draw rng k (N_mp s)) in
    do flag_keep <- slice_set flag_keep 0 (N_mp s) sel ;
    do s2 <- keep_masked s1 flag_keep true ;
    let correct_fact := chrg / rsum (nel_mp s2) in
    do nel <- slice_set (nel_mp s2) 0 (N_mp s2)
                (map (fun q => q * correct_fact)
                     (slice_get (nel_mp s2) 0 (N_mp s2))) ;
    Some (set_nel s2 nel, (k + N_mp s)%nat)
  else Some (s, k).

(** MP_system.py:123-127, 215-219.  The optional thresholds
    [(N_mp_soft_regen, N_mp_after_soft_regen)] are [Some] when both given. *)
Definition check_for_soft_regeneration (thr : option (nat * nat))
  (rng : nat -> R) (k : nat) (s : mpsys) : option (mpsys * nat) :=
  match thr with
  | Some (n_soft, n_after) =>
      if Nat.ltb n_soft (N_mp s) then perform_soft_regeneration n_after rng k s
      else Some (s, k)
  | None => Some (s, k)
  end.

(** MP_system.py:129-133, 221-228. *)
Definition check_for_async_regeneration (thr : option (nat * nat))
  (rng : nat -> R) (k : nat) (s : mpsys) : option (mpsys * nat) :=
  match thr with
  | Some (n_async, n_after) =>
      if Nat.ltb n_async (N_mp s) then
        do s1 <- clean_small_MPs s ;
        if Nat.ltb n_async (N_mp s1)
        then perform_soft_regeneration n_after rng k s1
        else Some (s1, k)
      else Some (s, k)
  | None => Some (s, k)
  end.

(** MP_system.py:535-536 (and 57-63): positions of the live MPs. *)
Definition get_positions (s : mpsys) : list R * list R * list R :=
  (firstn (N_mp s) (x_mp s), firstn (N_mp s) (y_mp s), firstn (N_mp s) (z_mp s)).

(** Arguments of [add_new_MPs]; scalars are lists of length one (numpy
    broadcasts both in the same way into a slice). *)
Record batch := mkBatch {
  b_nel : list R; b_x : list R; b_y : list R; b_z : list R;
  b_vx : list R; b_vy : list R; b_vz : list R; b_t : list R }.

(** MP_system.py:538-551.  [None] is the [ValueError] raised by a slice
    assignment of the wrong length; the half-updated arrays of that case are
    not modelled (the exception ends the simulation). *)
Definition add_new_MPs (N_new : nat) (b : batch) (s : mpsys) : option mpsys :=
  let N_old := N_mp s in
  let N_new := (N_mp s + N_new)%nat in
  do x <- slice_set (x_mp s) N_old N_new (b_x b) ;
  do y <- slice_set (y_mp s) N_old N_new (b_y b) ;
  do z <- slice_set (z_mp s) N_old N_new (b_z b) ;
  do vx <- slice_set (vx_mp s) N_old N_new (b_vx b) ;
  do vy <- slice_set (vy_mp s) N_old N_new (b_vy b) ;
  do vz <- slice_set (vz_mp s) N_old N_new (b_vz b) ;
  do nel <- slice_set (nel_mp s) N_old N_new (b_nel b) ;
  do t <- (if flag_lifetime_hist s
           then slice_set (t_last_impact s) N_old N_new (b_t b)
           else Some (t_last_impact s)) ;
  Some (mkSys x y z vx vy vz nel t N_new (flag_lifetime_hist s)
    (nel_mp_ref s) (nel_mp_split s) (nel_mp_cl_th s)
    (nel_mp_ref_0 s) (fact_split s) (fact_clean s)).

(** The dictionary exchanged by [extract_dict] and [add_from_file];
    [d_t = None] when the key ['t_last_impact'] is absent. *)
Record mpdict := mkDict {
  d_x : list R; d_y : list R; d_z : list R;
  d_vx : list R; d_vy : list R; d_vz : list R; d_nel : list R;
  d_t : option (list R); d_N : nat }.

(** MP_system.py:553-578, for a dictionary argument (reading the .mat file is
    not modelled). *)
Definition add_from_file (d : mpdict) (s : mpsys) : option mpsys :=
  let lo := N_mp s in
  let hi := (N_mp s + d_N d)%nat in
  do x <- slice_set (x_mp s) lo hi (d_x d) ;
  do y <- slice_set (y_mp s) lo hi (d_y d) ;
  do z <- slice_set (z_mp s) lo hi (d_z d) ;
  do vx <- slice_set (vx_mp s) lo hi (d_vx d) ;
  do vy <- slice_set (vy_mp s) lo hi (d_vy d) ;
  do vz <- slice_set (vz_mp s) lo hi (d_vz d) ;
  do nel <- slice_set (nel_mp s) lo hi (d_nel d) ;
  do t <- (if flag_lifetime_hist s then
             match d_t d with
             | Some t => slice_set (t_last_impact s) lo hi t
             | None => Some (slice_fill (t_last_impact s) lo hi (-1))
             end
           else Some (t_last_impact s)) ;
  Some (mkSys x y z vx vy vz nel t hi (flag_lifetime_hist s)
    (nel_mp_ref s) (nel_mp_split s) (nel_mp_cl_th s)
    (nel_mp_ref_0 s) (fact_split s) (fact_clean s)).

(** MP_system.py:580-591. *)
Definition extract_dict (s : mpsys) : mpdict :=
  let n := N_mp s in
  mkDict (firstn n (x_mp s)) (firstn n (y_mp s)) (firstn n (z_mp s))
    (firstn n (vx_mp s)) (firstn n (vy_mp s)) (firstn n (vz_mp s))
    (firstn n (nel_mp s)) None n.

(** MP_system.py:593-595. *)
Definition init_from_dict (d : mpdict) (s : mpsys) : option mpsys :=
  add_from_file d
    (mkSys (x_mp s) (y_mp s) (z_mp s) (vx_mp s) (vy_mp s) (vz_mp s)
       (nel_mp s) (t_last_impact s) 0 (flag_lifetime_hist s)
       (nel_mp_ref s) (nel_mp_split s) (nel_mp_cl_th s)
       (nel_mp_ref_0 s) (fact_split s) (fact_clean s)).

(** * Uniform distributions *)

(** The chamber as seen by the MP system: the test [is_outside] (applied
    elementwise) and the half apertures. *)
Record chamber := mkChamb {
  outside : R -> R -> bool; x_aper : R; y_aper : R }.

(** MP_system.py:464-470: redraw the positions that are outside until none
    is.  [fuel] bounds the number of rounds of the [while] loop; [None] means
    that the loop is still running. *)
Fixpoint redraw_uniform (fuel : nat) (c : chamber) (xmax xmin ymax ymin : R)
  (rng : nat -> R) (k : nat) (xt yt : list R) : option (list R * list R * nat) :=
  let flag := map2 (outside c) xt yt in
  let Nout := count_true flag in
  if Nat.eqb Nout 0 then Some (xt, yt, k)
  else match fuel with
  | O => None
  | S f =>
      let xt := mask_put flag xt
        (map (fun u => (xmax - xmin) * u + xmin) (draw rng k Nout)) in
      let yt := mask_put flag yt
        (map (fun u => (ymax - ymin) * u + ymin) (draw rng (k + Nout) Nout)) in
      redraw_uniform f c xmax xmin ymax ymin rng (k + Nout + Nout) xt yt
  end.

(** Number of new MPs: floor plus a Bernoulli draw of the rest
    (MP_system.py:454-457, 504-507). *)
Definition stoch_round (q u : R) : Z :=
  let n := rfloor q in
  if Rltb u (q - IZR n) then (n + 1)%Z else n.

(** MP_system.py:472-481 / 519-528: write the new MPs in the free slots. *)
Definition write_uniform (s : mpsys) (n : nat) (xt yt : list R) (vx vy vz : R)
  (t : list R) : option mpsys :=
  let lo := N_mp s in
  let hi := (N_mp s + n)%nat in
  do x <- slice_set (x_mp s) lo hi xt ;
  do y <- slice_set (y_mp s) lo hi yt ;
  let z := slice_fill (z_mp s) lo hi 0 in
  let vx := slice_fill (vx_mp s) lo hi vx in
  let vy := slice_fill (vy_mp s) lo hi vy in
  let vz := slice_fill (vz_mp s) lo hi vz in
  let nel := slice_fill (nel_mp s) lo hi (nel_mp_ref s) in
  Some (mkSys x y z vx vy vz nel t hi (flag_lifetime_hist s)
    (nel_mp_ref s) (nel_mp_split s) (nel_mp_cl_th s)
    (nel_mp_ref_0 s) (fact_split s) (fact_clean s)).

Definition odef (o : option R) (d : R) : R :=
  match o with Some x => x | None => d end.

(** MP_system.py:441-486.  [v0] (line 452) is an argument.  Note that line
    486 uses the already updated [N_mp]. *)
Definition add_uniform_MP_distrib (fuel : nat) (c : chamber) (DNel v0 : R)
  (xmax xmin ymax ymin : option R) (rng : nat -> R) (k : nat) (s : mpsys)
  : option (mpsys * nat) :=
  let xmax := odef xmax (x_aper c) in
  let xmin := odef xmin (- x_aper c) in
  let ymax := odef ymax (y_aper c) in
  let ymin := odef ymin (- y_aper c) in
  let nz := stoch_round (DNel / nel_mp_ref s) (rng k) in
  if (0 <? nz)%Z then
    let n := Z.to_nat nz in
    let xt := map (fun u => (xmax - xmin) * u + xmin) (draw rng (k + 1) n) in
    let yt := map (fun u => (ymax - ymin) * u + ymin) (draw rng (k + 1 + n) n) in
    do (xt, yt, k) <- redraw_uniform fuel c xmax xmin ymax ymin rng (k + 1 + n + n) xt yt ;
    let N' := (N_mp s + n)%nat in
    let t := if flag_lifetime_hist s
             then slice_fill (t_last_impact s) N' (N' + n) (-1)
             else t_last_impact s in
    do s' <- write_uniform s n xt yt (v0 * (rng k - 1/2)) (v0 * (rng (k+1)%nat - 1/2))
               (v0 * (rng (k+2)%nat - 1/2)) t ;
    Some (s', (k + 3)%nat)
  else Some (s, (k + 1)%nat).

(** MP_system.py:488-533. *)
Definition add_uniform_ele_density (c : chamber) (n_ele v0 : R)
  (xmax xmin ymax ymin : option R) (rng : nat -> R) (k : nat) (s : mpsys)
  : option (mpsys * nat) :=
  let xmax := odef xmax (x_aper c) in
  let xmin := odef xmin (- x_aper c) in
  let ymax := odef ymax (y_aper c) in
  let ymin := odef ymin (- y_aper c) in
  let nz := stoch_round (n_ele * (xmax - xmin) * (ymax - ymin) / nel_mp_ref s) (rng k) in
  if (0 <? nz)%Z then
    let n := Z.to_nat nz in
    let xt := map (fun u => (xmax - xmin) * u + xmin) (draw rng (k + 1) n) in
    let yt := map (fun u => (ymax - ymin) * u + ymin) (draw rng (k + 1 + n) n) in
    let flag_keep := map negb (map2 (outside c) xt yt) in
    let xt := mask_get flag_keep xt in
    let yt := mask_get flag_keep yt in
    let k := (k + 1 + n + n)%nat in
    let n := length xt in
    let t := if flag_lifetime_hist s
             then slice_fill (t_last_impact s) (N_mp s) (N_mp s + n) (-1)
             else t_last_impact s in
    do s' <- write_uniform s n xt yt (v0 * (rng k - 1/2)) (v0 * (rng (k+1)%nat - 1/2))
               (v0 * (rng (k+2)%nat - 1/2)) t ;
    Some (s', (k + 3)%nat)
  else
    (* lines 530-533 with Nint_new_MP <= 0 and, as rates are not negative,
       equal to 0: nothing changes *)
    Some (s, (k + 1)%nat).

(** * Full regeneration (MP_system.py:230-439) *)

(** Parameters fixed at construction (MP_system.py:98-121). *)
Record regen_cfg := mkRegen {
  N_mp_regen_low : nat; N_mp_regen : nat; N_mp_after_regen : nat;
  Nx_reg : Z; Ny_reg : Z; Nvx_reg : Z; Nvy_reg : Z; Nvz_reg : Z;
  Nxg_hist_reg : nat; bias_x_hist_reg : R; Dx_hist_reg : R;
  regen_hist_cut : R }.

(** MP_system.py:113-118.  Number of nodes [M] to the right of 0 (the length
    of [arange(0, x_aper + 2*Dx, Dx)] minus one is [ceil((x_aper+2Dx)/Dx)-1])
    and the symmetric grid -M*Dx .. M*Dx. *)
Definition hist_half (xap Dx : R) : nat :=
  Z.to_nat (rceil ((xap + 2 * Dx) / Dx) - 1).
Definition hist_grid_len (xap Dx : R) : nat := (2 * hist_half xap Dx + 1)%nat.
Definition hist_grid_bias (xap Dx : R) : R := - (INR (hist_half xap Dx) * Dx).

(** MP_system.py:249, 252: [sum(hist[:i]) + sum(hist[-i:])]. *)
Definition cut_sum (hist : list R) (i : nat) : R :=
  rsum (firstn i hist) + rsum (skipn (length hist - i) hist).

(** MP_system.py:248-252.  [fuel] bounds the iterations. *)
Fixpoint cut_loop (fuel : nat) (hist : list R) (thr : R) (i : nat) : option nat :=
  if Rltb (cut_sum hist i) thr then
    match fuel with
    | O => None
    | S f => cut_loop f hist thr (S i)
    end
  else Some i.

(** [max(abs(v))] over the whole array, then lines 278-283. *)
Definition vmax (v : list R) : R :=
  let m := fold_right Rmax 0 (map Rabs v) in
  if Reqb m 0 then 1 / 100000 else m.

(** MP_system.py:287, 291, 295, 299, 303. *)
Definition reg_bias (N : Z) : Z := rceil (IZR N / 2).
(** MP_system.py:286, 290, 294, 298, 302. *)
Definition reg_step (half : R) (N : Z) : R := 2 * half / IZR (N - 1).
(** MP_system.py:310-314 (1-based). *)
Definition reg_index (v D : R) (N : Z) : Z := (raround (v / D) + reg_bias N)%Z.

(** MP_system.py:318-322: flattened 0-based index of a 5-D cell given by
    1-based indices. *)
Definition flat_index (cfg : regen_cfg) (ix iy ivx ivy ivz : Z) : Z :=
  ((ix - 1) * Ny_reg cfg * Nvx_reg cfg * Nvy_reg cfg * Nvz_reg cfg
   + (iy - 1) * Nvx_reg cfg * Nvy_reg cfg * Nvz_reg cfg
   + (ivx - 1) * Nvy_reg cfg * Nvz_reg cfg
   + (ivy - 1) * Nvz_reg cfg
   + ivz - 1)%Z.

(** MP_system.py:339-362: 1-based indices from the flattened index.  The
    floats [floor(index/divider)] are integer divisions. *)
Definition unflatten (cfg : regen_cfg) (ind : Z) : Z * Z * Z * Z * Z :=
  let divider := (Ny_reg cfg * Nvx_reg cfg * Nvy_reg cfg * Nvz_reg cfg)%Z in
  let ix := (ind / divider)%Z in
  let ind := (ind - ix * divider)%Z in
  let divider := (Nvx_reg cfg * Nvy_reg cfg * Nvz_reg cfg)%Z in
  let iy := (ind / divider)%Z in
  let ind := (ind - iy * divider)%Z in
  let divider := (Nvy_reg cfg * Nvz_reg cfg)%Z in
  let ivx := (ind / divider)%Z in
  let ind := (ind - ivx * divider)%Z in
  let ivy := (ind / Nvz_reg cfg)%Z in
  let ind := (ind - ivy * Nvz_reg cfg)%Z in
  let ivz := ind in
  ((ix + 1, iy + 1, ivx + 1, ivy + 1, ivz + 1))%Z.

(** MP_system.py:324-325: sorted list of the distinct indices. *)
Fixpoint insert_uniq (z : Z) (l : list Z) : list Z :=
  match l with
  | [] => [z]
  | a :: l' => if (z <? a)%Z then z :: l
               else if (z =? a)%Z then l
               else a :: insert_uniq z l'
  end.
Definition sorted_set (l : list Z) : list Z := fold_right insert_uniq [] l.

(** MP_system.py:327-335: charge per cell, accumulated over the MPs. *)
Definition cell_charge (indexes : list Z) (nel : list R) (c : Z) : R :=
  fold_left (fun acc p => if (fst p =? c)%Z then acc + snd p else acc)
    (combine indexes nel) 0.

(** The five grid steps (lines 286-302). *)
Record steps := mkSteps { sx : R; sy : R; svx : R; svy : R; svz : R }.

(** Centre of a cell in phase space (lines 366-370). *)
Record centre := mkCentre { cx : R; cy : R; cvx : R; cvy : R; cvz : R }.

Definition cell_centre (cfg : regen_cfg) (d : steps) (ind : Z) : centre :=
  let '(ix, iy, ivx, ivy, ivz) := unflatten cfg ind in
  mkCentre (IZR (ix - reg_bias (Nx_reg cfg)) * sx d)
           (IZR (iy - reg_bias (Ny_reg cfg)) * sy d)
           (IZR (ivx - reg_bias (Nvx_reg cfg)) * svx d)
           (IZR (ivy - reg_bias (Nvy_reg cfg)) * svy d)
           (IZR (ivz - reg_bias (Nvz_reg cfg)) * svz d).

(** Lines 399-404: [c + D * (rand - 0.5)] elementwise. *)
Definition jitter (cs : list R) (D : R) (us : list R) : list R :=
  map2 (fun c u => c + D * (u - 1/2)) cs us.

(** MP_system.py:409-418: redraw the positions outside the chamber. *)
Fixpoint redraw_cells (fuel : nat) (c : chamber) (Dx Dy : R)
  (cxs cys : list R) (rng : nat -> R) (k : nat) (xt yt : list R)
  : option (list R * list R * nat) :=
  let flag := map2 (outside c) xt yt in
  let Nout := count_true flag in
  if Nat.eqb Nout 0 then Some (xt, yt, k)
  else match fuel with
  | O => None
  | S f =>
      let xt := mask_put flag xt (jitter (mask_get flag cxs) Dx (draw rng k Nout)) in
      let yt := mask_put flag yt (jitter (mask_get flag cys) Dy (draw rng (k + Nout) Nout)) in
      redraw_cells f c Dx Dy cxs cys rng (k + Nout + Nout) xt yt
  end.

(** The arrays being filled by the generation loop. *)
Record fillst := mkFill {
  f_x : list R; f_y : list R; f_vx : list R; f_vy : list R; f_vz : list R;
  f_N : nat; f_k : nat }.

(** MP_system.py:397-430.  [fuel] bounds the rounds of the outer loop, and
    [fuel_in] those of the rejection loop. *)
Fixpoint fill_loop (fuel fuel_in : nat) (c : chamber) (d : steps)
  (cells : list centre) (num : list Z) (rng : nat -> R) (st : fillst)
  : option fillst :=
  let flag_add := map (fun n => (0 <? n)%Z) num in
  let n_add := count_true flag_add in
  if Nat.eqb n_add 0 then Some st
  else match fuel with
  | O => None
  | S f =>
      let sel := mask_get flag_add cells in
      let k := f_k st in
      let xt := jitter (map cx sel) (sx d) (draw rng k n_add) in
      let yt := jitter (map cy sel) (sy d) (draw rng (k + n_add) n_add) in
      let vxt := jitter (map cvx sel) (svx d) (draw rng (k + 2 * n_add) n_add) in
      let vyt := jitter (map cvy sel) (svy d) (draw rng (k + 3 * n_add) n_add) in
      let vzt := jitter (map cvz sel) (svz d) (draw rng (k + 4 * n_add) n_add) in
      do (xt, yt, k) <- redraw_cells fuel_in c (sx d) (sy d) (map cx sel) (map cy sel)
                          rng (k + 5 * n_add) xt yt ;
      let N := f_N st in
      do x <- slice_set (f_x st) N (N + n_add) xt ;
      do y <- slice_set (f_y st) N (N + n_add) yt ;
      do vx <- slice_set (f_vx st) N (N + n_add) vxt ;
      do vy <- slice_set (f_vy st) N (N + n_add) vyt ;
      do vz <- slice_set (f_vz st) N (N + n_add) vzt ;
      let num := map2 (fun (b : bool) n => if b then (n - 1)%Z else n) flag_add num in
      fill_loop f fuel_in c d cells num rng (mkFill x y vx vy vz (N + n_add) k)
  end.

(** MP_system.py:232: trigger of the full regeneration. *)
Definition regen_needed (cfg : regen_cfg) (s : mpsys) : bool :=
  Nat.ltb (N_mp_regen cfg) (N_mp s)
  || (Nat.ltb (N_mp s) (N_mp_regen_low cfg) && Rgtb (nel_mp_ref s) (nel_mp_ref_0 s)).

(** MP_system.py:243-254: horizontal cut. *)
Definition regen_x_max (fuel : nat) (cfg : regen_cfg) (s : mpsys) : option R :=
  do hist <- compute_hist (combine (firstn (N_mp s) (x_mp s)) (firstn (N_mp s) (nel_mp s)))
               (bias_x_hist_reg cfg) (Dx_hist_reg cfg) (repeat 0 (Nxg_hist_reg cfg)) ;
  let nel_tot := rsum hist in
  do i_cut <- cut_loop fuel hist (regen_hist_cut cfg * nel_tot) 1 ;
  Some (IZR (Z.of_nat (length hist) - Z.of_nat i_cut + 1) * Dx_hist_reg cfg
        + bias_x_hist_reg cfg).

(** MP_system.py:258-271: drop the MPs beyond the cut. *)
Definition regen_cut (x_max : R) (s : mpsys) : option mpsys :=
  let flag_clean := map (fun x => Rgtb (Rabs x) x_max) (x_mp s) in
  let flag_keep := map negb flag_clean in
  let flag_keep := slice_fill flag_keep (N_mp s) (length flag_keep) false in
  keep_masked s flag_keep false.

(** MP_system.py:286-302. *)
Definition regen_steps (cfg : regen_cfg) (x_max y_ap : R) (s : mpsys) : steps :=
  mkSteps (reg_step x_max (Nx_reg cfg)) (reg_step y_ap (Ny_reg cfg))
    (reg_step (vmax (vx_mp s)) (Nvx_reg cfg))
    (reg_step (vmax (vy_mp s)) (Nvy_reg cfg))
    (reg_step (vmax (vz_mp s)) (Nvz_reg cfg)).

(** MP_system.py:310-323: flattened cell index of every live MP. *)
Definition mp_index (cfg : regen_cfg) (d : steps) (x y vx vy vz : R) : Z :=
  flat_index cfg (reg_index x (sx d) (Nx_reg cfg)) (reg_index y (sy d) (Ny_reg cfg))
    (reg_index vx (svx d) (Nvx_reg cfg)) (reg_index vy (svy d) (Nvy_reg cfg))
    (reg_index vz (svz d) (Nvz_reg cfg)).

Definition mp_indexes (cfg : regen_cfg) (d : steps) (s : mpsys) : list Z :=
  map (fun i => mp_index cfg d (nth i (x_mp s) 0) (nth i (y_mp s) 0)
                  (nth i (vx_mp s) 0) (nth i (vy_mp s) 0) (nth i (vz_mp s) 0))
    (seq 0 (N_mp s)).

(** MP_system.py:230-439. *)
Definition check_for_regeneration (fuel fuel_in : nat) (cfg : regen_cfg)
  (c : chamber) (rng : nat -> R) (k : nat) (s : mpsys) : option (mpsys * nat) :=
  if regen_needed cfg s then
    let s1 := set_nel_mp_ref s (new_ref s (N_mp_after_regen cfg)) in
    do x_max <- regen_x_max fuel cfg s1 ;
    do s2 <- regen_cut x_max s1 ;
    let d := regen_steps cfg x_max (y_aper c) s2 in
    let indexes := mp_indexes cfg d s2 in
    let cells := sorted_set indexes in
    let dens := map (cell_charge indexes (firstn (N_mp s2) (nel_mp s2))) cells in
    let num := map2 (fun q u => stoch_round (q / nel_mp_ref s2) u)
                 dens (draw rng k (length cells)) in
    let N_expect := Z.to_nat (fold_right Z.add 0%Z num) in
    let zeros := repeat 0 (length (x_mp s2)) in
    do nel <- slice_set (repeat 0 (length (nel_mp s2))) 0 N_expect
                (repeat (nel_mp_ref s2) N_expect) ;
    do st <- fill_loop fuel fuel_in c d (map (cell_centre cfg d) cells) num rng
               (mkFill zeros zeros zeros zeros zeros 0 (k + length cells)) ;
    let t := if flag_lifetime_hist s2 then map (fun _ => -1) (t_last_impact s2)
             else t_last_impact s2 in
    Some (mkSys (f_x st) (f_y st) zeros (f_vx st) (f_vy st) (f_vz st) nel t (f_N st)
            (flag_lifetime_hist s2) (nel_mp_ref s2) (nel_mp_split s2) (nel_mp_cl_th s2)
            (nel_mp_ref_0 s2) (fact_split s2) (fact_clean s2), f_k st)
  else Some (s, k).
