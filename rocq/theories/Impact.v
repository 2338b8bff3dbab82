(** Model of impact_management_class.py: handling of the macroparticles that
    hit the wall.  No proofs in this file. *)
From Verif Require Import Num Fort MP Geom Poly Sey.

(** The chamber as used here: [is_outside] (elementwise), and
    [impact_point_and_normal], which returns for each track the impact point
    with the normal and the segment index ([None]: an exception).  Chambers
    without segments return [None] for the segments; the model has 0 there,
    and it is not used because [flag_seg] is then off. *)
Record wall := mkWall {
  w_out : R -> R -> bool;
  w_hit : list track -> option (list (hit * nat)) }.

(** geom_impact_ellip.py and geom_impact_poly_fast_impact.py as walls. *)
Definition ell_wall (e : ellip) (resc : R) : wall :=
  mkWall (ell_outside e) (fun ks => do hs <- ell_impact e resc ks ; Some (map (fun h => (h, 0%nat)) hs)).
Definition poly_wall (p : poly) (resc : R) : wall := mkWall (p_outside p) (poly_impact p resc).

(** impact_management_class.py:62-137: settings.  [k_mass] is the mass of the
    cloud particle (attribute of [MP_e]), [k_qe] the elementary charge. *)
Record icfg := mkIcfg {
  k_bias : R; k_Dx : R; k_scrub : R; k_Enmax : R; k_DEn : R;
  k_life : bool; k_Dtlife : R; k_cos : bool; k_cosw : R;
  k_seg : bool; k_segline : bool; k_mass : R; k_qe : R }.

(** Histograms and quantities of the last step. *)
Record iman := mkIman {
  g_tot : list R; g_scrub : list R; g_en : list R; g_line : list R;
  g_cos : list R; g_life : list R;
  g_seg : list R; g_segemit : list R; g_segen : list R; g_seglines : list (list R);
  l_nimp : R; l_nemit : R; l_eimp : R; l_eemit : R }.

(** impact_management_class.py:62-137.  [nvert]: number of vertices, [None]
    for chambers without segments; [None] is the ValueError of lines 71-73.
    [np.linspace(0, max, N)] has the step [max/(N-1)]; [N] is at least 2
    (otherwise IndexError).  [last_step] quantities start as [None] in the
    code and as 0 here. *)
Definition iman_ctor (xap : R) (nvert : option nat) (Dx scrub : R) (Nbin : nat) (Enmax : R)
  (Nbin_life : nat) (life_max : R) (life seg segline : bool) (cosw : R) (cosh : bool) (mass qe : R)
  : option (icfg * iman) :=
  if seg && (match nvert with None => true | _ => false end) then None else
  if Nat.ltb Nbin 2 || (life && Nat.ltb Nbin_life 2) then None else
  let nv := match nvert with Some n => n | None => 0%nat end in
  let nx := hist_grid_len xap Dx in
  let zx := repeat 0 nx in
  let zs := if seg then repeat 0 nv else [] in
  Some (mkIcfg (hist_grid_bias xap Dx) Dx scrub Enmax (Enmax / INR (Nbin - 1)) life
          (life_max / INR (Nbin_life - 1)) cosh cosw seg segline mass qe,
        mkIman zx zx zx (repeat 0 Nbin)
          (if cosh then repeat 0 (Z.to_nat (rtrunc (1 / cosw) + 1)) else [])
          (if life then repeat 0 Nbin_life else [])
          zs zs zs (if seg && segline then repeat (repeat 0 Nbin) nv else []) 0 0 0 0).

(** Lines 224-234: the tracks of the impacting macroparticles. *)
Fixpoint zip_tracks (xi yi zi xo yo zo : list R) : list track :=
  match xi, yi, zi, xo, yo, zo with
  | a :: xi', b :: yi', c :: zi', d :: xo', e :: yo', f :: zo' =>
      mkTrack a b c d e f :: zip_tracks xi' yi' zi' xo' yo' zo'
  | _, _, _, _, _, _ => []
  end.

(** Lines 236-259 for one macroparticle: the impact as handed to the emission
    model.  For a macroparticle at rest the code computes 0/0; such a
    macroparticle does not reach the wall, and the model stops ([None]). *)
Definition mk_imp (c : icfg) (hi : hit * nat) (nel vx vy vz : R) : option imp :=
  let h := fst hi in
  let v := sqrt (vx * vx + vy * vy + vz * vz) in
  let E := (1/2) * k_mass c / k_qe c * v * v in
  let vn := vx * h_nx h + vy * h_ny h in
  if Reqb v 0 then None else
  Some (mkImp nel (h_x h) (h_y h) (h_z h) vx vy vz (h_nx h) (h_ny h) (snd hi) vn E (Rabs (vn / v))).

Fixpoint zip_imps (c : icfg) (hs : list (hit * nat)) (nel vx vy vz : list R) : option (list imp) :=
  match hs, nel, vx, vy, vz with
  | h :: hs', n :: nel', a :: vx', b :: vy', d :: vz' =>
      do p <- mk_imp c h n a b d ;
      do l <- zip_imps c hs' nel' vx' vy' vz' ;
      Some (p :: l)
  | _, _, _, _, _ => Some []
  end.

(** Lines 243-253: lifetime histogram and last impact times. *)
Definition life_part (c : icfg) (tt : R) (mask : list bool) (nel t_last hist : list R)
  : option (list R * list R) :=
  if k_life c then
    let tl := mask_get mask t_last in
    let pos := map (fun t => Rgtb t 0) tl in
    do hist <- compute_hist (combine (mask_get pos (map (fun t => tt - t) tl)) (mask_get pos nel))
                 0 (k_Dtlife c) hist ;
    Some (hist, mask_fill mask t_last tt)
  else Some (hist, t_last).

(** Lines 281-289: energy histogram of each segment. *)
Definition clip_E (mx E : R) : R := if Rgtb E mx then mx else E.
Fixpoint seg_lines (c : icfg) (ps : list imp) (i : nat) (lines : list (list R)) : option (list (list R)) :=
  match lines with
  | [] => Some []
  | h :: lines' =>
      let here := mask_get (map (fun p => Nat.eqb (i_seg p) i) ps) ps in
      do h <- compute_hist (map (fun p => (clip_E (k_Enmax c) (i_E p), i_nel p)) here) 0 (k_DEn c) h ;
      do l <- seg_lines c ps (S i) lines' ;
      Some (h :: l)
  end.

(** Lines 261-296: histograms of the impacts. *)
Definition count_impacts (c : icfg) (g : iman) (ps : list imp) : option iman :=
  do tot <- compute_hist (map (fun p => (i_x p, i_nel p)) ps) (k_bias c) (k_Dx c) (g_tot g) ;
  do scr <- compute_hist (map (fun p => (i_x p, i_nel p * (if Rgtb (i_E p) (k_scrub c) then 1 else 0))) ps)
              (k_bias c) (k_Dx c) (g_scrub g) ;
  do en <- compute_hist (map (fun p => (i_x p, i_nel p * i_E p)) ps) (k_bias c) (k_Dx c) (g_en g) ;
  do co <- (if k_cos c then compute_hist (map (fun p => (i_ct p, i_nel p)) ps) 0 (k_cosw c) (g_cos g)
            else Some (g_cos g)) ;
  let sg := if k_seg c then update_seg_impact (map (fun p => (Z.of_nat (i_seg p), i_nel p)) ps) (g_seg g) else g_seg g in
  let se := if k_seg c then update_seg_impact (map (fun p => (Z.of_nat (i_seg p), i_nel p * i_E p)) ps) (g_segen g) else g_segen g in
  do sl <- (if k_seg c && k_segline c then seg_lines c ps 0 (g_seglines g) else Some (g_seglines g)) ;
  do li <- compute_hist (map (fun p => (clip_E (k_Enmax c) (i_E p), i_nel p)) ps) 0 (k_DEn c) (g_line g) ;
  Some (mkIman tot scr en li co (g_life g) sg (g_segemit g) se sl
          (rsum (map i_nel ps)) 0 (rsum (map (fun p => i_E p * i_nel p) ps)) 0).

(** Lines 321-334 (replaced) and 342-357 (new): subtract the energy given to
    emitted macroparticles, histogram of the charge emitted by segment.
    [add] is the energy already emitted in this step. *)
Definition e_kin (c : icfg) (vx vy vz : R) : R :=
  let v := sqrt (vx ^ 2 + vy ^ 2 + vz ^ 2) in (1/2) * k_mass c / k_qe c * v * v.

Definition count_emitted (c : icfg) (g : iman) (nel x vx vy vz : list R) (seg : list nat) (add : R)
  : option iman :=
  let E := map3 (e_kin c) vx vy vz in
  let w := map2 (fun n e => - n * e) nel E in
  do en <- compute_hist (combine x w) (k_bias c) (k_Dx c) (g_en g) ;
  let se := if k_seg c then update_seg_impact (combine (map Z.of_nat seg) w) (g_segen g) else g_segen g in
  let sm := if k_seg c then update_seg_impact (combine (map Z.of_nat seg) nel) (g_segemit g) else g_segemit g in
  Some (mkIman (g_tot g) (g_scrub g) en (g_line g) (g_cos g) (g_life g) (g_seg g) sm se (g_seglines g)
          (l_nimp g) (l_nemit g) (l_eimp g) (add + rsum (map2 (fun e n => e * n) E nel))).

Definition set_last (g : iman) (ni ne : R) : iman :=
  mkIman (g_tot g) (g_scrub g) (g_en g) (g_line g) (g_cos g) (g_life g) (g_seg g) (g_segemit g) (g_segen g)
    (g_seglines g) ni ne (l_eimp g) (l_eemit g).
Definition set_life (g : iman) (h : list R) : iman :=
  mkIman (g_tot g) (g_scrub g) (g_en g) (g_line g) (g_cos g) h (g_seg g) (g_segemit g) (g_segen g)
    (g_seglines g) (l_nimp g) (l_nemit g) (l_eimp g) (l_eemit g).
Definition zero_last (g : iman) : iman :=
  mkIman (g_tot g) (g_scrub g) (g_en g) (g_line g) (g_cos g) (g_life g) (g_seg g) (g_segemit g) (g_segen g)
    (g_seglines g) 0 0 0 0.

(** Lines 312-319: scatter the replaced attributes. *)
Definition replace_MPs (s : mpsys) (mask : list bool) (e : emis) (t_last : list R) : option mpsys :=
  do x <- mask_set mask (x_mp s) (o_x e) ;
  do y <- mask_set mask (y_mp s) (o_y e) ;
  do z <- mask_set mask (z_mp s) (o_z e) ;
  do vx <- mask_set mask (vx_mp s) (o_vx e) ;
  do vy <- mask_set mask (vy_mp s) (o_vy e) ;
  do vz <- mask_set mask (vz_mp s) (o_vz e) ;
  do nel <- mask_set mask (nel_mp s) (o_nel e) ;
  Some (mkSys x y z vx vy vz nel t_last (N_mp s) (flag_lifetime_hist s)
    (nel_mp_ref s) (nel_mp_split s) (nel_mp_cl_th s)
    (nel_mp_ref_0 s) (fact_split s) (fact_clean s)).

(** Lines 212-217: mask of the impacting macroparticles over the whole
    arrays. *)
Definition impact_mask (w : wall) (s : mpsys) : list bool :=
  map2 (w_out w) (firstn (N_mp s) (x_mp s)) (firstn (N_mp s) (y_mp s)) ++
  repeat false (length (x_mp s) - N_mp s).

(** impact_management_class.py:174-359.  [em]: the emission model, as a
    function of the splitting threshold, [flag_seg] and the impacts, with the
    result of the call ([S] is its own state: random numbers, surface
    charges); [old]: positions of the live macroparticles before the move;
    [tt]: current time (only used for the lifetime histogram and the new
    macroparticles). *)
Definition backtrack_and_second_emiss {S : Type} (w : wall) (c : icfg)
  (em : R -> bool -> list imp -> S -> option (emis * S)) (tt : R)
  (old : list R * list R * list R) (g : iman) (s : mpsys) (st : S) : option (iman * mpsys * S) :=
  let '(xo, yo, zo) := old in
  let g := zero_last g in
  if Nat.eqb (N_mp s) 0 then Some (g, s, st) else
  let mask := impact_mask w s in
  let maskN := firstn (N_mp s) mask in
  if Nat.eqb (count_true mask) 0 then Some (g, s, st) else
  let ks := zip_tracks (mask_get maskN xo) (mask_get maskN yo) (mask_get maskN zo)
              (mask_get mask (x_mp s)) (mask_get mask (y_mp s)) (mask_get mask (z_mp s)) in
  do hs <- w_hit w ks ;
  let nel := mask_get mask (nel_mp s) in
  do (lh, tl) <- life_part c tt mask nel (t_last_impact s) (g_life g) ;
  do ps <- zip_imps c hs nel (mask_get mask (vx_mp s)) (mask_get mask (vy_mp s)) (mask_get mask (vz_mp s)) ;
  do g <- count_impacts c (set_life g lh) ps ;
  do (e, st) <- em (nel_mp_split s) (k_seg c) ps st ;
  let g := set_last g (l_nimp g) (rsum (o_tot e)) in
  do s <- replace_MPs s mask e tl ;
  do g <- count_emitted c g (o_nel e) (o_x e) (o_vx e) (o_vy e) (o_vz e) (o_seg e) 0 ;
  let n := length (n_nel e) in
  if Nat.eqb n 0 then Some (g, s, st) else
  do s <- add_new_MPs n (mkBatch (n_nel e) (n_x e) (n_y e) (n_z e) (n_vx e) (n_vy e) (n_vz e) [tt]) s ;
  do g <- count_emitted c g (n_nel e) (n_x e) (n_vx e) (n_vy e) (n_vz e) (n_seg e) (l_eemit g) ;
  Some (g, s, st).
