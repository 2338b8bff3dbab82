(** Model of the analytic beam field: BassErsk.py and the part of
    beam_and_timing.py that builds the field map from it. *)
From Verif Require Import Num Fort Erf.
Local Open Scope R_scope.

(** Python complex numbers. *)
Definition zc : Type := (R * R)%type.
Definition zadd (a b : zc) : zc := (fst a + fst b, snd a + snd b).
Definition zsub (a b : zc) : zc := (fst a - fst b, snd a - snd b).
Definition zmul (a b : zc) : zc := (fst a * fst b - snd a * snd b, fst a * snd b + snd a * fst b).
Definition zscale (k : R) (a : zc) : zc := (k * fst a, k * snd a).
(** [None]: the result is not a number. *)
Definition zdivr (a : zc) (k : R) : option zc := do x <- fdiv (fst a) k ; do y <- fdiv (snd a) k ; Some (x, y).
Definition zdiv (a b : zc) : option zc :=
  let d := fst b * fst b + snd b * snd b in
  zdivr (zmul a (fst b, - snd b)) d.
Definition zsinh (a : zc) : zc := (sinh (fst a) * cos (snd a), cosh (fst a) * sin (snd a)).
Definition np_sign (x : R) : R := if Rltb x 0 then -1 else if Rltb 0 x then 1 else 0.
Definition flog (x : R) : option R := if Rltb 0 x then Some (ln x) else None.

(** BassErsk.py:17. *)
Definition be_eps0 : R := 8854187817620 / 10 ^ 24.

(** BassErsk.py:6-10. *)
Definition wfun (z : zc) : option zc := errf (fst z) (snd z).

(** BassErsk.py:23-28 and 35-40: the common form of the two branches. *)
Definition be_val (s1 s2 x y : R) : option zc :=
  do sc <- fsqrt (2 * (s1 * s1 - s2 * s2)) ;
  do fact <- fdiv 1 (2 * be_eps0 * sqrt PI * sc) ;
  do r1 <- fdiv s2 s1 ;
  do r2 <- fdiv s1 s2 ;
  let eta := (r1 * x, r2 * y) in
  let zeta := (x, y) in
  do d1 <- fdiv (- (x * x)) (2 * s1 * s1) ;
  do d2 <- fdiv (y * y) (2 * s2 * s2) ;
  do z1 <- zdivr zeta sc ;
  do w1 <- wfun z1 ;
  do z2 <- zdivr eta sc ;
  do w2 <- wfun z2 ;
  Some (zscale fact (zsub w1 (zscale (exp (d1 - d2)) w2))).

(** BassErsk.py:13-43.  [None]: the components are NaN (numpy does not
    raise). *)
Definition BassErsk (xin yin sigmax sigmay : R) : option (R * R) :=
  let x := Rabs xin in
  let y := Rabs yin in
  if Rgtb sigmax sigmay then
    do val <- be_val sigmax sigmay x y ;
    Some (Rabs (snd val) * np_sign xin, Rabs (fst val) * np_sign yin)
  else
    do val <- be_val sigmay sigmax y x ;
    Some (Rabs (fst val) * np_sign xin, Rabs (snd val) * np_sign yin).

Section Images.
(** [acosh] of the cmath module: an explicit argument. *)
Variable acosh : zc -> zc.

(** BassErsk.py:66-70: the loop over the images ([n]: iterations done so far). *)
Fixpoint image_loop (mu1 mu0 phi0 : R) (q : zc) (n : nat) : option zc :=
  match n with
  | O => Some (0, 0)
  | S m =>
      do E <- image_loop mu1 mu0 phi0 q m ;
      let nn := INR n in
      do c <- fdiv (cosh (nn * mu0) * cos (nn * phi0)) (cosh (nn * mu1)) ;
      do s <- fdiv (sinh (nn * mu0) * sin (nn * phi0)) (sinh (nn * mu1)) ;
      do r <- zdiv (zmul (zscale (exp (- nn * mu1)) (c, s)) (zsinh (zscale nn q))) (zsinh q) ;
      Some (zadd E r)
  end.

(** BassErsk.py:46-81.  [None]: NaN, or the unset result of lines 77-81. *)
Definition ImageTerms (x y a b x0 y0 : R) (nimag : nat) : option (R * R) :=
  do e <- fdiv (a - b) a ;
  if Rgtb (Rabs e) (1 / 1000) then
    do g <- fsqrt (a * a - b * b) ;
    do w <- zdivr (x, y) g ;
    let q := acosh w in
    do w0 <- zdivr (x0, y0) g ;
    let q0 := acosh w0 in
    do ratio <- fdiv (a + b) (a - b) ;
    do l <- flog ratio ;
    let mu1 := 1/2 * l in
    do E <- image_loop mu1 (fst q0) (snd q0) (fst q, - snd q) nimag ;
    do E <- zdivr E (4 * PI * be_eps0) ;
    do E <- zdivr (zscale 4 E) g ;
    Some E
  else if Reqb x0 0 && Reqb y0 0 then Some (0, 0) else None.

(** beam_and_timing.py:219-222 [np.linspace(-m, m, N)] (for [N] > 1). *)
Definition linspace_sym (m : R) (N : nat) (i : nat) : R := - m + INR i * ((m - - m) / (INR N - 1)).

(** beam_and_timing.py:240-244: one node of the map. *)
Definition be_node (a b sigmax sigmay x y : R) (nimag : nat) : option (R * R) :=
  do im <- ImageTerms x y a b 0 0 nimag ;
  do be <- BassErsk x y sigmax sigmay ;
  Some (fst be + fst im, snd be + snd im).

(** A field map as it is in a file or comes from a solver: node coordinates and
    fields (functions of 1-based indices). *)
Record rawmap := mkRaw { r_xx : list R; r_yy : list R; r_Ex : grid; r_Ey : grid }.

(** beam_and_timing.py:216-247: the map.  It is given only if every node of it
    is a number ([None] otherwise: the code carries on with NaN at such
    nodes). *)
Definition node_nums (l : list (option (R * R))) : bool := forallb (fun o => match o with Some _ => true | None => false end) l.
Definition be_raw (a b sigmax sigmay : R) (Nx Ny nimag : nat) : option rawmap :=
  let xmax := a * (102 / 100) in
  let ymax := b * (102 / 100) in
  let xx := linspace_sym xmax Nx in
  let yy := linspace_sym ymax Ny in
  let node := fun i j => be_node a b sigmax sigmay (xx i) (yy j) nimag in
  let val := fun i j => match node (Z.to_nat (i - 1)) (Z.to_nat (j - 1)) with Some e => e | None => (0, 0) end in
  if (Nx <=? 1)%nat || (Ny <=? 1)%nat then None else
  if node_nums (flat_map (fun i => map (fun j => node i j) (seq 0 Ny)) (seq 0 Nx)) then
    Some (mkRaw (map xx (seq 0 Nx)) (map yy (seq 0 Ny)) (fun i j => fst (val i j)) (fun i j => snd (val i j)))
  else None.
End Images.

(** beam_and_timing.py:308-322: the map as it is used. *)
Record fmap2 := mkMap { u_x0 : R; u_y0 : R; u_dx : R; u_dy : R; u_nx : Z; u_ny : Z; u_Ex : grid; u_Ey : grid }.
Definition list_min (l : list R) : option R := match l with [] => None | x :: l => Some (fold_left Rmin l x) end.
Definition use_map (r : rawmap) : option fmap2 :=
  do x0 <- list_min (r_xx r) ; do y0 <- list_min (r_yy r) ;
  do xa <- nth_error (r_xx r) 1 ; do xb <- nth_error (r_xx r) 0 ;
  do ya <- nth_error (r_yy r) 1 ; do yb <- nth_error (r_yy r) 0 ;
  Some (mkMap x0 y0 (xa - xb) (ya - yb) (Z.of_nat (length (r_xx r))) (Z.of_nat (length (r_yy r))) (r_Ex r) (r_Ey r)).

(** beam_and_timing.py:184-188 (and 276-288): density of a beam of unit charge at
    a node; [erf] is that of scipy. *)
Definition fd_rho (erf : R -> R) (Dh xb yb sigmax sigmay x y : R) : R :=
  1 / (4 * Dh ^ 2) * (erf ((x - xb) / (sqrt 2 * sigmax) + Dh / (2 * sqrt 2 * sigmax)) - erf ((x - xb) / (sqrt 2 * sigmax) - Dh / (2 * sqrt 2 * sigmax)))
  * (erf ((y - yb) / (sqrt 2 * sigmay) + Dh / (2 * sqrt 2 * sigmay)) - erf ((y - yb) / (sqrt 2 * sigmay) - Dh / (2 * sqrt 2 * sigmay))).

(** The arguments of the constructor that matter for the field
    (beam_and_timing.py:78-92).  [a_mg]: f_telescope_beam, target_grid_beam,
    N_nodes_discard_beam, N_min_Dh_main_beam: given or not. *)
Inductive fsource := UseFD | UseBE | UseMG | UseFile (name : nat).
Record bargs := mkBargs {
  a_src : fsource; a_Dh : option R; a_Nx : option nat; a_Ny : option nat; a_nimag : option nat; a_mg : list bool;
  a_ellip : bool; a_xa : R; a_ya : R; a_sx : R; a_sy : R; a_x : R; a_y : R; a_save : bool }.

(** What the solvers and the file system do: the finite difference solver and
    the one with several grids (a field at any place) for a density and a grid
    size; the file of a name. *)
Record bworld := mkBworld {
  o_acosh : zc -> zc; o_erf : R -> R; o_fd : R -> (R -> R -> R) -> rawmap; o_mg : R -> (R -> R -> R -> R) -> (R * R -> R * R);
  o_load : nat -> option rawmap }.

(** The beam field object: a map, or a state of the solver; with the file that
    was saved. *)
Inductive bresult := BMap (m : fmap2) (saved : option rawmap) | BState (f : R * R -> R * R).

(** beam_and_timing.py:168-322.  [None]: an exception (or NaN in the map). *)
Definition beam_field (o : bworld) (g : bargs) : option bresult :=
  let done := fun r => do m <- use_map r ; Some (BMap m (if a_save g then Some r else None)) in
  match a_src g with
  | UseFD =>
      do Dh <- a_Dh g ;
      done (o_fd o Dh (fd_rho (o_erf o) Dh (a_x g) (a_y g) (a_sx g) (a_sy g)))
  | UseBE =>
      if negb (a_ellip g) then None else
      do Nx <- a_Nx g ; do Ny <- a_Ny g ; do nimag <- a_nimag g ;
      if negb (Reqb (a_x g) 0) || negb (Reqb (a_y g) 0) then None else
      do r <- be_raw (o_acosh o) (a_xa g) (a_ya g) (a_sx g) (a_sy g) Nx Ny nimag ;
      done r
  | UseMG =>
      do Dh <- a_Dh g ;
      if negb (forallb (fun b => b) (a_mg g)) then None else
      if a_save g then None else
      Some (BState (o_mg o Dh (fun dh => fd_rho (o_erf o) dh (a_x g) (a_y g) (a_sx g) (a_sy g))))
  | UseFile f => do r <- o_load o f ; done r
  end.
