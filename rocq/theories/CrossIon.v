(** Model of cross_ionization.py: ionisation of a target gas by the particles
    of the clouds.  No proofs in this file.  File loading, printing,
    [_extract_sigma] (431-492, a test run at construction that writes a file)
    and the report of the density (168-170) are not modelled. *)
From Coq Require Import String.
From Verif Require Import Num MP.
Local Open Scope list_scope.
Local Open Scope R_scope.

(** [np.round(x, 3)] and [np.round(x, 8)]. *)
Definition round3 (x : R) : R := IZR (raround (x * 1000)) / 1000.
Definition round8 (x : R) : R := IZR (raround (x * 10 ^ 8)) / 10 ^ 8.

(** * Cross section table (cross_ionization.py:114-147) *)
Record xtab := mkXtab {
  t_emin : R; t_emax : R; t_sigma : list R; t_dsigma : list R;
  t_dx : R; t_xmin : R; t_log : bool }.

Definition rlog10 (x : R) : R := ln x / ln 10.

Fixpoint xdiff (l : list R) : list R :=
  match l with
  | a :: ((b :: _) as l') => (b - a) :: xdiff l'
  | _ => []
  end.

Fixpoint rmin_list (d : R) (l : list R) : R :=
  match l with [] => d | x :: l' => rmin_list (Rmin d x) l' end.
Fixpoint rmax_list (d : R) (l : list R) : R :=
  match l with [] => d | x :: l' => rmax_list (Rmax d x) l' end.

(** Lines 114-147.  [None]: [IndexError] for less than two points, or the
    [ValueError] of line 141.  An energy that is not positive gives -inf or
    NaN in the logarithmic branch, which raises for three or more points; it
    is [None] here. *)
Definition xtab_ctor (energy sigma : list R) : option xtab :=
  match energy with
  | e0 :: es =>
      let emin := rmin_list e0 es in
      let emax := rmax_list e0 es in
      let dsig := xdiff sigma ++ [0] in
      match map round8 (xdiff energy) with
      | d0 :: ds =>
          if existsb (fun d => negb (Reqb d d0)) (d0 :: ds) then
            if existsb (fun e => Rleb e 0) energy then None
            else
              match map round8 (xdiff (map rlog10 energy)) with
              | l0 :: ls =>
                  if existsb (fun d => negb (Reqb d l0)) (l0 :: ls) then None
                  else Some (mkXtab emin emax sigma dsig l0 (rlog10 emin) true)
              | [] => None
              end
          else Some (mkXtab emin emax sigma dsig d0 emin false)
      | [] => None
      end
  | [] => None
  end.

(** Lines 283-291 for one energy; [np.modf] splits towards zero.  A step of
    zero gives inf or NaN, of which the index raises or is meaningless:
    [None]. *)
Definition xinterp (t : xtab) (x : R) : option R :=
  if Reqb (t_dx t) 0 then None
  else
    let f := (x - t_xmin t) / t_dx t in
    let i := rtrunc f in
    do s <- py_nth (t_sigma t) i ;
    do d <- py_nth (t_dsigma t) i ;
    Some (s + (f - IZR i) * d).

(** Lines 263-280 for one energy: square metres. *)
Definition get_sigma (t : xtab) (E : R) : option R :=
  if Rltb E (t_emin t) then Some (0 * (1 / 10 ^ 4))
  else if Rltb (t_emax t) E then Some (0 * (1 / 10 ^ 4))
  else
    do s <- xinterp t (if t_log t then rlog10 E else E) ;
    Some (s * (1 / 10 ^ 4)).

(** * One process *)

(** Lines 66-92.  The products are names of clouds. *)
Record xproc := mkXproc {
  x_tab : xtab; x_dens : R; x_area : R; x_N : R; x_E : R; x_equal : bool;
  x_prods : list string }.

Definition xproc_ctor (tab : xtab) (dens area E : R) (equal : bool) (prods : list string) : xproc :=
  mkXproc tab dens area (dens * area) E equal prods.

(** A cloud: its name, the mass of its particles and its macroparticles. *)
Record xcloud := mkXcloud { xc_name : string; xc_mass : R; xc_mp : mpsys }.

(** Lines 304-306, 349-351: in a dictionary built from the list the last
    cloud of a name counts.  [KeyError] = [None]. *)
Definition find_cloud (name : string) (cl : list xcloud) : option xcloud :=
  find (fun c => String.eqb (xc_name c) name) (rev cl).

(** Lines 363-375: the slices [[:N_mp]] of the arrays of the projectiles, one
    record per macroparticle. *)
Record pj := mkPj { j_nel : R; j_x : R; j_y : R; j_z : R; j_v : R }.
Definition proj_at (s : mpsys) (i : nat) : pj :=
  let vx := nth i (vx_mp s) 0 in
  let vy := nth i (vy_mp s) 0 in
  let vz := nth i (vz_mp s) 0 in
  mkPj (nth i (nel_mp s) 0) (nth i (x_mp s) 0) (nth i (y_mp s) 0) (nth i (z_mp s) 0)
    (sqrt (vx * vx + vy * vy + vz * vz)).
Definition projectiles (s : mpsys) : list pj := map (proj_at s) (seq 0 (N_mp s)).

(** Lines 172, 251-258: the macroparticles a process gives to one product. *)
Record xinfo := mkXinfo {
  n_N : Z; n_nel : list R; n_x : list R; n_y : list R; n_z : list R;
  n_vx : list R; n_vy : list R; n_vz : list R }.

Definition zsum (l : list Z) : Z := fold_right Z.add 0%Z l.

Fixpoint xmapM {A B} (f : A -> option B) (l : list A) : option (list B) :=
  match l with
  | [] => Some []
  | a :: l' => do b <- f a ; do bs <- xmapM f l' ; Some (b :: bs)
  end.

(** Lines 153-158: ionisations caused by each projectile. *)
Definition DN_one (qe : R) (p : xproc) (Dt mass : R) (j : pj) : option R :=
  let E := 1/2 * mass / qe * j_v j * j_v j in
  do sg <- get_sigma (x_tab p) E ;
  Some (sg * x_dens p * j_v j * Dt * j_nel j).

(** Lines 162-166. *)
Definition deplete (p : xproc) (DN : R) : xproc :=
  let N := round3 (x_N p - DN) in
  mkXproc (x_tab p) (N / x_area p) (x_area p) N (x_E p) (x_equal p) (x_prods p).

(** Lines 185-191, 210-216: how many macroparticles each projectile gives. *)
Definition counts_of (DN : list R) (ref : R) (rng : nat -> R) (k : nat) : list Z :=
  map2 (fun dn u => stoch_round (dn / ref) u) DN (draw rng k (length DN)).

(** Lines 201-202, 218-258 for one product. *)
Definition product_info (qe : R) (p : xproc) (mass ref : R) (counts : list Z) (pr : list pj)
  (rng : nat -> R) (k : nat) : xinfo * nat :=
  let v0 := sqrt (2 * (x_E p / 3) * qe / mass) in
  let N := zsum counts in
  if (0 <? N)%Z then
    let mask := map (fun c => (0 <? c)%Z) counts in
    let cm := map Z.to_nat (mask_get mask counts) in
    let nel := repeat_each (repeat (1 * ref) (count_true mask)) cm in
    let rep (f : pj -> R) := repeat_each (mask_get mask (map f pr)) cm in
    let n := Z.to_nat N in
    let vel (k : nat) := map (fun u => v0 * (u - 1/2)) (draw rng k n) in
    (mkXinfo N nel (rep j_x) (rep j_y) (rep j_z) (vel k) (vel (k + n)%nat) (vel (k + n + n)%nat),
     (k + n + n + n)%nat)
  else (mkXinfo N [] [] [] [] [] [] [], k).

(** Lines 193-216: the loop over the products; [shared] holds the reference
    size and the numbers when they are the same for all products. *)
Fixpoint products_loop (qe : R) (p : xproc) (cl : list xcloud) (DN : list R) (shared : option (R * list Z))
  (pr : list pj) (prods : list string) (rng : nat -> R) (k : nat) : option (list (string * xinfo) * nat) :=
  match prods with
  | [] => Some ([], k)
  | name :: prods' =>
      do c <- find_cloud name cl ;
      let '(ref, counts, k) :=
        match shared with
        | Some (r, cs) => (r, cs, k)
        | None => let r := nel_mp_ref (xc_mp c) in (r, counts_of DN r rng k, (k + length DN)%nat)
        end in
      let '(info, k) := product_info qe p (xc_mass c) ref counts pr rng k in
      do (rest, k) <- products_loop qe p cl DN shared pr prods' rng k ;
      Some ((name, info) :: rest, k)
  end.

(** Lines 174-182: average reference size of the products. *)
Fixpoint mean_ref (cl : list xcloud) (n : R) (prods : list string) (acc : R) : option R :=
  match prods with
  | [] => Some acc
  | name :: prods' =>
      do c <- find_cloud name cl ;
      mean_ref cl n prods' (acc + nel_mp_ref (xc_mp c) / n)
  end.

(** Lines 150-260 with [flag_generate = True]. *)
Definition process_generate (qe : R) (p : xproc) (Dt : R) (cl : list xcloud) (mass : R) (pr : list pj)
  (rng : nat -> R) (k : nat) : option (xproc * list (string * xinfo) * R * nat) :=
  do DN <- xmapM (DN_one qe p Dt mass) pr ;
  let p' := deplete p (rsum DN) in
  do (shared, k) <-
    (if x_equal p then
       do r <- mean_ref cl (INR (length (x_prods p))) (x_prods p) 0 ;
       Some (Some (r, counts_of DN r rng k), (k + length DN)%nat)
     else Some (None, k)) ;
  do (infos, k) <- products_loop qe p cl DN shared pr (x_prods p) rng k ;
  Some (p', infos, rsum DN, k).

(** * All processes *)

(** Lines 495-508 and 511-517: what is to be generated per product. *)
Definition xdict := list (string * xinfo).
Definition empty_info : xinfo := mkXinfo 0 [] [] [] [] [] [] [].
Definition init_dict (prods : list string) : xdict := map (fun n => (n, empty_info)) prods.

Definition add_info (a b : xinfo) : xinfo :=
  mkXinfo (n_N a + n_N b) (n_nel a ++ n_nel b) (n_x a ++ n_x b) (n_y a ++ n_y b) (n_z a ++ n_z b)
    (n_vx a ++ n_vx b) (n_vy a ++ n_vy b) (n_vz a ++ n_vz b).

Definition get_info (d : xdict) (name : string) : option xinfo :=
  match find (fun q => String.eqb (fst q) name) d with Some q => Some (snd q) | None => None end.

(** [d[name] = add_info d[name] i]; the keys of [d] are distinct. *)
Definition put_info (d : xdict) (name : string) (i : xinfo) : option xdict :=
  do _ <- get_info d name ;
  Some (map (fun q => if String.eqb (fst q) name then (fst q, add_info (snd q) i) else q) d).

(** The counters (lines 337-343); every cloud has an entry, so that they are
    total functions here. *)
Record counters := mkCnt { c_nel : string -> R; c_N : string -> Z; c_DN : string -> R }.

Definition bump {A} (f : string -> A) (name : string) (v : A -> A) : string -> A :=
  fun m => if String.eqb m name then v (f m) else f m.

(** Lines 389-392: results of one process; [infos] is looked up by name and
    the last entry of a name counts. *)
Fixpoint collect (infos : xdict) (DN : R) (prods : list string) (d : xdict) (cnt : counters)
  : option (xdict * counters) :=
  match prods with
  | [] => Some (d, cnt)
  | name :: prods' =>
      do i <- get_info (rev infos) name ;
      do d' <- put_info d name i ;
      collect infos DN prods' d' (mkCnt (c_nel cnt) (c_N cnt) (bump (c_DN cnt) name (fun v => v + DN)))
  end.

(** Lines 377-392: the processes of one projectile. *)
Fixpoint procs_loop (qe Dt : R) (cl : list xcloud) (mass : R) (pr : list pj) (ps : list xproc)
  (d : xdict) (cnt : counters) (rng : nat -> R) (k : nat) : option (list xproc * xdict * counters * nat) :=
  match ps with
  | [] => Some ([], d, cnt, k)
  | p :: ps' =>
      do (p', infos, DN, k) <- process_generate qe p Dt cl mass pr rng k ;
      do (d, cnt) <- collect infos DN (x_prods p) d cnt ;
      do (rest, d, cnt, k) <- procs_loop qe Dt cl mass pr ps' d cnt rng k ;
      Some (p' :: rest, d, cnt, k)
  end.

(** Lines 355-392: the loop over the projectiles. *)
Fixpoint proj_loop (qe Dt : R) (cl : list xcloud) (pd : list (string * list xproc))
  (d : xdict) (cnt : counters) (rng : nat -> R) (k : nat)
  : option (list (string * list xproc) * xdict * counters * nat) :=
  match pd with
  | [] => Some ([], d, cnt, k)
  | (name, ps) :: pd' =>
      do c <- find_cloud name cl ;
      do (ps, d, cnt, k) <-
        (if Nat.ltb 0 (N_mp (xc_mp c))
         then procs_loop qe Dt cl (xc_mass c) (projectiles (xc_mp c)) ps d cnt rng k
         else Some (ps, d, cnt, k)) ;
      do (rest, d, cnt, k) <- proj_loop qe Dt cl pd' d cnt rng k ;
      Some ((name, ps) :: rest, d, cnt, k)
  end.

Definition info_batch (i : xinfo) : batch :=
  mkBatch (n_nel i) (n_x i) (n_y i) (n_z i) (n_vx i) (n_vy i) (n_vz i) [-1].

(** Lines 394-416: the macroparticles are added to the clouds. *)
Fixpoint add_loop (prods : list string) (d : xdict) (cnt : counters) (cl : list xcloud)
  : option (list xcloud * counters) :=
  match cl with
  | [] => Some ([], cnt)
  | c :: cl' =>
      let name := xc_name c in
      do (c', cnt) <-
        (if existsb (String.eqb name) prods then
           do i <- get_info d name ;
           do s <- (if (0 <? n_N i)%Z then add_new_MPs (Z.to_nat (n_N i)) (info_batch i) (xc_mp c)
                    else Some (xc_mp c)) ;
           Some (mkXcloud name (xc_mass c) s,
                 mkCnt (bump (c_nel cnt) name (fun v => v + rsum (n_nel i)))
                       (bump (c_N cnt) name (fun v => (v + n_N i)%Z)) (c_DN cnt))
         else Some (c, cnt)) ;
      do (rest, cnt) <- add_loop prods d cnt cl' ;
      Some (c' :: rest, cnt)
  end.

Record xion := mkXion { xi_procs : list (string * list xproc); xi_prods : list string; xi_cnt : counters }.

(** Lines 308-330, 336-343: the products in order of appearance, and the
    assertions on the names. *)
Fixpoint add_names (acc l : list string) : list string :=
  match l with
  | [] => acc
  | n :: l' => add_names (if existsb (String.eqb n) acc then acc else acc ++ [n]) l'
  end.
Definition known (cl : list xcloud) (n : string) : bool := existsb (fun c => String.eqb (xc_name c) n) cl.
Definition xion_ctor (procs : list (string * list xproc)) (cl : list xcloud) : option xion :=
  if forallb (fun q => known cl (fst q) && forallb (fun p => forallb (known cl) (x_prods p)) (snd q)) procs then
    Some (mkXion procs (add_names [] (flat_map (fun q => flat_map x_prods (snd q)) procs))
            (mkCnt (fun _ => 0) (fun _ => 0%Z) (fun _ => 0)))
  else None.

(** Lines 346-416. *)
Definition cross_generate (qe Dt : R) (x : xion) (cl : list xcloud) (rng : nat -> R) (k : nat)
  : option (xion * list xcloud * nat) :=
  do (procs, d, cnt, k) <- proj_loop qe Dt cl (xi_procs x) (init_dict (xi_prods x)) (xi_cnt x) rng k ;
  do (cl', cnt) <- add_loop (xi_prods x) d cnt cl ;
  Some (mkXion procs (xi_prods x) cnt, cl', k).

(** Lines 419-428. *)
Definition save_cross_ion_data (x : xion) (name : string) : (R * Z * R) * xion :=
  let c := xi_cnt x in
  ((c_nel c name, c_N c name, c_DN c name),
   mkXion (xi_procs x) (xi_prods x)
     (mkCnt (bump (c_nel c) name (fun _ => 0)) (bump (c_N c) name (fun _ => 0%Z)) (bump (c_DN c) name (fun _ => 0)))).
