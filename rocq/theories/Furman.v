(** Model of sec_emission_model_furman_pivi.py.  No proofs in this file. *)
From Verif Require Import Num Sey.

(** Special functions of scipy used by the sampling formulas: [erf],
    [erfinv], the regularised incomplete gamma function [gammainc p x] and its
    inverse [gammaincinv p y]. *)
Record spfun := mkSp { erf : R -> R; erfinv : R -> R; ginc : R -> R -> R; gincinv : R -> R -> R }.

(** The random numbers: the streams of [src], and Poisson numbers (a function
    of the position in the stream and of the mean). *)
Record fsrc := mkFsrc { f_src : src; f_poi : nat -> R -> nat }.

(** Lines 100-179: the parameters.  [f_ce], [f_cr] are the clipping cosines (0
    when no limiting angle is given).  [f_e]: the settings shared with the
    other models. *)
Record fpar := mkFpar {
  f_e : ecfg; f_scale : bool; f_shift : bool;
  f_modsig : bool; f_ecl_theta : bool; f_ecl_energy : bool; f_conserve : bool;
  f_Mcut : nat; f_pn : list R; f_eps : list R; f_excl : bool;
  f_p1EInf : R; f_p1Ehat : R; f_eEHat : R; f_w : R; f_p : R; f_e1 : R; f_e2 : R; f_sigE : R; f_ce : R;
  f_p1RInf : R; f_eR : R; f_r : R; f_q : R; f_r1 : R; f_r2 : R; f_cr : R;
  f_dTS : R; f_eHat0 : R; f_s : R; f_t1 : R; f_t2 : R; f_t3 : R; f_t4 : R }.

(** [np.clip]. *)
Definition clip (x lo hi : R) : R := Rmin (Rmax x lo) hi.

(** Lines 231-247. *)
Definition delta_e (f : fpar) (E ct : R) : R :=
  let ex := - pw (Rabs (E - f_eEHat f) / f_w f) (f_p f) / f_p f in
  let d0 := f_p1EInf f + (f_p1Ehat f - f_p1EInf f) * exp ex in
  let ang := if f_scale f then
               if f_ecl_theta f then 1 else 1 + f_e1 f * (1 - pw (clip ct (f_ce f) 1) (f_e2 f))
             else 1 in
  d0 * ang.

(** Lines 249-262. *)
Definition delta_r (f : fpar) (E ct : R) : R :=
  let ex := - pw (E / f_eR f) (f_r f) in
  let d0 := f_p1RInf f * (1 - exp ex) in
  let ang := if f_scale f then 1 + f_r1 f * (1 - pw (clip ct (f_cr f) 1) (f_r2 f)) else 1 in
  d0 * ang.

(** Lines 284-287. *)
Definition fp_D (s x : R) : R := s * x / (s - 1 + pw x s).

(** Lines 264-282. *)
Definition delta_ts (f : fpar) (E ct : R) : R :=
  let eHat := if f_shift f then f_eHat0 f * (1 + f_t3 f * (1 - pw ct (f_t4 f))) else f_eHat0 f in
  let d0 := f_dTS f * fp_D (f_s f) (E / eHat) in
  let ang := if f_scale f then
               if f_ecl_theta f then exp ((1/2) * (1 - ct)) else 1 + f_t1 f * (1 - pw ct (f_t2 f))
             else 1 in
  d0 * ang.

(** Lines 223-229: the yields of all impacts; [None]: the ValueError. *)
Definition fp_yields (f : fpar) (ps : list imp) : option (list (R * R * R)) :=
  let l := map (fun p => (delta_e f (i_E p) (i_ct p), delta_r f (i_E p) (i_ct p), delta_ts f (i_E p) (i_ct p))) ps in
  if existsb (fun d => Rgeb (fst3 d + snd3 d) 1) l then None else Some l.

(** Lines 202-221 for one impact with the random number [u]: the three
    flags (backscattered, rediffused, true secondary). *)
Definition fp_flags (excl : bool) (d : R * R * R) (u : R) : bool * bool * bool :=
  if excl then
    let ts := Rgtb u (fst3 d) in
    (negb ts, false, ts)
  else
    let ts := Rgtb u (fst3 d + snd3 d) in
    let bs := negb ts && Rltb u (fst3 d) in
    (bs, negb ts && negb bs, ts).

(** Lines 289-305, one energy. *)
Definition en_back (sp : spfun) (f : fpar) (E u : R) : R :=
  let sg := if f_modsig f
            then (f_sigE f - 188 / 100) + (25 / 10) * (1 + tanh ((1 / 100) * (E - 150)))
            else f_sigE f in
  E + sqrt 2 * sg * erfinv sp ((u - 1) * erf sp (E / (sqrt 2 * sg))).

(** Lines 307-313, one energy. *)
Definition en_rediff (f : fpar) (E u : R) : R := pw u (1 / (f_q f + 1)) * E.

(** Lines 341-353 (not [use_ECLOUD_energy]), one energy of an event with [n]
    secondaries.  For area 0 the code has [1/area = inf] and [xx = u/inf = 0].
    [None]: IndexError ([n] larger than the tables; [n >= 1] at all calls). *)
Definition en_true1 (sp : spfun) (f : fpar) (n : nat) (E u : R) : option R :=
  do eps <- nth_error (f_eps f) (n - 1) ;
  do pn <- nth_error (f_pn f) (n - 1) ;
  let area := ginc sp pn (E / eps) in
  let xx := if Reqb area 0 then 0 else u / (1 / area) in
  let xx := if Rltb xx (1 / 10 ^ 12) then 0 else xx in
  Some (eps * gincinv sp pn xx).

(** Lines 333-353: energies of true secondaries. *)
Definition en_true (sp : spfun) (f : fpar) (sr : src) (k : nat) (nn : list nat) (E : list R)
  : option (list R * nat) :=
  let n := length E in
  if f_ecl_energy f then
    sec_energy_hilleret_model2 (c_switch (f_e f)) (c_fuel (f_e f)) sr k n (c_Eth (f_e f)) E (c_thlow (f_e f))
  else if Nat.eqb n 0 then Some ([], k)
  else
    do l <- mapM2 (fun nE u => en_true1 sp f (fst nE) (snd nE) u) (combine nn E) (draw (s_uni sr) k n) ;
    Some (l, (k + n)%nat).

(** Lines 355-361: [a.take(np.cumsum(repeats) - 1)]. *)
Fixpoint cumsum (acc : Z) (l : list nat) : list Z :=
  match l with [] => [] | n :: l' => let a := (acc + Z.of_nat n)%Z in a :: cumsum a l' end.
Fixpoint take {A} (a : list A) (is : list Z) : option (list A) :=
  match is with
  | [] => Some []
  | i :: is' => do x <- py_nth a i ; do l <- take a is' ; Some (x :: l)
  end.
Definition inverse_repeat {A} (a : list A) (repeats : list nat) : option (list A) :=
  take a (map (fun z => (z - 1)%Z) (cumsum 0 repeats)).

(** Lines 411, 418: one call of [random.poisson]; a negative mean is a
    ValueError. *)
Definition poisson (fs : fsrc) (k : nat) (lams : list R) : option (list nat) :=
  if existsb (fun l => Rltb l 0) lams then None
  else Some (map2 (f_poi fs) (seq k (length lams)) lams).

(** Lines 413-425: redraw the numbers above [M_cut]; clipped from the twelfth
    round on. *)
Fixpoint cut_rounds (fuel : nat) (fs : fsrc) (k : nat) (Mcut : nat) (lams : list R) (attempt : nat) (ns : list nat)
  : option (list nat * nat) :=
  let flag := map (fun n => Nat.ltb Mcut n) ns in
  let Nab := count_true flag in
  if Nat.eqb Nab 0 then Some (ns, k)
  else match fuel with
  | O => None
  | S fu =>
      do new <- poisson fs k (mask_get flag lams) ;
      let new := if Nat.ltb 10 attempt then map (fun n => Nat.min n Mcut) new else new in
      cut_rounds fu fs (k + Nab) Mcut lams (S attempt) (mask_put flag ns new)
  end.

(** Lines 454-481: redraw energies until, for each new MP, its energy and that
    of the MP it comes with do not exceed the impact energy.  [rep]: number of
    new MPs of each event; [nn], [E]: number of secondaries and impact energy
    of each event; [En], [Ea]: energies of the first MP of each event and of
    the new MPs. *)
Definition viol (rep : list nat) (E En Ea : list R) : list bool :=
  map2 (fun e E => Rgtb e E) (map2 Rplus (repeat_each En rep) Ea) (repeat_each E rep).

Fixpoint conserve (fuel : nat) (sp : spfun) (f : fpar) (sr : src) (k : nat) (rep nn : list nat) (E En Ea : list R)
  : option (list R * list R * nat) :=
  let v := viol rep E En Ea in
  do vr <- inverse_repeat v rep ;
  if Nat.eqb (count_true v) 0 then Some (En, Ea, k)
  else match fuel with
  | O => None
  | S fu =>
      do (l, k) <- en_true sp f sr k (mask_get v (repeat_each nn rep)) (mask_get v (repeat_each E rep)) ;
      do Ea <- mask_set v Ea l ;
      do (l, k) <- en_true sp f sr k (mask_get vr nn) (mask_get vr E) ;
      do En <- mask_set vr En l ;
      conserve fu sp f sr k rep nn E En Ea
  end.

Definition ang (f : fpar) (sr : src) (k : nat) (En nx ny : list R) : option (list (R * R * R) * nat) :=
  do d <- c_angle (f_e f) ;
  Some (angle_dist_func d (c_qe (f_e f)) (c_mass (f_e f)) sr k (length En) En nx ny).

(** In [impacts_on_surface] (lines 363-543) the three velocity arrays, always
    assigned with the same mask, are one array of triples. *)

(** Lines 382-391: backscattered. *)
Definition fp_back (sp : spfun) (f : fpar) (sr : src) (ps : list imp) (bs : list bool) (vel : list (R * R * R)) (k : nat)
  : option (list (R * R * R) * nat) :=
  if f_ecl_energy f then
    do vel <- mask_set bs vel (map (fun p =>
                let v := specular_velocity (i_vx p) (i_vy p) (i_nx p) (i_ny p) (i_vn p) in
                (fst v, snd v, i_vz p)) (mask_get bs ps)) ;
    Some (vel, k)
  else
    let n := count_true bs in
    let En := map2 (en_back sp f) (mask_get bs (map i_E ps)) (draw (s_uni sr) k n) in
    do (v, k) <- ang f sr (k + n) En (mask_get bs (map i_nx ps)) (mask_get bs (map i_ny ps)) ;
    do vel <- mask_set bs vel v ;
    Some (vel, k).

(** Lines 393-398: rediffused. *)
Definition fp_redi (f : fpar) (sr : src) (ps : list imp) (rd : list bool) (vel : list (R * R * R)) (k : nat)
  : option (list (R * R * R) * nat) :=
  if f_excl f then Some (vel, k) else
  let n := count_true rd in
  let En := map2 (en_rediff f) (mask_get rd (map i_E ps)) (draw (s_uni sr) k n) in
  do (v, k) <- ang f sr (k + n) En (mask_get rd (map i_nx ps)) (mask_get rd (map i_ny ps)) ;
  do vel <- mask_set rd vel v ;
  Some (vel, k).

(** Lines 405-425: numbers of true secondaries of the impacts in [ts]. *)
Definition fp_numbers (f : fpar) (fs : fsrc) (dl : list (R * R * R)) (ts : list bool) (k : nat)
  : option (list nat * nat) :=
  let lam := map (fun d => thd3 d / (1 - fst3 d - (if f_excl f then 0 else snd3 d))) (mask_get ts dl) in
  do ns <- poisson fs k lam ;
  cut_rounds 12 fs (k + length lam) (f_Mcut f) lam 0 ns.

(** Lines 427-493 with [nem] the numbers of secondaries of all impacts and
    [ns] those of the impacts in [ts]: velocities of the replaced and of the
    new MPs.  [cfuel] bounds the rounds of the energy loop. *)
Definition fp_true (cfuel : nat) (sp : spfun) (f : fpar) (sr : src) (ps : list imp) (ts : list bool)
  (nem ns : list nat) (vel : list (R * R * R)) (k : nat)
  : option (list (R * R * R) * list (R * R * R) * nat) :=
  let Es := map i_E ps in let nxs := map i_nx ps in let nys := map i_ny ps in
  let pos := map (fun n => Nat.ltb 0 n) ns in
  let tpos := map2 andb ts (map (fun n => Nat.ltb 0 n) nem) in
  do (En, k) <- en_true sp f sr k (mask_get pos ns) (mask_get tpos Es) ;
  let n_add := map (fun n => (n - 1)%nat) nem in
  let tot := nsum n_add in
  if Nat.eqb tot 0 then Some (vel, [], k) else
  do (Ea, k) <- en_true sp f sr k (repeat_each ns (mask_get ts n_add)) (repeat_each Es n_add) ;
  do (En, Ea, k) <-
    (if f_conserve f then
       conserve cfuel sp f sr k (mask_get pos (mask_get ts n_add)) (mask_get pos ns)
         (mask_get pos (mask_get ts Es)) En Ea
     else Some (En, Ea, k)) ;
  do (v, k) <- ang f sr k En (mask_get tpos nxs) (mask_get tpos nys) ;
  do vel <- mask_set tpos vel v ;
  do (va, k) <- ang f sr k Ea (repeat_each nxs n_add) (repeat_each nys n_add) ;
  Some (vel, va, k).

(** Lines 363-543. *)
Definition fp_impacts (cfuel : nat) (sp : spfun) (f : fpar) (fs : fsrc) (th : R) (flag_seg : bool) (ps : list imp)
  (k : nat) : option (emis * nat) :=
  let sr := f_src fs in
  do dl <- fp_yields f ps ;
  let fl := map2 (fp_flags (f_excl f)) dl (draw (s_uni sr) k (length ps)) in
  let bs := map fst3 fl in let rd := map snd3 fl in let ts := map thd3 fl in
  do (vel, k) <- fp_back sp f sr ps bs (map (fun p => (i_vx p, i_vy p, i_vz p)) ps) (k + length ps) ;
  do (vel, k) <- fp_redi f sr ps rd vel k ;
  let zero := map (fun _ => 0%nat) ps in
  do (nem, vel, news, k) <-
    (if Nat.eqb (count_true ts) 0 then Some (zero, vel, [], k) else
       do (ns, k) <- fp_numbers f fs dl ts k ;
       let nem := mask_put ts zero ns in
       do (vel, news, k) <- fp_true cfuel sp f sr ps ts nem ns vel k ;
       Some (nem, vel, news, k)) ;
  let n_add := map (fun n => (n - 1)%nat) nem in
  (* absorbed, 495-503; nothing is absorbed without true secondaries *)
  let ab := map2 andb ts (map (fun n => Nat.eqb n 0) nem) in
  let nelr := mask_fill ab (map i_nel ps) 0 in
  let xr := mask_fill ab (map i_x ps) 0 in
  let yr := mask_fill ab (map i_y ps) 0 in
  let zr := mask_fill ab (map i_z ps) 0 in
  let vel := mask_fill ab vel (0, 0, 0) in
  (* 515-541 *)
  let n_emit := mask_fill bs nem 1%nat in
  let n_emit := if f_excl f then n_emit else mask_fill rd n_emit 1%nat in
  let tot := map2 (fun p n => i_nel p * INR n) ps n_emit in
  let ev := map (fun b : bool => if b then 1%nat else 0%nat) ts in
  let ev := map2 (fun (e n : nat) => if Nat.eqb n 0 then 3%nat else e) ev n_emit in
  let ev := if f_excl f then ev else map2 (fun e (b : bool) => (e + 2 * (if b then 1 else 0))%nat) ev rd in
  let any := negb (Nat.eqb (nsum n_add) 0) in
  Some (mkEmis tot ev (if any then ev ++ repeat_each ev n_add else ev)
    nelr xr yr zr (map fst3 vel) (map snd3 vel) (map thd3 vel) (map i_seg ps)
    (if any then repeat_each (map i_nel ps) n_add else [])
    (if any then repeat_each (map i_x ps) n_add else [])
    (if any then repeat_each (map i_y ps) n_add else [])
    (if any then repeat_each (map i_z ps) n_add else [])
    (map fst3 news) (map snd3 news) (map thd3 news)
    (if any && flag_seg then repeat_each (map i_seg ps) n_add else []), k).
