(** Model of the output recorder (pyecloud_saver.py): step-by-step data,
    pass-by-pass data, energy and lifetime histograms, the output dictionary
    and the reload of a previous output.  Videos, log files and the curves
    extracted once at the start (sey_test_..., ene_dist_...) are not modelled;
    the checkpoint files are in Ckpt.v. *)
From Coq Require Import String.
From Verif Require Import Num Fort MP Impact.
Local Open Scope string_scope.
Local Open Scope list_scope.
Local Open Scope R_scope.

(** The data attributes of the recorder and the entries of the output: numbers,
    lists or one-dimensional arrays of numbers, lists of histograms or
    two-dimensional arrays, lists of lists of histograms. *)
Inductive val := VNum (r : R) | VArr (l : list R) | VMat (m : list (list R)) | VCube (c : list (list (list R))).

(** Python dictionaries (and the attributes of an object) in the order of
    insertion; [put] replaces or appends; [get] is [None] for KeyError or
    AttributeError. *)
Definition dict := list (string * val).
Fixpoint get (d : dict) (k : string) : option val :=
  match d with
  | [] => None
  | (k', v) :: d' => if String.eqb k k' then Some v else get d' k
  end.
Fixpoint put (d : dict) (k : string) (v : val) : dict :=
  match d with
  | [] => [(k, v)]
  | (k', v') :: d' => if String.eqb k k' then (k, v) :: d' else (k', v') :: put d' k v
  end.
Definition update (d e : dict) : dict := fold_left (fun a kv => put a (fst kv) (snd kv)) e d.

(** [a[i] = v] with Python's negative indices; [None] is IndexError. *)
Definition py_set (a : list R) (i : Z) (v : R) : option (list R) :=
  let n := Z.of_nat (List.length a) in
  let j := if (0 <=? i)%Z then i else (i + n)%Z in
  if ((0 <=? j) && (j <? n))%Z then Some (upd_nth a (Z.to_nat j) (fun _ => v)) else None.
(** [a[:z]]. *)
Definition upto {A} (a : list A) (z : Z) : list A :=
  firstn (Z.to_nat (if (0 <=? z)%Z then z else z + Z.of_nat (List.length a))) a.
(** [d.name[i] = v]; a number has no items (TypeError). *)
Definition setitem (d : dict) (i : Z) (kv : string * R) : option dict :=
  match get d (fst kv) with
  | Some (VArr l) => do l' <- py_set l i (snd kv) ; Some (put d (fst kv) (VArr l'))
  | _ => None
  end.
Fixpoint setitems (d : dict) (i : Z) (ws : list (string * R)) : option dict :=
  match ws with
  | [] => Some d
  | w :: ws' => do d' <- setitem d i w ; setitems d' i ws'
  end.
(** [d.name.append(v)] for a number and for a histogram.  Appending a histogram
    to a list of numbers is possible in Python, but the output can then not be
    built any more (line 500); here it is an error. *)
Definition append_num (d : dict) (kv : string * R) : option dict :=
  match get d (fst kv) with Some (VArr l) => Some (put d (fst kv) (VArr (l ++ [snd kv]))) | _ => None end.
Definition append_row (d : dict) (kv : string * list R) : option dict :=
  match get d (fst kv) with Some (VMat m) => Some (put d (fst kv) (VMat (m ++ [snd kv]))) | _ => None end.
Fixpoint append_nums (d : dict) (l : list (string * R)) : option dict :=
  match l with [] => Some d | x :: l' => do d' <- append_num d x ; append_nums d' l' end.
Fixpoint append_rows (d : dict) (l : list (string * list R)) : option dict :=
  match l with [] => Some d | x :: l' => do d' <- append_row d x ; append_rows d' l' end.

(** Lines 107-223: settings.  [c_life]: [Dt_lifetime_hist] when lifetime
    histograms are on.  [c_hdet]: window, bin width, first bin and number of
    bins of the detailed histogram.  [c_const]: entries of the output that are
    not time dependent, [c_once]: custom observables saved once, with values
    that stay the same in a run (the code computes them again for every file);
    observables of steps and passages with one name have one value.  [c_nx] is
    [impact_man.Nxg_hist], [c_nbin] is [impact_man.Nbin_En_hist]. *)
Record hdet := mkHdet { hd_x0 : R; hd_x1 : R; hd_y0 : R; hd_y1 : R; hd_Dx : R; hd_bias : R; hd_n : nat }.
Record scfg := mkScfg {
  c_Dtref : R; c_dec : R; c_rc : R; c_det : bool; c_cross : bool; c_elec : bool; c_probes : list (R * R * R);
  c_DtEn : R; c_cos : bool; c_life : option R; c_hdet : option hdet; c_every : Z;
  c_custom : list string; c_pcustom : list string; c_once : dict; c_const : dict; c_only : option (list string);
  c_nx : nat; c_nbin : nat; c_ic : icfg; c_nvert : nat }.
(** Line 742. *)
Definition Dt_save (c : scfg) : R := (c_dec c - 1 / 10000) * c_Dtref c.

(** State: [v_i] is [i_last_save], [v_tlast] [t_last_save], [v_nimp] to
    [v_eemit] the accumulators of the current group of steps, [v_at] the data
    attributes, [v_sbs] and [v_pbp] the dictionaries of custom data, [v_tEn]
    and [v_tlife] the times of the last energy and lifetime histograms,
    [v_dline] [nel_hist_det_line]. *)
Record sst := mkSst {
  v_i : Z; v_tlast : R; v_nimp : R; v_nemit : R; v_eimp : R; v_eemit : R;
  v_at : dict; v_sbs : dict; v_pbp : dict; v_tEn : R; v_tlife : R; v_dline : list R }.

(** What the recorder sees at a step: time and beam, the cloud, the electric
    energy, the data of [save_cross_ion_data], the custom observables, whether
    the space charge check said yes, its energy, whether a new passage begins
    and its number, the counters of the chamber. *)
Record obs := mkObs {
  ob_t : R; ob_lam : R; ob_mp : mpsys; ob_elec : R; ob_cross : R * R * R; ob_custom : string -> R;
  ob_check : bool; ob_U : R; ob_new : bool; ob_pass : Z; ob_Nimp : R; ob_Ncorr : R }.

(** Lines 734-811, 324-375, 1145-1172, 201-206.  Data attributes at the start;
    [n] is [initial_size_t_vect].  Lists of histograms start empty. *)
Definition sbs_init (c : scfg) (n : nat) : dict :=
  let z := VArr (repeat 0 n) in
  let opt (b : bool) := if b then z else VNum (-1) in
  [("t", z); ("lam_t_array", z); ("Nel_timep", z); ("Nel_imp_time", z); ("Nel_emit_time", z);
   ("En_imp_eV_time", z); ("En_emit_eV_time", z); ("En_kin_eV_time", z); ("cen_density", z);
   ("N_mp_time", opt (c_det c)); ("nel_mp_ref_time", opt (c_det c));
   ("Nel_cross_ion", opt (c_cross c)); ("N_mp_cross_ion", opt (c_cross c)); ("DN_cross_ion", opt (c_cross c));
   ("En_electric_eV_time", opt (c_elec c));
   ("el_dens_at_probes", match c_probes c with [] => VNum (-1) | ps => VMat (map (fun _ => repeat 0 n) ps) end)].
Definition pbp_init (c : scfg) : dict :=
  let seg (b : bool) := if b then VMat [] else VNum (-1) in
  [("t_hist", VArr []); ("nel_impact_hist_tot", VMat []); ("nel_impact_hist_scrub", VMat []); ("energ_eV_impact_hist", VMat []);
   ("nel_hist", VMat []); ("N_mp_impact_pass", VArr []); ("N_mp_corrected_pass", VArr []); ("N_mp_pass", VArr []); ("N_mp_ref_pass", VArr []);
   ("nel_hist_impact_seg", seg (k_seg (c_ic c))); ("nel_hist_emit_seg", seg (k_seg (c_ic c))); ("energ_eV_impact_seg", seg (k_seg (c_ic c)));
   ("En_hist_seg", if k_seg (c_ic c) && k_segline (c_ic c) then VCube (repeat [] (c_nvert c)) else VNum (-1));
   ("nel_hist_det", match c_hdet c with None => VNum (-1) | Some _ => VMat [] end)].
Definition hist_init (c : scfg) : dict :=
  [("En_hist", VMat []); ("t_En_hist", VArr []); ("cos_angle_hist", if c_cos c then VMat [] else VNum (-1)); ("all_Ekin_hist", VMat []);
   ("lifetime_hist", match c_life c with None => VNum (-1) | Some _ => VMat [] end);
   ("t_lifetime_hist", match c_life c with None => VNum (-1) | Some _ => VArr [] end);
   ("t_sc_video", VArr []); ("U_sc_eV", VArr [])].
Definition start_observing (c : scfg) (n : nat) : sst :=
  mkSst (-1) (-1) 0 0 0 0 (sbs_init c n ++ pbp_init c ++ hist_init c)
    (map (fun k => (k, VArr (repeat 0 n))) (c_custom c)) (map (fun k => (k, VArr [])) (c_pcustom c)) (-1) (-1)
    (match c_hdet c with None => [] | Some h => repeat 0 (hd_n h) end).

(** Lines 695-732.  [np.concatenate((vv, 0 * vv))]; a number cannot be
    concatenated (ValueError). *)
Definition sbs_members (c : scfg) : list string :=
  ["t"; "lam_t_array"; "Nel_timep"; "Nel_imp_time"; "Nel_emit_time"; "En_imp_eV_time"; "En_emit_eV_time"; "En_kin_eV_time"; "cen_density"] ++
  (if c_det c then ["N_mp_time"; "nel_mp_ref_time"] else []) ++
  (if c_cross c then ["Nel_cross_ion"; "N_mp_cross_ion"; "DN_cross_ion"] else []) ++
  (if c_elec c then ["En_electric_eV_time"] else []).
Definition double (l : list R) : list R := l ++ map (Rmult 0) l.
Definition double_at (d : dict) (k : string) : option dict :=
  match get d k with Some (VArr l) => Some (put d k (VArr (double l))) | _ => None end.
Fixpoint double_all (d : dict) (ks : list string) : option dict :=
  match ks with [] => Some d | k :: ks' => do d' <- double_at d k ; double_all d' ks' end.
Definition check_for_data_resize (c : scfg) (s : sst) : option (dict * dict) :=
  match get (v_at s) "t" with
  | Some (VArr t) =>
      if (Z.of_nat (List.length t) - 1 <=? v_i s)%Z then
        do sb <- double_all (v_sbs s) (map fst (v_sbs s)) ;
        do a <- double_all (v_at s) (sbs_members c) ;
        match c_probes c with
        | [] => Some (a, sb)
        | _ => match get a "el_dens_at_probes" with
               | Some (VMat m) => Some (put a "el_dens_at_probes" (VMat (map double m)), sb)
               | _ => None
               end
        end
      else Some (v_at s, v_sbs s)
  | _ => None
  end.

(** Lines 842-850, 853-856: sums over the cloud. *)
Definition n_live (s : mpsys) (a : list R) : list R := slice_get a 0 (N_mp s).
Definition Nel_tot (s : mpsys) : R := rsum (n_live s (nel_mp s)).
Definition En_kin (c : scfg) (s : mpsys) : R :=
  let ic := c_ic c in
  rsum (map2 Rmult (map (fun q => (1/2) * k_mass ic / k_qe ic * q) (n_live s (nel_mp s)))
    (map3 (fun a b d => a * a + b * b + d * d) (n_live s (vx_mp s)) (n_live s (vy_mp s)) (n_live s (vz_mp s)))).
Definition density_at (x0 y0 r : R) (s : mpsys) : R :=
  let flag := map2 (fun x y => Rltb ((x - x0) * (x - x0) + (y - y0) * (y - y0)) (r * r)) (x_mp s) (y_mp s) in
  let flag' := slice_fill flag (N_mp s) (List.length flag) false in
  rsum (mask_get flag' (nel_mp s)) / (PI * r * r).

(** Lines 829-865: the entries written at a save, with the accumulators [a]. *)
Definition sbs_writes (c : scfg) (ob : obs) (a : R * R * R * R) : list (string * R) :=
  let '(ni, ne, ei, ee) := a in
  [("t", ob_t ob); ("lam_t_array", ob_lam ob); ("Nel_imp_time", ni); ("Nel_emit_time", ne); ("En_imp_eV_time", ei); ("En_emit_eV_time", ee);
   ("Nel_timep", Nel_tot (ob_mp ob)); ("En_kin_eV_time", En_kin c (ob_mp ob))] ++
  (if c_elec c then [("En_electric_eV_time", ob_elec ob)] else []) ++
  [("cen_density", density_at 0 0 (c_rc c) (ob_mp ob))] ++
  (if c_det c then [("N_mp_time", INR (N_mp (ob_mp ob))); ("nel_mp_ref_time", nel_mp_ref (ob_mp ob))] else []) ++
  (if c_cross c then [("Nel_cross_ion", fst (fst (ob_cross ob))); ("N_mp_cross_ion", snd (fst (ob_cross ob))); ("DN_cross_ion", snd (ob_cross ob))] else []).
Fixpoint probe_rows (ps : list (R * R * R)) (i : Z) (s : mpsys) (m : list (list R)) : option (list (list R)) :=
  match ps, m with
  | [], _ => Some m
  | (x, y, r) :: ps', row :: m' => do row' <- py_set row i (density_at x y r s) ; do m2 <- probe_rows ps' i s m' ; Some (row' :: m2)
  | _, [] => None
  end.
Definition probe_writes (c : scfg) (i : Z) (s : mpsys) (d : dict) : option dict :=
  match c_probes c with
  | [] => Some d
  | ps => match get d "el_dens_at_probes" with
          | Some (VMat m) => do m' <- probe_rows ps i s m ; Some (put d "el_dens_at_probes" (VMat m'))
          | _ => None
          end
  end.

(** Lines 813-869. *)
Definition stepbystep_data_save (c : scfg) (ob : obs) (g : iman) (s : sst) : option sst :=
  let ni := v_nimp s + l_nimp g in
  let ne := v_nemit s + l_nemit g in
  let ei := v_eimp s + l_eimp g in
  let ee := v_eemit s + l_eemit g in
  if Rgeb (ob_t ob - v_tlast s) (Dt_save c) then
    do (a, sb) <- check_for_data_resize c s ;
    let i := (v_i s + 1)%Z in
    do a1 <- setitems a i (sbs_writes c ob (ni, ne, ei, ee)) ;
    do a2 <- probe_writes c i (ob_mp ob) a1 ;
    do sb1 <- setitems sb i (map (fun k => (k, ob_custom ob k)) (c_custom c)) ;
    Some (mkSst i (ob_t ob) 0 0 0 0 a2 sb1 (v_pbp s) (v_tEn s) (v_tlife s) (v_dline s))
  else Some (mkSst (v_i s) (v_tlast s) ni ne ei ee (v_at s) (v_sbs s) (v_pbp s) (v_tEn s) (v_tlife s) (v_dline s)).

(** Lines 871-902.  The probes are cut one entry earlier than the rest. *)
Definition cut_at (d : dict) (z : Z) (k : string) : option (string * val) :=
  match get d k with Some (VArr l) => Some (k, VArr (upto l z)) | _ => None end.
Fixpoint cut_all (d : dict) (z : Z) (ks : list string) : option dict :=
  match ks with [] => Some [] | k :: ks' => do x <- cut_at d z k ; do r <- cut_all d z ks' ; Some (x :: r) end.
Definition stepbystep_get_dict (c : scfg) (s : sst) : option dict :=
  let z := (v_i s + 1)%Z in
  do a <- cut_all (v_at s) z (sbs_members c) ;
  do p <- match c_probes c with
          | [] => Some []
          | _ => match get (v_at s) "el_dens_at_probes" with
                 | Some (VMat m) => Some [("el_dens_at_probes", VMat (map (fun row => upto row (v_i s)) m))]
                 | _ => None
                 end
          end ;
  do sb <- cut_all (v_sbs s) z (map fst (v_sbs s)) ;
  Some (update (a ++ p) sb).

(** Lines 378-396: the histograms of the positions.  The line of the detailed
    histogram is only renewed when there are macroparticles. *)
Definition zeros (l : list R) : list R := map (Rmult 0) l.
Definition position_hist (c : scfg) (s : mpsys) : option (list R) :=
  if Nat.ltb 0 (N_mp s) then compute_hist (combine (n_live s (x_mp s)) (n_live s (nel_mp s))) (k_bias (c_ic c)) (k_Dx (c_ic c)) (repeat 0 (c_nx c))
  else Some (repeat 0 (c_nx c)).
Definition detail_line (c : scfg) (s : mpsys) (line : list R) : option (list R) :=
  match c_hdet c with
  | None => Some line
  | Some h =>
      if Nat.ltb 0 (N_mp s) then
        let xs := n_live s (x_mp s) in
        let ys := n_live s (y_mp s) in
        let mask := map2 andb (map (fun x => Rgtb x (hd_x0 h) && Rltb x (hd_x1 h)) xs) (map (fun y => Rgtb y (hd_y0 h) && Rltb y (hd_y1 h)) ys) in
        if Nat.ltb 0 (count_true mask) then
          compute_hist (combine (mask_get mask xs) (mask_get mask (n_live s (nel_mp s)))) (hd_bias h) (hd_Dx h) (zeros line)
        else Some (zeros line)
      else Some line
  end.

(** impact_management_class.py:139-171: the resets of the histograms done at a
    new passage, at an energy histogram and at a lifetime histogram. *)
Definition reset_pass (c : scfg) (g : iman) : iman :=
  let z l := if k_seg (c_ic c) then zeros l else l in
  mkIman (zeros (g_tot g)) (zeros (g_scrub g)) (zeros (g_en g)) (g_line g) (g_cos g) (g_life g)
    (z (g_seg g)) (z (g_segemit g)) (z (g_segen g)) (g_seglines g) (l_nimp g) (l_nemit g) (l_eimp g) (l_eemit g).
Definition reset_en (c : scfg) (g : iman) : iman :=
  mkIman (g_tot g) (g_scrub g) (g_en g) (zeros (g_line g)) (if c_cos c then zeros (g_cos g) else g_cos g) (g_life g)
    (g_seg g) (g_segemit g) (g_segen g) (if k_seg (c_ic c) && k_segline (c_ic c) then map zeros (g_seglines g) else g_seglines g)
    (l_nimp g) (l_nemit g) (l_eimp g) (l_eemit g).
Definition reset_life (g : iman) : iman :=
  mkIman (g_tot g) (g_scrub g) (g_en g) (g_line g) (g_cos g) (zeros (g_life g))
    (g_seg g) (g_segemit g) (g_segen g) (g_seglines g) (l_nimp g) (l_nemit g) (l_eimp g) (l_eemit g).

(** Lines 378-430. *)
Definition pass_by_pass_data_save (c : scfg) (ob : obs) (g : iman) (s : sst) : option (sst * iman) :=
  do h <- position_hist c (ob_mp ob) ;
  do dl <- detail_line c (ob_mp ob) (v_dline s) ;
  do a <- append_rows (v_at s)
    ([("nel_hist", h); ("nel_impact_hist_tot", g_tot g); ("nel_impact_hist_scrub", g_scrub g); ("energ_eV_impact_hist", g_en g)] ++
     (if k_seg (c_ic c) then [("nel_hist_impact_seg", g_seg g); ("nel_hist_emit_seg", g_segemit g); ("energ_eV_impact_seg", g_segen g)] else []) ++
     (match c_hdet c with None => [] | Some _ => [("nel_hist_det", dl)] end)) ;
  do a2 <- append_nums a
    [("t_hist", ob_t ob); ("N_mp_impact_pass", ob_Nimp ob); ("N_mp_corrected_pass", ob_Ncorr ob);
     ("N_mp_pass", INR (N_mp (ob_mp ob))); ("N_mp_ref_pass", nel_mp_ref (ob_mp ob))] ;
  do p <- append_nums (v_pbp s) (map (fun k => (k, ob_custom ob k)) (c_pcustom c)) ;
  Some (mkSst (v_i s) (v_tlast s) (v_nimp s) (v_nemit s) (v_eimp s) (v_eemit s) a2 (v_sbs s) p (v_tEn s) (v_tlife s) dl, reset_pass c g).

(** [np.isclose(a, b, rtol=1e-10, atol=0)]. *)
Definition isclose (a b : R) : bool := Rleb (Rabs (a - b)) (1 / 10 ^ 10 * Rabs b).
(** Lines 1188-1194. *)
Definition ekin_hist (c : scfg) (s : mpsys) : option (list R) :=
  let ic := c_ic c in
  let e := map3 (fun a b d => (1/2) * k_mass ic / k_qe ic * (a * a + b * b + d * d)) (n_live s (vx_mp s)) (n_live s (vy_mp s)) (n_live s (vz_mp s)) in
  if Nat.ltb 0 (N_mp s) then compute_hist (combine e (n_live s (nel_mp s))) 0 (k_DEn ic) (repeat 0 (c_nbin c)) else Some (repeat 0 (c_nbin c)).
(** Lines 1196-1201. *)
Definition append_lines (c : scfg) (g : iman) (d : dict) : option dict :=
  if k_seg (c_ic c) && k_segline (c_ic c) then
    match get d "En_hist_seg" with
    | Some (VCube q) => Some (put d "En_hist_seg" (VCube (map2 (fun l r => l ++ [r]) q (g_seglines g))))
    | _ => None
    end
  else Some d.
(** Lines 1174-1202. *)
Definition energy_save (c : scfg) (ob : obs) (g : iman) (s : sst) : option (sst * iman) :=
  let t := ob_t ob in
  if Rgeb t (v_tEn s + c_DtEn c) || isclose t (v_tEn s + c_DtEn c) then
    do k <- ekin_hist c (ob_mp ob) ;
    do a <- append_rows (v_at s) ([("En_hist", g_line g)] ++ (if c_cos c then [("cos_angle_hist", g_cos g)] else []) ++ [("all_Ekin_hist", k)]) ;
    do a2 <- append_nums a [("t_En_hist", t)] ;
    do a3 <- append_lines c g a2 ;
    Some (mkSst (v_i s) (v_tlast s) (v_nimp s) (v_nemit s) (v_eimp s) (v_eemit s) a3 (v_sbs s) (v_pbp s) t (v_tlife s) (v_dline s), reset_en c g)
  else Some (s, g).
(** Lines 1203-1210. *)
Definition lifetime_save (c : scfg) (ob : obs) (g : iman) (s : sst) : option (sst * iman) :=
  let t := ob_t ob in
  match c_life c with
  | None => Some (s, g)
  | Some D =>
      if Rgeb t (v_tlife s + D) || isclose t (v_tlife s + D) then
        do a <- append_rows (v_at s) [("lifetime_hist", g_life g)] ;
        do a2 <- append_nums a [("t_lifetime_hist", t)] ;
        Some (mkSst (v_i s) (v_tlast s) (v_nimp s) (v_nemit s) (v_eimp s) (v_eemit s) a2 (v_sbs s) (v_pbp s) (v_tEn s) t (v_dline s), reset_life g)
      else Some (s, g)
  end.
(** Lines 1174-1210. *)
Definition energy_hist_save (c : scfg) (ob : obs) (g : iman) (s : sst) : option (sst * iman) :=
  do (s1, g1) <- energy_save c ob g s ;
  lifetime_save c ob g1 s1.

(** Lines 283-285. *)
Definition sc_energy_save (ob : obs) (s : sst) : option sst :=
  if ob_check ob then
    do a <- append_nums (v_at s) [("t_sc_video", ob_t ob); ("U_sc_eV", ob_U ob)] ;
    Some (mkSst (v_i s) (v_tlast s) (v_nimp s) (v_nemit s) (v_eimp s) (v_eemit s) a (v_sbs s) (v_pbp s) (v_tEn s) (v_tlife s) (v_dline s))
  else Some s.

(** Lines 432-508, without the curves extracted at the start. *)
Definition outp_names (c : scfg) : list string :=
  ["t_hist"; "nel_hist"; "nel_impact_hist_tot"; "nel_impact_hist_scrub"; "energ_eV_impact_hist"; "En_hist"; "En_hist_seg"; "all_Ekin_hist"; "t_En_hist";
   "t_sc_video"; "U_sc_eV"; "N_mp_impact_pass"; "N_mp_corrected_pass"; "N_mp_pass"; "N_mp_ref_pass"; "nel_hist_impact_seg"; "nel_hist_emit_seg";
   "energ_eV_impact_seg"; "nel_hist_det"; "cos_angle_hist"] ++
  (match c_life c with None => [] | Some _ => ["lifetime_hist"; "t_lifetime_hist"] end).
Fixpoint get_all (d : dict) (ks : list string) : option dict :=
  match ks with [] => Some [] | k :: ks' => do v <- get d k ; do r <- get_all d ks' ; Some ((k, v) :: r) end.
Definition build_outp_dict (c : scfg) (s : sst) : option dict :=
  do a <- get_all (v_at s) (outp_names c) ;
  do b <- stepbystep_get_dict c s ;
  let all := update (update (update (update a (c_const c)) b) (v_pbp s)) (c_once c) in
  match c_only c with
  | None => Some all
  | Some ks => get_all all ks
  end.

(** Lines 256-322: state and histograms after the step, and the new content of
    the main output file when it is written.  [None] also for
    [save_mat_every = 0] (ZeroDivisionError). *)
Definition witness (c : scfg) (ob : obs) (g : iman) (s : sst) : option (sst * iman * option dict) :=
  do (s1, g1) <- energy_hist_save c ob g s ;
  do s2 <- sc_energy_save ob s1 ;
  do s3 <- stepbystep_data_save c ob g1 s2 ;
  if ob_new ob then
    do (s4, g4) <- pass_by_pass_data_save c ob g1 s3 ;
    if (c_every c =? 0)%Z then None else
    if ((ob_pass ob + 1) mod c_every c =? 0)%Z then do d <- build_outp_dict c s4 ; Some (s4, g4, Some d)
    else Some (s4, g4, None)
  else Some (s3, g1, None).

(** myfilemanager.py:17-29 and scipy's file format: what was an array with one
    entry comes back as a number, and what was a list with one histogram as the
    histogram.  Three-dimensional entries are kept as they are. *)
Definition squeeze (v : val) : val :=
  match v with
  | VArr [x] => VNum x
  | VMat [[x]] => VNum x
  | VMat [row] => VArr row
  | VMat m => if forallb (fun r => Nat.eqb (List.length r) 1) m && Nat.ltb 0 (List.length m) then VArr (concat m) else VMat m
  | v => v
  end.
Definition loaded (file : dict) : dict := map (fun kv => (fst kv, squeeze (snd kv))) file.

(** [np.abs(a - t).argmin()]; [None] for an empty array. *)
Fixpoint argmin_from (t : R) (l : list R) (i best : nat) (b : R) : nat :=
  match l with
  | [] => best
  | x :: l' => if Rltb (Rabs (x - t)) b then argmin_from t l' (S i) i (Rabs (x - t)) else argmin_from t l' (S i) best b
  end.
Definition closest (v : option val) (t : R) : option nat :=
  match v with
  | Some (VNum _) => Some 0%nat
  | Some (VArr (x :: l)) => Some (argmin_from t l 1 0 (Rabs (x - t)))
  | _ => None
  end.
(** [v[:n]] along the first axis. *)
Definition cut (n : nat) (v : val) : val :=
  match v with
  | VNum r => VNum r
  | VArr l => VArr (firstn n l)
  | VMat m => VMat (firstn n m)
  | VCube q => VCube (firstn n q)
  end.
Fixpoint restore (hist : dict) (f : val -> val) (ks : list string) (d : dict) : dict :=
  match ks with
  | [] => d
  | k :: ks' => restore hist f ks' (match get hist k with Some v => put d k (f v) | None => d end)
  end.

(** Lines 595-653.  The commas missing in lines 627 and 628 make one name of
    three. *)
Definition timestep_list : list string :=
  ["En_emit_eV_time"; "En_imp_eV_time"; "En_kin_eV_time"; "Nel_emit_time"; "Nel_imp_time"; "Nel_timep"; "cen_density"; "lam_t_array";
   "N_mp_time"; "nel_mp_ref_time"; "Nel_cross_ion"; "N_mp_cross_ion"; "DN_cross_ion"; "En_electric_eV_time"; "t"].
Definition passage_list : list string :=
  ["En_hist"; "all_Ekin_hist"; "t_En_hist"; "N_mp_corrected_pass"; "N_mp_impact_pass"; "N_mp_pass"; "N_mp_ref_pass"; "energ_eV_impact_hist";
   "energ_eV_impact_seg"; "nel_hist"; "nel_hist_det"; "nel_hist_impact_seg"; "nel_hist_emit_seg"; "nel_impact_hist_scrub"; "nel_impact_hist_tot";
   "cos_angle_hist"; ("t_hist" ++ "lifetime_hist" ++ "t_lifetime_hist")%string].
Definition constant_list : list string :=
  ["xg_hist"; "xg_hist_det"; "En_g_hist"; "b_spac"; "t_sec_beams"; "sec_beam_profiles"; "x_el_dens_probes"; "y_el_dens_probes"; "r_el_dens_probes";
   "xg_hist_cos_angle"; "el_dens_at_probes"; "dec_fact_out"; "chamber_area"; "sey_test_del_true_mat"; "sey_test_E_impact_eV"; "sey_test_del_elast_mat";
   "del_rediff_mat"; "sey_test_cos_theta"; "ene_dist_test_cos_theta"; "ene_dist_test_E_impact_eV"; "emit_ene_dist_test"; "U_sc_eV"].

(** Lines 576-693.  [None]: ValueError for custom observables, KeyError,
    [argmin] of an empty array, [len] of a number,
    slice of a number (line 689). *)
Definition load_from_output (c : scfg) (file : dict) (last_t : R) (s : sst) : option sst :=
  match c_custom c with
  | _ :: _ => None
  | [] =>
      let hist := loaded file in
      do idx_t <- closest (get hist "t") last_t ;
      do idx_h <- closest (get hist "t_hist") last_t ;
      do idx_sc <- closest (get hist "t_sc_video") last_t ;
      let d1 := restore hist (cut idx_t) timestep_list [] in
      match get d1 "Nel_timep", get hist "t_sc_video" with
      | _, Some (VNum _) => None
      | Some (VArr l), _ =>
          let d2 := restore hist (cut (idx_h + 1)) passage_list d1 in
          let d3 := restore hist (fun v => v) (constant_list ++ match c_life c with None => [] | Some _ => ["lifetime_g_hist"] end) d2 in
          let d4 := restore hist (cut (idx_sc + 1)) ["t_sc_video"] d3 in
          Some (mkSst (Z.of_nat (List.length l) - 1) (v_tlast s) (v_nimp s) (v_nemit s) (v_eimp s) (v_eemit s)
            (update (v_at s) d4) (v_sbs s) (v_pbp s) (v_tEn s) (v_tlife s) (v_dline s))
      | _, _ => None
      end
  end.

(** buildup_simulation.py:540-547: the recorder of a new run that continues from
    a checkpoint made at [last_t]; [t_last_En_hist] comes from the checkpoint. *)
Definition resumed (c : scfg) (n : nat) (file : dict) (last_t tEn : R) : option sst :=
  do s <- load_from_output c file last_t (start_observing c n) ;
  Some (mkSst (v_i s) (v_tlast s) (v_nimp s) (v_nemit s) (v_eimp s) (v_eemit s) (v_at s) (v_sbs s) (v_pbp s) tEn (v_tlife s) (v_dline s)).
