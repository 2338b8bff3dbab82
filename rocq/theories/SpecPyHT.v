(** Specification side of the coupling to PyHEADTAIL. *)
From Coq Require Import String.
From Verif Require Import Num MP SpecMP Push Impact Beam Source Sim PyHT.
From Verif Require SpecSim.
Local Open Scope list_scope.
Local Open Scope R_scope.

(** A tracker that moves the live macroparticles, each one by itself. *)
Definition per_particle (d : dynmod) : Prop :=
  (exists g, forall E h n s, d_custom d E h n s = push_live (fun i p => g (E i) h n p) s) /\
  (exists g, forall E s, d_step d E s = push_live (fun i p => g (E i) p) s).
Definition trackers (cl : list cloud) : Prop := Forall (fun c => per_particle (a_dyn (o_set c))) cl.

(** * Histories *)

(** What a user can do with an electron cloud object; the beams that come out
    are dropped. *)
Inductive act :=
| ABunch (slices : bobj -> slicing) (b : bobj)
| ASlice (b : bobj)
| AReset
| AFlags (once : bool) (fl : flags)
| AOnce (slices : bobj -> slicing) (b : bobj)
| AOnceList (bs : list bobj)
| AReplace.

Definition act_run (p : pset) (a : act) (h : pyht) : option pyht :=
  match a with
  | ABunch sl b => do (_, h) <- track_bunch p sl b h ; Some h
  | ASlice b => do (_, h) <- track_slice p false b h ; Some h
  | AReset => finalize_and_reinitialize p h
  | AFlags once fl => Some (with_flags once fl h)
  | AOnce sl b => do (_, h) <- track_once_bunch p sl b h ; Some h
  | AOnceList bs => do (_, h) <- track_once_slices p bs h ; Some h
  | AReplace => replace_with_recorded_field_map h
  end.
Fixpoint acts_run (p : pset) (l : list act) (h : pyht) : option pyht :=
  match l with [] => Some h | a :: l' => do h <- act_run p a h ; acts_run p l' h end.

(** The cloud is back in its first state: the same live macroparticles (their
    last impact times are forgotten), the first reference size and the sizes
    derived from it. *)
Definition restored (c0 c : cloud) : Prop :=
  o_set c = o_set c0 /\ N_mp (o_mp c) = N_mp (o_mp c0) /\ live (o_mp c) = map forget_t (live (o_mp c0)) /\
  (flag_lifetime_hist (o_mp c0) = false -> live (o_mp c) = live (o_mp c0)) /\
  nel_mp_ref (o_mp c) = nel_mp_ref_0 (o_mp c0) /\ sizes_ok (o_mp c) /\
  nel_mp_ref_0 (o_mp c) = nel_mp_ref_0 (o_mp c0) /\ fact_split (o_mp c) = fact_split (o_mp c0) /\ fact_clean (o_mp c) = fact_clean (o_mp c0).

(** The lifetime histogram is switched on for all parts of a cloud or for none. *)
Definition life_agrees (c : cloud) : Prop :=
  k_life (a_icfg (o_set c)) = flag_lifetime_hist (o_mp c) /\
  (forall g, a_gas (o_set c) = Some g -> gs_life g = flag_lifetime_hist (o_mp c)).

(** * Two objects compared *)

(** Arrays of the same sizes (a numpy array never changes its size). *)
Definition same_sizes (s s' : mpsys) : Prop :=
  List.length (x_mp s) = List.length (x_mp s') /\ List.length (y_mp s) = List.length (y_mp s') /\ List.length (z_mp s) = List.length (z_mp s') /\
  List.length (vx_mp s) = List.length (vx_mp s') /\ List.length (vy_mp s) = List.length (vy_mp s') /\ List.length (vz_mp s) = List.length (vz_mp s') /\
  List.length (nel_mp s) = List.length (nel_mp s') /\ List.length (t_last_impact s) = List.length (t_last_impact s').

(** Equal in everything that is not reset before a passage: settings, densities,
    counters and surface charges of the clouds, space-charge state, cross
    ionisation, position in the random stream, time, field left from the beam,
    flags.  Nothing is said about the macroparticles and about what has been
    recorded. *)
Definition cloud_aside (c c' : cloud) : Prop :=
  o_set c = o_set c' /\ o_rho c = o_rho c' /\ o_iman c = o_iman c' /\ o_Q c = o_Q c' /\ same_sizes (o_mp c) (o_mp c').
Definition aside (h h' : pyht) : Prop :=
  Forall2 cloud_aside (m_clouds (h_sim h)) (m_clouds (h_sim h')) /\ m_sc (h_sim h) = m_sc (h_sim h') /\
  m_xion (h_sim h) = m_xion (h_sim h') /\ m_k (h_sim h) = m_k (h_sim h') /\ h_t h = h_t h' /\ h_b h = h_b h' /\ h_flags h = h_flags h' /\
  h_once h = h_once h' /\ h_tracks h = h_tracks h'.

(** The clouds hold the same macroparticles, and what is being recorded is the
    same. *)
Definition recl_map {A B} (f : A -> B) (r : recl A) : recl B :=
  match r with Missing => Missing | Lst l => Lst (map f l) | Arr l => Arr (map f l) end.
Definition same_clouds (h h' : pyht) : Prop :=
  Forall2 (fun c c' => live (o_mp c) = live (o_mp c') /\ nel_mp_ref (o_mp c) = nel_mp_ref (o_mp c')) (m_clouds (h_sim h)) (m_clouds (h_sim h')).
Definition same_records (h h' : pyht) : Prop :=
  (w_rho (h_flags h) = true -> h_rho h = h_rho h') /\ (w_fld (h_flags h) = true -> h_fld h = h_fld h') /\
  (w_bfld (h_flags h) = true -> h_bfld h = h_bfld h') /\ (w_mp (h_flags h) = true -> recl_map live (h_mp h) = recl_map live (h_mp h')) /\
  (w_probe (h_flags h) = true -> h_probe h = h_probe h').
Definition same_passage (h h' : pyht) : Prop := same_clouds h h' /\ same_records h h' /\ aside h h'.

(** * Durations *)

(** The cloud is advanced from time [t] by calls of [sim_time_step], one for
    each entry [(dt, h, n)]: a step of length [dt] made of [n] sub-steps of
    length [h]. *)
Inductive advanced (e : env) : R -> list (R * R * nat) -> sim -> sim -> Prop :=
| adv_nil t m : advanced e t [] m m
| adv_cons t dt h n l m m1 m' tm a :
    sim_time_step e a tm [] m = Some m1 -> ti_t tm = t -> ti_Dt tm = dt -> s_Dtsub a = Some h -> s_Nsub a = Some n ->
    advanced e (t + dt) l m1 m' -> advanced e t ((dt, h, n) :: l) m m'.

Definition duration (l : list (R * R * nat)) : R := rsum (map (fun q => fst (fst q)) l).

(** A step [(dt, h, n)] is made of at least one sub-step; the sub-steps add up
    to the step; none is longer than one and a half reference steps, and if the
    step is longer than a reference step none is shorter than two thirds of it. *)
Definition step_ok (p : pset) (q : R * R * nat) : Prop :=
  let '(dt, h, n) := q in 0 < dt /\ (1 <= n)%nat /\ h * INR n = dt /\ h <= 3/2 * z_Dtref p /\ (z_Dtref p < dt -> 2/3 * z_Dtref p <= h).

(** * Kicks *)

(** Kick of all particles, or of the particles [ix], of a beam in a field. *)
Definition kicked (kx ky : bool) (p : pset) (E : R -> R -> R * R) (ix : list nat) (b : bobj) : bobj :=
  with_parts b (map (fun iq => if existsb (Nat.eqb (fst iq)) ix then
     let q := snd iq in let e := E (bp_x q + z_xoff p) (bp_y q + z_yoff p) in
     let f := q_charge b * z_L p / (q_mass b * q_gamma b * (q_beta b * c_light (e_kc (z_env p))) ^ 2) in
     mkBp (bp_x q) (if kx then bp_xp q + f * fst e else bp_xp q) (bp_y q) (if ky then bp_yp q + f * snd e else bp_yp q)
   else snd iq) (combine (seq 0 (List.length (q_parts b))) (q_parts b))).
Definition all_of (b : bobj) : list nat := seq 0 (List.length (q_parts b)).

(** The attribute [p0] of a PyHEADTAIL beam. *)
Definition momentum_ok (p : pset) (b : bobj) : Prop := q_p0 b = q_mass b * q_gamma b * q_beta b * c_light (e_kc (z_env p)).

(** The slices [bs] are sent through the cloud one after the other; [Es]: the
    field of the cloud at the moment each of them has been handled. *)
Inductive passes (p : pset) : pyht -> list bobj -> list (R -> R -> R * R) -> pyht -> Prop :=
| pass_nil h : passes p h [] [] h
| pass_cons h b b' h1 bs Es h' : track_slice p false b h = Some (b', h1) -> passes p h1 bs Es h' ->
    passes p h (b :: bs) (sc_fld (m_sc (h_sim h1)) :: Es) h'.

(** The same for the slices of a bunch, from the last one to the first one;
    [Es]: field for slice 0, 1, ... *)
Inductive sliced (p : pset) (sl : slicing) : nat -> bobj -> pyht -> list (R -> R -> R * R) -> bobj -> pyht -> Prop :=
| sliced_nil b h : sliced p sl 0 b h [] b h
| sliced_cons i b h zl zr b1 h1 Es b' h' : nth_error (sl_bins sl) (S i) = Some zr -> nth_error (sl_bins sl) i = Some zl ->
    track_single_slice p b (sl_idx sl (Z.of_nat i)) (zr - zl) (Nat.eqb i 0) h = Some (b1, h1) ->
    sliced p sl i b1 h1 Es b' h' -> sliced p sl (S i) b h (Es ++ [sc_fld (m_sc (h_sim h1))]) b' h'.

(** Slices [n-1], ..., 0 of a bunch kicked, slice [i] with field [i]. *)
Fixpoint slice_kicks (kx ky : bool) (p : pset) (idx : nat -> list nat) (Es : list (R -> R -> R * R)) (n : nat) (b : bobj) : bobj :=
  match n with
  | O => b
  | S i => slice_kicks kx ky p idx Es i (kicked kx ky p (nth i Es (fun _ _ => (0, 0))) (idx i) b)
  end.

(** The first slice of the first bunch: the cloud is re-initialised before it. *)
Definition first_of_all (b : bobj) : bool :=
  match q_info b with Info _ (Some ib) is _ _ => (ib =? 0)%Z && (is =? 0)%Z | _ => false end.

(** A slicing that can be asked for its slices from the end with negative
    numbers, and whose indices are those of particles of the beam. *)
Definition from_end (sl : slicing) : Prop :=
  forall k, (1 <= k <= sl_n sl)%nat -> sl_idx sl (- Z.of_nat k) = sl_idx sl (Z.of_nat (sl_n sl - k)).
Definition of_beam (b : bobj) (sl : slicing) : Prop :=
  forall i, (i < sl_n sl)%nat -> Forall (fun j => (j < List.length (q_parts b))%nat) (sl_idx sl (Z.of_nat i)).

(** A beam or slice that can be kicked. *)
Definition moving (p : pset) (b : bobj) : Prop :=
  q_mass b <> 0 /\ q_gamma b <> 0 /\ q_beta b <> 0 /\ c_light (e_kc (z_env p)) <> 0 /\ momentum_ok p b.
Definition is_slice (b : bobj) : Prop := match q_info b with Info _ _ _ _ _ => True | _ => False end.

(** What [particle_indices_of_slice] of PyHEADTAIL is taken to do with a slice
    number: [ids[pos[i]:pos[i + 1]]], where [pos] has one more entry than there
    are slices and begins with 0. *)
Definition by_position (sl : slicing) : Prop :=
  exists (pos ids : list nat), List.length pos = Datatypes.S (sl_n sl) /\ nth_error pos 0 = Some 0%nat /\
    forall i, sl_idx sl i = match py_nth pos i, py_nth pos (i + 1)%Z with Some a, Some b => firstn (b - a)%nat (skipn a ids) | _, _ => [] end.

(** The particles of the slice after slice [i]; nothing after the last one. *)
Definition next_slice (sl : slicing) (i : nat) : list nat := if Nat.ltb (S i) (sl_n sl) then sl_idx sl (Z.of_nat (S i)) else [].

(** * Beam and cloud act on each other *)

(** A slice interacts unless its dictionary says otherwise. *)
Definition meets (i : sinfo) : Prop := i = NoInfo \/ exists o a b zl zr, i = Info o a b zl zr /\ o <> Some false.
Definition skips (i : sinfo) : Prop := exists a b zl zr, i = Info (Some false) a b zl zr.

(** [c] is the mean of the numbers [l], [s] their standard deviation. *)
Definition centre (l : list R) (c : R) : Prop := INR (List.length l) * c = rsum l.
Definition width (l : list R) (s : R) : Prop :=
  0 <= s /\ exists c, centre l c /\ INR (List.length l) * (s * s) = rsum (map (fun x => (x - c) * (x - c)) l).

(** The field of the particles [ps] of a beam spread over the length [dz]. *)
Definition field_of (p : pset) (b : bobj) (dz : R) (ps : list bpart) (x y : R) : R * R :=
  let k := e_pic (z_env p) in
  pi_solve k (pi_dep k (q_charge b) (map (fun q => (bp_x q + z_xoff p, bp_y q + z_yoff p, q_ppmp b / dz)) ps)) x y.

(** The cloud advances step by step without beam. *)
Inductive unlit (e : env) : sim -> sim -> Prop :=
| unlit_nil m : unlit e m m
| unlit_cons m m1 m' a tm : sim_time_step e a tm [] m = Some m1 -> SpecSim.acts tm (fun _ => (0, 0)) -> ti_lam tm = 0 -> unlit e m1 m' -> unlit e m m'.
