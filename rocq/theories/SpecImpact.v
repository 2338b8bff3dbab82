(** Specification side of the handling of macroparticles (MPs) at the wall. *)
From Verif Require Import Num MP SpecMP Push SpecPush Geom Poly Sey SpecSey Impact.

(** The MP lies outside the chamber. *)
Definition beyond_wall (w : wall) (p : mp) : bool := w_out w (m_x p) (m_y p).

(** The MPs that hit the wall in this step. *)
Definition hitters (w : wall) (s : mpsys) : list mp := filter (beyond_wall w) (live s).

(** Kinetic energy of a MP particle in eV. *)
Definition mp_eV (c : icfg) (p : mp) : R := kin_eV (k_qe c) (k_mass c) (m_vx p) (m_vy p) (m_vz p).

(** Energy carried by a list of MPs. *)
Definition energy_of (c : icfg) (l : list mp) : R := rsum (map (fun p => m_nel p * mp_eV c p) l).

(** Charge of a list of MPs. *)
Definition charge_of (l : list mp) : R := rsum (map m_nel l).

(** Positions of the live MPs, as passed to the wall handling. *)
Definition positions (s : mpsys) : list R * list R * list R :=
  (map m_x (live s), map m_y (live s), map m_z (live s)).

Definition old_sized (n : nat) (old : list R * list R * list R) : Prop :=
  let '(xo, yo, zo) := old in length xo = n /\ length yo = n /\ length zo = n.

(** All old positions are inside. *)
Definition old_inside (w : wall) (old : list R * list R * list R) : Prop :=
  let '(xo, yo, _) := old in
  forall i, (i < length xo)%nat -> w_out w (nth i xo 0) (nth i yo 0) = false.

(** The wall returns one impact point per track; for tracks that start inside
    the impact points are inside. *)
Definition wall_ok (w : wall) : Prop :=
  (forall ks hs, w_hit w ks = Some hs -> length hs = length ks) /\
  forall ks, Forall (fun k => w_out w (t_xin k) (t_yin k) = false) ks ->
    exists hs, w_hit w ks = Some hs /\
      Forall2 (fun (_ : track) hi => w_out w (h_x (fst hi)) (h_y (fst hi)) = false) ks hs.

(** The impact handed to the emission model for MP [m] at the impact point
    [hi]. *)
Definition impact_of (c : icfg) (hi : hit * nat) (m : mp) (q : imp) : Prop :=
  i_nel q = m_nel m /\ i_x q = h_x (fst hi) /\ i_y q = h_y (fst hi) /\ i_z q = h_z (fst hi) /\
  i_vx q = m_vx m /\ i_vy q = m_vy m /\ i_vz q = m_vz m /\
  i_nx q = h_nx (fst hi) /\ i_ny q = h_ny (fst hi) /\ i_seg q = snd hi /\
  i_E q = mp_eV c m /\ i_vn q = normal_comp (i_nx q) (i_ny q) (m_vx m) (m_vy m) /\
  0 <= i_ct q /\ i_ct q * sqrt (m_vx m * m_vx m + m_vy m * m_vy m + m_vz m * m_vz m) = Rabs (i_vn q) /\
  0 < m_vx m * m_vx m + m_vy m * m_vy m + m_vz m * m_vz m.

(** What the wall handling relies on: arrays of the right length, total charge
    shared between the replaced and the new MPs, all placed at impact points.
    A replaced MP may also be parked at the origin, if this is inside the
    chamber. *)
Record emission_ok (w : wall) (seg : bool) (ps : list imp) (e : emis) : Prop := mkEmOk {
  eo_sized : emis_sized (length ps) seg e;
  eo_charge : rsum (o_nel e) + rsum (n_nel e) = rsum (o_tot e);
  eo_at : forall i, (i < length ps)%nat ->
    let p := impat ps i in
    (nth i (o_x e) 0, nth i (o_y e) 0) = (i_x p, i_y p) \/
    ((nth i (o_x e) 0, nth i (o_y e) 0) = (0, 0) /\ w_out w 0 0 = false);
  eo_seg : o_seg e = map i_seg ps;
  eo_new : exists counts, n_x e = map i_x (repeat_each ps counts) /\ n_y e = map i_y (repeat_each ps counts) /\
    (seg = true -> n_seg e = map i_seg (repeat_each ps counts)) }.

Definition emitter_ok {S : Type} (w : wall) (em : R -> bool -> list imp -> S -> option (emis * S)) : Prop :=
  forall th seg ps st e st', 0 < th -> em th seg ps st = Some (e, st') -> emission_ok w seg ps e.

(** The emission models of the code as emitters.  The state is the position in
    the random stream, for charging surfaces also the surface charges. *)
Definition std_emitter (m : seymod) (c : ecfg) (sr : src) (th : R) (seg : bool) (ps : list imp) (k : nat)
  : option (emis * nat) := impacts_on_surface m c th seg sr k ps.
Definition charging_emitter (segs : list (R * R * R)) (E0 : R) (gs : list chseg) (c : ecfg) (sr : src)
  (th : R) (seg : bool) (ps : list imp) (st : nat * list R) : option (emis * (nat * list R)) :=
  do (e, Qs, k) <- impacts_on_surface_charging segs E0 gs c th seg sr (fst st) ps (snd st) ;
  Some (e, (k, Qs)).
Definition absorber (th : R) (seg : bool) (ps : list imp) (st : unit) : option (emis * unit) :=
  Some (absorb_surface ps, tt).

(** The settings fit together: lifetime data in the MP system if and only if the
    lifetime histogram is on; histogram grids are not degenerate and start left
    of the chamber. *)
Record hist_ok (w : wall) (c : icfg) (g : iman) : Prop := mkHistOk {
  ho_Dx : 0 < k_Dx c; ho_bias : forall x y, w_out w x y = false -> k_bias c <= x;
  ho_DEn : 0 < k_DEn c; ho_Emax : 0 <= k_Enmax c;
  ho_m : 0 < k_mass c; ho_q : 0 < k_qe c;
  ho_life : k_life c = true -> 0 < k_Dtlife c /\ g_life g <> [];
  ho_cos : k_cos c = true -> 0 < k_cosw c /\ g_cos g <> [];
  ho_tot : g_tot g <> []; ho_scr : g_scrub g <> []; ho_en : g_en g <> []; ho_line : g_line g <> [] }.

(** One step in the life of a cloud in a chamber: motion followed by the wall
    handling, new MPs inside the chamber, cleaning of small MPs, soft
    regeneration. *)
Inductive cloud_step {S : Type} (w : wall) (c : icfg) (em : R -> bool -> list imp -> S -> option (emis * S)) :
  mpsys * S -> mpsys * S -> Prop :=
| St_move g time (s s1 s' : mpsys) gm gm' st st' :
    moves_each g s s1 ->
    backtrack_and_second_emiss w c em time (positions s) gm s1 st = Some (gm', s', st') ->
    (N_mp s' <= capacity s)%nat ->
    cloud_step w c em (s, st) (s', st')
| St_add n b s s' st :
    batch_ok n b -> (N_mp s + n <= capacity s)%nat ->
    (forall i, (i < n)%nat -> w_out w (nth i (b_x b) 0) (nth i (b_y b) 0) = false) ->
    add_new_MPs n b s = Some s' -> cloud_step w c em (s, st) (s', st)
| St_clean s s' st : clean_small_MPs s = Some s' -> cloud_step w c em (s, st) (s', st)
| St_soft target rng k s s' k' st : perform_soft_regeneration target rng k s = Some (s', k') ->
    cloud_step w c em (s, st) (s', st).

Inductive cloud_run {S : Type} (w : wall) (c : icfg) (em : R -> bool -> list imp -> S -> option (emis * S)) :
  mpsys * S -> mpsys * S -> Prop :=
| run_refl a : cloud_run w c em a a
| run_step a b d : cloud_step w c em a b -> cloud_run w c em b d -> cloud_run w c em a d.

(** The MPs emitted by the wall: those in the slots of the MPs that hit it, and
    those after the MPs that were there before. *)
Definition emitted (w : wall) (s s' : mpsys) : list mp :=
  mask_get (map (beyond_wall w) (live s)) (live s') ++ skipn (N_mp s) (live s').

(** Sum of the values attached to edge [k]. *)
Definition edge_sum (k : nat) (edges : list nat) (qs : list R) : R :=
  rsum (map2 (fun i q => if Nat.eqb i k then q else 0) edges qs).

(** A sequence of moves: motion, then wall handling.  Returns the charge that
    hit the wall and the charge emitted, for each move. *)
Fixpoint move_run {S : Type} (w : wall) (c : icfg) (em : R -> bool -> list imp -> S -> option (emis * S))
  (l : list (R * (mpsys -> mpsys))) (g : iman) (s : mpsys) (st : S)
  : option (mpsys * S * list (R * R)) :=
  match l with
  | [] => Some (s, st, [])
  | (time, push) :: l' =>
      do (g', s', st') <- backtrack_and_second_emiss w c em time (positions s) g (push s) st ;
      do (s2, st2, h) <- move_run w c em l' g' s' st' ;
      Some (s2, st2, (l_nimp g', l_nemit g') :: h)
  end.

(** A motion changes positions and velocities only. *)
Definition motion (push : mpsys -> mpsys) : Prop := forall s, exists g, moves_each g s (push s).

(** What becomes of impacts on a wall that absorbs all: each stays where it is,
    with no charge left, and nothing new comes out. *)
Definition absorbed (ps : list imp) (e : emis) : Prop :=
  Forall2 (fun p q => q = 0) ps (o_tot e) /\ Forall2 (fun p q => q = 0) ps (o_nel e) /\
  Forall2 (fun p n => n = 0%nat) ps (o_type e) /\ Forall2 (fun p n => n = 0%nat) ps (o_ext e) /\
  Forall2 (fun p v => v = i_x p) ps (o_x e) /\ Forall2 (fun p v => v = i_y p) ps (o_y e) /\ Forall2 (fun p v => v = i_z p) ps (o_z e) /\
  Forall2 (fun p v => v = i_vx p) ps (o_vx e) /\ Forall2 (fun p v => v = i_vy p) ps (o_vy e) /\ Forall2 (fun p v => v = i_vz p) ps (o_vz e) /\
  Forall2 (fun p n => n = i_seg p) ps (o_seg e) /\
  n_nel e = [] /\ n_x e = [] /\ n_y e = [] /\ n_z e = [] /\ n_vx e = [] /\ n_vy e = [] /\ n_vz e = [] /\ n_seg e = [].
