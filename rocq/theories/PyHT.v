(** Model of the coupling to PyHEADTAIL: PyEC4PyHT.py and
    Transverse_Efield_map_for_frozen_cloud.py.  No proofs in this file.

    Not modelled: the construction of the build-up simulation (see Config.v for
    the parameters), the output recorder restarted by [_reinitialize] (lines
    703-743), the potentials, the beam monitor and the messages. *)
From Coq Require Import String.
From Verif Require Import Num MP Beam Source Sim.
Local Open Scope list_scope.
Local Open Scope R_scope.

(** * The beam objects of PyHEADTAIL *)

(** Transverse coordinates of one beam macroparticle. *)
Record bpart := mkBp { bp_x : R; bp_xp : R; bp_y : R; bp_yp : R }.

(** The attribute [slice_info]: absent, the string 'unsliced', or a dictionary
    with the optional entries [interact_with_EC] and [info_parent_bunch] (of
    which only [i_bunch] is read) and the entries [i_slice], [z_bin_left],
    [z_bin_right]. *)
Inductive sinfo := NoInfo | Unsliced
  | Info (interact : option bool) (i_bunch : option Z) (i_slice : Z) (z_left z_right : R).

(** A PyHEADTAIL beam (or slice).  [particlenumber_per_mp] is one number (lines
    397 and 854 refuse anything else). *)
Record bobj := mkBobj {
  q_ppmp : R; q_charge : R; q_mass : R; q_beta : R; q_gamma : R; q_p0 : R; q_parts : list bpart; q_info : sinfo }.
Definition with_parts (b : bobj) (l : list bpart) : bobj :=
  mkBobj (q_ppmp b) (q_charge b) (q_mass b) (q_beta b) (q_gamma b) (q_p0 b) l (q_info b).

(** What [beam.get_slices(slicer)] returns (PyHEADTAIL, external): the edges of
    the slices, and the result of [particle_indices_of_slice] for each argument,
    also for the negative ones. *)
Record slicing := mkSlicing { sl_n : nat; sl_bins : list R; sl_idx : Z -> list nat }.

(** * The electron cloud object *)

(** A list that is filled during a passage: not there, a list, or the array made
    from it at the end. *)
Inductive recl (A : Type) := Missing | Lst (l : list A) | Arr (l : list A).
Arguments Missing {A}. Arguments Lst {A}. Arguments Arr {A}.

(** The attributes [save_...] (lines 343-354; 323-334 for the probes). *)
Record flags := mkFlags { w_rho : bool; w_fld : bool; w_bfld : bool; w_mp : bool; w_probe : bool }.

(** Settings (lines 267-384).  [z_Dt]: [config_dict["Dt"]]; [z_init]:
    [initial_MP_e_clouds]. *)
Record pset := mkPset {
  z_env : env; z_L : R; z_Dtref : R; z_Dt : option R; z_xoff : R; z_yoff : R; z_kx : bool; z_ky : bool;
  z_kick : bool; z_reint : bool; z_slicemode : bool; z_probes : list (R * R); z_init : list mpdict }.

(** A recorded field map (Transverse_Efield_map_for_frozen_cloud.py:9-31) and
    its position [sid].  [flag_clean_slices] is true, [wrt_slice_centroid] is
    false (PyEC4PyHT.py:440-451).  A field is the function that [gather]
    evaluates. *)
Record fmap := mkFmap { j_E : list (R -> R -> R * R); j_sid : Z }.

(** State.  [h_b]: field of the beam in [beam_PyPIC_state]; [h_map]: the
    attribute [efieldmap]. *)
Record pyht := mkPyht {
  h_sim : sim; h_t : R; h_bunch : Z; h_reinit : nat; h_tracks : nat; h_once : bool; h_flags : flags;
  h_b : R -> R -> R * R;
  h_rho : recl (list R); h_fld : recl (R -> R -> R * R); h_bfld : recl (R -> R -> R * R); h_mp : recl mpsys;
  h_probe : recl (list (R * R)); h_map : option fmap }.

(** Lines 290-297, 340-341, 358-382.  [b0]: field of the new PyPIC state. *)
Definition ecloud_ctor (p : pset) (m : sim) (fl : flags) (b0 : R -> R -> R * R) : option (pset * pyht) :=
  if negb (e_boris (z_env p)) || Nat.ltb 1 (List.length (m_clouds m)) then None else
  Some (mkPset (z_env p) (z_L p) (z_Dtref p) (z_Dt p) (z_xoff p) (z_yoff p) (z_kx p) (z_ky p) (z_kick p) (z_reint p)
          (z_slicemode p) (z_probes p) (map (fun c => extract_dict (o_mp c)) (m_clouds m)),
        mkPyht m 0 (-1) 0 0 false fl b0 Missing Missing Missing Missing Missing None).

(** * Re-initialisation *)

(** Lines 695-699, one cloud. *)
Definition reset_cloud (d : mpdict) (c : cloud) : option cloud :=
  do s <- init_from_dict d (o_mp c) ;
  Some (mkCloud (o_set c) (set_nel_mp_ref s (nel_mp_ref_0 s)) (o_rho c) (o_iman c) (o_Q c)).
(** Lines 695-699: [zip] stops at the end of the shorter list. *)
Fixpoint reset_clouds (ds : list mpdict) (cl : list cloud) : option (list cloud) :=
  match ds, cl with
  | d :: ds', c :: cl' => do c <- reset_cloud d c ; do r <- reset_clouds ds' cl' ; Some (c :: r)
  | _, _ => Some cl
  end.

(** Lines 745-793. *)
Definition empty_if {A} (w : bool) (l : recl A) : recl A := if w then Lst [] else l.

(** Lines 691-797. *)
Definition reinitialize (p : pset) (h : pyht) : option pyht :=
  let m := h_sim h in
  do cl <- reset_clouds (z_init p) (m_clouds m) ;
  let fl := h_flags h in
  Some (mkPyht (mkSim cl (m_sc m) (m_xion m) (m_k m) (m_full m)) (h_t h) (-1) (S (h_reinit h)) (h_tracks h) (h_once h) fl (h_b h)
    (empty_if (w_rho fl) (h_rho h)) (empty_if (w_fld fl) (h_fld h)) (empty_if (w_bfld fl) (h_bfld h))
    (empty_if (w_mp fl) (h_mp h)) (empty_if (w_probe fl) (h_probe h)) (h_map h)).

(** Lines 799-845: [np.array(l[::-1])]. *)
Definition reversed {A} (w : bool) (l : recl A) : option (recl A) :=
  if w then match l with Missing => None | Lst l => Some (Arr (rev l)) | Arr l => Some (Arr (rev l)) end else Some l.
Definition finalize (h : pyht) : option pyht :=
  let fl := h_flags h in
  do r <- reversed (w_rho fl) (h_rho h) ; do f <- reversed (w_fld fl) (h_fld h) ; do b <- reversed (w_bfld fl) (h_bfld h) ;
  do s <- reversed (w_mp fl) (h_mp h) ; do g <- reversed (w_probe fl) (h_probe h) ;
  Some (mkPyht (h_sim h) (h_t h) (h_bunch h) (h_reinit h) (h_tracks h) (h_once h) fl (h_b h) r f b s g (h_map h)).

(** Lines 367-370 and 847-850: without the slice-by-slice mode there is no
    attribute [finalize_and_reinitialize]. *)
Definition finalize_and_reinitialize (p : pset) (h : pyht) : option pyht :=
  if z_slicemode p then do h <- finalize h ; reinitialize p h else None.

(** * One slice *)

(** Lines 488-494. *)
Definition interacts (i : sinfo) : option bool :=
  match i with NoInfo => Some true | Unsliced => None | Info (Some b) _ _ _ _ => Some b | Info None _ _ _ _ => Some true end.

(** Lines 497-515: the durations of the cloud steps.  A build-up step that is
    not positive is taken as an exception. *)
Definition dt_array (p : pset) (inter : bool) (dt : R) : option (list R) :=
  match z_Dt p with
  | Some D =>
      if Rleb D 0 then None else
      if Rgtb dt D then
        if inter then None else
        let n := Z.to_nat (rceil (dt / D)) in Some (repeat (dt / INR n) n)
      else Some [dt]
  | None => Some [dt]
  end.

(** Lines 546-551: length and number of the sub-steps.  A reference step that is
    not positive is taken as an exception. *)
Definition sub_of (Dt_ref dt : R) : option (R * nat) :=
  if Rleb Dt_ref 0 then None else
  let n := if Rgtb dt Dt_ref then Z.to_nat (raround (dt / Dt_ref)) else 1%nat in
  Some (dt / INR n, n).

(** Lines 518-540: bunch passage information. *)
Definition passage (p : pset) (i : sinfo) (force : bool) (h : pyht) : option (bool * pyht) :=
  let at_bunch z h := mkPyht (h_sim h) (h_t h) z (h_reinit h) (h_tracks h) (h_once h) (h_flags h) (h_b h)
                        (h_rho h) (h_fld h) (h_bfld h) (h_mp h) (h_probe h) (h_map h) in
  match i with
  | Info _ (Some ib) is _ _ =>
      do h <- (if (ib =? 0)%Z && (is =? 0)%Z then finalize_and_reinitialize p h else Some h) ;
      Some (if (h_bunch h <? ib)%Z then (true, at_bunch ib h) else (force, h))
  | _ => Some (force, at_bunch 0%Z h)
  end.

(** [slic.x[ix]]; an index out of range is an exception (in the code only if the
    slice interacts). *)
Fixpoint pick {A} (l : list A) (ix : list nat) : option (list A) :=
  match ix with
  | [] => Some []
  | i :: ix' => do a <- nth_error l i ; do r <- pick l ix' ; Some (a :: r)
  end.

(** [np.mean] and [np.std]. *)
Definition mean (l : list R) : R := rsum l / INR (List.length l).
Definition std (l : list R) : R := sqrt (mean (map (fun x => (x - mean l) * (x - mean l)) l)).

(** Lines 68-91. *)
Definition dummy_field (f : option (R -> R -> R * R)) : bmeth := fun pos =>
  match pos, f with
  | [], _ => (Scal 0, Scal 0)
  | _, None => (Vec (map (fun _ => 0) pos), Vec (map (fun _ => 0) pos))
  | _, Some g => (Vec (map (fun q => fst (g (fst q) (snd q))) pos), Vec (map (fun q => snd (g (fst q) (snd q))) pos))
  end.

(** Lines 566-573: field of the particles of the slice. *)
Definition slice_field (p : pset) (b : bobj) (dz : R) (ps : list bpart) : R -> R -> R * R :=
  let k := e_pic (z_env p) in
  pi_solve k (pi_dep k (q_charge b) (map (fun q => (bp_x q + z_xoff p, bp_y q + z_yoff p, q_ppmp b / dz)) ps)).

(** Lines 554-589: the beam object for [sim_time_step], and the field that is
    left in [beam_PyPIC_state]. *)
Definition dummy_beam (p : pset) (b : bobj) (dz : R) (ps : list bpart) (inter new : bool) (t dt : R) (h0 : R -> R -> R * R)
  : tim * (R -> R -> R * R) :=
  if Nat.eqb (List.length ps) 0 || negb inter then (mkTim t dt 0 new true (dummy_field None) 0 0 0 0, h0)
  else
    let f := slice_field p b dz ps in
    (mkTim t dt (q_ppmp b / dz * INR (List.length ps)) new true (dummy_field (Some f))
       (std (map bp_x ps)) (std (map bp_y ps)) (mean (map bp_x ps) + z_xoff p) (mean (map bp_y ps) + z_yoff p), f).

(** Lines 615-634: [slic.xp[ix] += fact * Ex], for a factor and a field. *)
Definition kick_one (kx ky : bool) (fact : R) (E : R -> R -> R * R) (xo yo : R) (q : bpart) : bpart :=
  let e := E (bp_x q + xo) (bp_y q + yo) in
  mkBp (bp_x q) (if kx then bp_xp q + fact * fst e else bp_xp q) (bp_y q) (if ky then bp_yp q + fact * snd e else bp_yp q).
(** The force on a particle depends only on its own position, so an index that
    occurs twice has the same effect as one that occurs once. *)
Definition kick_ix (kx ky : bool) (fact : R) (E : R -> R -> R * R) (xo yo : R) (ix : list nat) (l : list bpart) : list bpart :=
  map (fun iq => if existsb (Nat.eqb (fst iq)) ix then kick_one kx ky fact E xo yo (snd iq) else snd iq)
      (combine (seq 0 (List.length l)) l).

(** Lines 626-630. *)
Definition kick_fact (p : pset) (b : bobj) : R :=
  let c := c_light (e_kc (z_env p)) in q_charge b / (q_mass b * q_beta b * q_beta b * q_gamma b * c * c) * z_L p.

(** [append] of a list attribute; an array has no [append]. *)
Definition push_rec {A} (w : bool) (v : A) (l : recl A) : option (recl A) :=
  if w then match l with Lst l => Some (Lst (l ++ [v])) | _ => None end else Some l.

(** Lines 543-689: one cloud step of length [dt]. *)
Definition cloud_step (p : pset) (first new inter : bool) (ix : list nat) (dz dt : R) (b : bobj) (h : pyht) : option (bobj * pyht) :=
  let e := z_env p in
  do (hs, n) <- sub_of (z_Dtref p) dt ;
  do ps <- pick (q_parts b) ix ;
  let '(tm, hb) := dummy_beam p b dz ps inter new (h_t h) dt (h_b h) in
  do m <- sim_time_step e (mkSargs (Some hs) (Some n) (z_kick p) (inter || first) (inter && z_reint p) inter inter) tm [] (h_sim h) ;
  let E := sc_fld (m_sc m) in
  let b := if inter then with_parts b (kick_ix (z_kx p) (z_ky p) (kick_fact p b) E (z_xoff p) (z_yoff p) ix (q_parts b)) else b in
  do c0 <- hd_error (m_clouds m) ;
  let fl := h_flags h in
  do r <- push_rec (w_rho fl) (sc_rho (m_sc m)) (h_rho h) ;
  do f <- push_rec (w_fld fl) E (h_fld h) ;
  do bf <- push_rec (w_bfld fl) hb (h_bfld h) ;
  do s <- push_rec (w_mp fl) (o_mp c0) (h_mp h) ;
  do g <- push_rec (w_probe fl) (map (fun q => E (fst q) (snd q)) (z_probes p)) (h_probe h) ;
  Some (b, mkPyht m (h_t h + dt) (h_bunch h) (h_reinit h) (h_tracks h) (h_once h) fl hb r f bf s g (h_map h)).

(** Lines 543-689: the loop ([new_pass] is false after the first step). *)
Fixpoint cloud_steps (p : pset) (first new inter : bool) (ix : list nat) (dz : R) (dts : list R) (b : bobj) (h : pyht) : option (bobj * pyht) :=
  match dts with
  | [] => Some (b, h)
  | dt :: r => do (b, h) <- cloud_step p first new inter ix dz dt b h ; cloud_steps p false false inter ix dz r b h
  end.

(** Lines 483-689.  A slice of length zero, and beams and constants with a zero
    in a denominator, are taken as exceptions. *)
Definition track_single_slice (p : pset) (b : bobj) (ix : list nat) (dz : R) (force : bool) (h : pyht) : option (bobj * pyht) :=
  let c := c_light (e_kc (z_env p)) in
  if Reqb dz 0 || Reqb (q_beta b) 0 || Reqb c 0 || Reqb (q_mass b) 0 || Reqb (q_gamma b) 0 then None else
  do inter <- interacts (q_info b) ;
  do dts <- dt_array p inter (dz / (q_beta b * c)) ;
  do (new, h) <- passage p (q_info b) force h ;
  cloud_steps p true new inter ix dz dts b h.

(** * Passages *)

(** Lines 405-415: the slices [n-1], ..., 0. *)
Fixpoint track_slices (p : pset) (sl : slicing) (n : nat) (b : bobj) (h : pyht) : option (bobj * pyht) :=
  match n with
  | O => Some (b, h)
  | S i =>
      do zr <- nth_error (sl_bins sl) (S i) ; do zl <- nth_error (sl_bins sl) i ;
      do (b, h) <- track_single_slice p b (sl_idx sl (Z.of_nat i)) (zr - zl) (Nat.eqb i 0) h ;
      track_slices p sl i b h
  end.

Definition with_tracks (h : pyht) (n : nat) : pyht :=
  mkPyht (h_sim h) (h_t h) (h_bunch h) (h_reinit h) n (h_once h) (h_flags h) (h_b h) (h_rho h) (h_fld h) (h_bfld h) (h_mp h) (h_probe h) (h_map h).

(** Lines 385-427 ([track] of the cloud itself, full bunch).  [slices] is the
    external slicing of the beam; it is done after [_reinitialize], on the beam
    as it was handed over. *)
Definition track_bunch (p : pset) (slices : bobj -> slicing) (b : bobj) (h : pyht) : option (bobj * pyht) :=
  if h_once h && Nat.ltb 0 (h_tracks h) then Some (b, h) else
  do h <- reinitialize p h ;
  let sl := slices b in
  do (b, h) <- track_slices p sl (sl_n sl) b h ;
  do h <- finalize h ;
  Some (b, with_tracks h (S (h_tracks h))).

(** Lines 852-864. *)
Definition track_slice (p : pset) (clean : bool) (b : bobj) (h : pyht) : option (bobj * pyht) :=
  if clean then None else
  match q_info b with
  | NoInfo => None
  | Unsliced => Some (b, h)
  | Info _ _ _ zl zr => track_single_slice p b (seq 0 (List.length (q_parts b))) (zr - zl) false h
  end.

(** * The recorded field map *)

(** Transverse_Efield_map_for_frozen_cloud.py:56-82.  [Ex[sid,:,:]] is indexing
    with negative numbers; both planes are always kicked. *)
Definition map_slice (p : pset) (E : list (R -> R -> R * R)) (sid : Z) (pid : list nat) (b : bobj) : option bobj :=
  let c := c_light (e_kc (z_env p)) in
  if Reqb (q_p0 b) 0 || Reqb (q_beta b) 0 || Reqb c 0 then None else
  do _ <- pick (q_parts b) pid ;
  do f <- py_nth E sid ;
  Some (with_parts b (kick_ix true true (q_charge b / (q_p0 b * q_beta b * c) * z_L p) f (z_xoff p) (z_yoff p) pid (q_parts b))).

(** Lines 39-55 of that file: [sid] = -1, -2, ... *)
Fixpoint map_slices (p : pset) (E : list (R -> R -> R * R)) (sl : slicing) (n : nat) (sid : Z) (b : bobj) : option bobj :=
  match n with
  | O => Some b
  | S n' => let sid := (sid - 1)%Z in
            do b <- map_slice p E sid (sl_idx sl sid) b ; map_slices p E sl n' sid b
  end.
Definition map_track (p : pset) (j : fmap) (slices : bobj -> slicing) (b : bobj) : option bobj :=
  let sl := slices b in map_slices p (j_E j) sl (sl_n sl) 0%Z b.

(** Lines 84-91 of that file. *)
Definition map_track_slice (p : pset) (j : fmap) (b : bobj) : option (bobj * fmap) :=
  match q_info b with
  | NoInfo => None
  | Unsliced => Some (b, j)
  | Info _ _ _ _ _ =>
      let sid := (j_sid j - 1)%Z in
      do b <- map_slice p (j_E j) sid (seq 0 (List.length (q_parts b))) b ; Some (b, mkFmap (j_E j) sid)
  end.
Definition map_reinitialize (j : fmap) : fmap := mkFmap (j_E j) 0.

(** PyEC4PyHT.py:429-463.  The attributes [Ex_ele_last_track] must be there and
    be arrays (a list cannot be indexed with three indices: taken as an
    exception here, in the code it is raised at the first [track]). *)
Definition replace_with_recorded_field_map (h : pyht) : option pyht :=
  match h_map h with
  | Some _ => Some h
  | None =>
      match h_fld h with
      | Arr l => Some (mkPyht (h_sim h) (h_t h) (h_bunch h) (h_reinit h) (h_tracks h) false (h_flags h) (h_b h)
                         (h_rho h) (h_fld h) (h_bfld h) (h_mp h) (h_probe h) (Some (mkFmap l 0)))
      | _ => None
      end
  end.

Definition with_fld (w : bool) (fl : flags) : flags := mkFlags (w_rho fl) w (w_bfld fl) (w_mp fl) (w_probe fl).
Definition with_flags (once : bool) (fl : flags) (h : pyht) : pyht :=
  mkPyht (h_sim h) (h_t h) (h_bunch h) (h_reinit h) (h_tracks h) once fl (h_b h) (h_rho h) (h_fld h) (h_bfld h) (h_mp h) (h_probe h) (h_map h).

(** Lines 465-481, full bunch, for an object that has not been replaced yet. *)
Definition track_once_bunch (p : pset) (slices : bobj -> slicing) (b : bobj) (h : pyht) : option (bobj * pyht) :=
  let h := with_flags true (with_fld true (h_flags h)) h in
  do (b, h) <- track_bunch p slices b h ;
  do h <- replace_with_recorded_field_map (with_flags false (with_fld false (h_flags h)) h) ;
  Some (b, h).

(** Lines 465-481, slice by slice. *)
Fixpoint track_list (p : pset) (bs : list bobj) (h : pyht) : option (list bobj * pyht) :=
  match bs with
  | [] => Some ([], h)
  | b :: bs' => do (b, h) <- track_slice p false b h ; do (r, h) <- track_list p bs' h ; Some (b :: r, h)
  end.
Definition track_once_slices (p : pset) (bs : list bobj) (h : pyht) : option (list bobj * pyht) :=
  let h := with_flags true (with_fld true (h_flags h)) h in
  do h <- reinitialize p h ;
  do (bs, h) <- track_list p bs h ;
  do h <- finalize h ;
  do h <- replace_with_recorded_field_map (with_flags false (with_fld false (h_flags h)) h) ;
  Some (bs, h).

(** Slices kicked one after the other with the recorded map. *)
Fixpoint map_track_list (p : pset) (j : fmap) (bs : list bobj) : option (list bobj * fmap) :=
  match bs with
  | [] => Some ([], j)
  | b :: bs' => do (b, j) <- map_track_slice p j b ; do (r, j) <- map_track_list p j bs' ; Some (b :: r, j)
  end.
