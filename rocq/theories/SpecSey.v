(** Specification side of secondary emission. *)
From Verif Require Import Num Sey.

(** Kinetic energy in eV of a particle of given mass (impact_management uses
    the same formula to report energies). *)
Definition kin_eV (qe mass vx vy vz : R) : R := (1/2) * mass / qe * (vx * vx + vy * vy + vz * vz).

(** Component of the velocity along the wall normal. *)
Definition normal_comp (nx ny vx vy : R) : R := vx * nx + vy * ny.

(** Uniform and log-normal numbers are in their ranges. *)
Definition src_ok (sr : src) : Prop := (forall k, 0 <= s_uni sr k < 1) /\ (forall k, 0 <= s_logn sr k).

(** Allowed energy of a secondary for impact energy [E]: below the cut-off
    [E_th]; with [switch = 2] also not above the impact energy (in the low
    energy regime only the impact energy matters). *)
Definition energy_ok (c : ecfg) (E en : R) : Prop :=
  0 <= en /\
  ((c_switch c = 0%Z /\ en <= c_Eth c) \/
   (c_switch c = 2%Z /\ en <= E /\ (c_thlow c <= E -> en <= c_Eth c))).

(** A velocity that leaves the wall inwards with an allowed energy. *)
Definition leaves (c : ecfg) (E nx ny : R) (v : R * R * R) : Prop :=
  let '(vx, vy, vz) := v in
  energy_ok c E (kin_eV (c_qe c) (c_mass c) vx vy vz) /\ 0 <= normal_comp nx ny vx vy.

Definition unit_n (p : imp) : Prop := i_nx p * i_nx p + i_ny p * i_ny p = 1.

Definition imp0 : imp := mkImp 0 0 0 0 0 0 0 0 0 0 0 0 0.
Definition impat (ps : list imp) (i : nat) : imp := nth i ps imp0.

(** All output arrays have one entry per impact, and the new ones have a
    common length. *)
Definition emis_sized (n : nat) (seg : bool) (e : emis) : Prop :=
  length (o_tot e) = n /\ length (o_type e) = n /\ length (o_nel e) = n /\
  length (o_x e) = n /\ length (o_y e) = n /\ length (o_z e) = n /\
  length (o_vx e) = n /\ length (o_vy e) = n /\ length (o_vz e) = n /\ length (o_seg e) = n /\
  let m := length (n_nel e) in
  length (n_x e) = m /\ length (n_y e) = m /\ length (n_z e) = m /\
  length (n_vx e) = m /\ length (n_vy e) = m /\ length (n_vz e) = m /\
  (seg = true -> length (n_seg e) = m) /\ length (o_ext e) = (n + m)%nat.

(** The emitted charge of each impact is shared evenly by the replaced MP and
    its clones ([counts] gives their number for each impact), which start at
    the impact point; elastic events (type 0) are not split; pieces of true
    secondaries (type 1) are at most [th], and no more clones are made than
    needed. *)
Definition split_spec (th : R) (ps : list imp) (counts : list nat) (e : emis) : Prop :=
  let parents := repeat_each ps counts in
  length counts = length ps /\
  n_nel e = repeat_each (o_nel e) counts /\
  n_x e = map i_x parents /\ n_y e = map i_y parents /\ n_z e = map i_z parents /\
  o_x e = map i_x ps /\ o_y e = map i_y ps /\ o_z e = map i_z ps /\ o_seg e = map i_seg ps /\
  o_ext e = o_type e ++ repeat_each (o_type e) counts /\
  forall i, (i < length ps)%nat ->
    let q := nth i (o_tot e) 0 in
    let n := nth i counts 0%nat in
    nth i (o_nel e) 0 * (1 + INR n) = q /\
    (nth i (o_type e) 9%nat = 0%nat -> n = 0%nat) /\
    (nth i (o_type e) 9%nat = 1%nat -> nth i (o_nel e) 0 <= th /\ (n <> 0%nat -> INR n * th < q)) /\
    (nth i (o_type e) 9%nat = 0%nat \/ nth i (o_type e) 9%nat = 1%nat).

(** Elastic events are mirrored at the wall; true secondaries and their
    clones leave the wall of their impact point. *)
Definition vel_spec (c : ecfg) (ps : list imp) (counts : list nat) (e : emis) : Prop :=
  (forall i, (i < length ps)%nat ->
    let p := impat ps i in
    let v := (nth i (o_vx e) 0, nth i (o_vy e) 0, nth i (o_vz e) 0) in
    (nth i (o_type e) 9%nat = 0%nat ->
      v = (i_vx p - 2 * i_vn p * i_nx p, i_vy p - 2 * i_vn p * i_ny p, i_vz p)) /\
    (nth i (o_type e) 9%nat = 1%nat -> leaves c (i_E p) (i_nx p) (i_ny p) v)) /\
  Forall2 (fun p v => leaves c (i_E p) (i_nx p) (i_ny p) v)
    (repeat_each ps counts) (combine (combine (n_vx e) (n_vy e)) (n_vz e)).

(** Largest true secondary yield at cosine [ct]. *)
Definition dm_tilde (dm : R) (sc : bool) (ct : R) : R := if sc then dm * exp ((1/2) * (1 - ct)) else dm.

(** Equally spaced energies. *)
Definition grid (a h : R) (n : nat) : list R := map (fun i => a + INR i * h) (seq 0 n).

(** Linear interpolation of the nodes [(a + i*h, ys_i)]. *)
Definition interpolates (a h : R) (ys : list R) (x y : R) : Prop :=
  exists i u, (i + 1 < length ys)%nat /\ 0 <= u <= 1 /\ x = a + INR i * h + u * h /\
    y = (1 - u) * nth i ys 0 + u * nth (i + 1) ys 0.

(** * Charging surfaces *)

Definition g0 : chseg := mkChseg false 0 0 0 0.

(** Charge on edge [i] of a list of quantities carried by impacts. *)
Definition seg_sum (i : nat) (ps : list imp) (qs : list R) : R :=
  rsum (map2 (fun p q => if Nat.eqb (i_seg p) i then q else 0) ps qs).

(** What happens to the wall: impacts [ps] that emit [em], or [Dt] seconds
    of decay. *)
Inductive wall_event := Hits (ps : list imp) (em : list R) | Decay (Dt : R).

(** Surface charge of edge [i] after a history. *)
Definition edge_step (qe : R) (g : chseg) (i : nat) (Q : R) (ev : wall_event) : R :=
  if g_flag g then
    match ev with
    | Hits ps em => Q + qe * (seg_sum i ps em - seg_sum i ps (map i_nel ps)) / g_L g
    | Decay Dt => if Rlt_dec 0 (g_tau g) then Q * exp (- Dt / g_tau g) else Q
    end
  else Q.
Definition edge_charge (qe : R) (g : chseg) (i : nat) (Q : R) (evs : list wall_event) : R :=
  fold_left (edge_step qe g i) evs Q.

(** The calls a simulation makes on the emission model: a batch of impacts or
    a time step. *)
Inductive wall_call := CallHits (ps : list imp) | CallEvol (Dt : R).
Fixpoint wall_run (qe : R) (segs : list (R * R * R)) (E0 : R) (gs : list chseg) (sr : src)
  (k : nat) (Qs : list R) (cs : list wall_call) : option (list R * list wall_event) :=
  match cs with
  | [] => Some (Qs, [])
  | CallHits ps :: cs =>
      do (l, Qs, k) <- charging_process qe segs E0 gs sr k ps Qs ;
      do (Qs, evs) <- wall_run qe segs E0 gs sr k Qs cs ;
      Some (Qs, Hits ps (map fst l) :: evs)
  | CallEvol Dt :: cs =>
      do (Qs, evs) <- wall_run qe segs E0 gs sr k (charging_evol gs Dt Qs) cs ;
      Some (Qs, Decay Dt :: evs)
  end.

(** Charge that left edge [i] in one event. *)
Definition dep (i : nat) (e : wall_event) : R :=
  match e with Hits ps em => seg_sum i ps em - seg_sum i ps (map i_nel ps) | Decay _ => 0 end.

(** Parameters of the emission models that make sense. *)
Definition seg_params (q : R * R * R) : Prop := let '(Emax, dm, R0) := q in 0 < Emax /\ 0 <= dm /\ 0 <= R0.
Definition sey_params_ok (m : seymod) : Prop :=
  match m with
  | MEcloud Emax dm R0 E0 s _ _ => seg_params (Emax, dm, R0) /\ 0 < E0 /\ 1 < s
  | MAcc Emax dm R0 E0 => seg_params (Emax, dm, R0) /\ R0 < 1 /\ 0 < E0
  | MCos Emax dm R0 E0 => seg_params (Emax, dm, R0) /\ 0 < E0
  | MFlat Emax dm R0 => seg_params (Emax, dm, R0)
  | MFile _ => True
  | MNonUnif segs E0 => Forall seg_params segs /\ 0 < E0
  end.
(** An impact: charge and energy not negative, angle below 90 degrees. *)
Definition fair (p : imp) : Prop := 0 <= i_nel p /\ 0 <= i_E p /\ 0 <= i_ct p <= 1.

(** The yield laws of the models.  True secondaries: a curve with maximum
    [dm] at energy [Em]; both grow with the angle of incidence. *)
Definition peaked (Em dm s E : R) : R :=
  let x := E / Em in if Reqb x 0 then 0 else dm * (s * x / (s - 1 + Rpower x s)).
Definition tilted (Emax dm s : R) (sc sh : bool) (E ct : R) : R :=
  peaked (if sh then Emax * (1 + (7/10) * (1 - ct)) else Emax) (if sc then dm * exp ((1/2) * (1 - ct)) else dm) s E.
(** Electrons reflected at a potential step of height [E0]. *)
Definition bounced (R0 E0 E : R) : R := R0 * ((sqrt E - sqrt (E + E0)) / (sqrt E + sqrt (E + E0))) ^ 2.

(** Mean number of true secondaries and of reflected electrons for each
    impacting electron ([None]: yields from a table, or no such segment).
    The flat model is taken as coded: no reflection (see C32). *)
Definition law (m : seymod) (p : imp) : option (R * R) :=
  let E := i_E p in
  let ct := i_ct p in
  match m with
  | MEcloud Emax dm R0 E0 s sc sh => Some (tilted Emax dm s sc sh E ct, bounced R0 E0 E)
  | MAcc Emax dm R0 E0 => Some (tilted Emax dm (135/100) true true E ct, bounced R0 E0 E)
  | MCos Emax dm R0 E0 => Some (tilted Emax dm (135/100) true true E ct,
      if Rltb E E0 then R0 * cos (PI / 2 * (E / E0)) ^ 2 else 0)
  | MFlat Emax dm R0 =>
      Some (if Rltb E Emax then Rmax R0 (tilted Emax dm (135/100) true true E ct)
            else tilted Emax dm (135/100) true true E ct, 0)
  | MFile _ => None
  | MNonUnif segs E0 =>
      match nth_error segs (i_seg p) with
      | Some (Emax, dm, R0) => Some (tilted Emax dm (135/100) true true E ct, bounced R0 E0 E)
      | None => None
      end
  end.
