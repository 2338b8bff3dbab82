(** Specification side of the Furman-Pivi emission model. *)
From Verif Require Import Num Sey SpecSey Furman.

(** What is used of scipy's special functions. *)
Record sp_ok (sp : spfun) : Prop := mkSpOk {
  so_odd : forall x, erf sp (- x) = - erf sp x;
  so_inc : forall x y, x < y -> erf sp x < erf sp y;
  so_range : forall x, -1 < erf sp x < 1;
  so_inv : forall y, -1 < y < 1 -> erf sp (erfinv sp y) = y;
  so_g0 : forall p, 0 < p -> ginc sp p 0 = 0;
  so_ginc : forall p x y, 0 < p -> 0 <= x < y -> ginc sp p x < ginc sp p y;
  so_grange : forall p x, 0 < p -> 0 <= x -> 0 <= ginc sp p x < 1;
  so_ginv : forall p y, 0 < p -> 0 <= y < 1 -> 0 <= gincinv sp p y /\ ginc sp p (gincinv sp p y) = y }.

(** Parameters for which the sampled energies make sense: positive widths and
    scales, tables long enough for [M_cut] secondaries. *)
Record fp_energy_sane (f : fpar) : Prop := mkFsane {
  fs_sig : if f_modsig f then 188 / 100 < f_sigE f else 0 < f_sigE f;
  fs_q : -1 < f_q f;
  fs_eps : Forall (fun x => 0 < x) (f_eps f);
  fs_pn : Forall (fun x => 0 < x) (f_pn f);
  fs_qe : 0 < c_qe (f_e f); fs_mass : 0 < c_mass (f_e f) }.

(** Parameters for which the yields make sense. *)
Record fp_yield_sane (f : fpar) : Prop := mkYsane {
  ys_e : 0 <= f_p1EInf f /\ 0 <= f_p1Ehat f /\ 0 < f_w f /\ 0 < f_p f /\ 0 <= f_e1 f /\ 0 <= f_e2 f /\ 0 <= f_ce f <= 1;
  ys_r : 0 <= f_p1RInf f /\ 0 < f_eR f /\ 0 <= f_r1 f /\ 0 <= f_r2 f /\ 0 <= f_cr f <= 1;
  ys_t : 0 <= f_dTS f /\ 0 < f_eHat0 f /\ 1 < f_s f /\ 0 <= f_t1 f /\ 0 <= f_t2 f /\ 0 <= f_t3 f /\ 0 <= f_t4 f }.

(** A possible impact. *)
Definition imp_ok (p : imp) : Prop := unit_n p /\ 0 <= i_E p /\ 0 <= i_ct p <= 1.

(** Yields of the rediffused electrons, 0 if they are excluded. *)
Definition dr_of (f : fpar) (p : imp) : R := if f_excl f then 0 else delta_r f (i_E p) (i_ct p).
Definition de_of (f : fpar) (p : imp) : R := delta_e f (i_E p) (i_ct p).

(** The outcome of an impact with the random number [u]: event type [t] (0
    backscattered, 1 true secondary, 2 rediffused, 3 absorbed) with [n]
    electrons emitted per impacting electron. *)
Inductive fp_outcome (f : fpar) (p : imp) (u : R) : nat -> nat -> Prop :=
| Out_back : u < de_of f p \/ (f_excl f = true /\ u = de_of f p) -> fp_outcome f p u 0 1
| Out_rediff : f_excl f = false -> de_of f p <= u <= de_of f p + dr_of f p -> fp_outcome f p u 2 1
| Out_true n : de_of f p + dr_of f p < u -> (1 <= n <= f_Mcut f)%nat -> fp_outcome f p u 1 n
| Out_absorbed : de_of f p + dr_of f p < u -> fp_outcome f p u 3 0.

(** Velocities of the replaced and of the new MPs. *)
Definition vels (e : emis) : list (R * R * R) := combine (combine (o_vx e) (o_vy e)) (o_vz e).
Definition nvels (e : emis) : list (R * R * R) := combine (combine (n_vx e) (n_vy e)) (n_vz e).
Definition kin3 (f : fpar) (v : R * R * R) : R :=
  kin_eV (c_qe (f_e f)) (c_mass (f_e f)) (fst3 v) (snd3 v) (thd3 v).
Definition vimp (p : imp) : R * R * R := (i_vx p, i_vy p, i_vz p).

(** The velocity leaves the wall inwards, without gain of energy. *)
Definition out_loss (f : fpar) (p : imp) (v : R * R * R) : Prop :=
  0 <= kin3 f v <= i_E p /\ 0 <= normal_comp (i_nx p) (i_ny p) (fst3 v) (snd3 v).

(** Velocity of a true secondary; with the energy spectrum of the other models
    its energy obeys their limits. *)
Definition fp_fresh (f : fpar) (p : imp) (v : R * R * R) : Prop :=
  if f_ecl_energy f then leaves (f_e f) (i_E p) (i_nx p) (i_ny p) v else out_loss f p v.

(** Velocity of a backscattered electron: mirrored if the energy spectrum of
    the other models is used, otherwise with a sampled energy. *)
Definition mirror (p : imp) : R * R * R := (i_vx p - 2 * i_vn p * i_nx p, i_vy p - 2 * i_vn p * i_ny p, i_vz p).
Definition back_vel (f : fpar) (p : imp) (w : R * R * R) : Prop :=
  if f_ecl_energy f then w = mirror p else out_loss f p w.

(** Charges, positions and event types, with [ns] the number of emitted MPs of
    each impact. *)
Record fp_books (f : fpar) (fs : fsrc) (k : nat) (ps : list imp) (ns : list nat) (seg : bool) (e : emis) : Prop := mkBooks {
  fb_len : length ns = length ps;
  fb_sized : emis_sized (length ps) seg e;
  fb_out : forall i, (i < length ps)%nat ->
    fp_outcome f (impat ps i) (s_uni (f_src fs) (k + i)) (nth i (o_type e) 9%nat) (nth i ns 0%nat);
  fb_tot : forall i, (i < length ps)%nat -> nth i (o_tot e) 0 = i_nel (impat ps i) * INR (nth i ns 0%nat);
  fb_rep : forall i, (i < length ps)%nat ->
    (nth i (o_nel e) 0, (nth i (o_x e) 0, nth i (o_y e) 0, nth i (o_z e) 0)) =
    (if Nat.eqb (nth i ns 0%nat) 0 then (0, (0, 0, 0))
     else (i_nel (impat ps i), (i_x (impat ps i), i_y (impat ps i), i_z (impat ps i))));
  fb_seg : o_seg e = map i_seg ps;
  fb_new : let parents := repeat_each ps (map pred ns) in
    n_nel e = map i_nel parents /\ n_x e = map i_x parents /\ n_y e = map i_y parents /\ n_z e = map i_z parents /\
    (seg = true -> n_seg e = map i_seg parents);
  fb_ext : o_ext e = o_type e ++ repeat_each (o_type e) (map pred ns) }.

Definition vel_at (e : emis) (i : nat) : R * R * R := (nth i (o_vx e) 0, nth i (o_vy e) 0, nth i (o_vz e) 0).
Definition type_at (e : emis) (i : nat) : nat := nth i (o_type e) 9%nat.

(** Velocities. *)
Record fp_vels (f : fpar) (ps : list imp) (ns : list nat) (e : emis) : Prop := mkFvels {
  fv_back : forall i, (i < length ps)%nat -> type_at e i = 0%nat -> back_vel f (impat ps i) (vel_at e i);
  fv_redi : forall i, (i < length ps)%nat -> type_at e i = 2%nat -> out_loss f (impat ps i) (vel_at e i);
  fv_abs : forall i, (i < length ps)%nat -> type_at e i = 3%nat -> vel_at e i = (0, 0, 0);
  fv_true : forall i j, (i < length ps)%nat -> type_at e i = 1%nat -> (2 <= nth j ns 0)%nat ->
    fp_fresh f (impat ps i) (vel_at e i);
  fv_kept : forall i, (i < length ps)%nat -> type_at e i = 1%nat -> (forall j, (nth j ns 0 <= 1)%nat) ->
    vel_at e i = vimp (impat ps i);
  fv_new : Forall2 (fp_fresh f) (repeat_each ps (map pred ns)) (nvels e) }.

(** Energy (eV per electron of the impacting MP) emitted in event [i]: that of
    the replaced MP and of its [ns i - 1] clones. *)
Definition clones (ns : list nat) (e : emis) (i : nat) : list (R * R * R) :=
  firstn (pred (nth i ns 0%nat)) (skipn (nsum (firstn i (map pred ns))) (nvels e)).
Definition event_energy (f : fpar) (ns : list nat) (e : emis) (i : nat) : R :=
  kin3 f (vel_at e i) + rsum (map (kin3 f) (clones ns e i)).

(** Dependence of the true secondary yield on the angle of incidence. *)
Definition ts_ang (f : fpar) (ct : R) : R :=
  if f_scale f then if f_ecl_theta f then exp ((1/2) * (1 - ct)) else 1 + f_t1 f * (1 - pw ct (f_t2 f)) else 1.

(** The model as the emission model of a cloud, whose state is the position in
    the random stream and the charges on insulating surfaces. *)
Definition fp_em (cfuel : nat) (sp : spfun) (f : fpar) (fs : fsrc) (th : R) (seg : bool) (ps : list imp) (st : nat * list R)
  : option (emis * (nat * list R)) :=
  do (e, k) <- fp_impacts cfuel sp f fs th seg ps (fst st) ; Some (e, (k, snd st)).
