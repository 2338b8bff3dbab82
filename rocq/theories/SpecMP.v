(** Specification side of the macroparticle system: what the user observes. *)
From Verif Require Import Num MP.

(** One macroparticle (MP) with all its attributes. *)
Record mp := mkMP {
  m_x : R; m_y : R; m_z : R; m_vx : R; m_vy : R; m_vz : R;
  m_nel : R; m_t : R }.

(** The MP in slot [i]; the last impact time is only an attribute when the
    lifetime histogram is enabled. *)
Definition mp_at (s : mpsys) (i : nat) : mp :=
  mkMP (nth i (x_mp s) 0) (nth i (y_mp s) 0) (nth i (z_mp s) 0)
       (nth i (vx_mp s) 0) (nth i (vy_mp s) 0) (nth i (vz_mp s) 0)
       (nth i (nel_mp s) 0)
       (if flag_lifetime_hist s then nth i (t_last_impact s) 0 else -1).

(** The live MPs, in order. *)
Definition live (s : mpsys) : list mp := map (mp_at s) (seq 0 (N_mp s)).

Definition capacity (s : mpsys) : nat := length (x_mp s).

(** Total charge of the live MPs. *)
Definition charge (s : mpsys) : R := rsum (map m_nel (live s)).

(** All arrays have the same length and the live count fits. *)
Record wf (s : mpsys) : Prop := mkWf {
  wf_y : length (y_mp s) = capacity s;
  wf_z : length (z_mp s) = capacity s;
  wf_vx : length (vx_mp s) = capacity s;
  wf_vy : length (vy_mp s) = capacity s;
  wf_vz : length (vz_mp s) = capacity s;
  wf_nel : length (nel_mp s) = capacity s;
  wf_t : length (t_last_impact s) = capacity s;
  wf_N : (N_mp s <= capacity s)%nat }.

(** Slots past the live count carry no charge. *)
Definition tail_zero (s : mpsys) : Prop :=
  forall i, (N_mp s <= i < capacity s)%nat -> nth i (nel_mp s) 0 = 0.

(** The derived sizes follow the reference size. *)
Definition sizes_ok (s : mpsys) : Prop :=
  nel_mp_split s = fact_split s * nel_mp_ref s /\
  nel_mp_cl_th s = fact_clean s * nel_mp_ref s.

(** Same configuration constants. *)
Definition same_cfg (s s' : mpsys) : Prop :=
  capacity s' = capacity s /\ flag_lifetime_hist s' = flag_lifetime_hist s /\
  nel_mp_ref_0 s' = nel_mp_ref_0 s /\ fact_split s' = fact_split s /\
  fact_clean s' = fact_clean s.

Definition inside (c : chamber) (p : mp) : Prop := outside c (m_x p) (m_y p) = false.

(** A MP with its charge multiplied by [f]. *)
Definition scale_nel (f : R) (p : mp) : mp :=
  mkMP (m_x p) (m_y p) (m_z p) (m_vx p) (m_vy p) (m_vz p) (m_nel p * f) (m_t p).

(** The MP described by entry [i] of a batch of new MPs given to a system
    with or without last impact times. *)
Definition batch_mp (lifetime : bool) (b : batch) (i : nat) : mp :=
  mkMP (nth i (b_x b) 0) (nth i (b_y b) 0) (nth i (b_z b) 0)
       (nth i (b_vx b) 0) (nth i (b_vy b) 0) (nth i (b_vz b) 0)
       (nth i (b_nel b) 0) (if lifetime then nth i (b_t b) 0 else -1).

(** A batch with [n] entries in every column. *)
Definition batch_ok (n : nat) (b : batch) : Prop :=
  length (b_x b) = n /\ length (b_y b) = n /\ length (b_z b) = n /\
  length (b_vx b) = n /\ length (b_vy b) = n /\ length (b_vz b) = n /\
  length (b_nel b) = n /\ length (b_t b) = n.

(** Operations a user can apply to a macroparticle system. *)
Inductive op :=
| OAdd (n : nat) (b : batch)
| OClean
| OSoft (target k : nat)
| OImport (d : mpdict).

Definition exec (rng : nat -> R) (o : op) (s : mpsys) : option mpsys :=
  match o with
  | OAdd n b => add_new_MPs n b s
  | OClean => clean_small_MPs s
  | OSoft target k => option_map fst (perform_soft_regeneration target rng k s)
  | OImport d => init_from_dict d s
  end.

Fixpoint run_ops (rng : nat -> R) (os : list op) (s : mpsys) : option mpsys :=
  match os with
  | [] => Some s
  | o :: os' => do s' <- exec rng o s ; run_ops rng os' s'
  end.

(** A dictionary with [d_N] entries in every column. *)
Definition dict_ok (d : mpdict) : Prop :=
  length (d_x d) = d_N d /\ length (d_y d) = d_N d /\ length (d_z d) = d_N d /\
  length (d_vx d) = d_N d /\ length (d_vy d) = d_N d /\ length (d_vz d) = d_N d /\
  length (d_nel d) = d_N d /\ (forall t, d_t d = Some t -> length t = d_N d).

(** The well-formed operations: columns of equal length. *)
Definition op_ok (o : op) : Prop :=
  match o with
  | OAdd n b => batch_ok n b
  | OImport d => dict_ok d
  | _ => True
  end.

(** An MP whose last impact time is forgotten. *)
Definition forget_t (p : mp) : mp :=
  mkMP (m_x p) (m_y p) (m_z p) (m_vx p) (m_vy p) (m_vz p) (m_nel p) (-1).
