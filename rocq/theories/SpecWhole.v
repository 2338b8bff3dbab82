(** Specification side of the recorded and of the continued runs. *)
From Coq Require Import String.
From Verif Require Import Num MP SpecMP Impact Sim SpecSim Saver SpecSaver Whole.
Local Open Scope list_scope.
Local Open Scope R_scope.

(** One call of the time step: arguments, beams, number of the passage. *)
Record call := mkCall { q_args : sargs; q_main : tim; q_secs : list tim; q_pass : Z }.

(** Steps one after the other.  For each step the simulation when the output has
    been saved, and at the end of the step; then the final recorders. *)
Fixpoint whole_run (e : env) (y : eyes) (l : list call) (m : sim) (rs : list (option recorder))
  : option (list (sim * sim) * list (option recorder)) :=
  match l with
  | [] => Some ([], rs)
  | q :: l' =>
      do (mid, m1, rs) <- whole_step e y (q_args q) (q_main q) (q_secs q) (q_pass q) m rs ;
      do (tr, rs) <- whole_run e y l' m1 rs ;
      Some ((mid, m1) :: tr, rs)
  end.

(** The same calls for the time step without recorders. *)
Definition tuple (q : call) : sargs * tim * list tim := (q_args q, q_main q, q_secs q).

(** * Same physics *)

(** Settings of the histograms that may differ: bins, ranges, which ones are
    filled.  The flags for lifetimes and segments also switch on data of the
    macroparticles and of the emission. *)
Definition same_icfg (c d : icfg) : Prop :=
  k_mass c = k_mass d /\ k_qe c = k_qe d /\ k_life c = k_life d /\ k_seg c = k_seg d.
Definition same_set (c d : cset) : Prop :=
  a_name c = a_name d /\ a_mass c = a_mass d /\ a_charge c = a_charge d /\ a_dyn c = a_dyn d /\ same_icfg (a_icfg c) (a_icfg d) /\
  a_em c = a_em d /\ a_evol c = a_evol d /\ a_gas c = a_gas d /\ a_tion c = a_tion d /\ a_photo c = a_photo d /\
  a_regen c = a_regen d /\ a_soft c = a_soft d /\ a_async c = a_async d.
(** Two clouds that differ at most in their histograms. *)
Definition same_cloud (c d : cloud) : Prop :=
  same_set (o_set c) (o_set d) /\ o_mp c = o_mp d /\ o_rho c = o_rho d /\ o_Q c = o_Q d.
Definition same_sim (m n : sim) : Prop :=
  Forall2 same_cloud (m_clouds m) (m_clouds n) /\ m_sc m = m_sc n /\ m_xion m = m_xion n /\ m_k m = m_k n /\ m_full m = m_full n.

(** * What is recorded *)

(** The simulation with empty histograms. *)
Definition emptied (m : sim) : sim :=
  mkSim (map (fun c => with_iman c (blank (o_iman c))) (m_clouds m)) (m_sc m) (m_xion m) (m_k m) (m_full m).

(** A step as the recorder of cloud number [j] should see it: the cloud when the
    output is saved, and what the step has added to the histograms, which is
    what it leaves in them when they were empty before. *)
Definition shown (e : env) (y : eyes) (j : nat) (q : call) (m : sim) : option step :=
  do m1 <- step_main e (q_args q) (q_main q) (q_secs q) m ;
  do c <- nth_error (m_clouds m1) j ;
  do m2 <- step_main e (q_args q) (q_main q) (q_secs q) (emptied m) ;
  do d <- nth_error (m_clouds m2) j ;
  Some (observe y (q_main q) (q_pass q) m1 c, o_iman d).
(** The same for a run, given the simulation before each step. *)
Fixpoint shown_run (e : env) (y : eyes) (j : nat) (l : list call) (ms : list sim) : option (list step) :=
  match l, ms with
  | q :: l', m :: ms' => do s <- shown e y j q m ; do r <- shown_run e y j l' ms' ; Some (s :: r)
  | _, _ => Some []
  end.

(** A recorder that has just been made for cloud [k], whose histograms are
    empty, in a chamber that starts at [k_bias] or further right. *)
Definition ready (e : env) (k : cloud) (r : option recorder) : Prop :=
  match r with
  | None => True
  | Some r => exists n w, r = mkRecorder (r_cfg r) (start_observing (r_cfg r) n) None /\ (0 < n)%nat /\ o_iman k = blank w /\
      cfg_ok (r_cfg r) /\ widths_ok (r_cfg r) w /\ (forall x y, w_out (e_wall e) x y = false -> k_bias (c_ic (r_cfg r)) <= x)
  end.

(** * Continuing from a checkpoint *)

(** The cleaning and the regenerations at the end of a passage have nothing to
    do: no macroparticle is small, the numbers are within the limits, and an
    empty cloud has its initial reference size. *)
Record settled (c : cset) (s : mpsys) : Prop := mkSettled {
  se_wf : wf s; se_tail : tail_zero s; se_sizes : sizes_ok s;
  se_big : Forall (fun p => nel_mp_cl_th s <= m_nel p) (live s);
  se_ref : N_mp s = 0%nat -> nel_mp_ref s = nel_mp_ref_0 s;
  se_max : (N_mp s <= N_mp_regen (a_regen c))%nat;
  se_min : (N_mp_regen_low (a_regen c) <= N_mp s)%nat \/ nel_mp_ref s <= nel_mp_ref_0 s;
  se_soft : forall n target, a_soft c = Some (n, target) -> (N_mp s <= n)%nat;
  se_async : forall n target, a_async c = Some (n, target) -> (N_mp s <= n)%nat }.
