(** Specification side of simulations that share a communicator. *)
From Verif Require Import Num MP Sim SpecSim Mpi.
Local Open Scope list_scope.
Local Open Scope R_scope.

(** At each of [n] points [a] is the mean of the buffers. *)
Definition mean_of (n : nat) (bufs : list (list R)) (a : list R) : Prop :=
  List.length a = n /\ forall i, (i < n)%nat -> INR (List.length bufs) * nth i a 0 = rsum (map (fun b => nth i b 0) bufs).

Section Ideal.
Context {T : Type} (next : T -> outcome T).

(** * The ideal run: all ranks together *)
(** One exchange: every rank asks, each goes on with the mean of all buffers. *)
Definition round (L L' : list T) : Prop :=
  exists bufs a, average bufs = Some a /\ List.length bufs = List.length L /\ List.length L' = List.length L /\
    forall i s, nth_error L i = Some s -> exists b k, next s = Ask b k /\ nth_error bufs i = Some b /\ nth_error L' i = Some (k a).
(** Every rank ends. *)
Definition ends (L F : list T) : Prop := Forall2 (fun s f => next s = Finish f) L F.
(** [r] exchanges, after which all ranks end together in [F]. *)
Inductive together : nat -> list T -> list T -> Prop :=
| to_end L F : ends L F -> together 0 L F
| to_round r L L' F : round L L' -> together r L' F -> together (S r) L F.
(** After some exchanges one rank ends and another one asks for an exchange. *)
Inductive apart_at : list T -> Prop :=
| ap_now L s s' f b k : In s L -> In s' L -> next s = Finish f -> next s' = Ask b k -> apart_at L
| ap_round L L' : round L L' -> apart_at L' -> apart_at L.

(** * Real runs: the ranks move in any order *)
Inductive path : list nat -> world T -> world T -> Prop :=
| pa_nil w : path [] w w
| pa_move i l w w1 w2 : move next i w = Some w1 -> path l w1 w2 -> path (i :: l) w w2.
(** All ranks have ended, in these states. *)
Definition ended_in (w : world T) (F : list T) : Prop := wo_root w :: map pr_st (wo_peers w) = map Ended F.
End Ideal.

(** * Simulations *)
(** The rank is at a step that recomputes the space charge; it has got to the
    state [m1] there, with the settings [a] and the beam [main]; the steps [l]
    come after. *)
Definition at_exchange (p : proc) (a : sargs) (main : tim) (l : list (sargs * tim * list tim)) (m1 : sim) : Prop :=
  exists secs m flag, p_todo p = (a, main, secs) :: l /\ p_sim p = Some m /\ recomputes (p_env p) a (ti_t main) m /\
    step_before (p_env p) a main secs m = Some (m1, flag) /\ m_clouds m <> [].
(** Charge density of all clouds at grid point [i]. *)
Definition density_at (p : pic) (cl : list cloud) (i : nat) : R := rsum (map (fun c => nth i (own_density p c) 0) cl).

(** The state [m2] with which a rank goes on after the exchange at [m1]: the
    space charge has the mean density [avg] and its field, nothing has happened
    to the clouds except the density noted for each: its own one, but for the
    last cloud [avg] less the densities of the others. *)
Record shared (n : nat) (p : pic) (avg : list R) (m1 m2 : sim) : Prop := mkShared {
  sh_rho : sc_rho (m_sc m2) = avg;
  sh_fld : sc_fld (m_sc m2) = pi_solve p avg;
  sh_sched : sc_Dt (m_sc m2) = sc_Dt (m_sc m1) /\ sc_last (m_sc m2) = sc_last (m_sc m1);
  sh_mp : map o_mp (m_clouds m2) = map o_mp (m_clouds m1);
  sh_set : map o_set (m_clouds m2) = map o_set (m_clouds m1);
  sh_iman : map o_iman (m_clouds m2) = map o_iman (m_clouds m1);
  sh_Q : map o_Q (m_clouds m2) = map o_Q (m_clouds m1);
  sh_rest : m_xion m2 = m_xion m1 /\ m_k m2 = m_k m1 /\ m_full m2 = m_full m1;
  sh_noted : exists cs c, m_clouds m2 = cs ++ [c] /\ map o_rho cs = map (own_density p) cs /\
    List.length (o_rho c) = n /\ forall i, nth i (o_rho c) 0 = nth i avg 0 - density_at p cs i }.
Definition resumes (n : nat) (avg : list R) (p : proc) (x : sargs * tim * list (sargs * tim * list tim) * sim) (p' : proc) : Prop :=
  let '(a, main, l, m1) := x in
  exists m2, p' = mkProc (p_env p) l (step_after (p_env p) a main m2) /\ shared n (e_pic (p_env p)) avg m1 m2.

(** Ranks that keep pace: same times, same requests, same schedule of the
    space charge, at least one cloud each, one grid. *)
Definition in_pace (n : nat) (ts : list (R * bool)) (tsc : R) (D : option R) (last : R) (p : proc) : Prop :=
  map (fun q => (step_time q, s_force_sc (fst (fst q)))) (p_todo p) = ts /\ e_tsc (p_env p) = tsc /\ grid_size (e_pic (p_env p)) n /\
  exists m, p_sim p = Some m /\ sc_Dt (m_sc m) = D /\ sc_last (m_sc m) = last /\ m_clouds m <> [].
(** Some exchanges later. *)
Inductive later {T : Type} (next : T -> outcome T) : list T -> list T -> Prop :=
| la_now L : later next L L
| la_round L L1 L2 : round next L L1 -> later next L1 L2 -> later next L L2.
(** Some exchanges later a rank raises an exception before its next one. *)
Definition crash_now (L : list proc) : Prop := exists s f, In s L /\ next_exchange s = Finish f /\ p_sim f = None.
Definition crashed (L : list proc) : Prop := exists L', later next_exchange L L' /\ crash_now L'.
