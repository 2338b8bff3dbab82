(** Model of simulations that share a communicator (attribute [comm] of the
    space-charge object): space_charge_class.py:175-199 within
    buildup_simulation.py:162-225.  No proofs in this file.

    The messages of MPI (external) are modelled as first-in first-out queues
    between rank 0 and each other rank. *)
From Verif Require Import Num MP Sim.
Local Open Scope list_scope.
Local Open Scope R_scope.

(** * Mean of the densities *)

(** [comm.Gather(sendbuf, recvbuf)] on rank 0: the buffers one after the other.
    [recvbuf] has room for as many times the own length; buffers of other
    lengths are an error ([None]). *)
Definition gather (bufs : list (list R)) : option (list R) :=
  match bufs with
  | [] => None
  | b :: _ => if forallb (fun a => Nat.eqb (length a) (length b)) bufs then Some (concat bufs) else None
  end.
(** [np.mean(recvbuf.reshape(n, len), axis=0)]. *)
Definition mean_rows (n len : nat) (recv : list R) : list R :=
  map (fun i => rsum (map (fun r => nth (r * len + i) recv 0) (seq 0 n)) / INR n) (seq 0 len).
(** space_charge_class.py:185-192 on rank 0, whose own buffer comes first. *)
Definition average (bufs : list (list R)) : option (list R) :=
  do recv <- gather bufs ; Some (mean_rows (length bufs) (length (hd [] bufs)) recv).

(** * Ranks *)
(** What a rank does until its next exchange, given its state: it ends in some
    final state, or it sends a buffer and goes on with the mean. *)
Inductive outcome (T : Type) := Finish (s : T) | Ask (buf : list R) (k : list R -> T).
Arguments Finish {T}. Arguments Ask {T}.

Section Protocol.
Context {T : Type} (next : T -> outcome T).

(** A rank computes, waits in the exchange (with what it has sent), or has
    ended. *)
Inductive status := Running (s : T) | Waiting (buf : list R) (k : list R -> T) | Ended (s : T).
(** A rank other than 0, with the messages on their way to rank 0 and back. *)
Record peer := mkPeer { pr_st : status; pr_up : list (list R); pr_down : list (list R) }.
Record world := mkWorld { wo_root : status; wo_peers : list peer }.

(** Rank 0: [Gather] waits for a message of every other rank, takes the first
    of each, then [Bcast] sends the mean to each. *)
Definition take_all (ps : list peer) : option (list (list R)) :=
  fold_right (fun p r => match pr_up p, r with b :: _, Some l => Some (b :: l) | _, _ => None end) (Some []) ps.
Definition answer_all (a : list R) (ps : list peer) : list peer :=
  map (fun p => mkPeer (pr_st p) (tl (pr_up p)) (pr_down p ++ [a])) ps.
Definition root_move (w : world) : option world :=
  match wo_root w with
  | Running s => Some (mkWorld (match next s with Finish f => Ended f | Ask b k => Waiting b k end) (wo_peers w))
  | Waiting b k =>
      do bs <- take_all (wo_peers w) ; do a <- average (b :: bs) ;
      Some (mkWorld (Running (k a)) (answer_all a (wo_peers w)))
  | Ended _ => None
  end.
(** Another rank: [Gather] sends and returns, [Bcast] waits for the mean. *)
Definition peer_move (p : peer) : option peer :=
  match pr_st p with
  | Running s =>
      Some (match next s with
            | Finish f => mkPeer (Ended f) (pr_up p) (pr_down p)
            | Ask b k => mkPeer (Waiting b k) (pr_up p ++ [b]) (pr_down p)
            end)
  | Waiting b k => match pr_down p with a :: d => Some (mkPeer (Running (k a)) (pr_up p) d) | [] => None end
  | Ended _ => None
  end.
(** One move of rank [i]; [None]: it cannot move. *)
Definition move (i : nat) (w : world) : option world :=
  match i with
  | O => root_move w
  | S j =>
      match nth_error (wo_peers w) j with
      | None => None
      | Some p => do p' <- peer_move p ; Some (mkWorld (wo_root w) (upd_nth (wo_peers w) j (fun _ => p')))
      end
  end.
(** The start: every rank computes, no message. *)
Definition start_world (s0 : T) (ss : list T) : world := mkWorld (Running s0) (map (fun s => mkPeer (Running s) [] []) ss).
End Protocol.
Arguments status : clear implicits. Arguments peer : clear implicits. Arguments world : clear implicits.

(** * A rank that runs a simulation *)

(** buildup_simulation.py:261-288 with a communicator: the buffer that is sent
    (space_charge_class.py:185) and, given the mean, the clouds and the space
    charge (lines 197-199). *)
Fixpoint comm_loop (p : pic) (before : list (list R)) (cl : list cloud) (sc : spch) : list R * (list R -> list cloud * spch) :=
  match cl with
  | [] => ([], fun _ => ([], sc))
  | c :: cl' =>
      let reset := match before with [] => true | _ => false end in
      let sc := recompute_spchg_efield p (a_charge (o_set c)) (o_mp c) false reset sc in
      match cl' with
      | [] => (sc_rho sc, fun avg =>
                ([mkCloud (o_set c) (o_mp c) (sub_earlier avg before) (o_iman c) (o_Q c)],
                 mkSpch (sc_Dt sc) (sc_last sc) (sc_check sc) avg (pi_solve p avg)))
      | _ =>
          let rho := sub_earlier (sc_rho sc) before in
          let '(b, k) := comm_loop p (before ++ [rho]) cl' sc in
          (b, fun avg => let '(r, sc) := k avg in (mkCloud (o_set c) (o_mp c) rho (o_iman c) (o_Q c) :: r, sc))
      end
  end.

(** buildup_simulation.py:174-214: the step up to the space charge, and the
    condition of lines 266-268. *)
Definition step_before (e : env) (a : sargs) (main : tim) (secs : list tim) (m : sim) : option (sim * bool) :=
  let '(flag, sc) := check_for_recomputation (ti_t main) (m_sc m) in
  do (cl, k, full) <- clouds_loop e a main secs sc (m_k m) (m_full m) (m_clouds m) ;
  do (x, cl, k) <- cross_step e (ti_Dt main) (m_xion m) k cl ;
  let full := full || existsb (fun c => is_full (o_mp c)) cl in
  Some (mkSim cl sc x k full, (Rgtb (ti_t main) (e_tsc e) && flag) || s_force_sc a).
(** buildup_simulation.py:457-474: the step after the space charge.  The output
    (line 222) is not modelled here. *)
Definition step_after (e : env) (a : sargs) (main : tim) (m : sim) : option sim :=
  do (cl, k) <- clean_loop e a (ti_new main) (m_k m) (m_clouds m) ;
  Some (mkSim cl (m_sc m) (m_xion m) k (m_full m)).

(** A rank: its settings (with its own random numbers), the time steps still to
    do, and its simulation ([None]: an exception has been raised). *)
Record proc := mkProc { p_env : env; p_todo : list (sargs * tim * list tim); p_sim : option sim }.

Fixpoint advance (e : env) (l : list (sargs * tim * list tim)) (m : sim) : outcome proc :=
  match l with
  | [] => Finish (mkProc e [] (Some m))
  | (a, main, secs) :: l' =>
      match step_before e a main secs m with
      | None => Finish (mkProc e l None)
      | Some (m1, flag) =>
          match flag, m_clouds m1 with
          | true, _ :: _ =>
              let '(b, k) := comm_loop (e_pic e) [] (m_clouds m1) (m_sc m1) in
              Ask b (fun avg => let '(cl, sc) := k avg in
                mkProc e l' (step_after e a main (mkSim cl sc (m_xion m1) (m_k m1) (m_full m1))))
          | _, _ =>
              match step_after e a main m1 with
              | None => Finish (mkProc e l None)
              | Some m2 => advance e l' m2
              end
          end
      end
  end.
Definition next_exchange (p : proc) : outcome proc :=
  match p_sim p with None => Finish p | Some m => advance (p_env p) (p_todo p) m end.
