(** Simulations that share a communicator (C92). *)
From Verif Require Import Num MP Sim SpecSim Mpi SpecMpi MpiFacts MpiFacts2 ExImpact ExBeam ExSim ExWhole ExMpi.
Local Open Scope list_scope.
Local Open Scope R_scope.

(** At a recomputation of the space charge every rank gets, at each point of the
    grid, the mean over the ranks of the density of all their clouds, and the
    field of that mean; nothing else of its state changes. *)
Theorem C92_mean : forall n L X, L <> [] -> Forall (fun p => grid_size (e_pic (p_env p)) n) L ->
  Forall2 (fun p x => let '(a, main, l, m1) := x in at_exchange p a main l m1) L X ->
  exists avg L', round next_exchange L L' /\ List.length avg = n /\
    (forall i, (i < n)%nat -> INR (List.length L) * nth i avg 0 = rsum (map2 (fun p x => density_at (e_pic (p_env p)) (m_clouds (snd x)) i) L X)) /\
    Forall2 (fun px p' => resumes n avg (fst px) (snd px) p') (combine L X) L'.
Proof. exact exchange_spec. Qed.
Print Assumptions C92_mean.
Example C92_mean_case : exists X, [mI; mW] <> [] /\ Forall (fun p => grid_size (e_pic (p_env p)) 1) [mI; mW] /\
  Forall2 (fun p x => let '(a, main, l, m1) := x in at_exchange p a main l m1) [mI; mW] X.
Proof. destruct mReady as (ci & cw & mi & mw & F & _). eexists. split; [discriminate|]. split; [|exact F]. constructor; [exact sGrid|constructor; [exact sGrid|constructor]]. Qed.

(** The density noted for a cloud is its own one: not so for the last cloud. *)
Theorem C92_density_refuted : exists n L X avg L', L <> [] /\ Forall (fun p => grid_size (e_pic (p_env p)) n) L /\
  Forall2 (fun p x => let '(a, main, l, m1) := x in at_exchange p a main l m1) L X /\ round next_exchange L L' /\
  Forall2 (fun px p' => resumes n avg (fst px) (snd px) p') (combine L X) L' /\
  exists p a main l m1 m2 c, In (p, (a, main, l, m1)) (combine L X) /\ shared n (e_pic (p_env p)) avg m1 m2 /\ In (mkProc (p_env p) l (step_after (p_env p) a main m2)) L' /\
    In c (m_clouds m2) /\ o_rho c <> own_density (e_pic (p_env p)) c.
Proof. exact mNoted. Qed.
Print Assumptions C92_density_refuted.

(** Ranks that are all alike end as one simulation without communicator. *)
Theorem C92_same : forall e n l m ms, sim_run e l m = Some ms ->
  exists r, together next_exchange r (repeat (mkProc e l (Some m)) (S n)) (repeat (mkProc e [] (Some (last ms m))) (S n)).
Proof. exact identical. Qed.
Print Assumptions C92_same.
Example C92_same_case : exists ms, sim_run sEnv mSteps sM = Some ms.
Proof. destruct mSame as (m' & R & _). eauto. Qed.

(** The order in which the ranks run does not matter: no run is longer than
    so many moves, a run that cannot go on has ended, and always in the same
    states. *)
Theorem C92_schedule : forall (T : Type) (next : T -> outcome T) r s0 ss F l w, together next r (s0 :: ss) F -> path next l (start_world s0 ss) w ->
  (List.length l <= S (List.length ss) * (2 * r + 1))%nat /\
  ((forall i, move next i w = None) -> ended_in w F /\ List.length l = (S (List.length ss) * (2 * r + 1))%nat) /\
  (forall G, ended_in w G -> G = F).
Proof. exact @schedule. Qed.
Print Assumptions C92_schedule.
Theorem C92_completes : forall (T : Type) (next : T -> outcome T) r s0 ss F, together next r (s0 :: ss) F -> exists l w, path next l (start_world s0 ss) w /\ ended_in w F.
Proof. exact @completes. Qed.
Print Assumptions C92_completes.
Example C92_schedule_case : together (ask_once 1) 1 [inl 1; inl 3] [inr 2; inr 2].
Proof. exact once_together. Qed.

(** A rank that ends, or raises an exception, when another one asks for an
    exchange: that other one waits for ever, whatever the order. *)
Theorem C92_deadlock : forall (T : Type) (next : T -> outcome T) s0 ss l w F, apart_at next (s0 :: ss) -> path next l (start_world s0 ss) w -> ~ ended_in w F.
Proof. exact @apart_never. Qed.
Print Assumptions C92_deadlock.
Example C92_deadlock_case : apart_at (ask_once 1) [inl 1; inr 3].
Proof. exact once_apart. Qed.

(** Simulations with the same times, the same schedule of the space charge and
    one grid do all their exchanges together, unless one of them raises an
    exception. *)
Theorem C92_pace : forall n ts tsc D last L, L <> [] -> Forall (in_pace n ts tsc D last) L ->
  (exists r F, together next_exchange r L F /\ Forall (fun f => p_sim f <> None /\ p_todo f = []) F) \/ crashed L.
Proof. exact keep_pace. Qed.
Print Assumptions C92_pace.
Theorem C92_pace_schedule : forall n ts tsc D last s0 ss, Forall (in_pace n ts tsc D last) (s0 :: ss) -> ~ crashed (s0 :: ss) ->
  exists F, Forall (fun f => p_sim f <> None /\ p_todo f = []) F /\
    (forall l w, path next_exchange l (start_world s0 ss) w -> (forall i, move next_exchange i w = None) -> ended_in w F) /\
    (exists N, forall l w, path next_exchange l (start_world s0 ss) w -> (List.length l <= N)%nat).
Proof. exact pace_schedule. Qed.
Print Assumptions C92_pace_schedule.
Example C92_pace_case : Forall (in_pace 1 [(1, false)] 0 (Some 1) (-10)) [mI; mW] /\ Forall (in_pace 1 [(1, false)] 0 (Some 1) (-10)) [mS; mS] /\ ~ crashed [mS; mS].
Proof. destruct mSame as (m' & _ & A & B). split; [exact mPace|]. auto. Qed.
