(** Use of random numbers (C94). *)
From Verif Require Import Num MP Sey Furman Impact SpecImpact SpecFurman Source CrossIon Sim SpecSim SpecRand RandFacts RandFacts2 ExSey ExImpact ExSource ExCrossIon ExRegen ExSim ExRand.
Local Open Scope list_scope.
Local Open Scope R_scope.

(** Every emission model uses the random numbers from the position it is called
    at, each position up to the one it leaves to the next user and no other. *)
Theorem C94_emission : forall fs fs',
  (forall m c, em_alike fs fs' (plain_em m c (f_src fs)) (plain_em m c (f_src fs'))) /\
  (forall segs E0 gs c, em_alike fs fs' (charging_emitter segs E0 gs c (f_src fs)) (charging_emitter segs E0 gs c (f_src fs'))) /\
  (forall cf sp f, em_alike fs fs' (fp_em cf sp f fs) (fp_em cf sp f fs')) /\
  em_alike fs fs' absorb_em absorb_em.
Proof.
  exact (fun fs fs' => conj (fun m c => plain_alike m c fs fs') (conj (fun segs E0 gs c => charging_alike segs E0 gs c fs fs')
    (conj (fun cf sp f => fp_alike cf sp f fs fs') (absorb_alike fs fs')))).
Qed.
Print Assumptions C94_emission.
Example C94_emission_case : exists o k', std_emitter ex_mod ex_cfg ex_sr (3/2) false [ex_imp] 0 = Some (o, k') /\ agree 0 k' ex_sr (f_src (rSrc k')) /\ Sey.n_x o = [1/10].
Proof. exact rEmit. Qed.

(** So do the steps of an emission: the choice of the events, the energies and
    the directions. *)
Theorem C94_parts : (forall m ps, local agree (fun sr k => SEY_process m sr k ps)) /\
  (forall sw fuel n Eth En th, local agree (fun sr k => sec_energy_hilleret_model2 sw fuel sr k n Eth En th)) /\
  (forall d qe mass n En nx ny, local agree (fun sr k => Some (angle_dist_func d qe mass sr k n En nx ny))) /\
  (forall fuel d sg mx n, local agree (fun sr k => get_energy fuel d sg mx sr k n)) /\
  (forall fuel pc n, local agree (fun sr k => get_photoelectron_positions fuel pc sr k n)) /\
  (forall f dl ts, local agreeF (fun fs k => fp_numbers f fs dl ts k)).
Proof. exact parts_local. Qed.
Print Assumptions C94_parts.
Example C94_parts_case : exists pr k', SEY_process ex_mod ex_sr 0 [ex_imp] = Some (pr, k') /\ agree 0 k' ex_sr (f_src (rSrc k')) /\ k' = 1%nat.
Proof. exact rEvents. Qed.

(** So do the sources of macroparticles. *)
Theorem C94_sources :
  (forall fuel kc g c mass lam Dt sx sy xb yb st, local agree (fun sr k => gas_generate fuel kc g c mass lam Dt sx sy xb yb sr k st)) /\
  (forall fuel kc p w mass lam Dt st, local agree (fun sr k => photo1_generate fuel kc p w mass lam Dt sr k st)) /\
  (forall fuel kc ph cdf w mass lam Dt st, local agree (fun sr k => photo2_generate fuel kc ph cdf w mass lam Dt sr k st)) /\
  (forall fuel kc ph pc mass lam Dt st, local agree (fun sr k => photo3_generate fuel kc ph pc mass lam Dt sr k st)) /\
  (forall qe Dt x cl, local agreeR (fun r k => cross_generate qe Dt x cl r k)) /\
  (forall fuel c DN v0 x1 x0 y1 y0 s, local agreeR (fun r k => add_uniform_MP_distrib fuel c DN v0 x1 x0 y1 y0 r k s)) /\
  (forall c ne v0 x1 x0 y1 y0 s, local agreeR (fun r k => add_uniform_ele_density c ne v0 x1 x0 y1 y0 r k s)).
Proof. exact (conj gas_local (conj photo1_local (conj photo2_local (conj photo3_local (conj cross_local (conj uniform_local density_local)))))). Qed.
Print Assumptions C94_sources.
Example C94_sources_case : exists s' k', gas_generate 0 exK exGas exChamb 1 (3/2) 1 (1/10) (1/10) (1/2) 0 ex_sr 0 exS = Some (s', k') /\ agree 0 k' ex_sr (f_src (rSrc k')) /\ N_mp s' = 3%nat.
Proof. exact rGas. Qed.

(** So do the regenerations. *)
Theorem C94_regeneration :
  (forall fuel fi cfg c s, local agreeR (fun r k => check_for_regeneration fuel fi cfg c r k s)) /\
  (forall thr s, local agreeR (fun r k => check_for_soft_regeneration thr r k s)) /\
  (forall thr s, local agreeR (fun r k => check_for_async_regeneration thr r k s)).
Proof. exact (conj regen_local (conj check_soft_local check_async_local)). Qed.
Print Assumptions C94_regeneration.
Example C94_regeneration_case : exists s' k', check_for_regeneration 100 0 exCfg exCh exRng 0 exR = Some (s', k') /\ regen_needed exCfg exR = true /\
  agreeR 0 k' exRng (fun i => if Nat.ltb i k' then exRng i else exRng i + 1).
Proof. exact rRegen. Qed.

(** A step that starts at position [m_k m] and ends at position [m_k m1] gives
    the same state with any other source with the same numbers in between. *)
Theorem C94_step : forall fs fs' e a main secs m m' m1, e_sr e = f_src fs -> sim_alike fs fs' m m' -> sim_time_step e a main secs m = Some m1 ->
  (m_k m <= m_k m1)%nat /\
  (agreeF (m_k m) (m_k m1) fs fs' -> exists m1', sim_time_step (with_src e (f_src fs')) a main secs m' = Some m1' /\ sim_alike fs fs' m1 m1').
Proof. exact step_local. Qed.
Print Assumptions C94_step.
Example C94_step_case : exists m1 fs', e_sr sEnv = f_src rOwn /\ sim_alike rOwn fs' rM rM /\ sim_time_step sEnv no_args rBeam [] rM = Some m1 /\ agreeF (m_k rM) (m_k m1) rOwn fs' /\
  (exists i, s_uni (f_src fs') i <> s_uni (f_src rOwn) i) /\ map (fun c => N_mp (o_mp c)) (m_clouds rM) = [0%nat] /\ map (fun c => N_mp (o_mp c)) (m_clouds m1) = [1%nat].
Proof. exact rCase. Qed.

(** The same for every state of a run. *)
Theorem C94_run : forall fs fs' e, e_sr e = f_src fs -> forall l m m' ms, sim_alike fs fs' m m' -> sim_run e l m = Some ms ->
  (m_k m <= m_k (last ms m))%nat /\
  (agreeF (m_k m) (m_k (last ms m)) fs fs' -> exists ms', sim_run (with_src e (f_src fs')) l m' = Some ms' /\ Forall2 (sim_alike fs fs') ms ms').
Proof. exact run_local. Qed.
Print Assumptions C94_run.
Example C94_run_case : exists ms fs', e_sr sEnv = f_src rOwn /\ sim_alike rOwn fs' rM rM /\ sim_run sEnv [(no_args, rBeam, [])] rM = Some ms /\ agreeF (m_k rM) (m_k (last ms rM)) rOwn fs' /\
  (exists i, s_uni (f_src fs') i <> s_uni (f_src rOwn) i) /\ ms <> [].
Proof. exact rRun. Qed.
