(** Specification side of the use of random numbers. *)
From Verif Require Import Num MP Sey Furman Impact SpecImpact SpecFurman Sim.
Local Open Scope list_scope.
Local Open Scope R_scope.

(** Two sources of random numbers that give the same numbers at the positions
    from [a] up to, but without, [b]. *)
Definition agree (a b : nat) (sr sr' : src) : Prop :=
  forall i, (a <= i < b)%nat -> s_uni sr' i = s_uni sr i /\ s_logn sr' i = s_logn sr i /\ s_norm sr' i = s_norm sr i.
Definition agreeF (a b : nat) (fs fs' : fsrc) : Prop :=
  agree a b (f_src fs) (f_src fs') /\ forall i lam, (a <= i < b)%nat -> f_poi fs' i lam = f_poi fs i lam.

Definition agreeR (a b : nat) (r r' : nat -> R) : Prop := forall i, (a <= i < b)%nat -> r' i = r i.

(** A computation [f] that starts at position [k] of the source [s] and leaves
    it at position [k'] has used only the numbers in between: it never goes
    back, and any other source with the same numbers there gives the same
    result. *)
Definition local {S A} (agr : nat -> nat -> S -> S -> Prop) (f : S -> nat -> option (A * nat)) : Prop :=
  forall s k r k', f s k = Some (r, k') -> (k <= k')%nat /\ forall s', agr k k' s s' -> f s' k = Some (r, k').

(** Two emission models that draw from [fs] and from [fs'] and are otherwise
    the same. *)
Definition em_alike (fs fs' : fsrc) (em em' : R -> bool -> list imp -> nat * list R -> option (emis * (nat * list R))) : Prop :=
  forall th seg ps k Q o k' Q', em th seg ps (k, Q) = Some (o, (k', Q')) ->
    (k <= k')%nat /\ (agreeF k k' fs fs' -> em' th seg ps (k, Q) = Some (o, (k', Q'))).

(** The same simulation with another source of random numbers. *)
Definition with_src (e : env) (sr : src) : env :=
  mkEnv (e_wall e) (e_cham e) (e_boris e) (e_reinterp e) (e_tsc e) (e_pic e) (e_kc e) sr (e_fuel e).
Definition set_alike (fs fs' : fsrc) (c c' : cset) : Prop :=
  em_alike fs fs' (a_em c) (a_em c') /\
  c' = mkCset (a_name c) (a_mass c) (a_charge c) (a_dyn c) (a_icfg c) (a_em c') (a_evol c) (a_gas c) (a_tion c) (a_photo c) (a_regen c) (a_soft c) (a_async c).
Definition cloud_alike (fs fs' : fsrc) (c c' : cloud) : Prop :=
  set_alike fs fs' (o_set c) (o_set c') /\ o_mp c' = o_mp c /\ o_rho c' = o_rho c /\ o_iman c' = o_iman c /\ o_Q c' = o_Q c.
Definition sim_alike (fs fs' : fsrc) (m m' : sim) : Prop :=
  Forall2 (cloud_alike fs fs') (m_clouds m) (m_clouds m') /\ m_sc m' = m_sc m /\ m_xion m' = m_xion m /\ m_k m' = m_k m /\ m_full m' = m_full m.
