(** C36-C39, C55: the Furman-Pivi emission model; C10, C53, C61 with it. *)
From Coq Require Import Lra Lia Reals.
From Verif Require Import Num NumFacts Sey SpecSey Geom SpecGeom Poly Impact SpecImpact SpecSim Furman SpecFurman FurmanFacts FurmanFacts4 FurmanFacts5 ExFurman FurmanFacts6 FurmanFacts8 FurmanFacts9 SpecKeep FurmanKeep ExKeep.
From Verif Require ExImpact.

(** C36.  Whenever the call returns, every impact has one of the four outcomes
    selected by its random number, with at most [M_cut] emitted electrons; all
    arrays are sized and filled accordingly. *)
Theorem C36_events : forall cfuel sp f fs th seg ps k e k',
  sp_ok sp -> fp_energy_sane f -> src_ok (f_src fs) -> Forall imp_ok ps ->
  fp_impacts cfuel sp f fs th seg ps k = Some (e, k') ->
  exists ns, fp_books f fs k ps ns seg e.
Proof.
  intros cfuel sp f fs th seg ps k e k' A B C D G.
  destruct (fp_all f sp fs cfuel th seg ps k e k' A B C D G) as (ns & S & _). exists ns. exact S.
Qed.
Print Assumptions C36_events.

(** C36.  The outcomes exclude each other (a true secondary event and an
    absorption differ by the number of electrons drawn). *)
Theorem C36_exclusive : forall f p u t n t' n',
  fp_yield_sane f -> fp_outcome f p u t n -> fp_outcome f p u t' n' ->
  t = t' \/ (t = 1 /\ t' = 3 /\ n <> n')%nat \/ (t = 3 /\ t' = 1 /\ n <> n')%nat.
Proof. exact outcome_exclusive. Qed.
Print Assumptions C36_exclusive.

(** C36.  The rejection loop ends within 12 rounds: without energy conservation
    loop the call returns for all random numbers and all numbers drawn from the
    Poisson distribution. *)
Theorem C36_returns : forall cfuel sp f fs th seg ps k d,
  f_ecl_energy f = false -> f_conserve f = false -> c_angle (f_e f) = Some d ->
  (f_Mcut f <= length (f_eps f))%nat -> (f_Mcut f <= length (f_pn f))%nat ->
  fp_yield_sane f -> Forall imp_ok ps ->
  (forall p, In p ps -> de_of f p + delta_r f (i_E p) (i_ct p) < 1) ->
  exists e k', fp_impacts cfuel sp f fs th seg ps k = Some (e, k').
Proof.
  intros cfuel sp f fs th seg ps k d A B C D E F G H.
  exact (fp_returns sp f fs d A B C D E cfuel th seg ps k F G H).
Qed.
Print Assumptions C36_returns.

(** C36.  Yields that leave no room for true secondaries are rejected. *)
Theorem C36_rejects : forall cfuel sp f fs th seg ps k p,
  In p ps -> 1 <= de_of f p + delta_r f (i_E p) (i_ct p) ->
  fp_impacts cfuel sp f fs th seg ps k = None.
Proof. exact fp_rejects. Qed.
Print Assumptions C36_rejects.

(** C37.  Charge leaving the wall = reported emitted charge = impacting charge
    times the number of emitted macroparticles. *)
Theorem C37_charge : forall cfuel sp f fs th seg ps k e k',
  sp_ok sp -> fp_energy_sane f -> src_ok (f_src fs) -> Forall imp_ok ps ->
  fp_impacts cfuel sp f fs th seg ps k = Some (e, k') ->
  rsum (o_nel e) + rsum (n_nel e) = rsum (o_tot e) /\
  exists ns : list nat, length ns = length ps /\ o_tot e = map2 (fun p n => i_nel p * INR n) ps ns /\
    length (n_nel e) = nsum (map pred ns).
Proof. exact fp_charge. Qed.
Print Assumptions C37_charge.

(** C38 (partial).  With energy conservation an event with [n >= 2] emitted
    electrons emits at most [n - 1] times the impact energy, hence at most the
    impact energy for [n = 2].  Missing: [n > 2], which is false. *)
Theorem C38_energy_partial : forall cfuel sp f fs th seg ps k e k',
  sp_ok sp -> fp_energy_sane f -> src_ok (f_src fs) -> Forall imp_ok ps ->
  fp_impacts cfuel sp f fs th seg ps k = Some (e, k') -> f_conserve f = true ->
  exists ns, fp_books f fs k ps ns seg e /\
    forall i, (i < length ps)%nat -> (2 <= nth i ns 0)%nat ->
      event_energy f ns e i <= INR (nth i ns 0%nat - 1) * i_E (impat ps i).
Proof. exact fp_energy. Qed.
Print Assumptions C38_energy_partial.

(** C38 is false as stated: whatever the special functions, three secondaries
    can carry 1.2 times the impact energy. *)
Theorem C38_refuted : forall sp, sp_ok sp -> exists f fs ps e k' ns,
  fp_energy_sane f /\ fp_yield_sane f /\ src_ok (f_src fs) /\ Forall imp_ok ps /\ f_conserve f = true /\
  fp_impacts 0 sp f fs 1 false ps 0 = Some (e, k') /\ fp_books f fs 0 ps ns false e /\
  type_at e 0 = 1%nat /\ i_E (impat ps 0) < event_energy f ns e 0.
Proof. exact energy_refuted. Qed.
Print Assumptions C38_refuted.

(** C38.  The loop that enforces the limit does not touch events of two or more
    electrons that respect it: the replaced macroparticle and all the new ones
    keep their energies, however often the others are drawn again.  [rep]: new
    macroparticles of each event. *)
Theorem C38_kept : forall sp f sr rep nn E fuel k En Ea En' Ea' k',
  conserve fuel sp f sr k rep nn E En Ea = Some (En', Ea', k') -> length E = length rep -> length En = length rep ->
  forall i, (i < length rep)%nat -> (0 < nth i rep 0)%nat -> in_budget rep E En Ea i ->
  nth i En' 0 = nth i En 0 /\ forall j, (j < nth i rep 0)%nat -> nth (first_of rep i + j)%nat Ea' 0 = nth (first_of rep i + j)%nat Ea 0.
Proof. exact conserve_keeps. Qed.
Print Assumptions C38_kept.

(** C38.  Not so for events of one electron, which have nothing to share: one
    of energy zero is drawn again because of the event before it. *)
Theorem C38_kept_refuted : exists sp f sr rep nn E fuel k En Ea En' Ea' k' i,
  sp_ok sp /\ fp_energy_sane f /\ src_ok sr /\ conserve fuel sp f sr k rep nn E En Ea = Some (En', Ea', k') /\
  length E = length rep /\ length En = length rep /\ (i < length rep)%nat /\ nth i rep 0%nat = 0%nat /\ nth i En 0 <= nth i E 0 /\
  nth i En' 0 <> nth i En 0.
Proof.
  pose proof ke_pos. pose proof kE_pos. eexists _, _, _, _, _, _, _, _, _, _, _, _, _, 1%nat.
  split; [exact exSp_ok|]. split; [apply (exF_sane true kE)|]. split; [apply (exRng_ok 3 (1/3)); lra|]. split; [exact k_run|].
  cbn [length nth]. repeat split; try lia; try lra.
Qed.
Print Assumptions C38_kept_refuted.
Example C38_kept_case : conserve 1 exSp (exF true kE) (f_src (exRng 3 (1/3))) 0 [1; 0; 1]%nat [2; 1; 2]%nat [kE; kE; kE] [kE; 0; ke] [kE; ke] =
  Some ([ke; ke; ke], [ke; ke], 3%nat) /\ in_budget [1; 0; 1]%nat [kE; kE; kE] [kE; 0; ke] [kE; ke] 2.
Proof. split; [exact k_run|exact (proj1 k_budget)]. Qed.

(** C39 (partial).  New macroparticles always get a fresh velocity; so do the
    replaced ones in a batch in which some event emits two or more electrons.
    Missing: batches without such an event, where the impact velocity is
    kept. *)
Theorem C39_fresh_partial : forall cfuel sp f fs th seg ps k e k',
  sp_ok sp -> fp_energy_sane f -> src_ok (f_src fs) -> Forall imp_ok ps ->
  fp_impacts cfuel sp f fs th seg ps k = Some (e, k') ->
  exists ns, fp_books f fs k ps ns seg e /\
    Forall2 (fp_fresh f) (repeat_each ps (map pred ns)) (nvels e) /\
    (forall i, (i < length ps)%nat -> type_at e i = 1%nat -> (exists j, 2 <= nth j ns 0)%nat ->
       fp_fresh f (impat ps i) (vel_at e i)) /\
    (forall i, (i < length ps)%nat -> type_at e i = 1%nat -> (forall j, nth j ns 0 <= 1)%nat ->
       vel_at e i = vimp (impat ps i)).
Proof. exact fp_fresh_all. Qed.
Print Assumptions C39_fresh_partial.

(** C39 is false as stated: a single true secondary keeps its impact velocity,
    directed into the wall. *)
Theorem C39_refuted : forall sp, sp_ok sp -> exists f fs ps e k',
  fp_energy_sane f /\ fp_yield_sane f /\ src_ok (f_src fs) /\ Forall imp_ok ps /\
  fp_impacts 0 sp f fs 1 false ps 0 = Some (e, k') /\ type_at e 0 = 1%nat /\
  vel_at e 0 = vimp (impat ps 0) /\
  normal_comp (i_nx (impat ps 0)) (i_ny (impat ps 0)) (fst3 (vel_at e 0)) (snd3 (vel_at e 0)) < 0.
Proof. exact velocity_refuted. Qed.
Print Assumptions C39_refuted.

(** C55.  Backscattered and rediffused electrons leave inwards with at most the
    impact energy, absorbed ones stop, and so do all new macroparticles leave
    inwards with at most the impact energy. *)
Theorem C55_energies : forall cfuel sp f fs th seg ps k e k',
  sp_ok sp -> fp_energy_sane f -> src_ok (f_src fs) -> Forall imp_ok ps ->
  fp_impacts cfuel sp f fs th seg ps k = Some (e, k') -> f_ecl_energy f = false ->
  (forall i, (i < length ps)%nat -> type_at e i = 0%nat \/ type_at e i = 2%nat -> out_loss f (impat ps i) (vel_at e i)) /\
  (forall i, (i < length ps)%nat -> type_at e i = 3%nat -> vel_at e i = (0, 0, 0)) /\
  exists parents, (forall p, In p parents -> In p ps) /\ n_nel e = map i_nel parents /\
    Forall2 (out_loss f) parents (nvels e).
Proof. exact fp_energies. Qed.
Print Assumptions C55_energies.

(** C55.  Yields are non-negative, and the one of the true secondaries is
    nowhere above its peak value. *)
Theorem C55_yields : forall f E ct, fp_yield_sane f -> 0 <= E -> 0 <= ct <= 1 ->
  0 <= delta_e f E ct /\ 0 <= delta_r f E ct /\ 0 <= delta_ts f E ct <= f_dTS f * ts_ang f ct.
Proof. exact fp_yields_ok. Qed.
Print Assumptions C55_yields.

(** C55.  At normal incidence (cosine one) the three yields are the published
    functions of the energy, whatever the settings of the angular dependence. *)
Theorem C55_normal : forall f E, fp_yield_sane f -> 0 < E -> E <> f_eEHat f ->
  delta_e f E 1 = f_p1EInf f + (f_p1Ehat f - f_p1EInf f) * exp (- Rpower (Rabs (E - f_eEHat f) / f_w f) (f_p f) / f_p f) /\
  delta_r f E 1 = f_p1RInf f * (1 - exp (- Rpower (E / f_eR f) (f_r f))) /\
  delta_ts f E 1 = f_dTS f * (f_s f * (E / f_eHat0 f) / (f_s f - 1 + Rpower (E / f_eHat0 f) (f_s f))).
Proof. exact normal_yields. Qed.
Print Assumptions C55_normal.

(** C55.  The more grazing the impact (the smaller the cosine), the larger the
    yields; for the true secondaries if their peak does not move with angle. *)
Theorem C55_grazing : forall f E c1 c2, fp_yield_sane f -> 0 <= E -> 0 <= c1 <= c2 -> c2 <= 1 ->
  delta_e f E c2 <= delta_e f E c1 /\ delta_r f E c2 <= delta_r f E c1 /\ (f_shift f = false -> delta_ts f E c2 <= delta_ts f E c1).
Proof. exact grazing_yields. Qed.
Print Assumptions C55_grazing.

Example C55_case : fp_yield_sane (exF true 1) /\ 0 < 2 /\ 2 <> f_eEHat (exF true 1) /\ f_shift (exF true 1) = false /\ 0 <= 1/2 <= 1.
Proof. split; [apply exF_ysane; lra|]. cbn. repeat split; lra. Qed.

Example C36_example : sp_ok exSp /\ fp_energy_sane (exF true 1) /\ fp_yield_sane (exF true 1) /\ imp_ok (exI 1) /\
  src_ok (f_src (exRng 3 (1/2))) /\ f_conserve (exF true 1) = true /\
  exists E u e k', 0 < E /\ 0 < u < 1 /\ fp_impacts 0 exSp (exF true E) (exRng 3 u) 1 false [exI E] 0 = Some (e, k') /\
    o_tot e = [5 * INR 3].
Proof.
  split; [exact exSp_ok|]. split; [apply exF_sane|]. split; [apply exF_ysane; lra|]. split; [apply exI_ok; lra|]. split; [apply exRng_ok; lra|].
  split; [reflexivity|]. destruct (energy_broken exSp exSp_ok) as (E & u & e & k' & A & B & C & _ & D & _). exists E, u, e, k'. auto.
Qed.
Example C36_returns_example : f_ecl_energy (exF false 1) = false /\ f_conserve (exF false 1) = false /\
  c_angle (f_e (exF false 1)) = Some NormalEmission /\ (f_Mcut (exF false 1) <= length (f_eps (exF false 1)))%nat /\
  (f_Mcut (exF false 1) <= length (f_pn (exF false 1)))%nat /\
  forall p, In p [exI 1] -> de_of (exF false 1) p + delta_r (exF false 1) (i_E p) (i_ct p) < 1.
Proof. repeat (split; [reflexivity || (cbn; lia)|]). intros p _. unfold de_of. rewrite ex_de, ex_dr. lra. Qed.

(** C10, C53, C61.  With any parameters, special functions and random numbers
    the model is an emission model in the sense of the theorems about the wall
    and about whole runs, if the origin is inside the chamber: absorbed MPs are
    parked there until they are cleaned away.  No charge gets negative. *)
Theorem C10_furman_pivi : forall w cfuel sp f fs, w_out w 0 0 = false ->
  emitter_ok w (fp_em cfuel sp f fs) /\ emitter_pos (fp_em cfuel sp f fs).
Proof. intros w cfuel sp f fs H. split; [apply fp_em_ok; exact H|apply fp_em_pos]. Qed.
Print Assumptions C10_furman_pivi.

(** The chambers of the code contain the origin (the semi-axes of the ellipse
    inscribed in a polygon are not zero: the code divides by them). *)
Theorem C10_furman_pivi_chambers : forall cfuel sp f fs resc,
  (forall e, ellip_ok e -> emitter_ok (ell_wall e resc) (fp_em cfuel sp f fs)) /\
  (forall p, p_cx p <> 0 -> p_cy p <> 0 -> emitter_ok (poly_wall p resc) (fp_em cfuel sp f fs)).
Proof.
  intros cfuel sp f fs resc. split; intros.
  - apply fp_em_ok, ell_origin. assumption.
  - apply fp_em_ok, poly_origin.
Qed.
Print Assumptions C10_furman_pivi_chambers.

Example C10_furman_pivi_case : w_out ExImpact.exW 0 0 = false /\
  exists E u e st', fp_em 0 exSp (exF true E) (exRng 3 u) 1 false [exI E] (0%nat, []) = Some (e, st') /\ o_tot e = [5 * INR 3].
Proof.
  split; [apply ExImpact.exW_in; lra|]. destruct (energy_broken exSp exSp_ok) as (E & u & e & k' & A & B & C & _ & D & _). exists E, u, e, (k', []).
  unfold fp_em. cbn [fst snd]. rewrite C. auto.
Qed.
