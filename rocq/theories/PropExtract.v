(** C90: extracted yields and spectra. C91: extracted cross sections. *)
From Coq Require Import String Lra Lia.
From Verif Require Import Num NumFacts MP SpecMP Fort SpecFort CrossIon SpecCrossIon CrossIonFacts Sey SpecSey SeyFacts ExSey Furman SpecFurman Impact SpecImpact Extract SpecExtract ExtractFacts ExtractFacts2 ExtractFacts3 ExtractFacts4 ExFurman ExCrossIon ExExtract ExExtract2.
Local Open Scope list_scope.
Local Open Scope R_scope.

(** Every node of the extracted curves comes from its own random numbers. With
    [pr] the probability of a reflection and [a] the share of the numbers below
    it, the two curves hold the charge of a reflection times [a] and of true
    emission times [1-a]; with [a] equal to [pr] they are the reflected and the
    true yield of the model at that energy and angle. For all models but the
    accurate one their sum is the yield of the model, whatever the random
    numbers. *)
Theorem C90_yields : forall m c sr, src_ok sr -> 0 < c_qe c -> 0 < c_mass c -> forall n Es cts k D k',
  sey_params_ok m -> (forall E, In E Es -> 0 <= E) -> (forall ct, In ct cts -> 0 <= ct <= 1) ->
  extract_sey_curves (std_emitter m c sr) types_ecloud (c_qe c) (c_mass c) n Es cts k = Some (D, k') ->
  exists pos, own_numbers n (length Es) pos (length cts) k k' /\
  forall i j ct E p t r, nth_error cts i = Some ct -> nth_error Es j = Some E -> lands p E ct -> law m p = Some (t, r) ->
  exists refl true_, at2 D i j [refl; true_] /\
  exists pr q_refl q_true, 0 <= pr <= 1 /\ pr * q_refl = r /\ (1 - pr) * q_true = t /\
    let a := share_below (s_uni sr) (pos i j) n pr in refl = a * q_refl /\ true_ = (1 - a) * q_true /\ (same_charge m -> refl + true_ = t + r).
Proof. exact yields_table. Qed.
Print Assumptions C90_yields.
(** The same for yields from a file. *)
Theorem C90_file : forall m c sr, src_ok sr -> 0 < c_qe c -> 0 < c_mass c -> forall tb n Es cts k D k', m = MFile tb -> (forall E, In E Es -> 0 <= E) ->
  extract_sey_curves (std_emitter m c sr) types_ecloud (c_qe c) (c_mass c) n Es cts k = Some (D, k') ->
  exists pos, own_numbers n (length Es) pos (length cts) k k' /\
  forall i j ct E, nth_error cts i = Some ct -> nth_error Es j = Some E ->
  exists d f, tab_values tb E ct = Some (d, f) /\ let a := share_below (s_uni sr) (pos i j) n f in at2 D i j [a * d; (1 - a) * d].
Proof. exact yields_file. Qed.
Print Assumptions C90_file.
(** The Furman-Pivi model: the four curves hold the numbers of electrons of the
    four kinds of events per impact. *)
Theorem C90_furman_pivi : forall cfuel sp f fs qe mass n Es cts st D st', sp_ok sp -> fp_energy_sane f -> src_ok (f_src fs) ->
  (forall E, In E Es -> 0 <= E) -> (forall ct, In ct cts -> 0 <= ct <= 1) ->
  extract_sey_curves (fp_em cfuel sp f fs) types_furman_pivi qe mass n Es cts st = Some (D, st') ->
  forall i j ct E p, nth_error cts i = Some ct -> nth_error Es j = Some E -> lands p E ct ->
  exists k (ty ns : nat -> nat), (forall a, (a < n)%nat -> fp_outcome f p (s_uni (f_src fs) (k + a)) (ty a) (ns a)) /\
  at2 D i j (map (fun t => total_over n (fun a => if Nat.eqb (ty a) t then INR (ns a) else 0) / INR n) [0; 1; 2; 3]%nat).
Proof. exact fp_table. Qed.
Print Assumptions C90_furman_pivi.
(** An absorbing surface: zero. *)
Theorem C90_absorber : forall qe mass n Es cts D, extract_sey_curves absorber types_absorber qe mass n Es cts tt = Some (D, tt) ->
  forall i j, (i < length cts)%nat -> (j < length Es)%nat -> at2 D i j [0].
Proof. exact absorber_table. Qed.
Print Assumptions C90_absorber.
(** Spectra: the reflected electrons are at the energy of the impact; the true
    secondaries and their clones are at allowed energies; every electron is
    counted once, shared between the two bins next to its energy. *)
Theorem C90_spectra : forall m c sr, src_ok sr -> 0 < c_qe c -> 0 < c_mass c -> forall n E cts Nbin factor k H k',
  0 < E -> 0 < factor -> (forall ct, In ct cts -> 0 <= ct <= 1) ->
  extract_energy_distributions (std_emitter m c sr) types_ecloud (c_qe c) (c_mass c) n E cts Nbin factor k = Some (H, k') ->
  let D := E * factor / (INR Nbin - 1) in
  (2 <= Nbin)%nat /\ 0 < D /\ forall i, (i < length cts)%nat -> exists refl true_ (a b : nat) ens,
    nth_error H i = Some [refl; true_] /\ length refl = Nbin /\ length true_ = Nbin /\ (a + b = n)%nat /\ (b <= length ens)%nat /\ Forall (energy_ok c E) ens /\
    rsum refl = INR a /\ rsum true_ = INR (length ens) /\
    forall j, (j < Nbin)%nat -> nth j refl 0 = INR a * bin_share 0 D Nbin j (E, 1) /\ nth j true_ 0 = rsum (map (fun x => bin_share 0 D Nbin j (x, 1)) ens).
Proof. exact spectra. Qed.
Print Assumptions C90_spectra.
(** Spectra of the Furman-Pivi model: one for each of the four kinds of events.
    Each impact is counted in the spectrum of its event, once for each electron;
    an absorbed one is counted once, at energy 0. *)
Theorem C90_spectra_furman_pivi : forall cfuel sp f fs, sp_ok sp -> fp_energy_sane f -> src_ok (f_src fs) -> forall n E cts Nbin factor st H st',
  0 < E -> 0 < factor -> (forall ct, In ct cts -> 0 <= ct <= 1) ->
  extract_energy_distributions (fp_em cfuel sp f fs) types_furman_pivi (c_qe (f_e f)) (c_mass (f_e f)) n E cts Nbin factor st = Some (H, st') ->
  let D := E * factor / (INR Nbin - 1) in
  (2 <= Nbin)%nat /\ 0 < D /\ forall i ct p, nth_error cts i = Some ct -> lands p E ct ->
  exists k (ty ns : nat -> nat) (ens : nat -> list R) h0 h1 h2 h3,
    (forall a, (a < n)%nat -> fp_outcome f p (s_uni (f_src fs) (k + a)) (ty a) (ns a)) /\
    nth_error H i = Some [h0; h1; h2; h3] /\
    forall t h, nth_error [h0; h1; h2; h3] t = Some h ->
      length (ens t) = nsum (map (fun a => if Nat.eqb (ty a) t then Nat.max 1 (ns a) else 0%nat) (seq 0 n)) /\
      Forall (fp_energy_at f E t) (ens t) /\ length h = Nbin /\ rsum h = INR (length (ens t)) /\
      forall j, (j < Nbin)%nat -> nth j h 0 = rsum (map (fun x => bin_share 0 D Nbin j (x, 1)) (ens t)).
Proof. exact fp_spectra. Qed.
Print Assumptions C90_spectra_furman_pivi.
Example C90_spectra_furman_pivi_case : sp_ok exSp /\ fp_energy_sane (exF false 1) /\ src_ok (f_src (exRng 3 (1/2))) /\
  exists H st', extract_energy_distributions (fp_em 0 exSp (exF false 1) (exRng 3 (1/2))) types_furman_pivi (c_qe (f_e (exF false 1))) (c_mass (f_e (exF false 1))) 2 1 [1] 5 2 (0%nat, []) = Some (H, st').
Proof. split; [exact exSp_ok|]. split; [apply exF_sane|]. split; [apply exRng_ok; lra|exact fp_spectra_case]. Qed.
(** Extraction is not harmless: with insulating edges it leaves charge on the
    wall, and later impacts emit another charge. *)
Theorem C90_harmless_refuted : exists segs E0 gs c sr n Es cts k Qs D k' Qs', extract_sey_curves (charging_emitter segs E0 gs c sr) types_ecloud (c_qe c) (c_mass c) n Es cts (k, Qs) = Some (D, (k', Qs')) /\
  src_ok sr /\ exists u p, charging_one segs E0 gs Qs' u p <> charging_one segs E0 gs Qs u p.
Proof.
  destruct charged_after as (D & k' & E). exists csegs, 150, cgs, ex_cfg, ex_sr, 1%nat, [300], [1], 0%nat, [0; 0], D, k', [0; 1].
  split; [exact E|]. split; [exact ex_src_ok|]. exists (1/2), tp. exact less_after.
Qed.
Print Assumptions C90_harmless_refuted.
(** One impact at the peak: no reflection, yield 2. *)
Example C90_case : src_ok ex_sr /\ sey_params_ok ex_mod /\ exists k', extract_sey_curves (std_emitter ex_mod ex_cfg ex_sr) types_ecloud 1 1 1 [300] [1] 0%nat = Some ([[[0; 2]]], k').
Proof. split; [exact ex_src_ok|]. split; [cbn; unfold s135; lra|exact curve_2]. Qed.

(** The interpolated cross section is the one used in the simulation; the sampled
    one of each product differs from it by at most the one that gives one
    macroparticle of the product for each projectile. *)
Theorem C91_sigma : forall qe Dt cl mass ref n Es p rng k rows k' B, 0 < qe -> 0 < mass -> 0 < Dt -> 0 < ref -> n <> 0%nat -> 0 < x_dens p -> table_ok p ->
  (forall c, In c cl -> 0 < nel_mp_ref (xc_mp c) <= B) -> (forall j, 0 <= rng j) -> (forall E, In E Es -> 0 <= E) ->
  extract_sigma qe Dt cl mass ref n Es p rng k = Some (rows, k') ->
  forall i E, nth_error Es i = Some E -> exists sg ests, get_sigma (x_tab p) E = Some sg /\ nth_error rows i = Some (sg * 10 ^ 4, ests) /\ map fst ests = x_prods p /\
  forall name s, In (name, s) ests -> (E = 0 -> s = 0) /\ (0 < E -> Rabs (s - sg * 10 ^ 4) <= 10 ^ 4 * B / (ref * x_dens p * sqrt (2 * E * qe / mass) * Dt)).
Proof. exact sigma_table. Qed.
Print Assumptions C91_sigma.
(** One energy, one product. *)
Example C91_case : table_ok (xP 2 3) /\ 0 < x_dens (xP 2 3) /\ (forall c, In c xcl -> 0 < nel_mp_ref (xc_mp c) <= 1) /\
  exists rows k', extract_sigma 1 1 xcl 2 1 1 [1] (xP 2 3) half 0 = Some (rows, k').
Proof.
  split; [exact xT_ok|]. split; [cbn; lra|]. split; [intros c [<-|[<-|[]]]; cbn; lra|].
  unfold extract_sigma. cbn [loopO]. unfold sigma_node. change (x_tab (xP 2 3)) with xT. rewrite xT_at1. cbn [bind].
  assert (Q : exists z, process_generate 1 (xP 2 3) 1 xcl 2 (map (fun q => mkPj q 0 0 0 (sqrt (2 * 1 * 1 / 2) * 1)) (repeat (1 * 1) 1)) half 0 = Some z).
  { replace (2 * 1 * 1 / 2) with 1 by field. rewrite sqrt_1. unfold process_generate. cbn [repeat map xmapM]. unfold DN_one. cbn [j_v j_nel]. replace (1/2 * 2/1 * (1 * 1) * (1 * 1)) with 1 by field. change (x_tab (xP 2 3)) with xT. rewrite xT_at1. cbn [bind x_equal xP x_prods products_loop].
    change (find_cloud "i" xcl) with (Some (mkXcloud "i" 3 xi)). cbn [bind]. destruct (product_info _ _ _ _ _ _ _ _) as [i k1]. cbn [bind]. eauto. }
  destruct Q as [[[[p' infos] dn] k1] ->]. cbn [bind].
  assert (R1 : exists es, mapO (fun ni : string * xinfo => do x <- (if Rgtb (sqrt (2 * 1 * 1 / 2)) 0 then if Reqb (x_dens (xP 2 3)) 0 then None else Some (rsum (CrossIon.n_nel (snd ni)) / x_dens (xP 2 3) / sqrt (2 * 1 * 1 / 2) / 1 / rsum (repeat (1 * 1) 1) * 10 ^ 4) else Some (0 * 10 ^ 4)) ; Some (fst ni, x)) infos = Some es).
  { assert (Z : Reqb (x_dens (xP 2 3)) 0 = false) by (destruct (Reqb (x_dens (xP 2 3)) 0) eqn:E; [apply Reqb_true in E; cbn in E; lra|reflexivity]). rewrite Z.
    induction infos as [|a l [es IH]]; [eexists; reflexivity|]. cbn [mapO]. rewrite IH. destruct (Rgtb _ _); cbn [bind]; eauto. }
  destruct R1 as [es R1]. rewrite R1. cbn [bind]. eauto.
Qed.
