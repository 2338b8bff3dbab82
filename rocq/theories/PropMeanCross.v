(** C101: mean charge of the products of cross ionisation. *)
From Coq Require Import Reals List Lra Lia String.
From Verif Require Import Num MP SpecMP CrossIon SpecCrossIon ExCrossIon SpecMean SpecMeanCross MeanCross.
Import ListNotations.
Local Open Scope R_scope.

(** C101.  Products generated equally: averaged over the one number drawn per
    projectile, each product of the process gets as many particles as there are
    ionisations ([D], see [C40_process]). *)
Theorem C101_cross_equal : forall qe p Dt cl mass s rng k j p' infos D k',
  (forall E sg, get_sigma (x_tab p) E = Some sg -> 0 <= sg) -> 0 <= x_dens p -> 0 <= Dt -> clouds_ok cl ->
  Forall (fun q => 0 <= m_nel q) (live s) ->
  process_generate qe p Dt cl mass (projectiles s) rng k = Some (p', infos, D, k') ->
  x_equal p = true -> (j < List.length (x_prods p))%nat ->
  averages (N_mp s) (fun us => product_charge j (process_generate qe p Dt cl mass (projectiles s) (with_list rng k us) k)) D.
Proof. exact equal_average. Qed.
Print Assumptions C101_cross_equal.

(** C101.  Each product with its own size of macroparticles: the same, averaged
    over the numbers drawn for that product, whatever was drawn for the
    products before it and for the velocities. *)
Theorem C101_cross_own : forall qe p Dt cl mass s rng k j kj p' infos D k' p1 i1 D1,
  (forall E sg, get_sigma (x_tab p) E = Some sg -> 0 <= sg) -> 0 <= x_dens p -> 0 <= Dt -> clouds_ok cl ->
  Forall (fun q => 0 <= m_nel q) (live s) ->
  process_generate qe p Dt cl mass (projectiles s) rng k = Some (p', infos, D, k') ->
  x_equal p = false -> (j < List.length (x_prods p))%nat ->
  process_generate qe (first_products j p) Dt cl mass (projectiles s) rng k = Some (p1, i1, D1, kj) ->
  averages (N_mp s) (fun us => product_charge j (process_generate qe p Dt cl mass (projectiles s) (with_list rng kj us) k)) D.
Proof. exact own_average. Qed.
Print Assumptions C101_cross_own.

Example C101_cross_own_case : process_generate 1 (xP 2 3) 1 xcl 2 (projectiles xe) half 0 = Some (deplete (xP 2 3) 2, [("i"%string, ion2)], 2, 7%nat) /\
  exists p1 i1 D1, process_generate 1 (first_products 0 (xP 2 3)) 1 xcl 2 (projectiles xe) half 0 = Some (p1, i1, D1, 0%nat).
Proof.
  pose proof (xgen2 3 0) as E. split; [exact E|]. unfold process_generate in E |- *.
  change (DN_one 1 (first_products 0 (xP 2 3)) 1 2) with (DN_one 1 (xP 2 3) 1 2).
  destruct (xmapM (DN_one 1 (xP 2 3) 1 2) (projectiles xe)) as [DN|]; [|discriminate]. cbn. eauto.
Qed.
Example C101_cross_equal_case : let p := mkXproc xT 2 3 6 0 true ["i"%string] in
  clouds_ok xcl /\ exists p1 i1 D1 k1, process_generate 1 p 1 xcl 2 (projectiles xe) half 0 = Some (p1, i1, D1, k1).
Proof.
  split; [exact xcl_ok|]. pose proof (xgen2 3 0) as E. unfold process_generate in E |- *.
  change (DN_one 1 (mkXproc xT 2 3 6 0 true ["i"%string]) 1 2) with (DN_one 1 (xP 2 3) 1 2).
  destruct (xmapM (DN_one 1 (xP 2 3) 1 2) (projectiles xe)) as [DN|]; [|discriminate]. clear E. cbn [x_equal x_prods].
  destruct (mean_ref xcl (INR (List.length ["i"%string])) ["i"%string] 0) as [r|] eqn:MR; [|discriminate]. cbn [bind products_loop].
  change (find_cloud "i" xcl) with (Some (mkXcloud "i" 3 xi)). cbn [bind].
  destruct (product_info _ _ _ _ _ _ _ _) as [i k1]. cbn [bind]. eauto.
Qed.
