(** Properties C40, C41 and C60: cross ionisation. *)
From Coq Require Import Lra Lia String.
From Verif Require Import Num MP SpecMP CrossIon SpecCrossIon CrossIonFacts CrossIonFacts2 CrossIonFacts3 CrossIonFacts4 CrossIonFacts5 CrossIonFacts6 ExCrossIon.
Local Open Scope list_scope.
Local Open Scope R_scope.

(** C40.  As long as the targets are not exhausted: one call only adds
    macroparticles to the clouds, each of them where a projectile is; the
    charge and the number recorded for a cloud grow by the charge and the
    number added to it; the ionisations recorded are those taken from the
    targets; clouds that are no products are not touched. *)
Theorem C40_recorded_is_added : forall qe Dt x cl rng k x' cl' k', 0 <= Dt ->
  targets_ok x -> tables_ok x -> prods_ok x -> clouds_ok cl ->
  cross_generate qe Dt x cl rng k = Some (x', cl', k') ->
  Forall2 (grown (is_projectile x cl) (xi_cnt x) (xi_cnt x')) cl cl' /\
  fired (c_DN (xi_cnt x)) (procs_of x) (procs_of x') (c_DN (xi_cnt x')) /\
  xi_prods x' = xi_prods x /\ map fst (xi_procs x') = map fst (xi_procs x) /\
  forall c, In c cl -> ~ In (xc_name c) (xi_prods x) -> In c cl'.
Proof. exact generate_main. Qed.
Print Assumptions C40_recorded_is_added.

Example C40_case : targets_ok (xX 2 3) /\ tables_ok (xX 2 3) /\ prods_ok (xX 2 3) /\ clouds_ok xcl /\
  exists x', cross_generate 1 1 (xX 2 3) xcl half 0 = Some (x', [mkXcloud "e" 2 xe; mkXcloud "i" 3 xi2], 7%nat) /\
    c_nel (xi_cnt x') "i" = 2 /\ c_N (xi_cnt x') "i" = 2%Z.
Proof.
  destruct (xX_targets 3 ltac:(lra)) as (A & B & C). split; [exact A|]. split; [exact B|]. split; [exact C|]. split; [exact xcl_ok|].
  destruct (xgen 3 0) as (x' & E & E1 & E2 & _). exists x'. auto.
Qed.

(** Reading returns the counters of the cloud, resets them, and touches no
    other cloud. *)
Theorem C40_read_resets : forall x name r x', save_cross_ion_data x name = (r, x') ->
  r = (c_nel (xi_cnt x) name, c_N (xi_cnt x) name, c_DN (xi_cnt x) name) /\
  (c_nel (xi_cnt x') name = 0 /\ c_N (xi_cnt x') name = 0%Z /\ c_DN (xi_cnt x') name = 0) /\
  (forall m, m <> name -> c_nel (xi_cnt x') m = c_nel (xi_cnt x) m /\ c_N (xi_cnt x') m = c_N (xi_cnt x) m /\ c_DN (xi_cnt x') m = c_DN (xi_cnt x) m) /\
  xi_procs x' = xi_procs x /\ xi_prods x' = xi_prods x.
Proof. exact save_resets. Qed.
Print Assumptions C40_read_resets.

(** Over any history of calls, reads and other changes of the clouds: what the
    reads of a cloud have returned, together with what is in its counter, is
    what the calls have added to it. *)
Theorem C40_history : forall qe procs cl x s', xion_ctor procs cl = Some x ->
  hrun qe (x, cl, mkLed (fun _ => 0) (fun _ => 0%Z) (fun _ => 0) (fun _ => 0%Z)) s' ->
  forall m, In m (map xc_name (snd (fst s'))) ->
  c_nel (xi_cnt (fst (fst s'))) m + read (snd s') m = added (snd s') m /\
  (c_N (xi_cnt (fst (fst s'))) m + readN (snd s') m = addedN (snd s') m)%Z.
Proof. exact history_main. Qed.
Print Assumptions C40_history.

Example C40_history_case : exists x' cl' L, hrun 1 (xX 2 3, xcl, mkLed (fun _ => 0) (fun _ => 0%Z) (fun _ => 0) (fun _ => 0%Z)) (x', cl', L) /\
  added L "i" = 2 /\ read L "i" = 2.
Proof. exact history_case. Qed.

(** One process: each product receives macroparticles of one size (its own
    reference size unless the products are generated equally), whose total is
    the number of ionisations up to one macroparticle per projectile; with
    [generate_equally] all products receive the same macroparticles. *)
Theorem C40_process : forall qe p Dt cl mass s rng k p' infos D k',
  (forall E sg, get_sigma (x_tab p) E = Some sg -> 0 <= sg) ->
  0 <= x_dens p -> 0 <= Dt -> clouds_ok cl -> (forall j, 0 <= rng j < 1) ->
  Forall (fun q => 0 <= m_nel q) (live s) ->
  process_generate qe p Dt cl mass (projectiles s) rng k = Some (p', infos, D, k') ->
  (exists DN, Forall2 (hits qe p Dt mass) (live s) DN /\ D = rsum DN) /\ depleted p p' D /\ map fst infos = x_prods p /\
  Forall (fun i => exists ref, 0 < ref /\ (x_equal p = false -> exists c, In c cl /\ xc_name c = fst i /\ ref = nel_mp_ref (xc_mp c)) /\
    Forall (fun e => e = ref) (n_nel (snd i)) /\ n_N (snd i) = Z.of_nat (List.length (n_nel (snd i))) /\
    Rabs (rsum (n_nel (snd i)) - D) <= INR (N_mp s) * ref) infos /\
  (x_equal p = true -> forall a b, In a infos -> In b infos ->
    n_nel (snd a) = n_nel (snd b) /\ n_x (snd a) = n_x (snd b) /\ n_y (snd a) = n_y (snd b) /\ n_z (snd a) = n_z (snd b)).
Proof. exact process_charge. Qed.
Print Assumptions C40_process.

(** With [generate_equally] that size is the mean of the reference sizes of
    the products. *)
Theorem C40_equal_size : forall qe p Dt cl mass s rng k p' infos D k',
  (forall E sg, get_sigma (x_tab p) E = Some sg -> 0 <= sg) -> 0 <= x_dens p -> 0 <= Dt -> clouds_ok cl ->
  Forall (fun q => 0 <= m_nel q) (live s) ->
  process_generate qe p Dt cl mass (projectiles s) rng k = Some (p', infos, D, k') -> x_equal p = true ->
  exists refs, Forall2 (fun name e => exists c, In c cl /\ xc_name c = name /\ e = nel_mp_ref (xc_mp c)) (x_prods p) refs /\
    Forall (fun i => Forall (fun e => e = rsum refs / INR (List.length refs)) (n_nel (snd i))) infos.
Proof. exact process_sizes. Qed.
Print Assumptions C40_equal_size.

(** Every velocity component of every new macroparticle uses a random number
    of its own. *)
Theorem C40_velocities : forall qe p Dt cl mass pr rng k p' infos D k',
  process_generate qe p Dt cl mass pr rng k = Some (p', infos, D, k') ->
  exists ts, Forall2 (started_by qe (x_E p) rng cl) infos ts /\ NoDup (flat_map ids ts) /\
    Forall (fun j => (k <= j < k')%nat) (flat_map ids ts).
Proof. exact process_velocities. Qed.
Print Assumptions C40_velocities.

(** The same for a whole call: each macroparticle added to a cloud is thrown by
    a process with this product, with three random numbers drawn during the
    call that are used for nothing else. *)
Theorem C40_new_velocities : forall qe Dt x cl rng k x' cl' k', 0 <= Dt ->
  targets_ok x -> tables_ok x -> prods_ok x -> clouds_ok cl ->
  cross_generate qe Dt x cl rng k = Some (x', cl', k') ->
  exists T, Forall2 (newly qe rng x T) cl cl' /\
    (forall n, NoDup (flat_map used (T n)) /\ Forall (fun u => (k <= u < k')%nat) (flat_map used (T n))) /\
    forall n m u, In u (flat_map used (T n)) -> In u (flat_map used (T m)) -> n = m.
Proof. exact generate_velocities. Qed.
Print Assumptions C40_new_velocities.

(** The products are the names given in the processes, each of them once. *)
Theorem C40_products : forall procs cl x, xion_ctor procs cl = Some x ->
  NoDup (xi_prods x) /\ xi_procs x = procs /\
  forall n, In n (xi_prods x) <-> exists name ps p, In (name, ps) procs /\ In p ps /\ In n (x_prods p).
Proof. exact products_named. Qed.
Print Assumptions C40_products.

(** The processes are accepted when every projectile and every product is the
    name of a cloud. *)
Theorem C40_accepted : forall procs cl, (exists x, xion_ctor procs cl = Some x) <->
  (forall name ps, In (name, ps) procs -> In name (map xc_name cl) /\
    forall p n, In p ps -> In n (x_prods p) -> In n (map xc_name cl)).
Proof. exact ctor_accepts. Qed.
Print Assumptions C40_accepted.

Example C40_process_case : process_generate 1 (xP 2 3) 1 xcl 2 (projectiles xe) half 0 = Some (deplete (xP 2 3) 2, [("i"%string, ion2)], 2, 7%nat).
Proof. exact (xgen2 3 0). Qed.

(** Without the condition on the targets the claim is false: after a target is
    exhausted the recorded number falls although nothing is added or removed. *)
Theorem C40_exhausted_refuted : exists qe Dt x0 cl rng x1 cl1 k1 x2 k2,
  targets_ok x0 /\ tables_ok x0 /\ clouds_ok cl /\
  cross_generate qe Dt x0 cl rng 0 = Some (x1, cl1, k1) /\
  cross_generate qe Dt x1 cl rng k1 = Some (x2, cl, k2) /\
  (c_N (xi_cnt x2) "i" < c_N (xi_cnt x1) "i")%Z.
Proof. exact exhausted_refuted. Qed.
Print Assumptions C40_exhausted_refuted.

(** C41.  The claim is false of the code: one call can ionise more particles
    than there are. *)
Theorem C41_refuted : exists x x' cl' k', 
  cross_generate 1 1 x xcl half 0 = Some (x', cl', k') /\ Forall (fun p => 0 <= x_N p) (procs_of x) /\
  Exists (fun p => x_N p < 0) (procs_of x').
Proof. exact (ex_intro _ (xX 2 (1/2)) x_exhausted). Qed.
Print Assumptions C41_refuted.

(** It holds over every sequence of calls in which the projectiles of one
    process sweep at most the area of the target in one step. *)
Theorem C41_gentle_partial : forall qe x x', Forall target_full (procs_of x) -> gentle_run qe x x' ->
  Forall (fun p => 0 <= x_N p /\ x_dens p = x_N p / x_area p) (procs_of x').
Proof. exact gentle_main. Qed.
Print Assumptions C41_gentle_partial.

(** This is how a process begins, with the given density over the given area. *)
Theorem C41_start : forall tab dens area E equal prods, 0 < area -> 0 <= dens ->
  target_full (xproc_ctor tab dens area E equal prods) /\ x_N (xproc_ctor tab dens area E equal prods) = dens * area.
Proof. exact xproc_full. Qed.
Print Assumptions C41_start.

Example C41_case : Forall target_full (procs_of (xX 2 3)) /\ gentle 1 1 (xX 2 3) xcl /\ exists x' cl' k', cross_generate 1 1 (xX 2 3) xcl half 0 = Some (x', cl', k').
Proof. split; [exact xX_full|]. split; [exact xX_gentle|]. destruct (xgen 3 0) as (x' & E & _). eexists _, _, _. exact E. Qed.

(** C60.  Cross sections from an equally spaced table: zero outside, on the
    straight line between the points inside. *)
Theorem C60_linear_table : forall energy sigma e0 h n,
  uniform_grid energy e0 h -> List.length energy = S (S n) -> List.length sigma = S (S n) ->
  exists t, xtab_ctor energy sigma = Some t /\
    (forall E, E < e0 \/ e0 + INR (S n) * h < E -> get_sigma t E = Some 0) /\
    (forall i r, (i <= S n)%nat -> 0 <= r < 1 -> (i = S n -> r = 0) ->
       get_sigma t (e0 + (INR i + r) * h) = Some (between sigma i r)).
Proof. exact table_linear. Qed.
Print Assumptions C60_linear_table.

(** No energy raises, and no cross section is negative unless the table is. *)
Theorem C60_linear_table_total : forall energy sigma e0 h n t,
  uniform_grid energy e0 h -> List.length energy = S (S n) -> List.length sigma = S (S n) ->
  xtab_ctor energy sigma = Some t -> Forall (fun v => 0 <= v) sigma -> forall E, exists s, get_sigma t E = Some s /\ 0 <= s.
Proof. exact table_linear_nonneg. Qed.
Print Assumptions C60_linear_table_total.

(** The same for tables equally spaced in the logarithm of the energy. *)
Theorem C60_log_table : forall energy sigma l0 h n,
  log_grid energy l0 h -> List.length energy = S (S n) -> List.length sigma = S (S n) ->
  exists t, xtab_ctor energy sigma = Some t /\
    (forall E, 0 < E -> ln E / ln 10 < l0 \/ l0 + INR (S n) * h < ln E / ln 10 -> get_sigma t E = Some 0) /\
    (forall E, E <= 0 -> get_sigma t E = Some 0) /\
    (forall E i r, 0 < E -> (i <= S n)%nat -> 0 <= r < 1 -> (i = S n -> r = 0) ->
       ln E / ln 10 = l0 + (INR i + r) * h -> get_sigma t E = Some (between sigma i r)).
Proof. exact table_log. Qed.
Print Assumptions C60_log_table.

Example C60_case : uniform_grid xE 0 10 /\ log_grid lE 0 1.
Proof. exact (conj xE_grid lE_grid). Qed.
