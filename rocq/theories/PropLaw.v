(** C100: the laws of the energies and directions that are drawn. *)
From Coq Require Import Reals List String Lra Lia.
From Verif Require Import Num Sey Source SpecSource Furman SpecFurman FpDist SpecLaw LawFacts2 LawFacts3 LawFacts4 ExFurman ExLaw.
Local Open Scope R_scope.

(** C100.  The energy of a backscattered electron has the published density: a
    Gaussian of the width asked for, cut at 0 and at the impact energy.  The
    functions offered to users give this density and, called with this width,
    this distribution function. *)
Theorem C100_backscattered : forall sp f E, sp_ok sp -> erf_exact sp -> fp_energy_sane f -> 0 < E ->
  exists F, law (en_back sp f E) (between 0 E) F /\ F 0 = 0 /\ F E = 1 /\ density F (gauss_density sp (peak_width f E) E) 0 E /\
    (forall es, backscattered_energy_PDF sp f es E = map (gauss_density sp (peak_width f E) E) es) /\
    (forall es, backscattered_energy_CDF sp es E (Some (peak_width f E)) = map F es).
Proof. exact back_all. Qed.
Print Assumptions C100_backscattered.

(** C100.  So does the energy of a rediffused electron, a power of the energy. *)
Theorem C100_rediffused : forall f E, fp_energy_sane f -> 0 < E ->
  exists F, law (en_rediff f E) (between 0 E) F /\ F 0 = 0 /\ F E = 1 /\ density F (power_density (f_q f) E) 0 E /\
    (forall es, Forall (fun e => 0 < e) es -> rediffused_energy_PDF es (map (fun _ => E) es) (Some (f_q f)) = Some (map (power_density (f_q f) E) es)) /\
    (forall es, rediffused_energy_CDF es (map (fun _ => E) es) (Some (f_q f)) = map F es).
Proof. exact redif_all. Qed.
Print Assumptions C100_rediffused.

(** C100.  So does the energy of a true secondary of an event with [n]
    electrons: a power times an exponential, cut at the impact energy.  Energies
    so small that they have less than 1e-12 of the uncut distribution below
    them are replaced by 0. *)
Theorem C100_true_secondary : forall sp f E n eps p G, sp_ok sp -> fp_energy_sane f -> 0 < E -> (1 <= n)%nat ->
  nth_error (f_eps f) (n - 1) = Some eps -> nth_error (f_pn f) (n - 1) = Some p -> ginc_exact sp p G ->
  exists F c, 0 < c /\ density F (fun e => c * gamma_shape p eps e) 0 E /\ F 0 = 0 /\ F E = 1 /\
    (forall e, between 0 E e -> F e = ginc sp p (e / eps) / ginc sp p (E / eps)) /\
    forall u, 0 <= u < 1 -> exists x, en_true1 sp f n E u = Some x /\ between 0 E x /\
      forall e, between 0 E e -> 1 / 10 ^ 12 <= ginc sp p (e / eps) -> (x <= e <-> u <= F e).
Proof. exact true_all. Qed.
Print Assumptions C100_true_secondary.

Example C100_laws_case : sp_ok qSp /\ erf_exact qSp /\ ginc_exact qSp 1 1 /\ fp_energy_sane qF /\ peak_width qF 100 = 1 /\
  nth_error (f_eps qF) (2 - 1) = Some 1 /\ nth_error (f_pn qF) (2 - 1) = Some 1.
Proof.
  split; [exact qSp_ok|]. split; [exact qSp_erf|]. split; [exact qSp_ginc|]. split; [exact (exF_sane _ _)|]. repeat split.
Qed.

(** C100.  Called without their last argument, the distribution functions do not
    give the law of the energies: they do not look at the surface. *)
Theorem C100_defaults_refuted : exists sp f E, sp_ok sp /\ erf_exact sp /\ fp_energy_sane f /\ 0 < E /\
  (exists e, 0 < e < E /\ backscattered_energy_CDF sp (e :: nil) E None <> backscattered_energy_CDF sp (e :: nil) E (Some (peak_width f E))) /\
  (exists e, 0 < e < E /\ rediffused_energy_CDF (e :: nil) (E :: nil) None <> rediffused_energy_CDF (e :: nil) (E :: nil) (Some (f_q f))).
Proof.
  exists qSp, qF, 100. split; [exact qSp_ok|]. split; [exact qSp_erf|]. split; [exact (exF_sane _ _)|]. split; [lra|]. split.
  - assert (W : sigma_e qF 100 <> 2) by (change (1 <> 2); lra).
    destruct (default_width qSp qF 100 qSp_ok qSp_erf ltac:(lra) (exF_sane _ _) W) as (e & He & D). exists e. split; [exact He|].
    intros K. apply D. exact (f_equal (fun l => nth 0 l 0) K).
  - exists (100 / 2). split; [lra|]. intros K.
    assert (W : f_q qF <> 1 / 2) by (change (1 <> 1 / 2); lra).
    apply (default_power (f_q qF) 100 ltac:(lra) W). exact (f_equal (fun l => nth 0 l 0) K).
Qed.
Print Assumptions C100_defaults_refuted.

(** C100.  The density offered for a true secondary of an event with [n]
    electrons, on any grid of positive energies and with any rule for
    integrals, has this shape and area one; it comes with the probability of
    [n] electrons, for the Poisson choice. *)
Theorem C100_true_density : forall simps f d i E0 energy, homogeneous simps -> Forall (fun e => 0 < e) energy -> E0 <> 0 -> (S i <= f_Mcut f)%nat ->
  forall eps p, nth_error (f_eps f) i = Some eps -> nth_error (f_pn f) i = Some p ->
  simps (map (gamma_shape p eps) energy) energy <> 0 ->
  exists v, true_sec_energy_PDF simps "poisson" f d (S i) E0 energy = Some (v, given_at_most (f_Mcut f) (poisson d) (S i)) /\
    v = map (fun e => gamma_shape p eps e / simps (map (gamma_shape p eps) energy) energy) energy /\ simps v energy = 1.
Proof. exact true_pdf_is. Qed.
Print Assumptions C100_true_density.

(** C100.  The average of these densities weighted with the numbers of electrons
    has area one. *)
Theorem C100_average : forall simps f d E0 energy, homogeneous simps -> Forall (fun e => 0 < e) energy -> E0 <> 0 ->
  (f_Mcut f <= List.length (f_eps f))%nat -> (f_Mcut f <= List.length (f_pn f))%nat ->
  let shape n e := gamma_shape (nth (n - 1) (f_pn f) 0) (nth (n - 1) (f_eps f) 0) e in
  let W e := rsum (map (fun n => shape n e / simps (map (shape n) energy) energy * given_at_most (f_Mcut f) (poisson d) n * INR n) (seq 1 (f_Mcut f))) in
  (forall n, (1 <= n <= f_Mcut f)%nat -> simps (map (shape n) energy) energy <> 0) -> simps (map W energy) energy <> 0 ->
  exists v, average_true_sec_energy_PDF simps "poisson" f d E0 energy = Some v /\
    v = map (fun e => W e / simps (map W energy) energy) energy /\ simps v energy = 1.
Proof. exact average_is. Qed.
Print Assumptions C100_average.

Example C100_true_density_case : homogeneous qSimps /\ f_Mcut qF = 10%nat /\ simps_ok qSimps qF (1 :: 2 :: nil) /\
  let shape n e := gamma_shape (nth (n - 1) (f_pn qF) 0) (nth (n - 1) (f_eps qF) 0) e in
  let W e := rsum (map (fun n => shape n e / qSimps (map (shape n) (1 :: 2 :: nil)) (1 :: 2 :: nil) * given_at_most (f_Mcut qF) (poisson 1) n * INR n) (seq 1 (f_Mcut qF))) in
  qSimps (map W (1 :: 2 :: nil)) (1 :: 2 :: nil) <> 0.
Proof.
  split; [exact (proj1 qDensity)|]. split; [exact (proj1 (proj2 qDensity))|]. split; [exact (proj2 (proj2 qDensity))|exact qAverage].
Qed.

(** C100.  With the choice "binomial" the probability is not the binomial one. *)
Theorem C100_binomial_refuted : exists simps f energy v P, f_Mcut f = 2%nat /\
  true_sec_energy_PDF simps "binomial" f 1 1 1 energy = Some (v, P) /\ P = 1 / 3 /\ given_at_most 2 (binomial 2 (1 / 2)) 1 = 1 / 2.
Proof.
  exists qSimps, q2, (1 :: 2 :: nil). destruct (binomial_wrong qSimps q2 (1 :: 2 :: nil) 1 1 eq_refl eq_refl eq_refl) as (v & P & H).
  exists v, P. split; [reflexivity|exact H].
Qed.
Print Assumptions C100_binomial_refuted.

(** C100.  Any other choice is rejected, and so is the density for no electrons. *)
Theorem C100_choice : forall simps c f d nn E0 energy, c <> "poisson"%string -> c <> "binomial"%string ->
  true_sec_energy_PDF simps c f d nn E0 energy = None.
Proof. exact pdf_rejects. Qed.
Print Assumptions C100_choice.
Theorem C100_choice_average : forall simps c f d E0 energy, c <> "poisson"%string -> c <> "binomial"%string -> (0 < f_Mcut f)%nat ->
  average_true_sec_energy_PDF simps c f d E0 energy = None.
Proof. exact average_rejects. Qed.
Print Assumptions C100_choice_average.
Theorem C100_no_electrons : forall simps c f d E0 energy, true_sec_energy_PDF simps c f d 0%nat E0 energy = None.
Proof. reflexivity. Qed.
Print Assumptions C100_no_electrons.
Example C100_choice_meets : "Poisson"%string <> "poisson"%string /\ "Poisson"%string <> "binomial"%string /\ (0 < f_Mcut q2)%nat.
Proof. split; [discriminate|]. split; [discriminate|]. cbn. repeat constructor. Qed.

(** C100.  In the ECLOUD model without energy increase, secondaries of impacts
    below the threshold have a linear density up to the impact energy, each
    with a random number of its own. *)
Theorem C100_low_energy : forall fuel sr k E_th En thr en k', sec_energy_hilleret_model2 2 fuel sr k (List.length En) E_th En thr = Some (en, k') ->
  exists k1, (k <= k1)%nat /\ forall i, (i < List.length En)%nat -> 0 < nth i En 0 < thr ->
    exists X, nth i en 0 = X (s_uni sr (k1 + count_true (firstn i (map (fun E => Rltb E thr) En)))%nat) /\
      law X (between 0 (nth i En 0)) (fun e => e ^ 2 / nth i En 0 ^ 2) /\
      density (fun e => e ^ 2 / nth i En 0 ^ 2) (fun e => 2 * e / nth i En 0 ^ 2) 0 (nth i En 0).
Proof.
  intros fuel sr k E_th En thr en k' H. destruct (low_energies _ _ _ _ _ _ _ _ H) as (k1 & K & L). exists k1. split; [exact K|].
  intros i I (P & T). exists (fun u => nth i En 0 * sqrt u). split; [exact (L i I T)|]. split; [exact (law_low _ P)|exact (density_low _ P)].
Qed.
Print Assumptions C100_low_energy.

(** C100.  The directions: the angle from the normal follows the cosine law of
    the chosen kind, the angle around it is uniform, and every particle has its
    own two random numbers. *)
Theorem C100_directions : forall d qe mass sr k En nx ny v k', (forall j, 0 <= s_uni sr j < 1) -> unit_normals nx ny -> List.length nx = List.length En ->
  angle_dist_func d qe mass sr k (List.length En) En nx ny = (v, k') -> d <> NormalEmission ->
  exists A F f, law A right_angle F /\ density F f 0 (PI / 2) /\ (d = Cos3D -> cosine_3D F f) /\ (d = Cos2D -> cosine_2D F f) /\
    List.length v = List.length En /\ k' = (k + 2 * List.length En)%nat /\
    forall i, (i < List.length En)%nat ->
      leaves (nth i v (0, 0, 0)) (sqrt (2 * qe / mass * nth i En 0)) (A (s_uni sr (k + i)%nat)) (2 * PI * s_uni sr (k + List.length En + i)%nat) (nth i nx 0) (nth i ny 0).
Proof.
  intros d qe mass sr k En nx ny v k' U N L EQ D. pose proof (directions d qe mass sr k En nx ny v k' D U N L EQ) as H. destruct d.
  - exists (fun u => asin (sqrt u)), (fun t => sin t ^ 2), (fun t => 2 * sin t * cos t). split; [exact law_3D|]. split; [exact density_3D|].
    split; [split; reflexivity|]. split; [discriminate|exact H].
  - exists asin, sin, cos. split; [exact law_2D|]. split; [exact density_2D|]. split; [discriminate|]. split; [split; reflexivity|exact H].
  - exfalso. exact (D eq_refl).
Qed.
Print Assumptions C100_directions.

Example C100_directions_case : unit_normals (1 :: 0 :: nil) (0 :: -1 :: nil) /\
  exists v, angle_dist_func Cos3D 1 2 (mkSrc (fun _ => 1 / 4) (fun _ => 0) (fun _ => 0)) 0 2 (9 :: 4 :: nil) (1 :: 0 :: nil) (0 :: -1 :: nil) = (v, 4%nat).
Proof. split; [repeat constructor; lra|]. eexists. reflexivity. Qed.

(** C100.  Photoelectrons: the uniform law on the interval around the centre,
    and the Lorentz density cut at zero. *)
Theorem C100_photoelectrons : forall fuel sig mx sr k n en k', 0 < sig ->
  (get_energy fuel Rectangular sig mx sr k n = Some (en, k') -> exists X F, (forall i, (i < n)%nat -> nth i en 0 = X (s_uni sr (k + i)%nat)) /\
     law X (between (mx - sig / 2) (mx + sig / 2)) F /\ density F (fun _ => 1 / sig) (mx - sig / 2) (mx + sig / 2)) /\
  (get_energy fuel Lorentz sig mx sr k n = Some (en, k') -> exists X F, (forall i, (i < n)%nat -> nth i en 0 = X (s_uni sr (k + i)%nat)) /\
     law X (fun e => 0 <= e) F /\ forall e, derivable_pt_lim F e (lorentz_density sig mx e / (1 - lorentz_cdf sig mx 0))).
Proof.
  intros fuel sig mx sr k n en k' S. split; intros H.
  - exists (fun u => mx + (u - 1 / 2) * sig), (fun e => (e - (mx - sig / 2)) / sig). split; [exact (proj2 (photo_rect _ _ _ _ _ _ _ _ H))|].
    split; [exact (law_rect mx sig S)|exact (density_rect mx sig S)].
  - exists (lor_X mx sig), (lor_F mx sig). split; [exact (proj2 (photo_lorentz _ _ _ _ _ _ _ _ H))|].
    split; [exact (law_lorentz mx sig S)|exact (density_lorentz mx sig S)].
Qed.
Print Assumptions C100_photoelectrons.

Example C100_photoelectrons_case : exists en, get_energy 0 Lorentz 2 5 (mkSrc (fun _ => 1 / 4) (fun _ => 0) (fun _ => 0)) 0 3 = Some (en, 3%nat) /\ List.length en = 3%nat.
Proof. eexists. split; reflexivity. Qed.
