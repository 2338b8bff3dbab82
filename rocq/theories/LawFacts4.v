(** The distributions offered to users. *)
From Coq Require Import Reals List Lra Lia Psatz String Classical.
From Verif Require Import Num NumFacts Sey SpecSey SeyFacts Furman SpecFurman FurmanFacts FpDist SpecLaw LawFacts LawFacts2 LawFacts3.
Local Open Scope R_scope.

Lemma back_pdf_is sp f es E : backscattered_energy_PDF sp f es E = map (gauss_density sp (sigma_e f E) E) es.
Proof. unfold backscattered_energy_PDF. cbv zeta. apply map_ext. intros e. unfold gauss_density, Rdiv. ring. Qed.
Lemma back_cdf_is sp es E sg : backscattered_energy_CDF sp es E sg = map (back_F sp E (match sg with Some s => s | None => 2 end)) es.
Proof. reflexivity. Qed.

Lemma redif_pdf_is es E qq : Forall (fun e => 0 < e) es -> Forall (fun e => 0 < e) E ->
  rediffused_energy_PDF es E qq = Some (map2 (fun e E => power_density (the_q qq) E e) es E).
Proof.
  intros P1 P2. unfold rediffused_energy_PDF. cbv zeta. replace (existsb (fun E => Rltb E 0) E) with false.
  - f_equal. revert E P2. induction P1 as [|e es He P1 IH]; intros [|x E] P2; cbn [map2]; try reflexivity.
    inversion P2 as [|x' E' Q1 Q2]; subst. f_equal; [|apply IH; exact Q2]. unfold power_density. rewrite !pw_pos by assumption. reflexivity.
  - symmetry. apply Bool.not_true_is_false. intros K. apply existsb_exists in K. destruct K as (x & I & K). apply Rltb_true in K.
    rewrite Forall_forall in P2. specialize (P2 x I). lra.
Qed.
Lemma redif_pdf_neg es E qq : Exists (fun e => e < 0) E -> rediffused_energy_PDF es E qq = None.
Proof.
  intros K. unfold rediffused_energy_PDF. cbv zeta. replace (existsb (fun E => Rltb E 0) E) with true; [reflexivity|].
  symmetry. apply existsb_exists. apply Exists_exists in K. destruct K as (x & I & K). exists x. split; [exact I|]. apply Rltb_true. exact K.
Qed.
Lemma redif_cdf_is es E qq : rediffused_energy_CDF es E qq = map2 (fun e E => redif_F E (the_q qq) e) es E.
Proof. reflexivity. Qed.

(** ** The defaults of the distribution functions *)
Lemma default_width sp f E : sp_ok sp -> erf_exact sp -> 0 < E -> fp_energy_sane f -> sigma_e f E <> 2 ->
  exists e, 0 < e < E /\ back_F sp E 2 e <> back_F sp E (sigma_e f E) e.
Proof.
  intros OK EX HE SA N. apply NNPP. intros K.
  assert (EQ : forall e, 0 < e < E -> back_F sp E 2 e = back_F sp E (sigma_e f E) e).
  { intros e He. apply NNPP. intros Z. apply K. exists e. split; assumption. }
  assert (G : forall e, 0 < e < E -> gauss_density sp 2 E e = gauss_density sp (sigma_e f E) E e).
  { intros e He. apply (uniqueness_limite (back_F sp E (sigma_e f E)) e).
    - refine (derivable_pt_lim_locally_ext (back_F sp E 2) _ e 0 E _ He EQ _).
      set (f2 := mkFpar (f_e f) (f_scale f) (f_shift f) false (f_ecl_theta f) (f_ecl_energy f) (f_conserve f) (f_Mcut f) (f_pn f) (f_eps f) (f_excl f)
        (f_p1EInf f) (f_p1Ehat f) (f_eEHat f) (f_w f) (f_p f) (f_e1 f) (f_e2 f) 2 (f_ce f) (f_p1RInf f) (f_eR f) (f_r f) (f_q f) (f_r1 f) (f_r2 f) (f_cr f)
        (f_dTS f) (f_eHat0 f) (f_s f) (f_t1 f) (f_t2 f) (f_t3 f) (f_t4 f)).
      assert (SA2 : fp_energy_sane f2) by (destruct SA; constructor; cbn; try assumption; lra).
      exact (density_back sp OK f2 E HE SA2 EX e He).
    - exact (density_back sp OK f E HE SA EX e He). }
  pose proof (sigma_pos f E SA) as S. set (s := sigma_e f E) in *.
  assert (Q : 0 < sqrt (2 * PI)) by (apply sqrt_lt_R0; pose proof PI_RGT_0; lra).
  assert (R2 : 0 < sqrt 2) by (apply sqrt_lt_R0; lra).
  assert (P1 : 0 < sqrt (2 * PI) * 2 * erf sp (E / (sqrt 2 * 2))) by (repeat apply Rmult_lt_0_compat; try lra; apply (erf_gt_0 sp OK); apply Rdiv_lt_0_compat; [lra|nra]).
  assert (P2 : 0 < sqrt (2 * PI) * s * erf sp (E / (sqrt 2 * s))) by (repeat apply Rmult_lt_0_compat; try lra; apply (erf_gt_0 sp OK); apply Rdiv_lt_0_compat; [lra|nra]).
  unfold gauss_density in G. set (c1 := 2 / (sqrt (2 * PI) * 2 * erf sp (E / (sqrt 2 * 2)))) in *. set (c2 := 2 / (sqrt (2 * PI) * s * erf sp (E / (sqrt 2 * s)))) in *.
  assert (C1 : 0 < c1) by (apply Rdiv_lt_0_compat; lra). assert (C2 : 0 < c2) by (apply Rdiv_lt_0_compat; lra).
  assert (LN : forall e, 0 < e < E -> ln c1 + - (e - E) ^ 2 / (2 * 2 ^ 2) = ln c2 + - (e - E) ^ 2 / (2 * s ^ 2)).
  { intros e He. pose proof (f_equal ln (G e He)) as Z. rewrite !ln_mult, !ln_exp in Z by (try assumption; apply exp_pos). exact Z. }
  pose proof (LN (E / 2) ltac:(lra)) as A. pose proof (LN (E / 3) ltac:(lra)) as B.
  assert (Y : (E / 3 - E) ^ 2 * (1 / (2 * 2 ^ 2)) - (E / 2 - E) ^ 2 * (1 / (2 * 2 ^ 2)) = (E / 3 - E) ^ 2 * (1 / (2 * s ^ 2)) - (E / 2 - E) ^ 2 * (1 / (2 * s ^ 2))) by (unfold Rdiv in *; lra).
  assert (W : 1 / (2 * 2 ^ 2) = 1 / (2 * s ^ 2)).
  { apply (Rmult_eq_reg_l ((E / 3 - E) ^ 2 - (E / 2 - E) ^ 2)); [lra|]. nra. }
  assert (V : s ^ 2 = 2 ^ 2).
  { apply (f_equal (fun x => / x)) in W. unfold Rdiv in W. rewrite !Rmult_1_l, !Rinv_inv in W. lra. }
  apply N. nra.
Qed.

Lemma default_power q E : 0 < E -> q <> 1 / 2 -> redif_F E (the_q None) (E / 2) <> redif_F E q (E / 2).
Proof.
  intros HE N K. unfold redif_F in K. cbn [the_q] in K. rewrite <- !pw_div in K by lra.
  replace (E / 2 / E) with (/ 2) in K by (field; lra). rewrite !pw_pos in K by lra. unfold Rpower in K. apply exp_inv in K.
  assert (Z : ln (/ 2) <> 0) by (pose proof (ln_lt_2); pose proof (ln_Rinv 2 ltac:(lra)); lra).
  apply N. apply Rmult_eq_reg_r in K; [lra|exact Z].
Qed.

(** ** True secondaries *)
Lemma weights_poisson M d nn : weights "poisson" M d nn = Some (map (given_at_most M (poisson d)) (seq 0 (M + 1))).
Proof.
  unfold weights. change (String.eqb "poisson" "poisson") with true. cbv iota. cbn [bind]. f_equal.
  assert (E : map (fun n => d ^ n / INR (fact n) * exp (- d)) (seq 0 (M + 1)) = map (poisson d) (seq 0 (M + 1))).
  { apply map_ext. intros n. unfold poisson, Rdiv. ring. }
  rewrite E, map_map. apply map_ext. intros n. reflexivity.
Qed.
Lemma weights_other c M d nn : c <> "poisson"%string -> c <> "binomial"%string -> weights c M d nn = None.
Proof.
  intros A B. unfold weights. apply String.eqb_neq in A, B. rewrite A, B. reflexivity.
Qed.

Lemma pdf_rejects simps c f d nn E0 energy : c <> "poisson"%string -> c <> "binomial"%string -> true_sec_energy_PDF simps c f d nn E0 energy = None.
Proof. intros A B. destruct nn as [|i]; [reflexivity|]. unfold true_sec_energy_PDF. rewrite weights_other by auto. reflexivity. Qed.
Lemma average_rejects simps c f d E0 energy : c <> "poisson"%string -> c <> "binomial"%string -> (0 < f_Mcut f)%nat ->
  average_true_sec_energy_PDF simps c f d E0 energy = None.
Proof.
  intros A B M. unfold average_true_sec_energy_PDF. destruct (f_Mcut f) as [|m]; [lia|]. cbn [seq averaged].
  rewrite pdf_rejects by auto. reflexivity.
Qed.

Lemma true_pdf_is simps f d i E0 energy : homogeneous simps -> Forall (fun e => 0 < e) energy -> E0 <> 0 -> (S i <= f_Mcut f)%nat ->
  forall eps p, nth_error (f_eps f) i = Some eps -> nth_error (f_pn f) i = Some p ->
  simps (map (gamma_shape p eps) energy) energy <> 0 ->
  exists v, true_sec_energy_PDF simps "poisson" f d (S i) E0 energy = Some (v, given_at_most (f_Mcut f) (poisson d) (S i)) /\
    v = map (fun e => gamma_shape p eps e / simps (map (gamma_shape p eps) energy) energy) energy /\ simps v energy = 1.
Proof.
  intros HH PE NE0 LE eps p A1 A2 NZ. unfold true_sec_energy_PDF. rewrite weights_poisson. cbn [bind].
  assert (NT : nth_error (map (given_at_most (f_Mcut f) (poisson d)) (seq 0 (f_Mcut f + 1))) (S i) = Some (given_at_most (f_Mcut f) (poisson d) (S i))).
  { rewrite nth_error_map. rewrite (nth_error_nth' _ 0%nat) by (rewrite seq_length; lia). rewrite seq_nth by lia. reflexivity. }
  rewrite NT. cbn [bind]. rewrite A1. cbn [bind]. rewrite A2. cbn [bind].
  assert (F0 : Reqb E0 0 = false) by (apply Reqb_false; exact NE0). rewrite F0.
  assert (V : map (fun e => 1 * pw e (p - 1) * exp (- e / eps)) energy = map (gamma_shape p eps) energy).
  { clear - PE. induction PE as [|e l H P IH]; [reflexivity|]. cbn [map]. rewrite IH. f_equal. unfold gamma_shape. rewrite pw_pos by exact H. ring. }
  rewrite V. eexists. split; [reflexivity|]. split; [apply map_map|]. rewrite HH. field. exact NZ.
Qed.

(** ** All together *)
Lemma back_all sp f E : sp_ok sp -> erf_exact sp -> fp_energy_sane f -> 0 < E ->
  exists F, law (en_back sp f E) (between 0 E) F /\ F 0 = 0 /\ F E = 1 /\ density F (gauss_density sp (peak_width f E) E) 0 E /\
    (forall es, backscattered_energy_PDF sp f es E = map (gauss_density sp (peak_width f E) E) es) /\
    (forall es, backscattered_energy_CDF sp es E (Some (peak_width f E)) = map F es).
Proof.
  intros OK EX SA HE. exists (back_F sp E (sigma_e f E)). split; [exact (law_back sp OK f E HE SA)|].
  assert (Q : 0 < sqrt 2) by (apply sqrt_lt_R0; lra). pose proof (sigma_pos f E SA) as G.
  assert (S : 0 < sqrt 2 * sigma_e f E) by (apply Rmult_lt_0_compat; assumption).
  assert (P : 0 < erf sp (E / (sqrt 2 * sigma_e f E))) by (apply (erf_gt_0 sp OK); apply Rdiv_lt_0_compat; assumption).
  split; [unfold back_F; replace (E - 0) with E by ring; field; lra|].
  split; [unfold back_F; replace ((E - E) / (sqrt 2 * sigma_e f E)) with 0 by (field; lra); rewrite (erf_at_0 sp OK); field; lra|].
  split; [exact (density_back sp OK f E HE SA EX)|]. split; [intros es; apply back_pdf_is|intros es; apply back_cdf_is].
Qed.

Lemma redif_all f E : fp_energy_sane f -> 0 < E ->
  exists F, law (en_rediff f E) (between 0 E) F /\ F 0 = 0 /\ F E = 1 /\ density F (power_density (f_q f) E) 0 E /\
    (forall es, Forall (fun e => 0 < e) es -> rediffused_energy_PDF es (map (fun _ => E) es) (Some (f_q f)) = Some (map (power_density (f_q f) E) es)) /\
    (forall es, rediffused_energy_CDF es (map (fun _ => E) es) (Some (f_q f)) = map F es).
Proof.
  intros SA HE. exists (redif_F E (f_q f)). split; [exact (law_redif f E HE SA)|].
  assert (P : 0 < pw E (f_q f + 1)) by (rewrite pw_pos by exact HE; apply exp_pos).
  split; [unfold redif_F; rewrite pw_0; field; lra|]. split; [unfold redif_F; field; lra|].
  split; [exact (density_redif f E HE SA)|].
  assert (M : forall (g : R -> R -> R) es, map2 g es (map (fun _ => E) es) = map (fun e => g e E) es) by (intros g es; induction es as [|e es IH]; cbn; [reflexivity|rewrite IH; reflexivity]).
  split; intros es.
  - intros PE. rewrite redif_pdf_is; [rewrite M; reflexivity|exact PE|]. clear - HE. induction es; constructor; assumption.
  - rewrite redif_cdf_is, M. reflexivity.
Qed.

Lemma true_all sp f E n eps p G : sp_ok sp -> fp_energy_sane f -> 0 < E -> (1 <= n)%nat ->
  nth_error (f_eps f) (n - 1) = Some eps -> nth_error (f_pn f) (n - 1) = Some p -> ginc_exact sp p G ->
  exists F c, 0 < c /\ density F (fun e => c * gamma_shape p eps e) 0 E /\ F 0 = 0 /\ F E = 1 /\
    (forall e, between 0 E e -> F e = ginc sp p (e / eps) / ginc sp p (E / eps)) /\
    forall u, 0 <= u < 1 -> exists x, en_true1 sp f n E u = Some x /\ between 0 E x /\
      forall e, between 0 E e -> 1 / 10 ^ 12 <= ginc sp p (e / eps) -> (x <= e <-> u <= F e).
Proof.
  intros OK SA HE N A1 A2 GX.
  assert (P1 : 0 < eps) by (pose proof (fs_eps f SA) as Q; rewrite Forall_forall in Q; apply Q; exact (nth_error_In _ _ A1)).
  assert (P2 : 0 < p) by (pose proof (fs_pn f SA) as Q; rewrite Forall_forall in Q; apply Q; exact (nth_error_In _ _ A2)).
  destruct (density_true sp OK p P2 eps E P1 HE G GX) as (c & C & D). exists (true_F sp p eps E), c. split; [exact C|]. split; [exact D|].
  destruct (true_F_ends sp OK p P2 eps E P1 HE) as (Z & O). split; [exact Z|]. split; [exact O|]. split; [reflexivity|].
  intros u U. assert (X : exists x, en_true1 sp f n E u = Some x) by (unfold en_true1; rewrite A1, A2; cbn [bind]; eexists; reflexivity).
  destruct X as (x & X). exists x. split; [exact X|]. split; [exact (en_true1_ok sp OK f n E u x SA ltac:(lra) U X)|].
  intros e B T. exact (law_true sp OK p P2 eps E P1 HE f n u x e SA N A1 A2 U X B T).
Qed.

Lemma binomial_wrong simps f energy eps p : f_Mcut f = 2%nat -> nth_error (f_eps f) 0 = Some eps -> nth_error (f_pn f) 0 = Some p ->
  exists v P, true_sec_energy_PDF simps "binomial" f 1 1 1 energy = Some (v, P) /\ P = 1 / 3 /\ given_at_most 2 (binomial 2 (1 / 2)) 1 = 1 / 2.
Proof.
  intros M A1 A2. unfold true_sec_energy_PDF, weights. rewrite M. change (String.eqb "binomial" "poisson") with false. change (String.eqb "binomial" "binomial") with true. cbv iota zeta.
  rewrite A1, A2. cbn [bind seq Nat.add map nth_error]. do 2 eexists. split; [reflexivity|]. split.
  - unfold rsum. cbn [fold_right Nat.sub pow]. unfold C. cbn. field.
  - unfold given_at_most, binomial, rsum. cbn [seq map Nat.add fold_right Nat.sub pow]. unfold C. cbn. field.
Qed.

(** ** Batches of photoelectrons *)
Lemma photo_rect fuel mx sig sr k n en k' : Source.get_energy fuel Source.Rectangular sig mx sr k n = Some (en, k') ->
  List.length en = n /\ forall i, (i < n)%nat -> nth i en 0 = mx + (s_uni sr (k + i)%nat - 1 / 2) * sig.
Proof.
  intros H. cbn [Source.get_energy] in H. injection H as <- _. split; [rewrite map_length; apply draw_len|].
  intros i I. exact (draws_map _ (fun u => mx + (u - 1 / 2) * sig) k n i I).
Qed.
Lemma photo_lorentz fuel mx sig sr k n en k' : Source.get_energy fuel Source.Lorentz sig mx sr k n = Some (en, k') ->
  List.length en = n /\ forall i, (i < n)%nat -> nth i en 0 = lor_X mx sig (s_uni sr (k + i)%nat).
Proof.
  intros H. cbn [Source.get_energy] in H. injection H as <- _. split; [rewrite map_length; apply draw_len|].
  intros i I. exact (draws_map _ (lor_X mx sig) k n i I).
Qed.

(** ** The average over the numbers of electrons *)
Section Average.
Context (simps : list R -> list R -> R) (f : fpar) (d E0 : R) (energy : list R).
Context (HH : homogeneous simps) (PE : Forall (fun e => 0 < e) energy) (N0 : E0 <> 0).
Context (L1 : (f_Mcut f <= List.length (f_eps f))%nat) (L2 : (f_Mcut f <= List.length (f_pn f))%nat).
Let sh (n : nat) (e : R) : R := gamma_shape (nth (n - 1) (f_pn f) 0) (nth (n - 1) (f_eps f) 0) e.
Let ar (n : nat) : R := simps (map (sh n) energy) energy.
Context (NZ : forall n, (1 <= n <= f_Mcut f)%nat -> ar n <> 0).
Definition spectrum_of (ns : list nat) (e : R) : R :=
  rsum (map (fun n => sh n e / ar n * given_at_most (f_Mcut f) (poisson d) n * INR n) ns).

Lemma averaged_is ns : Forall (fun n => (1 <= n <= f_Mcut f)%nat) ns -> forall g,
  averaged simps "poisson" f d E0 energy ns (map g energy) = Some (map (fun e => g e + spectrum_of ns e) energy).
Proof.
  induction 1 as [|n ns Hn F IH]; intros g; cbn [averaged].
  - f_equal. apply map_ext. intros e. unfold spectrum_of. cbn [map]. change (rsum nil) with 0. symmetry. apply Rplus_0_r.
  - destruct n as [|i]; [lia|].
    destruct (true_pdf_is simps f d i E0 energy HH PE N0 ltac:(lia) (nth i (f_eps f) 0) (nth i (f_pn f) 0)) as (v & A & B & _).
    + apply nth_error_nth'. lia.
    + apply nth_error_nth'. lia.
    + pose proof (NZ (S i) ltac:(lia)) as Q. unfold ar, sh in Q. cbn [Nat.sub] in Q. rewrite Nat.sub_0_r in Q. exact Q.
    + rewrite A. cbn [bind]. subst v.
      assert (E : forall l, map2 (fun a x => a + x * given_at_most (f_Mcut f) (poisson d) (S i) * INR (S i)) (map g l)
         (map (fun e => gamma_shape (nth i (f_pn f) 0) (nth i (f_eps f) 0) e / simps (map (gamma_shape (nth i (f_pn f) 0) (nth i (f_eps f) 0)) energy) energy) l)
         = map (fun e => g e + sh (S i) e / ar (S i) * given_at_most (f_Mcut f) (poisson d) (S i) * INR (S i)) l).
      { intros l. unfold ar, sh. cbn [Nat.sub]. rewrite Nat.sub_0_r. induction l as [|e l IHl]; [reflexivity|]. cbn [map map2]. rewrite IHl. reflexivity. }
      rewrite E, IH. f_equal. apply map_ext. intros e. unfold spectrum_of. cbn [map]. unfold rsum. cbn [fold_right]. ring.
Qed.

Lemma average_is : simps (map (spectrum_of (seq 1 (f_Mcut f))) energy) energy <> 0 ->
  exists v, average_true_sec_energy_PDF simps "poisson" f d E0 energy = Some v /\
    v = map (fun e => spectrum_of (seq 1 (f_Mcut f)) e / simps (map (spectrum_of (seq 1 (f_Mcut f))) energy) energy) energy /\ simps v energy = 1.
Proof.
  intros NA. unfold average_true_sec_energy_PDF. rewrite averaged_is.
  - cbn [bind]. assert (E : map (fun e => 0 + spectrum_of (seq 1 (f_Mcut f)) e) energy = map (spectrum_of (seq 1 (f_Mcut f))) energy) by (apply map_ext; intros e; ring).
    rewrite E. eexists. split; [reflexivity|]. split; [apply map_map|]. rewrite HH. field. exact NA.
  - apply Forall_forall. intros n I. apply in_seq in I. lia.
Qed.
End Average.
