(** Extracted spectra of the Furman-Pivi model. *)
From Coq Require Import Lra Lia Reals Psatz String.
From Verif Require Import Num NumFacts MP SpecMP MPFacts Fort SpecFort FortFacts CrossIon Sey SpecSey SeyFacts SeyFacts2 SeyFacts3 Furman SpecFurman FurmanFacts4 FurmanFacts6 Impact SpecImpact Extract SpecExtract ExtractFacts ExtractFacts2 ExtractFacts3.
Local Open Scope list_scope.
Local Open Scope R_scope.

Lemma test_energy0 qe mass E ct : 0 < qe -> 0 < mass -> 0 <= E -> 0 <= ct <= 1 ->
  let p := test_imp qe mass E ct in kin_eV qe mass (i_vx p) (i_vy p) (i_vz p) = E.
Proof.
  intros Hq Hm HE Hc p. unfold p, test_imp, kin_eV. cbn [i_vx i_vy i_vz].
  set (v := sqrt (2 * E * qe / mass)). assert (V : v * v = 2 * E * qe / mass). { apply sqrt_def. apply Rmult_le_pos; [|left; apply Rinv_0_lt_compat; lra]. apply Rmult_le_pos; lra. }
  set (s := sqrt (1 - ct * ct)). assert (W : s * s = 1 - ct * ct). { apply sqrt_def. nra. }
  replace (v * ct * (v * ct) + v * s * (v * s) + 1 * 0 * (1 * 0)) with (v * v * (ct * ct + s * s)) by ring.
  rewrite W, V. field. lra.
Qed.

Definition count_of (ty : list nat) (ns : list nat) (t : nat) : nat :=
  nsum (map (fun a => if Nat.eqb (nth a ty 9%nat) t then Nat.max 1 (nth a ns 0%nat) else 0%nat) (seq 0 (length ty))).

Lemma repeat_mask (b : nat) t n : count_true (map (fun x => Nat.eqb x t) (repeat b n)) = (if Nat.eqb b t then n else 0)%nat.
Proof. induction n as [|n IH]; [destruct (Nat.eqb b t); reflexivity|]. cbn [repeat map]. change (count_true (Nat.eqb b t :: map (fun x => Nat.eqb x t) (repeat b n))) with (if Nat.eqb b t then S (count_true (map (fun x => Nat.eqb x t) (repeat b n))) else count_true (map (fun x => Nat.eqb x t) (repeat b n))). rewrite IH. destruct (Nat.eqb b t); reflexivity. Qed.

Lemma ext_count ty ns t : length ns = length ty ->
  (count_true (map (fun x => Nat.eqb x t) ty) + count_true (map (fun x => Nat.eqb x t) (repeat_each ty (map pred ns))))%nat = count_of ty ns t.
Proof.
  revert ns. induction ty as [|a ty IH]; intros [|m ns] L; try discriminate L; [reflexivity|].
  injection L as L. specialize (IH ns L). unfold count_of in *. cbn [length seq map repeat_each nth]. rewrite map_app, count_true_app, repeat_mask, <- seq_shift, map_map.
  assert (Q : map (fun x => if Nat.eqb (nth (S x) (a :: ty) 9%nat) t then Nat.max 1 (nth (S x) (m :: ns) 0%nat) else 0%nat) (seq 0 (length ty)) =
    map (fun x => if Nat.eqb (nth x ty 9%nat) t then Nat.max 1 (nth x ns 0%nat) else 0%nat) (seq 0 (length ty))) by reflexivity.
  cbv beta. cbn [nth].
  change (nsum ((if Nat.eqb a t then Nat.max 1 m else 0%nat) :: map (fun x => if Nat.eqb (nth x ty 9%nat) t then Nat.max 1 (nth x ns 0%nat) else 0%nat) (seq 0 (length ty)))) with
    ((if Nat.eqb a t then Nat.max 1 m else 0) + nsum (map (fun x => if Nat.eqb (nth x ty 9%nat) t then Nat.max 1 (nth x ns 0%nat) else 0%nat) (seq 0 (length ty))))%nat.
  rewrite <- IH.
  change (count_true (Nat.eqb a t :: map (fun x => Nat.eqb x t) ty)) with (if Nat.eqb a t then S (count_true (map (fun x => Nat.eqb x t) ty)) else count_true (map (fun x => Nat.eqb x t) ty)).
  destruct (Nat.eqb a t); lia.
Qed.

Lemma mask_in {A} m (l : list A) x : In x (mask_get m l) -> In x l.
Proof. revert m. induction l as [|a l IH]; intros [|b m] H; cbn in H; try contradiction. destruct b; [destruct H as [->|H]; [left; reflexivity|]|]; right; apply (IH m H). Qed.

Lemma repeat_all {A} (p : A) n cs q : In q (repeat_each (repeat p n) cs) -> q = p.
Proof. revert cs. induction n as [|n IH]; intros [|d cs] Hx; cbn in Hx; try contradiction. apply in_app_or in Hx. destruct Hx as [Hx|Hx]; [apply repeat_spec in Hx; exact Hx|exact (IH _ Hx)]. Qed.

Lemma paired {A B} (P : A -> B -> Prop) l l' v : Forall2 P l l' -> In v l' -> exists q, In q l /\ P q v.
Proof.
  induction 1 as [|a b l l' H F IH]; intros Hv; [contradiction|]. destruct Hv as [->|Hv]; [exists a; split; [left; reflexivity|exact H]|].
  destruct (IH Hv) as (q & Q1 & Q2). exists q. split; [right; exact Q1|exact Q2].
Qed.

Section Fp.
Variables (cfuel : nat) (sp : spfun) (f : fpar) (fs : fsrc).
Hypotheses (SPK : sp_ok sp) (FE : fp_energy_sane f) (HS : src_ok (f_src fs)).
Let qe := c_qe (f_e f).
Let mass := c_mass (f_e f).

Lemma fp_spectrum_energies n ct E k e k' : 0 <= E -> 0 <= ct <= 1 ->
  fp_impacts cfuel sp f fs 1 true (repeat (test_imp qe mass E ct) n) k = Some (e, k') ->
  exists ns, length (o_type e) = n /\ length ns = n /\
    (forall a, (a < n)%nat -> fp_outcome f (test_imp qe mass E ct) (s_uni (f_src fs) (k + a)) (nth a (o_type e) 9%nat) (nth a ns 0%nat)) /\
    forall t, (t < 4)%nat -> let En := mask_get (map (fun x => Nat.eqb x t) (o_ext e)) (energies qe mass e) in
      length En = count_of (o_type e) ns t /\ Forall (fp_energy_at f E t) En.
Proof.
  intros HE Hc I. set (p := test_imp _ _ _ _) in *.
  assert (Hq : 0 < qe) by apply FE. assert (Hm : 0 < mass) by apply FE.
  apply fp_all in I; auto. 2:{ apply test_all. split; [apply test_unit|]. split; [exact HE|exact Hc]. }
  destruct I as (ns & B & V & _). destruct B as [BL BS BO _ _ _ BN BX]. rewrite repeat_length in *.
  destruct BS as (Z1 & Z2 & Z3 & Z4 & Z5 & Z6 & Z7 & Z8 & Z9 & Z10 & _).
  exists ns. split; [exact Z2|]. split; [exact BL|].
  assert (OUT : forall a, (a < n)%nat -> fp_outcome f p (s_uni (f_src fs) (k + a)) (nth a (o_type e) 9%nat) (nth a ns 0%nat)).
  { intros a Ha. pose proof (BO a Ha) as Q. rewrite (test_nth p n a Ha) in Q. exact Q. }
  split; [exact OUT|]. intros t Ht En.
  set (W := combine (combine (o_vx e) (o_vy e)) (o_vz e)) in *. assert (LW : length W = n) by (unfold W; rewrite !combine_length; lia).
  assert (WN : forall i, (i < n)%nat -> nth i W (0, 0, 0) = vel_at e i).
  { intros i Hi. unfold W, vel_at. rewrite combine_nth by (rewrite combine_length; lia). rewrite combine_nth by lia. reflexivity. }
  set (U := nvels e) in *. destruct V as [V0 V2 V3 V1 VK VN]. rewrite repeat_length in V0, V2, V3, V1, VK.
  assert (LU : length U = length (repeat_each (o_type e) (map pred ns))).
  { unfold U. rewrite <- (Forall2_length VN). assert (LL : length (o_type e) = n) by exact Z2. revert BL LL. clear. generalize (o_type e) as ty. revert n. induction ns as [|m ns IH]; intros [|n] [|a ty] A B; try discriminate; [reflexivity|]. cbn [repeat map repeat_each]. rewrite !app_length, !repeat_length, (IH n ty); [reflexivity|cbn in A; lia|cbn in B; lia]. }
  assert (EnE : En = mask_get (map (fun x => Nat.eqb x t) (o_type e)) (map (speed_eV qe mass) W) ++ mask_get (map (fun x => Nat.eqb x t) (repeat_each (o_type e) (map pred ns))) (map (speed_eV qe mass) U)).
  { unfold En, energies. fold W. change (combine (combine (n_vx e) (n_vy e)) (n_vz e)) with U. rewrite BX, map_app. apply mask_get_app. rewrite !map_length. lia. }
  rewrite EnE. split.
  - rewrite app_length, !mask_get_length by (rewrite !map_length; lia). apply ext_count. lia.
  - apply Forall_app. split.
    + rewrite (mask_by_type (o_type e) (map (speed_eV qe mass) W) 0) by (rewrite map_length; lia). apply Forall_forall. intros x Hx. apply in_map_iff in Hx. destruct Hx as (i & <- & Hi).
      apply filter_In in Hi. destruct Hi as [Hi T]. apply in_seq in Hi. apply Nat.eqb_eq in T. rewrite Z2 in Hi.
      rewrite (nth_indep _ 0 (speed_eV qe mass (0, 0, 0))) by (rewrite map_length; lia). rewrite map_nth, WN by lia. rewrite speed_kin.
      change (kin_eV qe mass (fst3 (vel_at e i)) (snd3 (vel_at e i)) (thd3 (vel_at e i))) with (kin3 f (vel_at e i)).
      assert (IP : impat (repeat p n) i = p) by (apply test_nth; lia).
      assert (KE : kin3 f (vimp p) = E) by (apply (test_energy0 qe mass E ct Hq Hm HE Hc)).
      destruct t as [|[|[|[|t]]]]; [| | | |lia]; unfold fp_energy_at.
      * specialize (V0 i ltac:(lia) T). rewrite IP in V0. unfold back_vel in V0. destruct (f_ecl_energy f); [|exact (proj1 V0)].
        rewrite V0. apply (test_energy qe mass E ct Hq Hm HE Hc).
      * destruct (Exists_dec (fun m => (2 <= m)%nat) ns (fun m => Compare_dec.le_dec 2 m)) as [X|X].
        -- apply Exists_exists in X. destruct X as (m & Hm1 & Hm2). apply (In_nth _ _ 0%nat) in Hm1. destruct Hm1 as (j & _ & Hj). subst m.
           specialize (V1 i j ltac:(lia) T Hm2). rewrite IP in V1. unfold fp_fresh in V1. destruct (f_ecl_energy f); [|exact (proj1 V1)].
           right. destruct (vel_at e i) as [[vx vy] vz]. exact (proj1 V1).
        -- assert (VK' := VK i ltac:(lia) T). rewrite IP in VK'. rewrite VK', KE.
           ++ destruct (f_ecl_energy f); [left; reflexivity|lra].
           ++ intros j. destruct (Compare_dec.le_dec (nth j ns 0%nat) 1) as [G|G]; [exact G|]. exfalso. apply X. apply Exists_exists. exists (nth j ns 0%nat). split; [|lia].
              apply nth_In. destruct (Compare_dec.lt_dec j (length ns)) as [J|J]; [exact J|]. rewrite nth_overflow in G by lia. lia.
      * specialize (V2 i ltac:(lia) T). rewrite IP in V2. exact (proj1 V2).
      * specialize (V3 i ltac:(lia) T). rewrite V3. unfold kin3, kin_eV, fst3, snd3, thd3. cbn [fst snd]. unfold Rdiv. ring.
    + destruct (Nat.eq_dec t 1) as [->|T1].
      * apply Forall_forall. intros x Hx. apply mask_in in Hx. apply in_map_iff in Hx. destruct Hx as (v & <- & Hv). rewrite speed_kin.
        assert (FR : fp_fresh f p v).
        { destruct (paired _ _ _ v VN Hv) as (q & Hq1 & Hq2). rewrite <- (repeat_all p n _ q Hq1). exact Hq2. }
        unfold fp_energy_at, fp_fresh in *. destruct (f_ecl_energy f); [|exact (proj1 FR)]. right. destruct v as [[vx vy] vz]. exact (proj1 FR).
      * assert (Q : mask_get (map (fun x => Nat.eqb x t) (repeat_each (o_type e) (map pred ns))) (map (speed_eV qe mass) U) = []).
        { assert (G : count_true (map (fun x => Nat.eqb x t) (repeat_each (o_type e) (map pred ns))) = 0%nat).
          { assert (G2 : forall a, (a < n)%nat -> nth a (o_type e) 9%nat = t -> pred (nth a ns 0%nat) = 0%nat).
            { intros a Ha Ta. pose proof (OUT a Ha) as O. inversion O as [A0 A1 A2|A0 A1 A2 A3|m A0 A1 A2 A3|A0 A1 A2]; try reflexivity; lia. }
            revert G2 BL Z2. clear. generalize (o_type e) as ty. revert n. induction ns as [|m ns IH]; intros [|n] [|a ty] G A B; try discriminate; [reflexivity|].
            cbn [map repeat_each]. rewrite map_app, count_true_app, repeat_mask, (IH n ty); [|intros a' Ha'; apply (G (S a')); lia|cbn in A; lia|cbn in B; lia].
            destruct (Nat.eqb a t) eqn:Ea; [|reflexivity]. apply Nat.eqb_eq in Ea. specialize (G 0%nat ltac:(lia) Ea). cbn [nth] in G. lia. }
          apply length_zero_iff_nil. rewrite mask_get_length; [exact G|]. rewrite !map_length. lia. }
        rewrite Q. constructor.
Qed.

Lemma fp_spectra n E cts Nbin factor st H st' : 0 < E -> 0 < factor -> (forall ct, In ct cts -> 0 <= ct <= 1) ->
  extract_energy_distributions (fp_em cfuel sp f fs) types_furman_pivi qe mass n E cts Nbin factor st = Some (H, st') ->
  let D := E * factor / (INR Nbin - 1) in
  (2 <= Nbin)%nat /\ 0 < D /\ forall i ct p, nth_error cts i = Some ct -> lands p E ct ->
  exists k (ty ns : nat -> nat) (ens : nat -> list R) h0 h1 h2 h3,
    (forall a, (a < n)%nat -> fp_outcome f p (s_uni (f_src fs) (k + a)) (ty a) (ns a)) /\
    nth_error H i = Some [h0; h1; h2; h3] /\
    forall t h, nth_error [h0; h1; h2; h3] t = Some h ->
      length (ens t) = nsum (map (fun a => if Nat.eqb (ty a) t then Nat.max 1 (ns a) else 0%nat) (seq 0 n)) /\
      Forall (fp_energy_at f E t) (ens t) /\ length h = Nbin /\ rsum h = INR (length (ens t)) /\
      forall j, (j < Nbin)%nat -> nth j h 0 = rsum (map (fun x => bin_share 0 D Nbin j (x, 1)) (ens t)).
Proof.
  intros HE HF Hc Q D. unfold extract_energy_distributions, bin_width in Q. destruct (Nbin <=? 1)%nat eqn:NB; [discriminate|]. apply Nat.leb_gt in NB. cbn [bind] in Q. fold D in Q.
  assert (I2 : 2 <= INR Nbin) by (apply (le_INR 2); lia).
  assert (HD : 0 < D) by (unfold D; apply Rdiv_lt_0_compat; [apply Rmult_lt_0_compat; assumption|lra]).
  split; [lia|]. split; [exact HD|]. intros i ct p Qc (L1 & L2 & _). apply loopO_spec in Q. destruct Q as (L & sts & _ & _ & SI).
  destruct (SI i ct Qc) as (hs & F & G). unfold spectrum_at, fp_em in F.
  destruct (fp_impacts _ _ _ _ _ _ _ _) as [[e k1]|] eqn:I; [|discriminate]. cbn [bind] in F.
  apply fp_spectrum_energies in I; [|lra|apply Hc; eapply nth_error_In; eauto].
  destruct I as (ns & T1 & T2 & OU & EN).
  assert (NN : forall t, (t < 4)%nat -> Forall (fun x => 0 <= x) (mask_get (map (fun x => Nat.eqb x t) (o_ext e)) (energies qe mass e))).
  { intros t Ht. destruct (EN t Ht) as [_ A]. eapply Forall_impl; [|exact A]. intros x X. unfold fp_energy_at in X. destruct t as [|[|[|t]]]; [| | |lra].
    - destruct (f_ecl_energy f); lra. - destruct (f_ecl_energy f); [destruct X as [->|[X _]]; lra|lra]. - lra. }
  destruct (hist_of _ D Nbin HD ltac:(lia) (NN 0%nat ltac:(lia))) as (h0 & A0 & B0).
  destruct (hist_of _ D Nbin HD ltac:(lia) (NN 1%nat ltac:(lia))) as (h1 & A1 & B1).
  destruct (hist_of _ D Nbin HD ltac:(lia) (NN 2%nat ltac:(lia))) as (h2 & A2 & B2).
  destruct (hist_of _ D Nbin HD ltac:(lia) (NN 3%nat ltac:(lia))) as (h3 & A3 & B3).
  unfold types_furman_pivi, mapO, spectrum in F. rewrite A0, A1, A2, A3 in F. cbn [bind] in F. injection F as <- _.
  exists (fst (sts i)), (fun a => nth a (o_type e) 9%nat), (fun a => nth a ns 0%nat), (fun t => mask_get (map (fun x => Nat.eqb x t) (o_ext e)) (energies qe mass e)), h0, h1, h2, h3.
  split; [|split; [exact G|]].
  - intros a Ha. apply (outcome_same f (test_imp qe mass E ct) p); [cbn; auto|cbn; auto|exact (OU a Ha)].
  - intros t h Hh. assert (Ht : (t < 4)%nat) by (apply (nth_error_Some [h0; h1; h2; h3] t); rewrite Hh; discriminate).
    destruct (EN t Ht) as [C1 C2]. split; [rewrite C1; unfold count_of; rewrite T1; reflexivity|]. split; [exact C2|].
    destruct t as [|[|[|[|t]]]]; [| | | |lia]; cbn in Hh; injection Hh as <-; assumption.
Qed.

(** One cosine: the extraction returns if the model does. *)
Lemma fp_spectra_return n E ct Nbin factor st e k1 : 0 < E -> 0 < factor -> 0 <= ct <= 1 -> (2 <= Nbin)%nat ->
  fp_impacts cfuel sp f fs 1 true (repeat (test_imp qe mass E ct) n) (fst st) = Some (e, k1) ->
  exists H, extract_energy_distributions (fp_em cfuel sp f fs) types_furman_pivi qe mass n E [ct] Nbin factor st = Some ([H], (k1, snd st)).
Proof.
  intros HE HF Hc HN I. unfold extract_energy_distributions, bin_width. destruct (Nbin <=? 1)%nat eqn:NB; [apply Nat.leb_le in NB; lia|]. cbn [bind].
  assert (I2 : 2 <= INR Nbin) by (apply (le_INR 2); lia). set (D := E * factor / (INR Nbin - 1)).
  assert (HD : 0 < D) by (unfold D; apply Rdiv_lt_0_compat; [apply Rmult_lt_0_compat; assumption|lra]).
  cbn [loopO]. unfold spectrum_at, fp_em. rewrite I. cbn [bind].
  apply fp_spectrum_energies in I; [|lra|exact Hc]. destruct I as (ns & T1 & T2 & OU & EN).
  assert (NN : forall t, (t < 4)%nat -> Forall (fun x => 0 <= x) (mask_get (map (fun x => Nat.eqb x t) (o_ext e)) (energies qe mass e))).
  { intros t Ht. destruct (EN t Ht) as [_ A]. eapply Forall_impl; [|exact A]. intros x X. unfold fp_energy_at in X. destruct t as [|[|[|t]]]; [| | |lra].
    - destruct (f_ecl_energy f); lra. - destruct (f_ecl_energy f); [destruct X as [->|[X _]]; lra|lra]. - lra. }
  destruct (hist_of _ D Nbin HD ltac:(lia) (NN 0%nat ltac:(lia))) as (h0 & A0 & B0).
  destruct (hist_of _ D Nbin HD ltac:(lia) (NN 1%nat ltac:(lia))) as (h1 & A1 & B1).
  destruct (hist_of _ D Nbin HD ltac:(lia) (NN 2%nat ltac:(lia))) as (h2 & A2 & B2).
  destruct (hist_of _ D Nbin HD ltac:(lia) (NN 3%nat ltac:(lia))) as (h3 & A3 & B3).
  unfold types_furman_pivi, mapO, spectrum. rewrite A0, A1, A2, A3. cbn [bind]. eauto.
Qed.
End Fp.
