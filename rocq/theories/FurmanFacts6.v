(** The statements about the Furman-Pivi model. *)
From Coq Require Import Lra Lia Reals Psatz.
From Verif Require Import Num NumFacts Sey SpecSey SeyFacts SeyFacts2 SeyFacts3 Furman SpecFurman FurmanFacts FurmanFacts2 FurmanFacts3 FurmanFacts4 ExFurman.

Lemma outcome_exclusive f p u t n t' n' :
  fp_yield_sane f -> fp_outcome f p u t n -> fp_outcome f p u t' n' ->
  t = t' \/ (t = 1 /\ t' = 3 /\ n <> n')%nat \/ (t = 3 /\ t' = 1 /\ n <> n')%nat.
Proof.
  intros Y A B. assert (D : 0 <= dr_of f p) by (unfold dr_of; destruct (f_excl f); [lra|apply delta_r_nonneg; auto]).
  inversion A; inversion B; subst; auto;
    try (right; left; repeat split; lia); try (right; right; repeat split; lia); exfalso;
    repeat match goal with h : _ \/ _ |- _ => destruct h | h : _ /\ _ |- _ => destruct h end; try congruence; try lra.
Qed.

Lemma fp_rejects cfuel sp f fs th seg ps k p :
  In p ps -> 1 <= de_of f p + delta_r f (i_E p) (i_ct p) -> fp_impacts cfuel sp f fs th seg ps k = None.
Proof.
  intros Hp H. unfold fp_impacts, fp_yields. replace (existsb _ _) with true; auto. symmetry. apply existsb_exists.
  eexists. split; [apply in_map_iff; exists p; split; [reflexivity|auto]|]. cbn. unfold Rgeb. apply Rleb_true. exact H.
Qed.

Section S6.
Context (cfuel : nat) (sp : spfun) (f : fpar) (fs : fsrc) (th : R) (seg : bool) (ps : list imp) (k : nat) (e : emis) (k' : nat).

Lemma vels_at ns i : fp_books f fs k ps ns seg e -> (i < length ps)%nat ->
  length (vels e) = length ps /\ nth i (vels e) (0, 0, 0) = vel_at e i.
Proof.
  intros B Hi. pose proof (fb_sized _ _ _ _ _ _ _ B) as Z. unfold emis_sized in Z. unfold vels, vel_at.
  assert (L : length (o_vx e) = length ps /\ length (o_vy e) = length ps /\ length (o_vz e) = length ps) by intuition.
  destruct L as (L1 & L2 & L3). split; [rewrite !combine_length; lia|].
  rewrite !combine_nth; auto; rewrite ?combine_length; lia.
Qed.

Context (A : sp_ok sp) (B : fp_energy_sane f) (C : src_ok (f_src fs)) (D : Forall imp_ok ps).
Context (G : fp_impacts cfuel sp f fs th seg ps k = Some (e, k')).

Lemma fp_charge :
  rsum (o_nel e) + rsum (n_nel e) = rsum (o_tot e) /\
  exists ns : list nat, length ns = length ps /\ o_tot e = map2 (fun p n => i_nel p * INR n) ps ns /\
    length (n_nel e) = nsum (map pred ns).
Proof using A B C D G.
  destruct (fp_all f sp fs cfuel th seg ps k e k' A B C D G) as (ns & S & V & _ & T & _). split; auto. exists ns.
  pose proof (fb_len _ _ _ _ _ _ _ S) as L. split; auto. split.
  - pose proof (fb_sized _ _ _ _ _ _ _ S) as Z. unfold emis_sized in Z. assert (LT : length (o_tot e) = length ps) by intuition.
    apply (nth_ext _ _ 0 0); [rewrite map2_length; lia|]. intros i Hi. rewrite (fb_tot _ _ _ _ _ _ _ S) by lia.
    symmetry. unfold impat. rewrite (map2_nth _ ps ns i imp0 0%nat) by lia. auto.
  - destruct (fb_new _ _ _ _ _ _ _ S) as (N & _). rewrite N, map_length, repeat_each_length; auto. rewrite map_length. lia.
Qed.

Lemma fp_energy : f_conserve f = true ->
  exists ns, fp_books f fs k ps ns seg e /\
    forall i, (i < length ps)%nat -> (2 <= nth i ns 0)%nat ->
      event_energy f ns e i <= INR (nth i ns 0%nat - 1) * i_E (impat ps i).
Proof using A B C D G.
  intros Co. destruct (fp_all f sp fs cfuel th seg ps k e k' A B C D G) as (ns & S & V & _ & _ & T). specialize (T Co).
  exists ns. split; auto. intros i Hi Hn. destruct (vels_at ns i S Hi) as (L1 & L2).
  apply event_bound; auto; [apply (fb_len _ _ _ _ _ _ _ S)|].
  unfold kin3, kin_eV. pose proof (fs_qe f B). pose proof (fs_mass f B).
  set (v := vel_at e i). assert (0 <= fst3 v * fst3 v + snd3 v * snd3 v + thd3 v * thd3 v) by nra.
  unfold Rdiv. apply Rmult_le_pos; [|auto]. apply Rmult_le_pos; [|left; apply Rinv_0_lt_compat; auto]. apply Rmult_le_pos; lra.
Qed.

Lemma fp_fresh_all :
  exists ns, fp_books f fs k ps ns seg e /\
    Forall2 (fp_fresh f) (repeat_each ps (map pred ns)) (nvels e) /\
    (forall i, (i < length ps)%nat -> type_at e i = 1%nat -> (exists j, 2 <= nth j ns 0)%nat ->
       fp_fresh f (impat ps i) (vel_at e i)) /\
    (forall i, (i < length ps)%nat -> type_at e i = 1%nat -> (forall j, nth j ns 0 <= 1)%nat ->
       vel_at e i = vimp (impat ps i)).
Proof using A B C D G.
  destruct (fp_all f sp fs cfuel th seg ps k e k' A B C D G) as (ns & S & V & _). exists ns. split; auto.
  split; [apply (fv_new _ _ _ _ V)|]. split; [intros i Hi Ht (j & Hj); apply (fv_true _ _ _ _ V i j); auto|apply (fv_kept _ _ _ _ V)].
Qed.

Lemma fp_energies : f_ecl_energy f = false ->
  (forall i, (i < length ps)%nat -> type_at e i = 0%nat \/ type_at e i = 2%nat -> out_loss f (impat ps i) (vel_at e i)) /\
  (forall i, (i < length ps)%nat -> type_at e i = 3%nat -> vel_at e i = (0, 0, 0)) /\
  exists parents, (forall p, In p parents -> In p ps) /\ n_nel e = map i_nel parents /\
    Forall2 (out_loss f) parents (nvels e).
Proof using A B C D G.
  intros Ec. destruct (fp_all f sp fs cfuel th seg ps k e k' A B C D G) as (ns & S & V & _). split; [|split].
  - intros i Hi [Ht|Ht].
    + pose proof (fv_back _ _ _ _ V i Hi Ht) as Q. unfold back_vel in Q. rewrite Ec in Q. auto.
    + apply (fv_redi _ _ _ _ V); auto.
  - apply (fv_abs _ _ _ _ V).
  - exists (repeat_each ps (map pred ns)). split; [intros p; apply repeat_each_In|]. split; [apply (fb_new _ _ _ _ _ _ _ S)|].
    pose proof (fv_new _ _ _ _ V) as Q. unfold fp_fresh in Q. rewrite Ec in Q. auto.
Qed.
End S6.

Lemma fp_yields_ok f E ct : fp_yield_sane f -> 0 <= E -> 0 <= ct <= 1 ->
  0 <= delta_e f E ct /\ 0 <= delta_r f E ct /\ 0 <= delta_ts f E ct <= f_dTS f * ts_ang f ct.
Proof.
  intros Y HE HC. split; [apply delta_e_nonneg; auto|]. split; [apply delta_r_nonneg; auto|]. apply delta_ts_range; auto.
Qed.

Lemma energy_refuted sp : sp_ok sp -> exists f fs ps e k' ns,
  fp_energy_sane f /\ fp_yield_sane f /\ src_ok (f_src fs) /\ Forall imp_ok ps /\ f_conserve f = true /\
  fp_impacts 0 sp f fs 1 false ps 0 = Some (e, k') /\ fp_books f fs 0 ps ns false e /\
  type_at e 0 = 1%nat /\ i_E (impat ps 0) < event_energy f ns e 0.
Proof.
  intros SP. destruct (energy_broken sp SP) as (E & u & e & k' & HE & Hu & R & T & TT & EE).
  assert (I : Forall imp_ok [exI E]) by (constructor; [apply exI_ok; lra|constructor]).
  assert (RO : src_ok (f_src (exRng 3 u))) by (apply exRng_ok; lra).
  destruct (fp_all _ _ _ _ _ _ _ _ _ _ SP (exF_sane true E) RO I R) as (ns & S & _).
  exists (exF true E), (exRng 3 u), [exI E], e, k', ns. repeat (split; [solve [auto using exF_sane, exF_ysane]|]).
  replace ns with [3%nat]; [rewrite EE; cbn; lra|].
  pose proof (fb_len _ _ _ _ _ _ _ S) as L. destruct ns as [|n [|]]; try discriminate.
  pose proof (fb_tot _ _ _ _ _ _ _ S 0%nat (Nat.lt_0_succ 0)) as Q. rewrite TT in Q. cbn [nth] in Q. cbn [impat nth i_nel exI] in Q.
  f_equal. apply INR_eq. change (i_nel (impat [exI E] 0)) with 5 in Q. lra.
Qed.

Lemma velocity_refuted sp : sp_ok sp -> exists f fs ps e k',
  fp_energy_sane f /\ fp_yield_sane f /\ src_ok (f_src fs) /\ Forall imp_ok ps /\
  fp_impacts 0 sp f fs 1 false ps 0 = Some (e, k') /\ type_at e 0 = 1%nat /\
  vel_at e 0 = vimp (impat ps 0) /\
  normal_comp (i_nx (impat ps 0)) (i_ny (impat ps 0)) (fst3 (vel_at e 0)) (snd3 (vel_at e 0)) < 0.
Proof.
  intros SP. destruct (velocity_kept sp SP) as (E & u & e & k' & HE & Hu & R & T & V & N).
  exists (exF false E), (exRng 1 u), [exI E], e, k'. repeat (split; [solve [auto using exF_sane, exF_ysane]|]).
  split; [apply exRng_ok; lra|]. split; [constructor; [apply exI_ok; lra|constructor]|]. auto.
Qed.
