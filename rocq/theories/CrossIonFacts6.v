(** The velocities of all macroparticles added by a call of [generate]. *)
From Coq Require Import Lra Lia String Permutation.
From Verif Require Import Num NumFacts MP SpecMP MPFacts RegenFacts SourceFacts CrossIon SpecCrossIon CrossIonFacts CrossIonFacts2 CrossIonFacts3 CrossIonFacts4 CrossIonFacts5.
Local Open Scope list_scope.
Local Open Scope R_scope.

Section Vel.
Variables (qe : R) (rng : nat -> R) (cl : list xcloud) (procs : list xproc).
Hypothesis NDC : NoDup (map xc_name cl).

Definition vof (mass : R) (t : vtag) (u : nat) : R := sqrt (2 * (fst t / 3) * qe / mass) * (rng u - 1/2).
Definition tx (t : vtag) := fst (fst (snd t)).
Definition ty (t : vtag) := snd (fst (snd t)).
Definition tz (t : vtag) := snd (snd t).
Definition from_proc (name : string) (t : vtag) : Prop := exists p, In p procs /\ In name (x_prods p) /\ fst t = x_E p.

(** The velocities of an entry of the dictionary. *)
Definition vel (name : string) (i : xinfo) (T : list vtag) : Prop :=
  (forall c, In c cl -> xc_name c = name ->
    n_vx i = map (fun t => vof (xc_mass c) t (tx t)) T /\ n_vy i = map (fun t => vof (xc_mass c) t (ty t)) T /\
    n_vz i = map (fun t => vof (xc_mass c) t (tz t)) T) /\ Forall (from_proc name) T.

Record apart (T : string -> list vtag) (lo hi : nat) : Prop := {
  ap_nd : forall n, NoDup (flat_map used (T n));
  ap_dis : forall n m u, n <> m -> In u (flat_map used (T n)) -> In u (flat_map used (T m)) -> False;
  ap_rng : forall n u, In u (flat_map used (T n)) -> (lo <= u < hi)%nat }.

Lemma vel_add name a b T U : vel name a T -> vel name b U -> vel name (add_info a b) (T ++ U).
Proof.
  intros [A A'] [B B']. split; [|apply Forall_app; auto]. intros c I N. destruct (A c I N) as (A1 & A2 & A3). destruct (B c I N) as (B1 & B2 & B3).
  unfold add_info. cbn [n_vx n_vy n_vz]. rewrite !map_app. split; [congruence|]. split; congruence.
Qed.

Lemma vel_nil name : vel name empty_info [].
Proof. split; [|constructor]. intros c _ _. cbn. auto. Qed.

(** One entry of one process. *)
Fixpoint zip3 (E : R) (a b d : list nat) : list vtag :=
  match a, b, d with x :: a, y :: b, z :: d => (E, (x, y, z)) :: zip3 E a b d | _, _, _ => [] end.

Lemma zip3_maps E mass : forall a b d, List.length a = List.length b -> List.length a = List.length d ->
  map (fun t => vof mass t (tx t)) (zip3 E a b d) = map (fun u => sqrt (2 * (E / 3) * qe / mass) * (rng u - 1/2)) a /\
  map (fun t => vof mass t (ty t)) (zip3 E a b d) = map (fun u => sqrt (2 * (E / 3) * qe / mass) * (rng u - 1/2)) b /\
  map (fun t => vof mass t (tz t)) (zip3 E a b d) = map (fun u => sqrt (2 * (E / 3) * qe / mass) * (rng u - 1/2)) d /\
  Permutation (flat_map used (zip3 E a b d)) (a ++ b ++ d).
Proof.
  induction a as [|x a IH]; intros [|y b] [|z d] L1 L2; try discriminate; [cbn; auto|].
  injection L1 as L1. injection L2 as L2. destruct (IH b d L1 L2) as (A & B & C & P). cbn [zip3 map flat_map].
  split; [rewrite A; reflexivity|]. split; [rewrite B; reflexivity|]. split; [rewrite C; reflexivity|].
  cbn [used app]. constructor. rewrite (Permutation_app_comm a ((y :: b) ++ z :: d)). cbn [app]. constructor.
  rewrite <- app_assoc. cbn [app]. apply Permutation_cons_app. rewrite P. rewrite (Permutation_app_comm a (b ++ d)), <- app_assoc. reflexivity.
Qed.

Lemma zip3_fst E : forall a b d, Forall (fun t => fst t = E) (zip3 E a b d).
Proof. induction a as [|x a IH]; intros [|y b] [|z d]; cbn; constructor; auto. Qed.

Lemma same_cloud c c' : In c cl -> In c' cl -> xc_name c = xc_name c' -> c = c'.
Proof.
  revert NDC. generalize cl. intros l. induction l as [|a l IH]; intros ND I J E; [destruct I|]. cbn in ND. inversion ND as [|? ? NI ND']; subst.
  destruct I as [->|I], J as [->|J]; auto.
  - exfalso. apply NI. rewrite E. apply in_map; auto.
  - exfalso. apply NI. rewrite <- E. apply in_map; auto.
Qed.

Definition lens (i : xinfo) : Prop := List.length (n_vx i) = List.length (n_vy i) /\ List.length (n_vx i) = List.length (n_vz i).

Lemma entry_tags p name i t : In p procs -> In name (x_prods p) -> lens i -> started_by qe (x_E p) rng cl (name, i) t ->
  exists T, vel name i T /\ Permutation (flat_map used T) (ids t).
Proof.
  intros IP IN [L1 L2] (c & I & N & H). cbn [fst snd] in *. destruct t as [[a b] d]. destruct H as (X & Y & Z).
  rewrite X, Y, !map_length in L1. rewrite X, Z, !map_length in L2. destruct (zip3_maps (x_E p) (xc_mass c) a b d L1 L2) as (A & B & C & P).
  exists (zip3 (x_E p) a b d). split; [|exact P]. split.
  - intros c' I' N'. assert (c' = c) by (apply same_cloud; congruence). subst c'. rewrite A, B, C. auto.
  - eapply Forall_impl; [|apply zip3_fst]. cbv beta. intros t Ht. exists p. auto.
Qed.

(** One process. *)
Lemma infos_tags p : In p procs -> forall infos ts lo hi, (forall q, In q infos -> In (fst q) (x_prods p) /\ lens (snd q)) ->
  Forall2 (started_by qe (x_E p) rng cl) infos ts -> NoDup (map fst infos) -> NoDup (flat_map ids ts) ->
  Forall (fun j => (lo <= j < hi)%nat) (flat_map ids ts) ->
  exists g, (forall q, In q infos -> vel (fst q) (snd q) (g (fst q))) /\ (forall n, ~ In n (map fst infos) -> g n = []) /\ apart g lo hi /\
    forall n u, In u (flat_map used (g n)) -> In u (flat_map ids ts).
Proof.
  intros IP infos ts lo hi HQ F. induction F as [|[name i] t infos ts S F IH]; intros ND NU FR.
  - exists (fun _ => []). split; [intros q []|]. split; [auto|]. split; [|intros n u []]. split; [intros; constructor|intros n m u _ []|intros n u []].
  - cbn [map flat_map] in *. inversion ND as [|? ? NI ND']; subst. apply Forall_app in FR. destruct FR as [FR1 FR2].
    assert (D : NoDup (ids t) /\ NoDup (flat_map ids ts) /\ forall u, In u (ids t) -> In u (flat_map ids ts) -> False).
    { revert NU. generalize (ids t), (flat_map ids ts). clear. intros l. induction l as [|a l IH]; intros l0 N; cbn in *; [split; [constructor|split; auto]|].
      inversion N; subst. destruct (IH _ H2) as (A & B & C). split; [|split; [auto|]].
      - constructor; auto. intros K. apply H1, in_or_app. auto.
      - intros u [<-|K] K'; [apply H1, in_or_app; auto|eauto]. }
    destruct D as (N1 & N2 & DJ). destruct IH as (g & G1 & G2 & [G3 G4 G5] & G6); auto; [intros q Hq; apply HQ; right; auto|].
    destruct (HQ _ (or_introl eq_refl)) as [Q1 Q2]. cbn [fst snd] in *.
    destruct (entry_tags p name i t IP Q1 Q2 S) as (T & V & P).
    assert (PT : forall u, In u (flat_map used T) <-> In u (ids t)) by (intros u; split; [apply Permutation_in; auto|apply Permutation_in; apply Permutation_sym; auto]).
    exists (fun n => if String.eqb n name then T else g n). split; [|split; [|split]].
    + intros q [<-|Hq]; cbn [fst snd]; [rewrite String.eqb_refl; exact V|].
      destruct (String.eqb_spec (fst q) name) as [E|E]; [exfalso; apply NI; rewrite <- E; apply in_map; auto|auto].
    + intros n Hn. cbn [In] in Hn. destruct (String.eqb_spec n name) as [->|E]; [exfalso; auto|apply G2; auto].
    + split.
      * intros n. destruct (String.eqb_spec n name); [|auto]. apply (Permutation_NoDup (Permutation_sym P)). exact N1.
      * intros n m u NE. destruct (String.eqb_spec n name), (String.eqb_spec m name); subst; try congruence.
        -- intros A B. apply PT in A. apply G6 in B. eauto.
        -- intros A B. apply PT in B. apply G6 in A. eauto.
        -- intros A B. exact (G4 n m u NE A B).
      * intros n u. destruct (String.eqb_spec n name); [|apply G5]. intros A. apply PT in A. rewrite Forall_forall in FR1. auto.
    + intros n u. destruct (String.eqb_spec n name); intros A; apply in_or_app; [left; apply PT; auto|right; eapply G6; eauto].
Qed.

(** The dictionary. *)
Definition dvel (d : xdict) (T : string -> list vtag) : Prop := forall q, In q d -> vel (fst q) (snd q) (T (fst q)).

Lemma put_vel d name i d' T U : dvel d T -> vel name i U -> put_info d name i = Some d' -> dvel d' (fun n => T n ++ if String.eqb n name then U else []).
Proof.
  intros D V E. unfold put_info in E. destruct (get_info d name); [|discriminate]. cbn [bind] in E. injection E as <-.
  intros q Hq. apply in_map_iff in Hq. destruct Hq as (q0 & <- & Hq). specialize (D _ Hq). destruct (String.eqb_spec (fst q0) name) as [E|E]; cbn [fst snd].
  - rewrite E, String.eqb_refl. apply vel_add; [rewrite <- E; exact D|exact V].
  - destruct (String.eqb_spec (fst q0) name); [contradiction|]. rewrite app_nil_r. exact D.
Qed.

Lemma dvel_ext d T U : (forall n, T n = U n) -> dvel d T -> dvel d U.
Proof. intros H D q Hq. rewrite <- H. auto. Qed.

Lemma collect_vel infos D g : (forall q, In q infos -> vel (fst q) (snd q) (g (fst q))) -> forall prods d cnt d' cnt' T, NoDup prods -> dvel d T ->
  collect infos D prods d cnt = Some (d', cnt') -> dvel d' (fun n => T n ++ if existsb (String.eqb n) prods then g n else []).
Proof.
  intros G. induction prods as [|a prods IH]; intros d cnt d' cnt' T ND DV E; cbn [collect] in E.
  - injection E as <- _. eapply dvel_ext; [|exact DV]. intros n. cbn. rewrite app_nil_r. reflexivity.
  - destruct (get_info (rev infos) a) as [i|] eqn:GI; [|discriminate]. cbn [bind] in E.
    destruct (put_info d a i) as [d1|] eqn:PU; [|discriminate]. cbn [bind] in E. apply get_info_In in GI. apply in_rev in GI.
    inversion ND as [|? ? NI ND']; subst. specialize (G _ GI) as V. cbn [fst snd] in V.
    pose proof (put_vel _ _ _ _ _ _ DV V PU) as D1. pose proof (IH _ _ _ _ _ ND' D1 E) as D2. eapply dvel_ext; [|exact D2].
    intros n. cbn [existsb]. rewrite <- app_assoc. f_equal. destruct (String.eqb_spec n a) as [->|NE]; cbn [orb].
    + destruct (existsb (String.eqb a) prods) eqn:X; [|apply app_nil_r]. apply existsb_exists in X. destruct X as (b & I & Q). apply String.eqb_eq in Q. subst. contradiction.
    + reflexivity.
Qed.

Lemma apart_join T g lo mid hi (sel : string -> bool) : (lo <= mid)%nat -> (mid <= hi)%nat -> apart T lo mid -> apart g mid hi -> apart (fun n => T n ++ if sel n then g n else []) lo hi.
Proof.
  intros L1 L2 [T1 T2 T3] [G1 G2 G3].
  assert (K : forall n u, In u (flat_map used (T n ++ if sel n then g n else [])) -> In u (flat_map used (T n)) \/ In u (flat_map used (g n))).
  { intros n u. rewrite flat_map_app, in_app_iff. destruct (sel n); cbn; tauto. }
  split.
  - intros n. rewrite flat_map_app. apply NoDup_join; [apply T1|destruct (sel n); [apply G1|constructor]|].
    intros u A B. apply T3 in A. destruct (sel n); [apply G3 in B; lia|destruct B].
  - intros n m u NE A B. apply K in A. apply K in B. destruct A as [A|A], B as [B|B]; [eapply T2; eauto| | |eapply G2; eauto].
    + apply T3 in A. apply G3 in B. lia.
    + apply G3 in A. apply T3 in B. lia.
  - intros n u A. apply K in A. destruct A as [A|A]; [apply T3 in A|apply G3 in A]; lia.
Qed.

Lemma process_k p Dt mass pr k p' infos D k' : process_generate qe p Dt cl mass pr rng k = Some (p', infos, D, k') -> (k <= k')%nat.
Proof.
  unfold process_generate. intros E. destruct (xmapM _ _) as [DN|] eqn:XM; [|discriminate]. cbn [bind] in E.
  destruct (x_equal p).
  - destruct (mean_ref cl _ (x_prods p) 0) as [r|] eqn:MR; [|discriminate]. cbn [bind] in E.
    destruct (products_loop _ _ _ _ _ _ _ _ _) as [[inf k2]|] eqn:PL; [|discriminate]. cbn [bind] in E. injection E as _ _ _ <-.
    apply loop_velocities in PL. destruct PL as (_ & _ & _ & _ & K). lia.
  - cbn [bind] in E. destruct (products_loop _ _ _ _ _ _ _ _ _) as [[inf k2]|] eqn:PL; [|discriminate]. cbn [bind] in E. injection E as _ _ _ <-.
    apply loop_velocities in PL. destruct PL as (_ & _ & _ & _ & K). lia.
Qed.

Variable Dt : R.
Hypothesis HDt : 0 <= Dt.
Hypothesis RP : refs_pos cl.

Lemma procs_vel mass pr : Forall (fun j => 0 <= j_nel j /\ 0 <= j_v j) pr -> forall ps d cnt k ps' d' cnt' k' T lo, (lo <= k)%nat ->
  (forall p, In p ps -> In p procs /\ table_ok p /\ 0 <= x_dens p /\ NoDup (x_prods p)) -> dvel d T -> apart T lo k ->
  procs_loop qe Dt cl mass pr ps d cnt rng k = Some (ps', d', cnt', k') -> (k <= k')%nat /\ exists T', dvel d' T' /\ apart T' lo k'.
Proof.
  intros F. induction ps as [|p ps IH]; intros d cnt k ps' d' cnt' k' T lo L H DV AP E; cbn [procs_loop] in E.
  - injection E as <- <- <- <-. split; [lia|]. exists T. auto.
  - destruct (process_generate _ _ _ _ _ _ _ _) as [[[[p' infos] DN] k1]|] eqn:PG; [|discriminate]. cbn [bind] in E.
    destruct (collect _ _ _ _ _) as [[d1 cnt1]|] eqn:CO; [|discriminate]. cbn [bind] in E.
    destruct (procs_loop _ _ _ _ _ _ _ _ _ _) as [[[[rest d2] cnt2] k2]|] eqn:PL; [|discriminate]. cbn [bind] in E.
    injection E as <- <- <- <-. destruct (H p (or_introl eq_refl)) as (IP & TO & DE & NP).
    pose proof (process_k _ _ _ _ _ _ _ _ _ PG) as K1. pose proof PG as PG'. apply process_velocities in PG. destruct PG as (ts & S & NU & FR).
    apply process_ok in PG'; auto. destruct PG' as (DNs & _ & _ & _ & _ & MF & G4).
    destruct (infos_tags p IP infos ts k k1) as (g & V & GN & GA & _); auto.
    { intros q Hq. split; [rewrite <- MF; apply in_map; auto|]. rewrite Forall_forall in G4. destruct (G4 _ Hq) as (ref & src & _ & IF & _). destruct IF. split; congruence. }
    { rewrite MF. exact NP. }
    pose proof (collect_vel infos DN g V _ _ _ _ _ _ NP DV CO) as D1.
    assert (A1 := apart_join _ _ _ _ _ (fun n => existsb (String.eqb n) (x_prods p)) L K1 AP GA).
    assert (LL : (lo <= k1)%nat) by lia. destruct (IH _ _ _ _ _ _ _ _ lo LL (fun q Hq => H q (or_intror Hq)) D1 A1 PL) as (K2 & T' & D2 & A2). split; [lia|]. exists T'. auto.
Qed.

Lemma proj_vel : Forall (fun c => Forall (fun p => 0 <= m_nel p) (live (xc_mp c))) cl -> forall pd d cnt k pd' d' cnt' k' T lo, (lo <= k)%nat ->
  (forall p, In p (flatp pd) -> In p procs /\ table_ok p /\ 0 <= x_dens p /\ NoDup (x_prods p)) -> dvel d T -> apart T lo k ->
  proj_loop qe Dt cl pd d cnt rng k = Some (pd', d', cnt', k') -> (k <= k')%nat /\ exists T', dvel d' T' /\ apart T' lo k'.
Proof.
  intros FL. induction pd as [|[name ps] pd IH]; intros d cnt k pd' d' cnt' k' T lo L H DV AP E; cbn [proj_loop] in E.
  - injection E as <- <- <- <-. split; [lia|]. exists T. auto.
  - destruct (find_cloud name cl) as [c|] eqn:FC; [|discriminate]. cbn [bind] in E. apply find_cloud_In in FC. destruct FC as [FI FN].
    destruct (if Nat.ltb 0 (N_mp (xc_mp c)) then _ else _) as [[[[ps1 d1] cnt1] k1]|] eqn:PL; [|discriminate]. cbn [bind] in E.
    destruct (proj_loop _ _ _ _ _ _ _ _) as [[[[rest d2] cnt2] k2]|] eqn:PJ; [|discriminate]. cbn [bind] in E. injection E as <- <- <- <-.
    assert (A : (k <= k1)%nat /\ exists T', dvel d1 T' /\ apart T' lo k1).
    { destruct (Nat.ltb 0 (N_mp (xc_mp c))).
      - eapply procs_vel; [| |intros p Hp; apply H; cbn [flatp flat_map snd]; apply in_or_app; left; exact Hp|exact DV|exact AP|exact PL]; auto.
        apply projectiles_pos. rewrite Forall_forall in FL. auto.
      - injection PL as <- <- <- <-. split; [lia|]. exists T. auto. }
    destruct A as (K1 & T1 & D1 & A1).
    assert (LL : (lo <= k1)%nat) by lia. destruct (IH _ _ _ _ _ _ _ T1 lo LL (fun p Hp => H p (in_or_app _ _ _ (or_intror Hp))) D1 A1 PJ) as (K2 & T2 & D2 & A2). split; [lia|]. exists T2. auto.
Qed.
End Vel.

(** Adding to the clouds. *)
Lemma add_one_vel qe rng cl procs P i T c s' : In c cl -> vel qe rng cl procs (xc_name c) i T -> wf (xc_mp c) -> (N_mp (xc_mp c) < capacity (xc_mp c))%nat -> info_pts P i ->
  (if (0 <? n_N i)%Z then add_new_MPs (Z.to_nat (n_N i)) (info_batch i) (xc_mp c) else Some (xc_mp c)) = Some s' ->
  exists new, live s' = live (xc_mp c) ++ new /\ Forall2 (fun q t => thrown qe (xc_mass c) rng q t /\ from_proc procs (xc_name c) t) new T.
Proof.
  intros IC [V FP] W HC (src & A1 & A2 & A3 & A4 & A5 & A6 & A7 & A8 & A9 & A10) E. destruct (V c IC eq_refl) as (VX & VY & VZ). set (s := xc_mp c) in *.
  assert (LT : List.length T = List.length src) by (rewrite <- A6, VX, map_length; reflexivity).
  destruct (Z.ltb_spec 0 (n_N i)) as [H|H].
  - assert (NN : Z.to_nat (n_N i) = List.length src) by lia.
    assert (FT : (N_mp s + Z.to_nat (n_N i) <= capacity s)%nat).
    { eapply add_fits; [auto|auto| |exact E]. cbn. rewrite A3, map_length. auto. }
    rewrite add_info_batch in E by auto.
    assert (B : batch_ok (Z.to_nat (n_N i)) (full_info i)).
    { unfold batch_ok, full_info. cbn. rewrite A3, A4, A5, !map_length, repeat_length, NN. repeat split; auto. }
    destruct (add_new_spec _ _ s W B FT) as (s1 & E1 & L1 & _). rewrite E in E1. injection E1 as <-.
    eexists. split; [exact L1|]. rewrite NN, <- LT. cbn [full_info b_vx b_vy b_vz]. 
    assert (G : forall m l, (forall n t, nth_error l n = Some t -> nth_error T (m + n) = Some t) ->
      Forall2 (fun q t => thrown qe (xc_mass c) rng q t /\ from_proc procs (xc_name c) t) (map (batch_mp (flag_lifetime_hist s) (full_info i)) (seq m (List.length l))) l).
    { intros m l. revert m. induction l as [|t l IH]; intros m HT; cbn [List.length seq map]; constructor.
      - specialize (HT 0%nat t eq_refl). rewrite Nat.add_0_r in HT. pose proof (nth_error_In _ _ HT) as IT. split; [|rewrite Forall_forall in FP; auto].
        destruct t as [e [[a b] d]]. unfold thrown. cbn [batch_mp full_info m_vx m_vy m_vz b_vx b_vy b_vz]. rewrite VX, VY, VZ.
        assert (K : forall f : vtag -> R, nth m (map f T) 0 = f (e, (a, b, d))).
        { intros f. apply nth_error_nth. rewrite nth_error_map, HT. reflexivity. }
        rewrite !K. cbn. auto.
      - apply IH. intros n t' Ht. specialize (HT (S n) t' Ht). rewrite Nat.add_succ_r in HT. exact HT. }
    apply (G 0%nat T). auto.
  - injection E as <-. assert (src = []) by (destruct src; cbn in *; auto; lia). subst. destruct T; [|discriminate]. exists []. rewrite app_nil_r. split; [auto|constructor].
Qed.

Lemma add_loop_vel qe rng cl0 x T prods d P : dict_pts P d -> dvel qe rng cl0 (procs_of x) d T -> (forall n, ~ In n prods -> T n = []) -> forall cl cnt cl' cnt', incl cl cl0 -> clouds_ok cl ->
  add_loop prods d cnt cl = Some (cl', cnt') -> Forall2 (newly qe rng x T) cl cl'.
Proof.
  intros DP DV TN. induction cl as [|c cl IH]; intros cnt cl' cnt' IC OK E; cbn [add_loop] in E.
  - injection E as <- <-. constructor.
  - destruct (if existsb _ _ then _ else _) as [[c1 cnt1]|] eqn:HD; [|discriminate]. cbn [bind] in E.
    destruct (add_loop prods d cnt1 cl) as [[rest cnt2]|] eqn:AL; [|discriminate]. cbn [bind] in E. injection E as <- <-.
    destruct OK as [ND OK]. inversion ND as [|? ? Nin ND']; inversion OK as [|? ? OKc OK']; subst. destruct OKc as (W & HC & HR & HN).
    constructor; [|eapply IH; [|split; auto|exact AL]; intros y Hy; apply IC; right; auto].
    destruct (existsb (String.eqb (xc_name c)) prods) eqn:EX.
    + destruct (get_info d (xc_name c)) as [i|] eqn:GI; [|discriminate]. cbn [bind] in HD.
      destruct (if (0 <? n_N i)%Z then _ else _) as [s1|] eqn:AN; [|discriminate]. cbn [bind] in HD. injection HD as <- <-.
      apply get_info_In in GI. assert (IP : info_pts P i) by (unfold dict_pts in DP; rewrite Forall_forall in DP; apply (DP _ GI)).
      specialize (DV _ GI). cbn [fst snd] in DV.
      eapply add_one_vel in AN; [|apply IC; left; reflexivity|exact DV|auto|auto|exact IP]. exact AN.
    + injection HD as <- <-. exists []. rewrite app_nil_r. split; [reflexivity|]. rewrite TN; [constructor|].
      intros I. assert (existsb (String.eqb (xc_name c)) prods = true) by (apply existsb_exists; exists (xc_name c); split; [exact I|apply String.eqb_refl]). congruence.
Qed.

Lemma apart_sel T lo hi (sel : string -> bool) : apart T lo hi -> apart (fun n => if sel n then T n else []) lo hi.
Proof.
  intros [A B C]. split.
  - intros n. destruct (sel n); [auto|constructor].
  - intros n m u NE. destruct (sel n), (sel m); intros P Q; try solve [destruct P|destruct Q]. exact (B n m u NE P Q).
  - intros n u. destruct (sel n); [apply C|intros []].
Qed.

Lemma put_keys d name i d' : put_info d name i = Some d' -> map fst d' = map fst d.
Proof.
  unfold put_info. destruct (get_info d name); [|discriminate]. cbn [bind]. intros E. injection E as <-. rewrite map_map. apply map_ext.
  intros q. destruct (String.eqb _ _); reflexivity.
Qed.
Lemma collect_keys infos D : forall prods d cnt d' cnt', collect infos D prods d cnt = Some (d', cnt') -> map fst d' = map fst d.
Proof.
  induction prods as [|a prods IH]; intros d cnt d' cnt' E; cbn [collect] in E; [injection E as <- _; reflexivity|].
  destruct (get_info (rev infos) a) as [i|]; [|discriminate]. cbn [bind] in E. destruct (put_info d a i) as [d1|] eqn:PU; [|discriminate]. cbn [bind] in E.
  rewrite (IH _ _ _ _ E). eapply put_keys; eauto.
Qed.
Lemma procs_keys qe Dt cl mass pr rng : forall ps d cnt k ps' d' cnt' k', procs_loop qe Dt cl mass pr ps d cnt rng k = Some (ps', d', cnt', k') -> map fst d' = map fst d.
Proof.
  induction ps as [|p ps IH]; intros d cnt k ps' d' cnt' k' E; cbn [procs_loop] in E; [injection E as _ <- _ _; reflexivity|].
  destruct (process_generate _ _ _ _ _ _ _ _) as [[[[p' infos] DN] k1]|]; [|discriminate]. cbn [bind] in E.
  destruct (collect _ _ _ _ _) as [[d1 cnt1]|] eqn:CO; [|discriminate]. cbn [bind] in E.
  destruct (procs_loop _ _ _ _ _ _ _ _ _ _) as [[[[rest d2] cnt2] k2]|] eqn:PL; [|discriminate]. cbn [bind] in E. injection E as _ <- _ _.
  rewrite (IH _ _ _ _ _ _ _ PL). eapply collect_keys; eauto.
Qed.
Lemma proj_keys qe Dt cl rng : forall pd d cnt k pd' d' cnt' k', proj_loop qe Dt cl pd d cnt rng k = Some (pd', d', cnt', k') -> map fst d' = map fst d.
Proof.
  induction pd as [|[name ps] pd IH]; intros d cnt k pd' d' cnt' k' E; cbn [proj_loop] in E; [injection E as _ <- _ _; reflexivity|].
  destruct (find_cloud name cl) as [c|]; [|discriminate]. cbn [bind] in E.
  destruct (if Nat.ltb 0 (N_mp (xc_mp c)) then _ else _) as [[[[ps1 d1] cnt1] k1]|] eqn:PL; [|discriminate]. cbn [bind] in E.
  destruct (proj_loop _ _ _ _ _ _ _ _) as [[[[rest d2] cnt2] k2]|] eqn:PJ; [|discriminate]. cbn [bind] in E. injection E as _ <- _ _.
  rewrite (IH _ _ _ _ _ _ _ PJ). destruct (Nat.ltb 0 (N_mp (xc_mp c))); [eapply procs_keys; eauto|injection PL as _ <- _ _; reflexivity].
Qed.

Lemma generate_velocities qe Dt x cl rng k x' cl' k' : 0 <= Dt ->
  targets_ok x -> tables_ok x -> prods_ok x -> clouds_ok cl ->
  cross_generate qe Dt x cl rng k = Some (x', cl', k') ->
  exists T, Forall2 (newly qe rng x T) cl cl' /\
    (forall n, NoDup (flat_map used (T n)) /\ Forall (fun u => (k <= u < k')%nat) (flat_map used (T n))) /\
    forall n m u, In u (flat_map used (T n)) -> In u (flat_map used (T m)) -> n = m.
Proof.
  intros Ht TO TA PR CO E. unfold cross_generate in E.
  destruct (proj_loop _ _ _ _ _ _ _ _) as [[[[procs d] cnt] k1]|] eqn:PL; [|discriminate]. cbn [bind] in E.
  destruct (add_loop _ _ _ _) as [[cl1 cnt1]|] eqn:AL; [|discriminate]. cbn [bind] in E. injection E as <- <- <-.
  pose proof PL as PL'. pose proof (proj_keys _ _ _ _ _ _ _ _ _ _ _ _ PL) as KE.
  apply (proj_loop_ok (fun _ => True)) in PL'; auto using init_dict_pts. destruct PL' as (A1 & _).
  eapply (proj_vel qe rng cl (procs_of x) (proj1 CO) Dt Ht (clouds_refs _ CO)) with (T := fun _ : string => @nil vtag) (lo := k) in PL; auto; [destruct PL as (_ & T & DV & AP)| | | |].
  2: { eapply Forall_impl; [|exact (proj2 CO)]. cbv beta. tauto. }
  2: { intros p Hp. unfold targets_ok, tables_ok, prods_ok in *. rewrite Forall_forall in TO, TA, PR. split; [exact Hp|]. split; [exact (TA p Hp)|]. auto. }
  2: { intros q Hq. unfold init_dict in Hq. apply in_map_iff in Hq. destruct Hq as (n & <- & _). apply vel_nil. }
  2: { split; [intros; constructor|intros n m u _ []|intros n u []]. }
  - set (T' := fun n => if existsb (String.eqb n) (xi_prods x) then T n else []).
    assert (KI : map fst d = xi_prods x) by (rewrite KE; unfold init_dict; rewrite map_map; apply map_id).
    assert (D' : dvel qe rng cl (procs_of x) d T').
    { intros q Hq. unfold T'. assert (existsb (String.eqb (fst q)) (xi_prods x) = true) as ->.
      - apply existsb_exists. exists (fst q). split; [rewrite <- KI; apply in_map; auto|apply String.eqb_refl].
      - apply DV; auto. }
    assert (A' : apart T' k k1) by (apply apart_sel; exact AP). exists T'. split; [|split].
    + eapply add_loop_vel; [exact A1|exact D'| |apply incl_refl|exact CO|exact AL].
      intros n Hn. unfold T'. destruct (existsb (String.eqb n) (xi_prods x)) eqn:X; [|reflexivity].
      apply existsb_exists in X. destruct X as (b & I & Q). apply String.eqb_eq in Q. subst. contradiction.
    + intros n. destruct A' as [B1 B2 B3]. split; [apply B1|]. apply Forall_forall. intros u Hu. eapply B3; eauto.
    + intros n m u P Q. destruct (string_dec n m) as [|NE]; [auto|]. exfalso. destruct A' as [B1 B2 B3]. eapply B2; eauto.
Qed.
