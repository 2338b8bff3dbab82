(** Sizes, velocities and names of the products. *)
From Coq Require Import Lra Lia String.
From Verif Require Import Num NumFacts MP SpecMP CrossIon SpecCrossIon CrossIonFacts CrossIonFacts2 CrossIonFacts4.
Local Open Scope list_scope.
Local Open Scope R_scope.

Lemma mean_ref_refs cl n : n <> 0 -> forall prods acc r, mean_ref cl n prods acc = Some r ->
  exists refs, Forall2 (fun name e => exists c, In c cl /\ xc_name c = name /\ e = nel_mp_ref (xc_mp c)) prods refs /\ r = acc + rsum refs / n.
Proof.
  intros Hn. induction prods as [|a prods IH]; intros acc r E; cbn [mean_ref] in E.
  - injection E as <-. exists []. split; [constructor|]. unfold rsum; cbn. field. exact Hn.
  - destruct (find_cloud a cl) as [c|] eqn:FC; [|discriminate]. cbn [bind] in E. apply find_cloud_In in FC. destruct FC as [FI FN].
    apply IH in E. destruct E as (refs & F & ->). exists (nel_mp_ref (xc_mp c) :: refs). split; [constructor; eauto|].
    change (rsum (nel_mp_ref (xc_mp c) :: refs)) with (nel_mp_ref (xc_mp c) + rsum refs). field. exact Hn.
Qed.

Lemma process_sizes qe p Dt cl mass s rng k p' infos D k' :
  (forall E sg, get_sigma (x_tab p) E = Some sg -> 0 <= sg) -> 0 <= x_dens p -> 0 <= Dt -> clouds_ok cl ->
  Forall (fun q => 0 <= m_nel q) (live s) ->
  process_generate qe p Dt cl mass (projectiles s) rng k = Some (p', infos, D, k') -> x_equal p = true ->
  exists refs, Forall2 (fun name e => exists c, In c cl /\ xc_name c = name /\ e = nel_mp_ref (xc_mp c)) (x_prods p) refs /\
    Forall (fun i => Forall (fun e => e = rsum refs / INR (List.length refs)) (n_nel (snd i))) infos.
Proof.
  intros T HD Ht CO F E EQ. pose proof E as E0. apply process_ok in E; auto using clouds_refs, projectiles_pos.
  destruct E as (DN & _ & _ & _ & _ & A5 & A6). rewrite EQ in A6. destruct (x_prods p) as [|a l] eqn:PR.
  - destruct infos; [|discriminate]. exists []. split; constructor.
  - assert (Hn : INR (List.length (a :: l)) <> 0) by (apply not_0_INR; cbn; lia). rewrite <- PR in *. 
    assert (M : exists r, mean_ref cl (INR (List.length (x_prods p))) (x_prods p) 0 = Some r).
    { destruct infos as [|i infos]; [rewrite PR in A5; discriminate|]. inversion A6 as [|? ? (ref & src & _ & _ & j & _ & M & _) _]; subst. eauto. }
    destruct M as [r M]. destruct (mean_ref_refs _ _ Hn _ _ _ M) as (refs & F2 & ER). exists refs. split; [exact F2|].
    eapply Forall_impl; [|exact A6]. intros i (ref & src & _ & IF & j & _ & M2 & _). rewrite M in M2. injection M2 as <-.
    destruct IF. rewrite if_nel. apply Forall_forall. intros e He. apply repeat_spec in He. rewrite He, ER. rewrite <- (Forall2_length F2). ring.
Qed.

Lemma NoDup_join {A} (a b : list A) : NoDup a -> NoDup b -> (forall x, In x a -> In x b -> False) -> NoDup (a ++ b).
Proof.
  revert b. induction a as [|x a IHa]; intros b A1 B C; cbn; [exact B|]. inversion A1; subst. constructor; [intros Z; apply in_app_or in Z; destruct Z; [auto|eapply C; [left; reflexivity|eassumption]]|].
  apply IHa; auto. intros y Y1 Y2. eapply C; [right; eassumption|eassumption].
Qed.

Lemma product_velocities qe p mass ref counts pr rng k i k' : product_info qe p mass ref counts pr rng k = (i, k') ->
  exists a b d, NoDup (ids (a, b, d)) /\ Forall (fun j => (k <= j < k')%nat) (ids (a, b, d)) /\ (k <= k')%nat /\
    let v := sqrt (2 * (x_E p / 3) * qe / mass) in
    n_vx i = map (fun u => v * (rng u - 1/2)) a /\ n_vy i = map (fun u => v * (rng u - 1/2)) b /\ n_vz i = map (fun u => v * (rng u - 1/2)) d.
Proof.
  unfold product_info. destruct (0 <? zsum counts)%Z; intros E; injection E as <- <-.
  - set (n := Z.to_nat _). exists (seq k n), (seq (k + n) n), (seq (k + n + n) n). cbn [ids n_vx n_vy n_vz].
    split; [|split; [|split; [lia|]]].
    + repeat apply NoDup_join; try apply seq_NoDup; intros x P Q; repeat (apply in_app_or in Q; destruct Q as [Q|Q]); apply in_seq in P; apply in_seq in Q; lia.
    + apply Forall_forall. intros x Q. repeat (apply in_app_or in Q; destruct Q as [Q|Q]); apply in_seq in Q; lia.
    + unfold draw. rewrite !map_map. auto.
  - exists [], [], []. cbn. repeat split; auto; constructor.
Qed.

Lemma loop_velocities qe p cl DN sh pr rng : forall prods k infos k', products_loop qe p cl DN sh pr prods rng k = Some (infos, k') ->
  exists ts, Forall2 (started_by qe (x_E p) rng cl) infos ts /\ NoDup (flat_map ids ts) /\ Forall (fun j => (k <= j < k')%nat) (flat_map ids ts) /\ (k <= k')%nat.
Proof.
  induction prods as [|a prods IH]; intros k infos k' E; cbn [products_loop] in E.
  - injection E as <- <-. exists []. cbn. repeat split; constructor.
  - destruct (find_cloud a cl) as [c|] eqn:FC; [|discriminate]. cbn [bind] in E. apply find_cloud_In in FC. destruct FC as [FI FN].
    assert (X : exists ref counts k0 i k1 rest, (k <= k0)%nat /\ product_info qe p (xc_mass c) ref counts pr rng k0 = (i, k1) /\
      products_loop qe p cl DN sh pr prods rng k1 = Some (rest, k') /\ infos = (a, i) :: rest).
    { destruct sh as [[r cs]|].
      - destruct (product_info qe p (xc_mass c) r cs pr rng k) as [i k1] eqn:PI.
        destruct (products_loop _ _ _ _ _ _ _ _ _) as [[rest k2]|] eqn:PL; [|discriminate]. cbn [bind] in E. injection E as <- <-.
        exists r, cs, k, i, k1, rest. auto.
      - destruct (product_info qe p (xc_mass c) (nel_mp_ref (xc_mp c)) (counts_of DN (nel_mp_ref (xc_mp c)) rng k) pr rng (k + List.length DN)) as [i k1] eqn:PI.
        destruct (products_loop _ _ _ _ _ _ _ _ _) as [[rest k2]|] eqn:PL; [|discriminate]. cbn [bind] in E. injection E as <- <-.
        eexists _, _, _, i, k1, rest. split; [|split; [exact PI|auto]]. lia. }
    destruct X as (ref & counts & k0 & i & k1 & rest & K0 & PI & PL & ->). apply product_velocities in PI. destruct PI as (x & y & z & ND & FR & K1 & V).
    apply IH in PL. destruct PL as (ts & F & ND2 & FR2 & K2). exists ((x, y, z) :: ts). rewrite Forall_forall in FR, FR2.
    split; [constructor; auto; exists c; auto|]. cbn [flat_map]. split; [|split; [|lia]].
    + apply NoDup_join; auto. intros j P Q. apply FR in P. apply FR2 in Q. lia.
    + apply Forall_forall. intros j Q. apply in_app_or in Q. destruct Q as [Q|Q]; [apply FR in Q|apply FR2 in Q]; lia.
Qed.

Lemma process_velocities qe p Dt cl mass pr rng k p' infos D k' : process_generate qe p Dt cl mass pr rng k = Some (p', infos, D, k') ->
  exists ts, Forall2 (started_by qe (x_E p) rng cl) infos ts /\ NoDup (flat_map ids ts) /\ Forall (fun j => (k <= j < k')%nat) (flat_map ids ts).
Proof.
  unfold process_generate. intros E. destruct (xmapM _ _) as [DN|] eqn:XM; [|discriminate]. cbn [bind] in E.
  assert (X : exists sh k0, (k <= k0)%nat /\ products_loop qe p cl DN sh pr (x_prods p) rng k0 = Some (infos, k')).
  { destruct (x_equal p).
    - destruct (mean_ref cl _ (x_prods p) 0) as [r|] eqn:MR; [|discriminate]. cbn [bind] in E.
      destruct (products_loop _ _ _ _ _ _ _ _ _) as [[inf k2]|] eqn:PL; [|discriminate]. cbn [bind] in E. injection E as <- <- <- <-.
      eexists _, _. split; [|exact PL]. lia.
    - cbn [bind] in E. destruct (products_loop _ _ _ _ _ _ _ _ _) as [[inf k2]|] eqn:PL; [|discriminate]. cbn [bind] in E. injection E as <- <- <- <-.
      eexists _, _. split; [|exact PL]. lia. }
  destruct X as (sh & k0 & K & PL). apply loop_velocities in PL. destruct PL as (ts & A & B & C & _). exists ts. split; [exact A|]. split; [exact B|].
  eapply Forall_impl; [|exact C]. cbv beta. intros; lia.
Qed.

Lemma add_names_spec : forall l acc, NoDup acc -> NoDup (add_names acc l) /\ forall n, In n (add_names acc l) <-> In n acc \/ In n l.
Proof.
  induction l as [|a l IH]; intros acc N; cbn [add_names].
  - split; [exact N|]. intros n. split; [auto|intros [H|[]]; exact H].
  - destruct (existsb (String.eqb a) acc) eqn:X.
    + destruct (IH acc N) as [A B]. split; [exact A|]. intros n. rewrite B. cbn. apply existsb_exists in X. destruct X as (b & I & Q). apply String.eqb_eq in Q. subst b.
      intuition (subst; auto).
    + assert (NI : ~ In a acc).
      { intros I. assert (existsb (String.eqb a) acc = true) by (apply existsb_exists; exists a; split; [exact I|apply String.eqb_refl]). congruence. }
      destruct (IH (acc ++ [a])) as [A B].
      * apply NoDup_join; auto; [repeat constructor; auto|]. intros x P [<-|[]]. auto.
      * split; [exact A|]. intros n. rewrite B, in_app_iff. cbn. intuition.
Qed.

Lemma products_named procs cl x : xion_ctor procs cl = Some x ->
  NoDup (xi_prods x) /\ xi_procs x = procs /\
  forall n, In n (xi_prods x) <-> exists name ps p, In (name, ps) procs /\ In p ps /\ In n (x_prods p).
Proof.
  unfold xion_ctor. destruct (forallb _ _); [|discriminate]. intros E. injection E as <-. cbn [xi_prods xi_procs].
  destruct (add_names_spec (flat_map (fun q => flat_map x_prods (snd q)) procs) [] (NoDup_nil _)) as [A B]. split; [exact A|]. split; [reflexivity|].
  intros n. rewrite B. split.
  - intros [[]|H]. apply in_flat_map in H. destruct H as ([name ps] & I & H). apply in_flat_map in H. destruct H as (p & J & H). exists name, ps, p. auto.
  - intros (name & ps & p & I & J & H). right. apply in_flat_map. exists (name, ps). split; [exact I|]. apply in_flat_map. exists p. auto.
Qed.

Lemma known_spec cl n : known cl n = true <-> In n (map xc_name cl).
Proof.
  unfold known. rewrite existsb_exists, in_map_iff. split.
  - intros (c & I & E). apply String.eqb_eq in E. exists c. auto.
  - intros (c & E & I). exists c. split; [exact I|]. apply String.eqb_eq. exact E.
Qed.

Lemma ctor_accepts procs cl : (exists x, xion_ctor procs cl = Some x) <->
  (forall name ps, In (name, ps) procs -> In name (map xc_name cl) /\ forall p n, In p ps -> In n (x_prods p) -> In n (map xc_name cl)).
Proof.
  unfold xion_ctor. destruct (forallb _ procs) eqn:F.
  - split; [|intros _; eexists; reflexivity]. intros _ name ps I. rewrite forallb_forall in F. specialize (F _ I). cbn [fst snd] in F.
    apply andb_prop in F. destruct F as [A B]. split; [apply known_spec; exact A|]. intros p n J K. rewrite forallb_forall in B. specialize (B p J).
    rewrite forallb_forall in B. apply known_spec. apply B. exact K.
  - split; [intros (x & E); discriminate|]. intros H. exfalso. rewrite <- not_true_iff_false in F. apply F. apply forallb_forall. intros [name ps] I. cbn [fst snd].
    destruct (H _ _ I) as [A B]. apply andb_true_intro. split; [apply known_spec; exact A|]. apply forallb_forall. intros p J. apply forallb_forall. intros n K.
    apply known_spec. apply (B p n J K).
Qed.

Lemma xproc_full tab dens area E equal prods : 0 < area -> 0 <= dens ->
  target_full (xproc_ctor tab dens area E equal prods) /\ x_N (xproc_ctor tab dens area E equal prods) = dens * area.
Proof.
  intros A D. unfold target_full, xproc_ctor. cbn. split; [|reflexivity]. split; [exact A|]. split; [field; lra|]. apply Rmult_le_pos; lra.
Qed.
