(** Mean charge given by cross ionisation, for C101. *)
From Coquelicot Require Import Coquelicot.
From Coq Require Import Reals List Lra Lia Bool ZArith String.
From Verif Require Import Num NumFacts MP SpecMP MPFacts RegenFacts SourceFacts CrossIon SpecCrossIon CrossIonFacts CrossIonFacts2 SpecMean SpecMeanCross MeanRegen.
Import ListNotations.
Local Open Scope list_scope.
Local Open Scope R_scope.

(** Whether a call returns does not depend on the random numbers. *)
Lemma loop_returns qe p cl DN pr rng rng' prods : forall sh sh' k k', (sh = None <-> sh' = None) ->
  products_loop qe p cl DN sh pr prods rng k <> None -> products_loop qe p cl DN sh' pr prods rng' k' <> None.
Proof.
  induction prods as [|a l IH]; intros sh sh' k k' S H; [discriminate|]. cbn [products_loop] in *.
  destruct (find_cloud a cl) as [c|]; cbn [bind] in *; [|congruence].
  destruct (match sh with Some (r, cs) => (r, cs, k) | None => _ end) as [[r cs] k1].
  destruct (match sh' with Some (r, cs) => (r, cs, k') | None => _ end) as [[r' cs'] k1'].
  destruct (product_info qe p (xc_mass c) r cs pr rng k1) as [i k2].
  destruct (product_info qe p (xc_mass c) r' cs' pr rng' k1') as [i' k2'].
  destruct (products_loop qe p cl DN sh pr l rng k2) as [[]|] eqn:E; cbn [bind] in H; [|congruence].
  assert (Q : products_loop qe p cl DN sh' pr l rng' k2' <> None) by (apply (IH sh sh' k2 k2' S); congruence).
  destruct (products_loop qe p cl DN sh' pr l rng' k2') as [[]|]; cbn [bind]; congruence.
Qed.
Lemma process_returns qe p Dt cl mass pr rng rng' k p' infos D k' :
  process_generate qe p Dt cl mass pr rng k = Some (p', infos, D, k') ->
  exists infos' k2, process_generate qe p Dt cl mass pr rng' k = Some (p', infos', D, k2).
Proof.
  unfold process_generate. destruct (xmapM _ pr) as [DN|]; cbn [bind]; [|discriminate]. destruct (x_equal p).
  - destruct (mean_ref cl _ (x_prods p) 0) as [r|]; cbn [bind]; [|discriminate].
    destruct (products_loop qe p cl DN _ pr (x_prods p) rng (k + _)) as [[inf k1]|] eqn:E; cbn [bind]; [|discriminate].
    intros H. injection H as <- <- <- <-.
    assert (Q : products_loop qe p cl DN (Some (r, counts_of DN r rng' k)) pr (x_prods p) rng' (k + List.length DN) <> None).
    { apply (loop_returns qe p cl DN pr rng rng' _ (Some (r, counts_of DN r rng k)) _ (k + List.length DN)); [split; discriminate|congruence]. }
    destruct (products_loop qe p cl DN (Some (r, counts_of DN r rng' k)) pr (x_prods p) rng' (k + List.length DN)) as [[i2 k2]|]; [|congruence].
    cbn [bind]. eauto.
  - cbn [bind]. destruct (products_loop qe p cl DN None pr (x_prods p) rng k) as [[inf k1]|] eqn:E; cbn [bind]; [|discriminate].
    intros H. injection H as <- <- <- <-.
    assert (Q : products_loop qe p cl DN None pr (x_prods p) rng' k <> None) by (apply (loop_returns qe p cl DN pr rng rng' _ None None k); [tauto|congruence]).
    destruct (products_loop qe p cl DN None pr (x_prods p) rng' k) as [[i2 k2]|]; [|congruence].
    cbn [bind]. eauto.
Qed.

(** The charge of the given numbers. *)
Lemma counts_sum DN ref us : Forall (fun d => 0 <= d) DN -> 0 < ref -> List.length us = List.length DN ->
  ref * rsum (map IZR (map2 (fun dn u => stoch_round (dn / ref) u) DN us)) = rsum (map2 (fun q u => ref * IZR (stoch_round (q / ref) u)) DN us).
Proof.
  intros F Hr. revert us. induction F as [|d DN Hd F IH]; intros [|u us] L; try discriminate; [change (ref * 0 = 0); ring|].
  cbn [map2 map]. rewrite !rsum_cons, <- IH by (cbn in L; lia). ring.
Qed.
Lemma info_charge DN ref pr rng k us i : Forall (fun d => 0 <= d) DN -> 0 < ref -> List.length us = List.length DN -> List.length DN = List.length pr ->
  info_from ref pr (repeat_each pr (map Z.to_nat (counts_of DN ref (with_list rng k us) k))) i ->
  rsum (n_nel i) = 0 + rsum (map2 (fun q u => ref * IZR (stoch_round (q / ref) u)) DN us).
Proof.
  intros F Hr L LP I. destruct (counts_ok DN ref (with_list rng k us) k F Hr) as (Lc & Fc).
  destruct I. rewrite if_nel, NumFacts.rsum_repeat, repeat_each_length by (rewrite map_length; congruence).
  rewrite INR_nsum by exact Fc. rewrite Rplus_0_l, <- (counts_sum DN ref us F Hr L). unfold counts_of. rewrite <- L, with_list_draw. ring.
Qed.

Lemma equal_average qe p Dt cl mass s rng k j p' infos D k' :
  table_ok p -> 0 <= x_dens p -> 0 <= Dt -> clouds_ok cl -> Forall (fun q => 0 <= m_nel q) (live s) ->
  process_generate qe p Dt cl mass (projectiles s) rng k = Some (p', infos, D, k') ->
  x_equal p = true -> (j < List.length (x_prods p))%nat ->
  averages (N_mp s) (fun us => product_charge j (process_generate qe p Dt cl mass (projectiles s) (with_list rng k us) k)) D.
Proof.
  intros T HD Ht CO F E EQ J. pose proof (clouds_refs _ CO) as RP. pose proof (projectiles_pos s F) as PP.
  assert (LP : List.length (projectiles s) = N_mp s) by (unfold projectiles; rewrite map_length, seq_length; reflexivity).
  destruct (process_ok qe p Dt cl mass _ rng k p' infos D k' T HD Ht RP PP E) as (DN & A1 & A2 & A3 & _ & A5 & A6).
  assert (LD : List.length DN = N_mp s) by (rewrite <- (Forall2_length A1); exact LP).
  assert (R : exists ref, 0 < ref /\ mean_ref cl (INR (List.length (x_prods p))) (x_prods p) 0 = Some ref).
  { assert (Li : (j < List.length infos)%nat) by (rewrite <- (map_length fst), A5; exact J).
    rewrite Forall_forall in A6. destruct (A6 _ (nth_In infos (EmptyString, empty_info) Li)) as (ref & src & Hr & _ & j0 & _ & X). rewrite EQ in X. exists ref. tauto. }
  destruct R as (ref & Hr & MR). rewrite A3, <- LD.
  pose proof (averages_sum ref DN 0 ltac:(lra)) as AV. rewrite Rplus_0_l in AV.
  apply (averages_ext _ _ _ _) with (2 := AV). intros us Lu Fu.
  destruct (process_returns qe p Dt cl mass _ rng (with_list rng k us) k p' infos D k' E) as (inf & k2 & E2).
  destruct (process_ok qe p Dt cl mass _ _ k p' inf D k2 T HD Ht RP PP E2) as (DN' & B1 & B2 & _ & _ & B5 & B6).
  assert (DN' = DN).
  { clear - A1 B1. revert DN' B1. induction A1 as [|a b l l' H A IH]; intros m B; inversion B; subst; [reflexivity|]. f_equal; [congruence|apply IH; assumption]. }
  subst DN'. rewrite E2. cbn [product_charge].
  assert (Li : (j < List.length inf)%nat) by (rewrite <- (map_length fst), B5; exact J).
  rewrite Forall_forall in B6. destruct (B6 _ (nth_In inf (EmptyString, empty_info) Li)) as (ref' & src & Hr' & If & j0 & -> & X).
  rewrite EQ in X. destruct X as (X & ->). rewrite MR in X. injection X as <-.
  rewrite (info_charge DN ref (projectiles s) rng k us _ A2 Hr Lu ltac:(congruence) If). reflexivity.
Qed.

(** The products in turn. *)
Lemma loop_app qe p cl DN sh pr rng a : forall b k,
  products_loop qe p cl DN sh pr (a ++ b) rng k =
  (do (ra, k1) <- products_loop qe p cl DN sh pr a rng k ; do (rb, k2) <- products_loop qe p cl DN sh pr b rng k1 ; Some (ra ++ rb, k2)).
Proof.
  induction a as [|n a IH]; intros b k; cbn [app products_loop bind].
  - destruct (products_loop qe p cl DN sh pr b rng k) as [[]|]; reflexivity.
  - destruct (find_cloud n cl) as [c|]; cbn [bind]; [|reflexivity].
    destruct (match sh with Some (r, cs) => (r, cs, k) | None => _ end) as [[r cs] k1].
    destruct (product_info qe p (xc_mass c) r cs pr rng k1) as [i k2]. rewrite IH.
    destruct (products_loop qe p cl DN sh pr a rng k2) as [[ra k3]|]; cbn [bind]; [|reflexivity].
    destruct (products_loop qe p cl DN sh pr b rng k3) as [[]|]; reflexivity.
Qed.
Lemma draw_ext rng rng' k n m : (forall i, (i < m)%nat -> rng i = rng' i) -> (k + n <= m)%nat -> draw rng k n = draw rng' k n.
Proof. intros H L. unfold draw. apply map_ext_in. intros i I. apply in_seq in I. apply H. lia. Qed.
Lemma product_info_up qe p mass ref cs pr rng k i k' : product_info qe p mass ref cs pr rng k = (i, k') -> (k <= k')%nat.
Proof. unfold product_info. destruct (0 <? zsum cs)%Z; intros E; injection E as <- <-; lia. Qed.
Lemma product_info_ext qe p mass ref cs pr rng rng' k i k' : product_info qe p mass ref cs pr rng k = (i, k') -> (forall j, (j < k')%nat -> rng j = rng' j) ->
  product_info qe p mass ref cs pr rng' k = (i, k').
Proof.
  unfold product_info. destruct (0 <? zsum cs)%Z; intros E H; [|exact E]. injection E as <- <-.
  rewrite !(draw_ext rng rng' _ _ _ H) by lia. reflexivity.
Qed.
Lemma loop_up qe p cl DN pr rng a : forall k r k', products_loop qe p cl DN None pr a rng k = Some (r, k') -> (k <= k')%nat.
Proof.
  induction a as [|n a IH]; intros k r k' E; cbn [products_loop] in E; [injection E as <- <-; lia|].
  destruct (find_cloud n cl) as [c|]; cbn [bind] in E; [|discriminate].
  destruct (product_info qe p (xc_mass c) _ _ pr rng (k + List.length DN)) as [i k2] eqn:PI.
  destruct (products_loop qe p cl DN None pr a rng k2) as [[ra k3]|] eqn:L; cbn [bind] in E; [|discriminate]. injection E as <- <-.
  apply product_info_up in PI. apply IH in L. lia.
Qed.
Lemma loop_ext qe p cl DN pr rng rng' a : forall k r k', products_loop qe p cl DN None pr a rng k = Some (r, k') -> (forall j, (j < k')%nat -> rng j = rng' j) ->
  products_loop qe p cl DN None pr a rng' k = Some (r, k').
Proof.
  induction a as [|n a IH]; intros k r k' E H; cbn [products_loop] in *; [exact E|].
  destruct (find_cloud n cl) as [c|]; cbn [bind] in *; [|discriminate].
  destruct (product_info qe p (xc_mass c) _ _ pr rng (k + List.length DN)) as [i k2] eqn:PI.
  destruct (products_loop qe p cl DN None pr a rng k2) as [[ra k3]|] eqn:L; cbn [bind] in E; [|discriminate]. injection E as <- <-.
  pose proof (loop_up _ _ _ _ _ _ _ _ _ _ L) as U. pose proof (product_info_up _ _ _ _ _ _ _ _ _ _ PI) as U2.
  assert (C : counts_of DN (nel_mp_ref (xc_mp c)) rng' k = counts_of DN (nel_mp_ref (xc_mp c)) rng k).
  { unfold counts_of. rewrite (draw_ext rng rng' k _ _ H); [reflexivity|lia]. }
  rewrite C, (product_info_ext qe p _ _ _ _ rng rng' _ i k2 PI) by (intros j J; apply H; lia).
  rewrite (IH _ _ _ L H). reflexivity.
Qed.
Lemma loop_first qe p j cl DN sh pr rng a : forall k, products_loop qe (first_products j p) cl DN sh pr a rng k = products_loop qe p cl DN sh pr a rng k.
Proof.
  induction a as [|n a IH]; intros k; cbn [products_loop]; [reflexivity|]. destruct (find_cloud n cl) as [c|]; cbn [bind]; [|reflexivity].
  destruct (match sh with Some (r, cs) => (r, cs, k) | None => _ end) as [[r cs] k1].
  change (product_info qe (first_products j p) (xc_mass c) r cs pr rng k1) with (product_info qe p (xc_mass c) r cs pr rng k1).
  destruct (product_info qe p (xc_mass c) r cs pr rng k1) as [i k2]. rewrite IH. reflexivity.
Qed.
Lemma with_list_below rng k us j : (j < k)%nat -> with_list rng k us j = rng j.
Proof. intros H. unfold with_list. rewrite (proj2 (Nat.leb_gt k j)) by exact H. reflexivity. Qed.
Lemma loop_length qe p cl DN sh pr rng a : forall k r k', products_loop qe p cl DN sh pr a rng k = Some (r, k') -> List.length r = List.length a.
Proof.
  induction a as [|n a IH]; intros k r k' E; cbn [products_loop] in E; [injection E as <- <-; reflexivity|].
  destruct (find_cloud n cl) as [c|]; cbn [bind] in E; [|discriminate].
  destruct (match sh with Some (r, cs) => (r, cs, k) | None => _ end) as [[r0 cs] k1].
  destruct (product_info qe p (xc_mass c) r0 cs pr rng k1) as [i k2].
  destruct (products_loop qe p cl DN sh pr a rng k2) as [[ra k3]|] eqn:L; cbn [bind] in E; [|discriminate]. injection E as <- <-.
  cbn. f_equal. exact (IH _ _ _ L).
Qed.

Lemma own_average qe p Dt cl mass s rng k j kj p' infos D k' p1 i1 D1 :
  table_ok p -> 0 <= x_dens p -> 0 <= Dt -> clouds_ok cl -> Forall (fun q => 0 <= m_nel q) (live s) ->
  process_generate qe p Dt cl mass (projectiles s) rng k = Some (p', infos, D, k') ->
  x_equal p = false -> (j < List.length (x_prods p))%nat ->
  process_generate qe (first_products j p) Dt cl mass (projectiles s) rng k = Some (p1, i1, D1, kj) ->
  averages (N_mp s) (fun us => product_charge j (process_generate qe p Dt cl mass (projectiles s) (with_list rng kj us) k)) D.
Proof.
  intros T HD Ht CO F E EQ J E1. pose proof (clouds_refs _ CO) as RP. pose proof (projectiles_pos s F) as PP.
  assert (LP : List.length (projectiles s) = N_mp s) by (unfold projectiles; rewrite map_length, seq_length; reflexivity).
  set (pr := projectiles s) in *. clearbody pr.
  unfold process_generate in E, E1. cbn [x_equal x_prods first_products] in E1.
  change (DN_one qe (first_products j p) Dt mass) with (DN_one qe p Dt mass) in E1.
  destruct (xmapM (DN_one qe p Dt mass) pr) as [DN|] eqn:XM; cbn [bind] in E, E1; [|discriminate].
  assert (FD := DN_nonneg _ _ _ _ _ _ T HD Ht PP XM). assert (LD := xmapM_length _ _ _ XM).
  rewrite EQ in E, E1. cbn [bind] in E, E1.
  destruct (products_loop qe p cl DN None pr (x_prods p) rng k) as [[inf k3]|] eqn:PL; cbn [bind] in E; [|discriminate].
  injection E as <- <- <- <-. rewrite loop_first in E1.
  destruct (products_loop qe p cl DN None pr (firstn j (x_prods p)) rng k) as [[ia ka]|] eqn:PA; cbn [bind] in E1; [|discriminate].
  injection E1 as <- <- <- <-.
  destruct (skipn j (x_prods p)) as [|n rest] eqn:SK.
  { exfalso. assert (Q : List.length (skipn j (x_prods p)) = (List.length (x_prods p) - j)%nat) by apply skipn_length. rewrite SK in Q. cbn in Q. lia. }
  assert (SP : x_prods p = firstn j (x_prods p) ++ n :: rest) by (rewrite <- SK, firstn_skipn; reflexivity).
  pose proof PL as PL'. rewrite SP, loop_app, PA in PL'. cbn [bind products_loop] in PL'.
  destruct (find_cloud n cl) as [c|] eqn:FC; cbn [bind] in PL'; [|discriminate].
  assert (Hr : 0 < nel_mp_ref (xc_mp c)).
  { apply find_cloud_In in FC. unfold refs_pos in RP. rewrite Forall_forall in RP. exact (RP c (proj1 FC)). }
  set (ref := nel_mp_ref (xc_mp c)) in *.
  assert (La : List.length ia = j).
  { rewrite (loop_length _ _ _ _ _ _ _ _ _ _ _ PA), firstn_length. lia. }
  rewrite <- LP, <- LD.
  pose proof (averages_sum ref DN 0 ltac:(lra)) as AV. rewrite Rplus_0_l in AV.
  apply (averages_ext _ _ _ _) with (2 := AV). intros us Lu Fu. set (rng' := with_list rng ka us).
  unfold process_generate. rewrite XM, EQ. cbn [bind].
  assert (PA' : products_loop qe p cl DN None pr (firstn j (x_prods p)) rng' k = Some (ia, ka)).
  { apply (loop_ext qe p cl DN pr rng rng'); [exact PA|]. intros i I. unfold rng'. rewrite with_list_below by exact I. reflexivity. }
  assert (Q : products_loop qe p cl DN None pr (x_prods p) rng' k <> None) by (apply (loop_returns qe p cl DN pr rng rng' _ None None k); [tauto|congruence]).
  rewrite SP in Q |- *. rewrite loop_app, PA' in Q |- *. cbn [bind products_loop] in Q |- *. rewrite FC in Q |- *. cbn [bind] in Q |- *. fold ref in Q |- *.
  revert Q. destruct (product_info qe p (xc_mass c) ref (counts_of DN ref rng' ka) pr rng' (ka + List.length DN)) as [i k2] eqn:PI.
  destruct (products_loop qe p cl DN None pr rest rng' k2) as [[ib kb]|]; cbn [bind]; intros Q; [|congruence].
  cbn [product_charge]. rewrite <- La, nth_middle. cbn [snd].
  destruct (counts_ok DN ref rng' ka FD Hr) as (Lc & Fc).
  pose proof (product_info_ok qe p _ ref _ pr rng' _ i k2 (eq_trans Lc LD) Fc PI) as If.
  symmetry. exact (info_charge DN ref pr rng ka us i FD Hr Lu LD If).
Qed.
