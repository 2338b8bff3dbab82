(** Lemmas about cross ionisation. *)
From Coq Require Import Lra Lia String Psatz.
From Verif Require Import Num NumFacts MP SpecMP MPFacts RegenFacts SourceFacts CrossIon SpecCrossIon.
Local Open Scope list_scope.
Local Open Scope R_scope.

(** * Rounding *)
Lemma round3_err x : Rabs (round3 x - x) <= 1/2000.
Proof.
  unfold round3. pose proof (raround_err (x * 1000)) as H. apply Rabs_le_inv in H. apply Rabs_le.
  split; apply (Rmult_le_reg_r 1000); try lra; unfold Rdiv; rewrite ?Rmult_minus_distr_r, ?Rmult_assoc, ?Rinv_l by lra; lra.
Qed.

Lemma round3_nonneg x : 0 <= x -> 0 <= round3 x.
Proof.
  intros H. unfold round3. apply Rmult_le_pos; [|lra]. apply (IZR_le 0). apply raround_ge. lra.
Qed.

Lemma round8_exact h z : h * 10 ^ 8 = IZR z -> round8 h = h.
Proof. intros H. unfold round8. rewrite H, raround_IZR, <- H. field. Qed.

(** * Counts *)
Lemma zsum_nonneg l : Forall (fun c => (0 <= c)%Z) l -> zsum l = Z.of_nat (nsum (map Z.to_nat l)).
Proof.
  induction 1 as [|c l H _ IH]; cbn [zsum map nsum fold_right] in *; auto.
  fold (zsum l) (nsum (map Z.to_nat l)) in *. rewrite Nat2Z.inj_add, <- IH, Z2Nat.id by auto. reflexivity.
Qed.

Lemma masked_repeat {A} (l : list A) : forall cs, Forall (fun c => (0 <= c)%Z) cs -> List.length cs = List.length l ->
  let m := map (fun c => (0 <? c)%Z) cs in
  repeat_each (mask_get m l) (map Z.to_nat (mask_get m cs)) = repeat_each l (map Z.to_nat cs).
Proof.
  cbn zeta. induction l as [|a l IH]; intros [|c cs] F L; cbn in *; try lia; auto. inversion F; subst.
  destruct (Z.ltb_spec 0 c); cbn; rewrite IH by (auto; lia); auto.
  assert (c = 0%Z) by lia. subst. reflexivity.
Qed.

Lemma repeat_each_repeat {A} (a : A) cs : repeat_each (repeat a (List.length cs)) cs = repeat a (nsum cs).
Proof. induction cs as [|c cs IH]; cbn; auto. rewrite IH, <- repeat_app. auto. Qed.

Lemma repeat_each_zero {A} (l : list A) : forall cs, nsum cs = 0%nat -> repeat_each l cs = [].
Proof.
  induction l as [|a l IH]; intros [|c cs] H; cbn in *; auto. change (fold_right Nat.add 0%nat cs) with (nsum cs) in H.
  assert (c = 0%nat /\ nsum cs = 0%nat) as [-> H0] by lia. cbn. auto.
Qed.

Lemma mask_count cs : List.length (mask_get (map (fun c => (0 <? c)%Z) cs) cs) = count_true (map (fun c => (0 <? c)%Z) cs).
Proof. apply mask_get_length. rewrite map_length. auto. Qed.

(** What one process gives to one product. *)
Record info_from (ref : R) (pr src : list pj) (i : xinfo) : Prop := {
  if_N : n_N i = Z.of_nat (List.length src);
  if_nel : n_nel i = repeat ref (List.length src);
  if_x : n_x i = map j_x src; if_y : n_y i = map j_y src; if_z : n_z i = map j_z src;
  if_vx : List.length (n_vx i) = List.length src;
  if_vy : List.length (n_vy i) = List.length src;
  if_vz : List.length (n_vz i) = List.length src;
  if_in : Forall (fun j => In j pr) src }.

Lemma product_info_ok qe p mass ref counts pr rng k i k' :
  List.length counts = List.length pr -> Forall (fun c => (0 <= c)%Z) counts ->
  product_info qe p mass ref counts pr rng k = (i, k') ->
  info_from ref pr (repeat_each pr (map Z.to_nat counts)) i.
Proof.
  intros L F E. unfold product_info in E. rewrite (zsum_nonneg _ F) in E.
  set (n := nsum (map Z.to_nat counts)) in *.
  assert (LS : List.length (repeat_each pr (map Z.to_nat counts)) = n) by (apply repeat_each_length; rewrite map_length; auto).
  destruct (Z.ltb_spec 0 (Z.of_nat n)) as [Hn|Hn].
  - injection E as <- <-. constructor; cbn [n_N n_nel n_x n_y n_z n_vx n_vy n_vz].
    + rewrite LS. auto.
    + rewrite Rmult_1_l, <- mask_count. rewrite <- (map_length Z.to_nat), repeat_each_repeat, LS. f_equal.
      pose proof (f_equal (@List.length unit) (masked_repeat (repeat tt (List.length counts)) counts F ltac:(rewrite repeat_length; auto))) as K.
      cbn zeta in K. rewrite !repeat_each_length in K; auto; rewrite ?map_length, ?repeat_length; auto.
      rewrite !mask_get_length; rewrite ?map_length, ?repeat_length; auto.
    + rewrite masked_repeat by (auto; rewrite map_length; auto). apply repeat_each_map.
    + rewrite masked_repeat by (auto; rewrite map_length; auto). apply repeat_each_map.
    + rewrite masked_repeat by (auto; rewrite map_length; auto). apply repeat_each_map.
    + rewrite map_length, draw_length, Nat2Z.id. auto.
    + rewrite map_length, draw_length, Nat2Z.id. auto.
    + rewrite map_length, draw_length, Nat2Z.id. auto.
    + apply Forall_forall. intros j Hj. eapply repeat_each_In; eauto.
  - injection E as <- <-. assert (n = 0%nat) by lia.
    rewrite (repeat_each_zero pr (map Z.to_nat counts)) by auto.
    constructor; cbn; auto. lia.
Qed.

Lemma counts_ok DN ref rng k : Forall (fun d => 0 <= d) DN -> 0 < ref ->
  List.length (counts_of DN ref rng k) = List.length DN /\ Forall (fun c => (0 <= c)%Z) (counts_of DN ref rng k).
Proof.
  intros F Hr. unfold counts_of. split; [rewrite map2_length, draw_length; lia|].
  set (us := draw rng k _). clearbody us. revert us. induction F as [|d DN Hd F IH]; intros [|u us]; cbn; auto.
  constructor; auto. apply stoch_round_nonneg. unfold Rdiv. apply Rmult_le_pos; auto. left. apply Rinv_0_lt_compat. auto.
Qed.

(** The charge given to a product is the expected one up to one reference
    charge per projectile. *)
Lemma counts_close DN ref rng k : 0 < ref -> (forall j, 0 <= rng j) -> Forall (fun d => 0 <= d) DN ->
  Rabs (INR (nsum (map Z.to_nat (counts_of DN ref rng k))) * ref - rsum DN) <= INR (List.length DN) * ref.
Proof.
  intros Hr HU F. unfold counts_of, draw. revert k. induction F as [|d DN Hd F IH]; intros k.
  - change (Rabs (0 * ref - 0) <= 0 * ref). replace (0 * ref - 0) with 0 by ring. rewrite Rabs_R0. lra.
  - cbn [List.length seq map map2 nsum fold_right rsum]. specialize (IH (S k)).
    fold (nsum (map Z.to_nat (map2 (fun dn u => stoch_round (dn / ref) u) DN (map rng (seq (S k) (List.length DN)))))).
    set (n := nsum (map Z.to_nat (map2 _ DN _))) in *. fold (rsum DN).
    rewrite plus_INR, S_INR, Rmult_plus_distr_r.
    assert (Hq : 0 <= d / ref) by (unfold Rdiv; apply Rmult_le_pos; auto; left; apply Rinv_0_lt_compat; auto).
    pose proof (stoch_round_nonneg (d / ref) (rng k) Hq) as NN.
    pose proof (stoch_round_err (d / ref) (rng k) (HU k)) as ER.
    rewrite INR_IZR_INZ, Z2Nat.id by auto.
    set (c := IZR (stoch_round (d / ref) (rng k))) in *.
    apply Rabs_def2 in ER. apply Rabs_le_inv in IH. 
    assert (E1 : c * ref - d = (c - d / ref) * ref) by (field; lra).
    apply Rabs_le.
    assert (-ref <= c * ref - d <= ref) by (rewrite E1; split; nra).
    change (rsum (d :: DN)) with (d + rsum DN). lra.
Qed.

(** * The products of one process *)
Lemma find_cloud_In name cl c : find_cloud name cl = Some c -> In c cl /\ xc_name c = name.
Proof.
  unfold find_cloud. intros H. apply find_some in H. destruct H as [H E]. apply in_rev in H. apply String.eqb_eq in E. auto.
Qed.

Definition refs_pos (cl : list xcloud) : Prop := Forall (fun c => 0 < nel_mp_ref (xc_mp c)) cl.

Lemma mean_ref_pos cl n : refs_pos cl -> 0 < n -> forall prods acc r, 0 <= acc -> mean_ref cl n prods acc = Some r ->
  (prods <> [] \/ 0 < acc) -> 0 < r.
Proof.
  intros RP Hn. induction prods as [|a prods IH]; intros acc r Ha E D; cbn in E.
  - injection E as <-. destruct D; [congruence|auto].
  - destruct (find_cloud a cl) as [c|] eqn:FC; [|discriminate]. cbn in E. apply find_cloud_In in FC.
    unfold refs_pos in RP. rewrite Forall_forall in RP. specialize (RP c (proj1 FC)).
    assert (0 < nel_mp_ref (xc_mp c) / n) by (apply Rdiv_lt_0_compat; auto).
    apply IH in E; auto; [lra|right; lra].
Qed.

Definition shared_ok (DN : list R) (sh : option (R * list Z)) : Prop :=
  match sh with
  | Some (r, cs) => 0 < r /\ List.length cs = List.length DN /\ Forall (fun c => (0 <= c)%Z) cs
  | None => True
  end.

Lemma products_loop_ok qe p cl DN sh pr rng : refs_pos cl -> Forall (fun d => 0 <= d) DN -> List.length DN = List.length pr ->
  shared_ok DN sh ->
  forall prods k infos k', products_loop qe p cl DN sh pr prods rng k = Some (infos, k') ->
  map fst infos = prods /\
  Forall (fun q => exists ref src, 0 < ref /\ info_from ref pr src (snd q) /\
    match sh with
    | Some (r, cs) => ref = r /\ src = repeat_each pr (map Z.to_nat cs)
    | None => exists c j, In c cl /\ xc_name c = fst q /\ ref = nel_mp_ref (xc_mp c) /\
                src = repeat_each pr (map Z.to_nat (counts_of DN ref rng j))
    end) infos.
Proof.
  intros RP F L SH. induction prods as [|a prods IH]; intros k infos k' E; cbn [products_loop] in E.
  - injection E as <- <-. auto.
  - destruct (find_cloud a cl) as [c|] eqn:FC; [|discriminate]. cbn [bind] in E. apply find_cloud_In in FC. destruct FC as [FI FN].
    assert (RC : 0 < nel_mp_ref (xc_mp c)) by (unfold refs_pos in RP; rewrite Forall_forall in RP; auto).
    destruct sh as [[r cs]|].
    + destruct SH as (Hr & Lc & Fc).
      destruct (product_info qe p (xc_mass c) r cs pr rng k) as [i k1] eqn:PI.
      destruct (products_loop _ _ _ _ _ _ _ _ _) as [[rest k2]|] eqn:PL; [|discriminate]. cbn [bind] in E. injection E as <- <-.
      apply IH in PL. destruct PL as [A B]. cbn [map fst]. split; [congruence|]. constructor; auto.
      apply product_info_ok in PI; auto; [|congruence]. cbn [snd]. exists r, (repeat_each pr (map Z.to_nat cs)). auto.
    + destruct (counts_ok DN (nel_mp_ref (xc_mp c)) rng k F RC) as [Lc Fc].
      destruct (product_info qe p (xc_mass c) (nel_mp_ref (xc_mp c)) (counts_of DN (nel_mp_ref (xc_mp c)) rng k) pr rng (k + List.length DN)) as [i k1] eqn:PI.
      destruct (products_loop _ _ _ _ _ _ _ _ _) as [[rest k2]|] eqn:PL; [|discriminate]. cbn [bind] in E. injection E as <- <-.
      apply IH in PL. destruct PL as [A B]. cbn [map fst]. split; [congruence|]. constructor; auto.
      apply product_info_ok in PI; auto; [|congruence]. cbn [snd fst].
      eexists _, _. split; [exact RC|]. split; [exact PI|]. exists c, k. auto.
Qed.

(** * One process *)
Definition table_ok (p : xproc) : Prop := forall E s, get_sigma (x_tab p) E = Some s -> 0 <= s.

Lemma xmapM_length {A B} (f : A -> option B) l r : xmapM f l = Some r -> List.length r = List.length l.
Proof.
  revert r; induction l as [|a l IH]; intros r E; cbn in E; [injection E as <-; auto|].
  destruct (f a); [|discriminate]. cbn in E. destruct (xmapM f l); [|discriminate]. cbn in E. injection E as <-. cbn. auto.
Qed.

Lemma xmapM_Forall2 {A B} (f : A -> option B) l r : xmapM f l = Some r -> Forall2 (fun a b => f a = Some b) l r.
Proof.
  revert r; induction l as [|a l IH]; intros r E; cbn in E; [injection E as <-; auto|].
  destruct (f a) eqn:Fa; [|discriminate]. cbn in E. destruct (xmapM f l); [|discriminate]. cbn in E. injection E as <-. auto.
Qed.

Lemma DN_nonneg qe p Dt mass pr DN : table_ok p -> 0 <= x_dens p -> 0 <= Dt -> Forall (fun j => 0 <= j_nel j /\ 0 <= j_v j) pr ->
  xmapM (DN_one qe p Dt mass) pr = Some DN -> Forall (fun d => 0 <= d) DN.
Proof.
  intros T D HD F E. apply xmapM_Forall2 in E. revert F. induction E as [|j d pr DN Hj E IH]; intros F; auto. inversion F; subst.
  constructor; auto. unfold DN_one in Hj. destruct (get_sigma _ _) as [sg|] eqn:S; [|discriminate]. cbn in Hj. injection Hj as <-.
  apply T in S. destruct H1. repeat apply Rmult_le_pos; auto.
Qed.

Lemma process_ok qe p Dt cl mass pr rng k p' infos D k' :
  table_ok p -> 0 <= x_dens p -> 0 <= Dt -> refs_pos cl -> Forall (fun j => 0 <= j_nel j /\ 0 <= j_v j) pr ->
  process_generate qe p Dt cl mass pr rng k = Some (p', infos, D, k') ->
  exists DN, Forall2 (fun j d => DN_one qe p Dt mass j = Some d) pr DN /\ Forall (fun d => 0 <= d) DN /\
  D = rsum DN /\ p' = deplete p D /\ map fst infos = x_prods p /\
  Forall (fun q => exists ref src, 0 < ref /\ info_from ref pr src (snd q) /\
    exists j, src = repeat_each pr (map Z.to_nat (counts_of DN ref rng j)) /\
    if x_equal p then mean_ref cl (INR (List.length (x_prods p))) (x_prods p) 0 = Some ref /\ j = k
    else exists c, In c cl /\ xc_name c = fst q /\ ref = nel_mp_ref (xc_mp c)) infos.
Proof.
  intros T HD Ht RP F E. unfold process_generate in E.
  destruct (xmapM _ _) as [DN|] eqn:XM; [|discriminate]. cbn [bind] in E.
  assert (FD := DN_nonneg _ _ _ _ _ _ T HD Ht F XM). assert (LD := xmapM_length _ _ _ XM). apply xmapM_Forall2 in XM.
  exists DN. destruct (x_equal p) eqn:EQ.
  - destruct (mean_ref cl _ (x_prods p) 0) as [r|] eqn:MR; [|discriminate]. cbn [bind] in E.
    destruct (products_loop _ _ _ _ _ _ _ _ _) as [[inf k2]|] eqn:PL; [|discriminate]. cbn [bind] in E. injection E as <- <- <- <-.
    destruct (x_prods p) as [|a l] eqn:PR.
    + cbn in PL. injection PL as <- <-. cbn. auto 10.
    + assert (Hr : 0 < r).
      { eapply mean_ref_pos; [exact RP| |apply Rle_refl|exact MR|left; discriminate]. apply lt_0_INR. cbn. lia. }
      destruct (counts_ok DN r rng k FD Hr) as [Lc Fc].
      assert (SH : shared_ok DN (Some (r, counts_of DN r rng k))) by (cbn; auto).
      destruct (products_loop_ok qe p cl DN _ pr rng RP FD LD SH _ _ _ _ PL) as [A B].
      do 5 (split; [auto|]). revert B. apply Forall_impl. intros q (ref & src & H1 & H2 & -> & ->). eexists _, _. split; [exact H1|].
      split; [exact H2|]. exists k. auto.
  - cbn [bind] in E. destruct (products_loop _ _ _ _ _ _ _ _ _) as [[inf k2]|] eqn:PL; [|discriminate]. cbn [bind] in E. injection E as <- <- <- <-.
    destruct (products_loop_ok qe p cl DN None pr rng RP FD LD I _ _ _ _ PL) as [A B].
    do 5 (split; [auto|]). revert B. apply Forall_impl. intros q (ref & src & H1 & H2 & c & j & C1 & C2 & C3 & C4).
    exists ref, src. split; [auto|]. split; [auto|]. exists j. split; [auto|]. exists c. auto.
Qed.
