(** The energy conservation loop leaves alone the events that respect it. *)
From Coq Require Import Lia Lra ZArith.
From Verif Require Import Num NumFacts Sey Furman SpecKeep FurmanFacts2 FurmanFacts7.
Local Open Scope R_scope.

Lemma nth_repeat_lt {A} (x d : A) n j : (j < n)%nat -> nth j (repeat x n) d = x.
Proof. revert j. induction n; intros [|j] H; cbn; auto; try lia. apply IHn. lia. Qed.

Lemma first_S rep i : (i < length rep)%nat -> first_of rep (S i) = (first_of rep i + nth i rep 0)%nat.
Proof.
  unfold first_of. revert i. induction rep as [|c rep IH]; intros [|i] H; cbn [firstn list_sum fold_right nth length] in *; try lia.
  change (list_sum (firstn (S i) (c :: rep))) with (c + list_sum (firstn i rep))%nat.
  rewrite <- Nat.add_assoc, <- IH by lia. reflexivity.
Qed.

Lemma nth_repeat_each {A} (d : A) a : forall rep i j, length a = length rep -> (j < nth i rep 0)%nat -> (i < length rep)%nat ->
  nth (first_of rep i + j)%nat (repeat_each a rep) d = nth i a d /\ (first_of rep i + j < length (repeat_each a rep))%nat.
Proof.
  induction a as [|x a IH]; intros [|c rep] i j L H HI; cbn [length] in *; try lia.
  cbn [repeat_each]. rewrite app_length, repeat_length. destruct i as [|i].
  - cbn [first_of firstn list_sum nth] in *. unfold first_of. cbn. rewrite app_nth1 by (rewrite repeat_length; auto).
    rewrite nth_repeat_lt by auto. split; auto. lia.
  - unfold first_of in *. cbn [firstn nth]. change (list_sum (c :: firstn i rep)) with (c + list_sum (firstn i rep))%nat.
    destruct (IH rep i j ltac:(lia) H ltac:(lia)) as [A1 A2]. rewrite app_nth2 by (rewrite repeat_length; lia).
    rewrite repeat_length. replace (c + list_sum (firstn i rep) + j - c)%nat with (list_sum (firstn i rep) + j)%nat by lia. split; auto. lia.
Qed.

Lemma nth_map2 {A B C} (g : A -> B -> C) da db dc a b i : (i < length a)%nat -> (i < length b)%nat ->
  nth i (map2 g a b) dc = g (nth i a da) (nth i b db).
Proof. revert b i. induction a as [|x a IH]; intros [|y b] [|i] H1 H2; cbn in *; try lia; auto. apply IH; lia. Qed.

Lemma cumsum_nth rep : forall acc i, (i < length rep)%nat -> nth_error (cumsum acc rep) i = Some (acc + Z.of_nat (first_of rep (S i)))%Z.
Proof.
  induction rep as [|c rep IH]; intros acc [|i] H; cbn [length] in *; try lia; cbn [cumsum nth_error].
  - unfold first_of. cbn. f_equal. lia.
  - rewrite IH by lia. f_equal. unfold first_of. cbn [firstn].
    change (list_sum (c :: match rep with [] => [] | a :: l => a :: firstn i l end)) with (c + list_sum (firstn (S i) rep))%nat. cbn [firstn]. lia.
Qed.

Lemma take_nth {A} (a : list A) : forall is r i z, take a is = Some r -> nth_error is i = Some z -> nth_error r i = py_nth a z.
Proof.
  induction is as [|y is IH]; intros r i z H N; [destruct i; discriminate|]. cbn [take] in H. unfold bind in H.
  destruct (py_nth a y) as [x|] eqn:P; [|discriminate]. destruct (take a is) as [l|] eqn:T; [|discriminate]. injection H as <-.
  destruct i as [|i]; cbn [nth_error] in *; [injection N as <-; auto|]. eapply IH; eauto.
Qed.

Lemma inverse_last (v : list bool) rep vr i : inverse_repeat v rep = Some vr -> (i < length rep)%nat -> (0 < nth i rep 0)%nat ->
  nth i vr false = nth (first_of rep i + (nth i rep 0%nat - 1))%nat v false.
Proof.
  unfold inverse_repeat. intros H HI HP.
  assert (N : nth_error (map (fun z => (z - 1)%Z) (cumsum 0 rep)) i = Some (Z.of_nat (first_of rep (S i)) - 1)%Z).
  { rewrite nth_error_map, cumsum_nth by auto. reflexivity. }
  assert (K := take_nth _ _ _ _ _ H N). rewrite first_S in K by auto. unfold py_nth in K.
  replace (0 <=? Z.of_nat (first_of rep i + nth i rep 0%nat) - 1)%Z with true in K by (symmetry; apply Z.leb_le; lia).
  replace (Z.to_nat (Z.of_nat (first_of rep i + nth i rep 0%nat) - 1)) with (first_of rep i + (nth i rep 0%nat - 1))%nat in K by lia.
  destruct (nth_error vr i) as [b|] eqn:B.
  - rewrite (nth_error_nth _ _ false B). symmetry in K. rewrite (nth_error_nth _ _ false K). auto.
  - symmetry in K. apply nth_error_None in B. apply nth_error_None in K. rewrite !nth_overflow; auto.
Qed.

Lemma put_kept {A} (d : A) m : forall a v i, nth i m false = false -> nth i (mask_put m a v) d = nth i a d.
Proof.
  induction m as [|b m IH]; intros [|x a] v i H; cbn [mask_put]; auto. destruct i as [|i]; cbn [nth] in *.
  - subst b. auto.
  - destruct b; [destruct v|]; cbn [nth]; apply IH; auto.
Qed.
Lemma fill_kept {A} (d c : A) m : forall a i, nth i m false = false -> nth i (mask_fill m a c) d = nth i a d.
Proof.
  induction m as [|b m IH]; intros [|x a] i H; cbn [mask_fill]; auto. destruct i as [|i]; cbn [nth] in *.
  - subst b. auto.
  - destruct b; cbn [nth]; apply IH; auto.
Qed.
Lemma set_kept {A} (d : A) m a v r i : mask_set m a v = Some r -> nth i m false = false -> nth i r d = nth i a d.
Proof.
  unfold mask_set. destruct (Nat.eqb _ _). { intros H N. injection H as <-. apply put_kept; auto. }
  destruct v as [|c [|]]; try discriminate. intros H N. injection H as <-. apply fill_kept; auto.
Qed.

Lemma budget_flag rep E En Ea i j : length E = length rep -> length En = length rep ->
  in_budget rep E En Ea i -> (i < length rep)%nat -> (j < nth i rep 0)%nat -> nth (first_of rep i + j)%nat (viol rep E En Ea) false = false.
Proof.
  intros L1 L2 H HI HJ. destruct (nth_repeat_each 0 E rep i j L1 HJ HI) as [A1 A2]. destruct (nth_repeat_each 0 En rep i j L2 HJ HI) as [B1 B2].
  destruct (Nat.lt_ge_cases (first_of rep i + j) (length Ea)) as [Q|Q].
  - unfold viol. rewrite (nth_map2 _ 0 0) by (rewrite ?map2_length; lia). rewrite (nth_map2 _ 0 0) by lia. rewrite A1, B1.
    apply Rgtb_false. apply H. auto.
  - apply nth_overflow. unfold viol. rewrite !map2_length. lia.
Qed.

Lemma conserve_keeps sp f sr rep nn E : forall fuel k En Ea En' Ea' k',
  conserve fuel sp f sr k rep nn E En Ea = Some (En', Ea', k') -> length E = length rep -> length En = length rep ->
  forall i, (i < length rep)%nat -> (0 < nth i rep 0)%nat -> in_budget rep E En Ea i ->
  nth i En' 0 = nth i En 0 /\ forall j, (j < nth i rep 0)%nat -> nth (first_of rep i + j)%nat Ea' 0 = nth (first_of rep i + j)%nat Ea 0.
Proof.
  induction fuel as [|fu IH]; intros k En Ea En' Ea' k' H L1 L2 i HI HP B; cbn [conserve] in H; unfold bind in H.
  - destruct (inverse_repeat _ _); [|discriminate]. destruct (Nat.eqb _ 0); [|discriminate]. injection H as <- <- _. auto.
  - destruct (inverse_repeat _ _) as [vr|] eqn:IR; [|discriminate]. destruct (Nat.eqb _ 0); [injection H as <- <- _; auto|].
    destruct (en_true _ _ _ k _ _) as [[l k1]|]; [|discriminate]. destruct (mask_set _ Ea l) as [Ea1|] eqn:S1; [|discriminate].
    destruct (en_true _ _ _ k1 _ _) as [[l2 k2]|]; [|discriminate]. destruct (mask_set vr En l2) as [En1|] eqn:S2; [|discriminate].
    assert (N1 : nth i En1 0 = nth i En 0).
    { eapply set_kept; [exact S2|]. rewrite (inverse_last _ _ _ _ IR HI HP). apply budget_flag; auto. lia. }
    assert (N2 : forall j, (j < nth i rep 0)%nat -> nth (first_of rep i + j)%nat Ea1 0 = nth (first_of rep i + j)%nat Ea 0).
    { intros j HJ. eapply set_kept; [exact S1|]. apply budget_flag; auto. }
    assert (LE : length En1 = length rep).
    { rewrite <- L2. revert S2. clear. unfold mask_set. destruct (Nat.eqb _ _). { intros H. injection H as <-. apply mask_put_length. }
      destruct l2 as [|c [|]]; try discriminate. intros H. injection H as <-. apply mask_fill_length. }
    destruct (IH _ _ _ _ _ _ H L1 LE i HI HP) as [A1 A2].
    + intros j HJ. rewrite N1, N2 by auto. apply B. auto.
    + split; [congruence|]. intros j HJ. rewrite A2, N2 by auto. auto.
Qed.
