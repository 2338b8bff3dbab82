(** What a step adds to the histograms does not depend on what they hold. *)
From Coq Require Import String Lra Lia.
From Verif Require Import Num NumFacts Fort FortFacts MP SpecMP Impact CrossIon Sim SpecSim Saver SpecSaver Whole SpecWhole WholeFacts.
Local Open Scope list_scope.
Local Open Scope R_scope.

Lemma upd_lin w : forall g h i, List.length g = List.length h -> upd_nth (ladd g h) i (fun x => x + w) = ladd g (upd_nth h i (fun x => x + w)).
Proof.
  induction g as [|a g IH]; intros [|b h] i L; cbn in L; try discriminate; [reflexivity|].
  destruct i; cbn; [f_equal; lra|]. f_equal. apply IH. lia.
Qed.
Lemma ladd_len g h : List.length g = List.length h -> List.length (ladd g h) = List.length h.
Proof. intros L. unfold ladd. rewrite map2_length, L. apply Nat.min_id. Qed.
Lemma for_add_lin g h i w : List.length g = List.length h -> for_add (ladd g h) i w = option_map (ladd g) (for_add h i w).
Proof.
  intros L. unfold for_add. rewrite (ladd_len _ _ L). destruct (_ && _); [|reflexivity]. cbn [option_map]. f_equal. apply upd_lin; exact L.
Qed.
Lemma hist_one_lin b D g h q : List.length g = List.length h -> hist_one b D (ladd g h) q = option_map (ladd g) (hist_one b D h q).
Proof.
  intros L. unfold hist_one. destruct q as [x w]. cbv zeta. rewrite (ladd_len _ _ L). destruct (_ <? _)%Z; [|apply for_add_lin; exact L].
  rewrite for_add_lin by exact L. destruct (for_add h _ _) as [h1|] eqn:E; cbn [bind option_map]; [|reflexivity].
  apply for_add_lin. rewrite (for_add_length _ _ _ _ E). exact L.
Qed.
Lemma hist_one_len b D h q r : hist_one b D h q = Some r -> List.length r = List.length h.
Proof.
  unfold hist_one. destruct q as [x w]. cbv zeta. destruct (_ <? _)%Z; [|apply for_add_length].
  destruct (for_add h _ _) as [h1|] eqn:E; cbn [bind]; [|discriminate]. intros H. apply for_add_length in H, E. congruence.
Qed.
Lemma hist_lin b D g : forall xs h, List.length g = List.length h -> compute_hist xs b D (ladd g h) = option_map (ladd g) (compute_hist xs b D h).
Proof.
  induction xs as [|q xs IH]; intros h L; cbn [compute_hist]; [reflexivity|]. rewrite hist_one_lin by exact L.
  destruct (hist_one b D h q) as [r|] eqn:E; cbn [bind option_map]; [|reflexivity]. apply IH. rewrite (hist_one_len _ _ _ _ _ E). exact L.
Qed.
Lemma hist_len b D : forall xs h r, compute_hist xs b D h = Some r -> List.length r = List.length h.
Proof.
  induction xs as [|q xs IH]; intros h r; cbn [compute_hist]; [intros [= <-]; reflexivity|].
  destruct (hist_one b D h q) as [h1|] eqn:E; cbn [bind]; [|discriminate]. intros H. rewrite (IH _ _ H). eapply hist_one_len; exact E.
Qed.
Lemma seg_lin g : forall iws h, List.length g = List.length h -> update_seg_impact iws (ladd g h) = ladd g (update_seg_impact iws h).
Proof.
  unfold update_seg_impact. induction iws as [|[i w] iws IH]; intros h L; cbn [fold_left]; [reflexivity|].
  rewrite <- IH by (rewrite seg_one_length; exact L). f_equal. unfold seg_one. rewrite (ladd_len _ _ L). destruct (_ && _); [|reflexivity]. apply upd_lin; exact L.
Qed.

Lemma lines_lin c ps : forall g h i, map (@List.length R) h = map (@List.length R) g ->
  seg_lines c ps i (map2 ladd g h) = option_map (map2 ladd g) (seg_lines c ps i h).
Proof.
  induction g as [|a g IH]; intros [|b h] i L; cbn [map] in L; try discriminate; [reflexivity|]. injection L as L0 L.
  cbn [map2 seg_lines]. cbv zeta. rewrite hist_lin by auto. destruct (compute_hist _ 0 (k_DEn c) b); cbn [bind option_map]; [|reflexivity].
  rewrite IH by exact L. destruct (seg_lines c ps (S i) h); reflexivity.
Qed.
Lemma lines_len c ps : forall h i r, seg_lines c ps i h = Some r -> map (@List.length R) r = map (@List.length R) h.
Proof.
  induction h as [|b h IH]; intros i r; cbn [seg_lines]; [intros [= <-]; reflexivity|]. cbv zeta.
  destruct (compute_hist _ 0 (k_DEn c) b) as [b1|] eqn:E; cbn [bind]; [|discriminate].
  destruct (seg_lines c ps (S i) h) as [r1|] eqn:E1; cbn [bind]; [|discriminate]. intros [= <-]. cbn [map]. rewrite (hist_len _ _ _ _ _ E), (IH _ _ E1). reflexivity.
Qed.

Lemma shape_refl g : same_shape g g.
Proof. unfold same_shape. intuition. Qed.
Lemma shape_trans a b c : same_shape a b -> same_shape b c -> same_shape a c.
Proof. unfold same_shape. intuition congruence. Qed.
Lemma shape_sym a b : same_shape a b -> same_shape b a.
Proof. unfold same_shape. intuition. Qed.

Ltac shape H := destruct H as (?S1 & ?S2 & ?S3 & ?S4 & ?S5 & ?S6 & ?S7 & ?S8 & ?S9 & ?S10).

Lemma impacts_shape c d ps d' : count_impacts c d ps = Some d' -> same_shape d d'.
Proof.
  unfold count_impacts. intros H.
  destruct (compute_hist _ _ _ (g_tot d)) eqn:E1; cbn [bind] in H; [|discriminate].
  destruct (compute_hist _ _ _ (g_scrub d)) eqn:E2; cbn [bind] in H; [|discriminate].
  destruct (compute_hist _ _ _ (g_en d)) eqn:E3; cbn [bind] in H; [|discriminate].
  destruct (if k_cos c then _ else _) eqn:E4; cbn [bind] in H; [|discriminate]. cbv zeta in H.
  destruct (if k_seg c && k_segline c then _ else _) eqn:E5; cbn [bind] in H; [|discriminate].
  destruct (compute_hist _ _ _ (g_line d)) eqn:E6; cbn [bind] in H; [|discriminate]. injection H as <-.
  unfold same_shape. cbn. apply hist_len in E1, E2, E3, E6.
  assert (L4 : List.length l2 = List.length (g_cos d)) by (destruct (k_cos c); [eapply hist_len; exact E4|injection E4 as <-; reflexivity]).
  assert (L5 : map (@List.length R) l3 = map (@List.length R) (g_seglines d)) by (destruct (_ && _); [eapply lines_len; exact E5|injection E5 as <-; reflexivity]).
  repeat split; auto; destruct (k_seg c); auto using update_seg_impact_length.
Qed.
Lemma impacts_lin c g d ps : same_shape g d -> count_impacts c (feed g d) ps = option_map (feed g) (count_impacts c d ps).
Proof.
  intros SH. shape SH. unfold count_impacts. unfold feed at 1 2 3 4 5 6 7 8 9 10 11 12 13 14 15. cbn [g_tot g_scrub g_en g_cos g_seg g_segen g_seglines g_line g_life g_segemit].
  rewrite !hist_lin by auto. rewrite !seg_lin by auto. rewrite !lines_lin by auto.
  destruct (k_cos c), (k_seg c), (k_segline c); cbn [andb];
    repeat match goal with |- context[bind (option_map _ ?o) _] => destruct o; cbn [bind option_map]; [|reflexivity] end; reflexivity.
Qed.

Lemma emitted_shape c d a b x y z u v d' : count_emitted c d a b x y z u v = Some d' -> same_shape d d'.
Proof.
  unfold count_emitted. cbv zeta. intros H. destruct (compute_hist _ _ _ (g_en d)) eqn:E; cbn [bind] in H; [|discriminate]. injection H as <-.
  apply hist_len in E. unfold same_shape. cbn. repeat split; auto; destruct (k_seg c); auto using update_seg_impact_length.
Qed.
Lemma emitted_lin c g d a b x y z u v : same_shape g d -> count_emitted c (feed g d) a b x y z u v = option_map (feed g) (count_emitted c d a b x y z u v).
Proof.
  intros SH. shape SH. unfold count_emitted. cbv zeta. unfold feed at 1 2 3 4 5 6 7 8 9 10 11 12 13 14 15 16. cbn [g_tot g_scrub g_en g_cos g_seg g_segen g_seglines g_line g_life g_segemit l_nimp l_nemit l_eimp].
  rewrite !hist_lin by auto. rewrite !seg_lin by auto. destruct (compute_hist _ _ _ (g_en d)); cbn [bind option_map]; [|reflexivity].
  destruct (k_seg c); reflexivity.
Qed.

Lemma life_lin c tt mask nel tl g h : List.length g = List.length h -> life_part c tt mask nel tl (ladd g h) = option_map (fun p => (ladd g (fst p), snd p)) (life_part c tt mask nel tl h).
Proof.
  intros L. unfold life_part. destruct (k_life c); [|reflexivity]. rewrite hist_lin by exact L. destruct (compute_hist _ _ _ h); reflexivity.
Qed.
Lemma life_len c tt mask nel tl h lh t : life_part c tt mask nel tl h = Some (lh, t) -> List.length lh = List.length h.
Proof.
  unfold life_part. destruct (k_life c); [|intros [= <- _]; reflexivity]. destruct (compute_hist _ _ _ h) eqn:E; cbn [bind]; [|discriminate].
  intros [= <- _]. eapply hist_len; exact E.
Qed.

Lemma zeros_len l : List.length (zeros l) = List.length l.
Proof. unfold zeros. apply map_length. Qed.
Lemma ladd_zeros l : ladd l (zeros l) = l.
Proof. unfold zeros, ladd. induction l as [|a l IH]; cbn [map map2]; [reflexivity|]. rewrite IH. f_equal. lra. Qed.
Lemma lines_zeros l : map2 ladd l (map zeros l) = l.
Proof. induction l as [|a l IH]; cbn [map2 map]; [reflexivity|]. rewrite IH, ladd_zeros. reflexivity. Qed.
Lemma blank_shape g : same_shape g (blank g).
Proof.
  unfold same_shape, blank. cbn. rewrite !zeros_len. rewrite map_map.
  repeat (split; [reflexivity|]). apply map_ext. intros l. apply zeros_len.
Qed.
Lemma zero_last_feed g : zero_last g = feed g (zero_last (blank g)).
Proof. unfold zero_last, feed, blank. cbn. rewrite !ladd_zeros, lines_zeros. reflexivity. Qed.
Lemma zero_last_blank g : zero_last (blank g) = blank g.
Proof. reflexivity. Qed.

Definition feed3 {S : Type} (g : iman) (r : iman * mpsys * S) : iman * mpsys * S := (feed g (fst (fst r)), snd (fst r), snd r).

Lemma back_lin {S : Type} w c (em : R -> bool -> list Sey.imp -> S -> option (Sey.emis * S)) tt old g s st :
  backtrack_and_second_emiss w c em tt old g s st = option_map (feed3 g) (backtrack_and_second_emiss w c em tt old (blank g) s st).
Proof.
  unfold backtrack_and_second_emiss. destruct old as [[xo yo] zo]. rewrite (zero_last_feed g), zero_last_blank.
  destruct (Nat.eqb (N_mp s) 0); [reflexivity|].
  destruct (Nat.eqb (count_true (impact_mask w s)) 0); [reflexivity|]. cbv zeta.
  destruct (w_hit w _) as [hs|]; cbn [bind]; [|reflexivity].
  assert (BS := blank_shape g). set (b := blank g) in *.
  change (g_life (feed g b)) with (ladd (g_life g) (g_life b)). rewrite life_lin by (shape BS; auto).
  destruct (life_part c tt _ _ _ (g_life b)) as [[lh tl]|] eqn:E1; cbn [bind option_map fst snd]; [|reflexivity].
  destruct (zip_imps c _ _ _ _ _) as [ps|]; [cbn [bind]|reflexivity].
  change (set_life (feed g b) (ladd (g_life g) lh)) with (feed g (set_life b lh)).
  assert (BL : same_shape g (set_life b lh)).
  { apply life_len in E1. shape BS. unfold same_shape. cbn. rewrite E1. auto 12. }
  rewrite (impacts_lin c g _ ps BL). destruct (count_impacts c (set_life b lh) ps) as [ga|] eqn:E2; cbn [bind option_map]; [|reflexivity].
  assert (GA : same_shape g ga) by (eapply shape_trans; [exact BL|eapply impacts_shape; exact E2]).
  destruct (em _ _ ps st) as [[e st']|]; [cbn [bind]|reflexivity].
  destruct (replace_MPs s _ e tl) as [sr|]; cbn [bind]; [|reflexivity].
  change (set_last (feed g ga) (l_nimp (feed g ga)) (rsum (Sey.o_tot e))) with (feed g (set_last ga (l_nimp ga) (rsum (Sey.o_tot e)))).
  rewrite emitted_lin by exact GA.
  destruct (count_emitted c (set_last ga _ _) _ _ _ _ _ _ _) as [gb|] eqn:E3; cbn [bind option_map]; [|reflexivity].
  assert (GB : same_shape g gb) by (eapply shape_trans; [exact GA|eapply (emitted_shape c (set_last ga (l_nimp ga) (rsum (Sey.o_tot e)))); exact E3]).
  destruct (Nat.eqb (Datatypes.length (Sey.n_nel e)) 0); [reflexivity|].
  destruct (add_new_MPs _ _ sr) as [sa|]; cbn [bind]; [|reflexivity].
  change (l_eemit (feed g gb)) with (l_eemit gb). rewrite emitted_lin by exact GB.
  destruct (count_emitted c gb _ _ _ _ _ _ _) as [gc|] eqn:E4; reflexivity.
Qed.

Lemma back_shape {S : Type} w c (em : R -> bool -> list Sey.imp -> S -> option (Sey.emis * S)) tt old g s st g' s' st' :
  backtrack_and_second_emiss w c em tt old g s st = Some (g', s', st') -> same_shape g g'.
Proof.
  unfold backtrack_and_second_emiss. destruct old as [[xo yo] zo].
  assert (Z : same_shape g (zero_last g)) by exact (shape_refl g).
  destruct (Nat.eqb (N_mp s) 0); [intros [= <- _ _]; exact Z|].
  destruct (Nat.eqb (count_true (impact_mask w s)) 0); [intros [= <- _ _]; exact Z|]. cbv zeta. intros H.
  destruct (w_hit w _) as [hs|]; cbn [bind] in H; [|discriminate].
  destruct (life_part c tt _ _ _ (g_life (zero_last g))) as [[lh tl]|] eqn:E1; cbn [bind] in H; [|discriminate].
  assert (BL : same_shape g (set_life (zero_last g) lh)) by (apply life_len in E1; unfold same_shape; cbn; rewrite E1; auto 12).
  destruct (zip_imps c _ _ _ _ _) as [ps|]; [cbn [bind] in H|discriminate].
  destruct (count_impacts c _ ps) as [ga|] eqn:E2; cbn [bind] in H; [|discriminate]. apply impacts_shape in E2.
  destruct (em _ _ ps st) as [[e st2]|]; [cbn [bind] in H|discriminate].
  destruct (replace_MPs s _ e tl) as [sr|]; cbn [bind] in H; [|discriminate].
  destruct (count_emitted c _ _ _ _ _ _ _ _) as [gb|] eqn:E3; cbn [bind] in H; [|discriminate]. apply emitted_shape in E3.
  assert (GB : same_shape g gb) by (eapply shape_trans; [exact BL|]; eapply shape_trans; [exact E2|exact E3]).
  destruct (Nat.eqb (Datatypes.length (Sey.n_nel e)) 0); [injection H as <- _ _; exact GB|].
  destruct (add_new_MPs _ _ sr) as [sa|]; cbn [bind] in H; [|discriminate].
  destruct (count_emitted c gb _ _ _ _ _ _ _) as [gc|] eqn:E4; cbn [bind] in H; [|discriminate]. apply emitted_shape in E4.
  injection H as <- _ _. eapply shape_trans; [exact GB|exact E4].
Qed.
