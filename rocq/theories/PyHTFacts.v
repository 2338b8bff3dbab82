(** What no operation of a time step changes: the room in the arrays and the
    constants of a macroparticle system. *)
From Coq Require Import String Lia.
From Verif Require Import Num NumFacts Fort MP SpecMP MPFacts Push Geom Poly Sey Impact Beam Source CrossIon Sim PyHT SpecPyHT.
Local Open Scope list_scope.
Local Open Scope R_scope.

Definition arrs (s : mpsys) : list (list R) :=
  [x_mp s; y_mp s; z_mp s; vx_mp s; vy_mp s; vz_mp s; nel_mp s; t_last_impact s].
Definition consts_of (s : mpsys) := (flag_lifetime_hist s, nel_mp_ref_0 s, fact_split s, fact_clean s).
Definition room (n : nat) (s : mpsys) : Prop := Forall (fun a : list R => (n <= List.length a)%nat) (arrs s).
Definition keeps (s s' : mpsys) : Prop := (forall n, room n s -> room n s') /\ consts_of s' = consts_of s.

Lemma keeps_refl s : keeps s s.
Proof. split; auto. Qed.

Lemma keeps_trans a b c : keeps a b -> keeps b c -> keeps a c.
Proof. intros [A1 A2] [B1 B2]. split; [auto|congruence]. Qed.

Lemma room_iff n s : room n s <-> (n <= List.length (x_mp s) /\ n <= List.length (y_mp s) /\ n <= List.length (z_mp s) /\
  n <= List.length (vx_mp s) /\ n <= List.length (vy_mp s) /\ n <= List.length (vz_mp s) /\ n <= List.length (nel_mp s) /\
  n <= List.length (t_last_impact s))%nat.
Proof.
  unfold room, arrs. split.
  - intros H. repeat match goal with H : Forall _ (_ :: _) |- _ => inversion H; subst; clear H end. tauto.
  - intros H. repeat constructor; tauto.
Qed.

Ltac bd H := match type of H with
  | bind ?m _ = Some _ => let E := fresh "E" in destruct m eqn:E; cbn [bind] in H; [|discriminate H]
  end.
Ltac bds H := repeat (let H2 := H in bd H2).

Lemma slice_fill_len {A} (a : list A) lo hi c : List.length (slice_fill a lo hi c) = List.length a.
Proof.
  unfold slice_fill. rewrite !app_length, repeat_length, slice_get_length, firstn_length, skipn_length. lia.
Qed.
Lemma slice_set_len {A} (a v r : list A) lo hi : slice_set a lo hi v = Some r -> List.length r = List.length a.
Proof.
  unfold slice_set. destruct (Nat.eqb_spec (List.length v) (List.length (slice_get a lo hi))) as [E|].
  - intros H; injection H as <-. rewrite slice_get_length in E. rewrite !app_length, firstn_length, skipn_length. lia.
  - destruct v as [|c [|]]; try discriminate. intros H; injection H as <-. apply slice_fill_len.
Qed.

Ltac lens := repeat match goal with
  | H : slice_set _ _ _ _ = Some _ |- _ => apply slice_set_len in H
  | H : mask_set _ _ _ = Some _ |- _ => apply mask_set_length in H
  end.

Lemma keeps_set_nel_ref s v : keeps s (set_nel_mp_ref s v).
Proof. split; [auto|reflexivity]. Qed.

Lemma keeps_keep_masked s m w s' : keep_masked s m w = Some s' -> keeps s s'.
Proof.
  unfold keep_masked, compact. intros H. bds H. injection H as <-.
  assert (List.length l6 = List.length (t_last_impact s)).
  { destruct (w && flag_lifetime_hist s); [apply slice_set_len in E6; auto|]. congruence. }
  lens. split; [|reflexivity]. intros n. rewrite !room_iff. cbn. rewrite slice_fill_len. lia.
Qed.

Lemma keeps_clean s s' : clean_small_MPs s = Some s' -> keeps s s'.
Proof.
  unfold clean_small_MPs. intros H. bd H. apply keeps_keep_masked in E.
  destruct (Nat.eqb _ _); injection H as <-; exact E.
Qed.

Lemma keeps_soft t rng k s s' k' : perform_soft_regeneration t rng k s = Some (s', k') -> keeps s s'.
Proof.
  unfold perform_soft_regeneration. destruct (Nat.ltb _ _); [|intros H; injection H as <- <-; apply keeps_refl].
  intros H. bds H. injection H as <- <-. apply keeps_keep_masked in E0. eapply keeps_trans; [apply keeps_set_nel_ref|].
  eapply keeps_trans; [exact E0|]. apply slice_set_len in E1. split; [|reflexivity]. intros n. rewrite !room_iff. cbn. lia.
Qed.

Lemma keeps_check_soft o rng k s s' k' : check_for_soft_regeneration o rng k s = Some (s', k') -> keeps s s'.
Proof.
  unfold check_for_soft_regeneration. destruct o as [[a b]|]; [|intros H; injection H as <- <-; apply keeps_refl].
  destruct (Nat.ltb _ _); [apply keeps_soft|]. intros H; injection H as <- <-; apply keeps_refl.
Qed.

Lemma keeps_check_async o rng k s s' k' : check_for_async_regeneration o rng k s = Some (s', k') -> keeps s s'.
Proof.
  unfold check_for_async_regeneration. destruct o as [[a b]|]; [|intros H; injection H as <- <-; apply keeps_refl].
  destruct (Nat.ltb _ _); [|intros H; injection H as <- <-; apply keeps_refl].
  intros H. bd H. apply keeps_clean in E. destruct (Nat.ltb _ _).
  - apply keeps_soft in H. eapply keeps_trans; eauto.
  - injection H as <- <-. auto.
Qed.

Lemma fill_loop_len fuel fi c d cells rng : forall num st st', fill_loop fuel fi c d cells num rng st = Some st' ->
  List.length (f_x st') = List.length (f_x st) /\ List.length (f_y st') = List.length (f_y st) /\ List.length (f_vx st') = List.length (f_vx st) /\
  List.length (f_vy st') = List.length (f_vy st) /\ List.length (f_vz st') = List.length (f_vz st).
Proof.
  induction fuel as [|f IH]; intros num st st' H; cbn [fill_loop] in H.
  - destruct (Nat.eqb _ _); [|discriminate]. injection H as <-. auto.
  - destruct (Nat.eqb _ _); [injection H as <-; auto|]. bd H. destruct p as [[xt yt] k]. bds H.
    apply IH in H. lens. cbn in H. intuition congruence.
Qed.

Lemma keeps_regen f fi cfg c rng k s s' k' : check_for_regeneration f fi cfg c rng k s = Some (s', k') -> keeps s s'.
Proof.
  unfold check_for_regeneration. destruct (regen_needed cfg s); [|intros H; injection H as <- <-; apply keeps_refl].
  intros H. bds H. injection H as <- <-. eapply keeps_trans; [apply keeps_set_nel_ref|].
  apply keeps_keep_masked in E0. eapply keeps_trans; [exact E0|]. split; [|reflexivity].
  apply fill_loop_len in E2. lens. cbn in E2. rewrite repeat_length in *. intros n. rewrite !room_iff. cbn [x_mp y_mp z_mp vx_mp vy_mp vz_mp nel_mp t_last_impact].
  rewrite repeat_length. destruct (flag_lifetime_hist m); rewrite ?map_length; lia.
Qed.

Lemma keeps_add n b s s' : add_new_MPs n b s = Some s' -> keeps s s'.
Proof.
  unfold add_new_MPs. intros H. bds H. injection H as <-.
  assert (List.length l6 = List.length (t_last_impact s)).
  { destruct (flag_lifetime_hist s); [apply slice_set_len in E6; auto|]. congruence. }
  lens. split; [|reflexivity]. intros q. rewrite !room_iff. cbn. lia.
Qed.

Lemma keeps_write s n xt yt vx vy vz t s' : write_uniform s n xt yt vx vy vz t = Some s' -> (List.length (t_last_impact s) <= List.length t)%nat -> keeps s s'.
Proof.
  unfold write_uniform. intros H Ht. bds H. injection H as <-. lens. split; [|reflexivity]. intros q. rewrite !room_iff. cbn.
  rewrite !slice_fill_len. lia.
Qed.

Lemma keeps_push f s : keeps s (push_live f s).
Proof.
  split; [|reflexivity]. intros n. rewrite !room_iff. cbn. rewrite !app_length, !map_length, !seq_length, !skipn_length. lia.
Qed.

Lemma keeps_gas fu kc g c m l D a b x y sr k s s' k' : gas_generate fu kc g c m l D a b x y sr k s = Some (s', k') -> keeps s s'.
Proof.
  unfold gas_generate. destruct (0 <? _)%Z; [|intros H; injection H as <- <-; apply keeps_refl].
  destruct (gas_coord a x _ _ _ _) as [xt k1]. destruct (gas_coord b y _ _ _ _) as [yt k2]. intros H. bd H. destruct p as [[xt' yt'] k3].
  bds H. injection H as <- <-. eapply keeps_write; eauto.
  destruct (gs_life g); [destruct (flag_lifetime_hist s); [|discriminate]|]; injection E0 as <-; rewrite ?slice_fill_len; lia.
Qed.

Lemma keeps_photo_set fu kc ph m sr k n a b c d s s' k' : photo_set fu kc ph m sr k n a b c d s = Some (s', k') -> keeps s s'.
Proof.
  unfold photo_set. intros H. bd H. destruct p as [en k1]. destruct (angle_dist_func _ _ _ _ _ _ _ _ _) as [v k2]. bd H.
  injection H as <- <-. eapply keeps_add; eauto.
Qed.

Lemma keeps_photo e p m l D k s s' k' : photo_step e p m l D k s = Some (s', k') -> keeps s s'.
Proof.
  destruct p as [|p|ph cdf|ph pc]; cbn [photo_step].
  - intros H; injection H as <- <-; apply keeps_refl.
  - unfold photo1_generate. destruct (0 <? _)%Z; [|intros H; injection H as <- <-; apply keeps_refl].
    intros H. bd H. unfold gen_energy_and_set_MPs in H. bd H. eapply keeps_photo_set; eauto.
  - unfold photo2_generate. destruct (0 <? _)%Z; [|intros H; injection H as <- <-; apply keeps_refl].
    intros H. repeat (bd H; try match goal with p : (_ * _)%type |- _ => destruct p end).
    unfold gen_energy_and_set_MPs in H. bd H. eapply keeps_photo_set; eauto.
  - unfold photo3_generate. destruct (0 <? _)%Z; [|intros H; injection H as <- <-; apply keeps_refl].
    intros H. bd H. destruct p. eapply keeps_photo_set; eauto.
Qed.

Lemma keeps_gas_loop e g m : forall bs k full s s' k' full', gas_loop e g m bs k full s = Some (s', k', full') -> keeps s s'.
Proof.
  induction bs as [|b bs IH]; intros k full s s' k' full' H; cbn [gas_loop] in H.
  - injection H as <- <- <-. apply keeps_refl.
  - bd H. destruct p as [s1 k1]. apply keeps_gas in E. apply IH in H. eapply keeps_trans; eauto.
Qed.

Lemma keeps_primary e main secs c k full s s' k' full' : primary_generation e main secs c k full s = Some (s', k', full') -> keeps s s'.
Proof.
  unfold primary_generation. intros H. bd H. destruct p as [[s1 k1] f1]. bd H. destruct p as [s2 k2]. injection H as <- <- <-.
  apply keeps_photo in E0. eapply keeps_trans; [|exact E0]. destruct (a_gas c); [|injection E as <- <- <-; apply keeps_refl].
  destruct (Rltb _ _); [eapply keeps_gas_loop; eauto|]. injection E as <- <- <-. apply keeps_refl.
Qed.

Lemma keeps_replace s m e tl s' : replace_MPs s m e tl = Some s' -> (List.length (t_last_impact s) <= List.length tl)%nat -> keeps s s'.
Proof.
  unfold replace_MPs. intros H Ht. bds H. injection H as <-. lens. split; [|reflexivity]. intros q. rewrite !room_iff. cbn. lia.
Qed.

Lemma keeps_walls {S} w c (em : _ -> _ -> _ -> S -> _) tt old g s st g' s' st' :
  backtrack_and_second_emiss w c em tt old g s st = Some (g', s', st') -> keeps s s'.
Proof.
  unfold backtrack_and_second_emiss. destruct old as [[xo yo] zo].
  destruct (Nat.eqb (N_mp s) 0); [intros H; injection H as <- <- <-; apply keeps_refl|].
  destruct (Nat.eqb (count_true _) 0); [intros H; injection H as <- <- <-; apply keeps_refl|].
  intros H. bd H. bd H. destruct p as [lh tl]. bd H. bd H. bd H. destruct p as [e st1]. bd H. bd H.
  assert (K : keeps s m).
  { eapply keeps_replace; eauto. unfold life_part in E0. destruct (k_life c); [bd E0|]; injection E0 as <- <-; rewrite ?mask_fill_length; lia. }
  destruct (Nat.eqb _ 0); [injection H as <- <- <-; exact K|].
  bd H. bd H. injection H as <- <- <-. eapply keeps_trans; [exact K|]. eapply keeps_add; eauto.
Qed.

(** * Whole time steps *)
Definition kept (c c' : cloud) : Prop := o_set c' = o_set c /\ keeps (o_mp c) (o_mp c').
Lemma kept_refl c : kept c c.
Proof. split; auto using keeps_refl. Qed.
Lemma kept_trans a b c : kept a b -> kept b c -> kept a c.
Proof. intros [A1 A2] [B1 B2]. split; [congruence|eapply keeps_trans; eauto]. Qed.
Lemma kept_all_refl l : Forall2 kept l l.
Proof. induction l; constructor; auto using kept_refl. Qed.
Lemma kept_all_trans l1 : forall l2 l3, Forall2 kept l1 l2 -> Forall2 kept l2 l3 -> Forall2 kept l1 l3.
Proof.
  induction l1 as [|a l1 IH]; intros l2 l3 A B; inversion A; subst; inversion B; subst; constructor; eauto using kept_trans.
Qed.

Lemma keeps_motion_loop st sc kick main secs : (forall E s, keeps s (st E s)) ->
  forall n s s', motion_loop n st sc kick main secs s = Some s' -> keeps s s'.
Proof.
  intros K. induction n as [|n IH]; intros s s' H; cbn [motion_loop] in H; [injection H as <-; apply keeps_refl|].
  bd H. apply IH in H. eapply keeps_trans; [apply K|exact H].
Qed.

Lemma keeps_motion e a main secs sc c s s' : per_particle (a_dyn c) -> cloud_motion e a main secs sc c s = Some s' -> keeps s s'.
Proof.
  intros [[g G] [g' G']] H. unfold cloud_motion in H. bd H. bd H.
  assert (K : keeps s m).
  { destruct (s_kick a); [|injection E0 as <-; apply keeps_refl].
    destruct (s_Nsub a); [|discriminate]. destruct (s_Dtsub a); [|discriminate]. unfold apply_kick in E0. bd E0. destruct p. injection E0 as <-. apply keeps_push. }
  eapply keeps_trans; [exact K|].
  destruct (e_reinterp e || s_force_re a); destruct o as [[h n]|]; try discriminate;
    (eapply keeps_motion_loop; [|exact H]); intros; cbv beta; rewrite ?G, ?G'; apply keeps_push.
Qed.

Lemma kept_step e a main secs sc k full c c' k' full' : per_particle (a_dyn (o_set c)) ->
  step_cloud e a main secs sc k full c = Some (c', k', full') -> kept c c'.
Proof.
  intros P H. unfold step_cloud in H. bd H. bd H. destruct p as [[g s1] kq]. bd H. destruct p as [[s2 k2] f2]. injection H as <- <- <-.
  split; [reflexivity|]. cbn. apply keeps_motion in E; auto. apply keeps_walls in E0. apply keeps_primary in E1. eauto using keeps_trans.
Qed.

Lemma trackers_kept cl cl' : Forall2 kept cl cl' -> trackers cl -> trackers cl'.
Proof. intros F. induction F as [|a b l l' [A B] F IH]; intros T; constructor; inversion T; subst; [congruence|apply IH; auto]. Qed.

Lemma kept_loop e a main secs sc : forall cl k full cl' k' full', trackers cl ->
  clouds_loop e a main secs sc k full cl = Some (cl', k', full') -> Forall2 kept cl cl'.
Proof.
  induction cl as [|c cl IH]; intros k full cl' k' full' T H; cbn [clouds_loop] in H; [injection H as <- <- <-; constructor|].
  inversion T; subst. bd H. destruct p as [[c1 k1] f1]. bd H. destruct p as [[r k2] f2]. injection H as <- <- <-.
  constructor; [eapply kept_step; eauto|eapply IH; eauto].
Qed.

Lemma keeps_add_loop prods d : forall cl cnt cl' cnt', add_loop prods d cnt cl = Some (cl', cnt') ->
  Forall2 (fun c c' => keeps (xc_mp c) (xc_mp c')) cl cl'.
Proof.
  induction cl as [|c cl IH]; intros cnt cl' cnt' H; cbn [add_loop] in H; [injection H as <- <-; constructor|].
  bd H. destruct p as [c1 cn1]. bd H. destruct p as [r cn2]. injection H as <- <-. constructor; [|eapply IH; eauto].
  destruct (existsb _ _); [|injection E as <- <-; apply keeps_refl]. bd E. bd E. injection E as <- <-. cbn.
  destruct (0 <? _)%Z; [eapply keeps_add; eauto|]. injection E2 as <-. apply keeps_refl.
Qed.

Lemma kept_cross e D x k cl x' cl' k' : cross_step e D x k cl = Some (x', cl', k') -> Forall2 kept cl cl'.
Proof.
  unfold cross_step. destruct x as [x|]; [|intros H; injection H as <- <- <-; apply kept_all_refl].
  intros H. bd H. destruct p as [[x1 xs] k1]. injection H as <- <- <-. unfold cross_generate in E. bd E. destruct p as [[[procs d] cnt] k2].
  bd E. destruct p as [xs1 cn]. injection E as <- <- <-. apply keeps_add_loop in E1. clear E0. revert xs1 E1.
  induction cl as [|c cl IH]; intros xs1 F; inversion F; subst; cbn; constructor; auto. split; [reflexivity|]. cbn. auto.
Qed.

Lemma kept_recompute_loop p : forall cl before sc cl' sc', recompute_loop p before cl sc = (cl', sc') -> Forall2 kept cl cl'.
Proof.
  induction cl as [|c cl IH]; intros before sc cl' sc' H; cbn [recompute_loop] in H; [injection H as <- <-; constructor|].
  match type of H with context [recompute_loop ?a ?b ?c ?d] => destruct (recompute_loop a b c d) as [r s1] eqn:E end.
  injection H as <- <-. constructor; [split; [reflexivity|apply keeps_refl]|eapply IH; eauto].
Qed.

Lemma kept_recompute e t f g cl sc cl' sc' : recompute_cloud_spacecharge e t f g cl sc = (cl', sc') -> Forall2 kept cl cl'.
Proof.
  unfold recompute_cloud_spacecharge. destruct (_ || _); [apply kept_recompute_loop|]. intros H; injection H as <- <-. apply kept_all_refl.
Qed.

Lemma keeps_clean_one e a new c k s s' k' : clean_one e a new c k s = Some (s', k') -> keeps s s'.
Proof.
  unfold clean_one. intros H. bd H. destruct p as [s1 k1]. apply keeps_check_async in H. eapply keeps_trans; [|exact H].
  destruct new; [|injection E as <- <-; apply keeps_refl]. bd E.
  assert (K : keeps s m) by (destruct (s_noclean a); [injection E0 as <-; apply keeps_refl|apply keeps_clean; auto]).
  eapply keeps_trans; [exact K|]. destruct (s_noregen a); [injection E as <- <-; apply keeps_refl|].
  bd E. destruct p as [s2 k2]. apply keeps_regen in E1. apply keeps_check_soft in E. eauto using keeps_trans.
Qed.

Lemma kept_clean e a new : forall cl k cl' k', clean_loop e a new k cl = Some (cl', k') -> Forall2 kept cl cl'.
Proof.
  induction cl as [|c cl IH]; intros k cl' k' H; cbn [clean_loop] in H; [injection H as <- <-; constructor|].
  bd H. destruct p as [s1 k1]. bd H. destruct p as [r k2]. injection H as <- <-.
  constructor; [split; [reflexivity|eapply keeps_clean_one; eauto]|eapply IH; eauto].
Qed.

Lemma kept_time_step e a main secs m m' : trackers (m_clouds m) -> sim_time_step e a main secs m = Some m' ->
  Forall2 kept (m_clouds m) (m_clouds m').
Proof.
  intros T H. unfold sim_time_step in H. bd H. bd H. destruct p as [cl k]. injection H as <-. cbn. apply kept_clean in E0.
  eapply kept_all_trans; [|exact E0]. unfold step_main in E. destruct (check_for_recomputation _ _) as [flag sc].
  bd E. destruct p as [[c1 k1] f1]. bd E. destruct p as [[x2 c2] k2].
  destruct (recompute_cloud_spacecharge _ _ _ _ _ _) as [c3 sc3] eqn:E3. injection E as <-. cbn.
  apply kept_loop in E1; auto. apply kept_cross in E2. apply kept_recompute in E3. eauto using kept_all_trans.
Qed.

(** * Re-initialisation *)
Lemma keeps_reset d c c' : reset_cloud d c = Some c' -> kept c c'.
Proof.
  unfold reset_cloud. intros H. bd H. injection H as <-. split; [reflexivity|]. cbn. 
  enough (K : keeps (o_mp c) m) by exact K. unfold init_from_dict, add_from_file in E.
  cbn [x_mp y_mp z_mp vx_mp vy_mp vz_mp nel_mp t_last_impact N_mp flag_lifetime_hist nel_mp_ref nel_mp_split nel_mp_cl_th nel_mp_ref_0 fact_split fact_clean] in E. bds E. injection E as <-.
  assert (List.length l6 = List.length (t_last_impact (o_mp c))).
  { destruct (flag_lifetime_hist (o_mp c)); [destruct (d_t d); [apply slice_set_len in E7; auto|]|]; injection E7 as <-; rewrite ?slice_fill_len; auto. }
  lens. split; [|reflexivity]. intros q. rewrite !room_iff. cbn. lia.
Qed.

Lemma kept_resets : forall ds cl cl', reset_clouds ds cl = Some cl' -> Forall2 kept cl cl'.
Proof.
  induction ds as [|d ds IH]; intros cl cl' H; cbn [reset_clouds] in H; [injection H as <-; apply kept_all_refl|].
  destruct cl as [|c cl]; [injection H as <-; constructor|]. bd H. bd H. injection H as <-. constructor; eauto using keeps_reset.
Qed.

Lemma set_front (a v : list R) n : (n <= List.length a)%nat -> List.length v = n -> slice_set a 0 n v = Some (v ++ skipn n a).
Proof. intros H L. rewrite slice_set_exact by lia. reflexivity. Qed.

Lemma nth_front n (a b : list R) i : (i < n)%nat -> (n <= List.length a)%nat -> nth i (firstn n a ++ b) 0 = nth i a 0.
Proof.
  intros Hi Hn. rewrite app_nth1 by (rewrite firstn_length; lia). rewrite <- (firstn_skipn n a) at 2. rewrite app_nth1; auto. rewrite firstn_length; lia.
Qed.

Lemma reset_restores c0 c : wf (o_mp c0) -> o_set c = o_set c0 -> room (capacity (o_mp c0)) (o_mp c) -> consts_of (o_mp c) = consts_of (o_mp c0) ->
  exists c', reset_cloud (extract_dict (o_mp c0)) c = Some c' /\ restored c0 c'.
Proof.
  intros W SE RM CE. apply room_iff in RM. destruct RM as (R1 & R2 & R3 & R4 & R5 & R6 & R7 & R8). injection CE as C1 C2 C3 C4.
  destruct W as [W1 W2 W3 W4 W5 W6 W7 W8]. unfold capacity in *. set (n := N_mp (o_mp c0)) in *.
  assert (LF : forall a : list R, List.length a = List.length (x_mp (o_mp c0)) -> List.length (firstn n a) = n) by (intros a L; rewrite firstn_length; lia).
  unfold reset_cloud, init_from_dict, add_from_file, extract_dict.
  cbn [x_mp y_mp z_mp vx_mp vy_mp vz_mp nel_mp t_last_impact N_mp flag_lifetime_hist nel_mp_ref nel_mp_split nel_mp_cl_th nel_mp_ref_0 fact_split fact_clean
       d_x d_y d_z d_vx d_vy d_vz d_nel d_t d_N]. fold n. rewrite Nat.add_0_l.
  do 7 (rewrite set_front by (auto; lia); cbn [bind]).
  assert (T : exists t, (if flag_lifetime_hist (o_mp c) then Some (slice_fill (t_last_impact (o_mp c)) 0 n (-1)) else Some (t_last_impact (o_mp c))) = Some t /\
    (flag_lifetime_hist (o_mp c) = true -> forall i, (i < n)%nat -> nth i t 0 = -1)).
  { destruct (flag_lifetime_hist (o_mp c)); eexists; split; try reflexivity; [|discriminate]. intros _ i Hi.
    rewrite slice_fill_exact by lia. cbn [firstn app]. rewrite app_nth1 by (rewrite repeat_length; lia). rewrite nth_repeat_lt by lia. reflexivity. }
  destruct T as (t & -> & T). cbn [bind]. eexists. split; [reflexivity|].
  assert (L : live (mkSys (firstn n (x_mp (o_mp c0)) ++ skipn n (x_mp (o_mp c))) (firstn n (y_mp (o_mp c0)) ++ skipn n (y_mp (o_mp c)))
      (firstn n (z_mp (o_mp c0)) ++ skipn n (z_mp (o_mp c))) (firstn n (vx_mp (o_mp c0)) ++ skipn n (vx_mp (o_mp c)))
      (firstn n (vy_mp (o_mp c0)) ++ skipn n (vy_mp (o_mp c))) (firstn n (vz_mp (o_mp c0)) ++ skipn n (vz_mp (o_mp c)))
      (firstn n (nel_mp (o_mp c0)) ++ skipn n (nel_mp (o_mp c))) t n (flag_lifetime_hist (o_mp c)) (nel_mp_ref_0 (o_mp c))
      (fact_split (o_mp c) * nel_mp_ref_0 (o_mp c)) (fact_clean (o_mp c) * nel_mp_ref_0 (o_mp c)) (nel_mp_ref_0 (o_mp c)) (fact_split (o_mp c)) (fact_clean (o_mp c)))
    = map forget_t (live (o_mp c0))).
  { unfold live. cbn [N_mp]. fold n. rewrite map_map. apply map_ext_in. intros i Hi. apply in_seq in Hi. unfold mp_at, forget_t.
    cbn [x_mp y_mp z_mp vx_mp vy_mp vz_mp nel_mp t_last_impact flag_lifetime_hist m_x m_y m_z m_vx m_vy m_vz m_nel]. rewrite !nth_front by lia.
    f_equal. destruct (flag_lifetime_hist (o_mp c)); auto. apply T; auto; lia. }
  unfold restored. cbn [o_set o_mp set_nel_mp_ref x_mp y_mp z_mp vx_mp vy_mp vz_mp nel_mp t_last_impact N_mp flag_lifetime_hist nel_mp_ref nel_mp_split nel_mp_cl_th nel_mp_ref_0 fact_split fact_clean].
  split; [auto|]. split; [auto|]. split; [exact L|]. split; [|split; [auto|split; [split; reflexivity|auto]]].
  intros HF. eapply eq_trans; [exact L|]. unfold live. rewrite map_map. apply map_ext. intros i. unfold mp_at, forget_t. cbn. rewrite HF. reflexivity.
Qed.

Lemma resets_restore : forall cl0 cl, Forall (fun c => wf (o_mp c)) cl0 -> Forall2 kept cl0 cl ->
  exists cl', reset_clouds (map (fun c => extract_dict (o_mp c)) cl0) cl = Some cl' /\ Forall2 restored cl0 cl'.
Proof.
  induction cl0 as [|c0 cl0 IH]; intros cl W F; inversion F as [|? c ? cl1 [K1 [K2 K3]] F1]; subst; cbn [map reset_clouds]; [exists []; auto|].
  inversion W as [|? ? W1 W2]; subst. destruct (reset_restores c0 c W1 K1) as (c' & E1 & R1); auto.
  { apply K2. apply room_iff. destruct W1. unfold capacity in *. lia. }
  destruct (IH cl1 W2 F1) as (r & E2 & R2). rewrite E1. cbn [bind]. rewrite E2. cbn [bind]. eexists. split; [reflexivity|]. constructor; auto.
Qed.

(** * Histories *)
Definition kept_h (h h' : pyht) : Prop := Forall2 kept (m_clouds (h_sim h)) (m_clouds (h_sim h')).
Lemma kept_h_trans a b c : kept_h a b -> kept_h b c -> kept_h a c.
Proof. apply kept_all_trans. Qed.
Lemma kept_h_refl a : kept_h a a.
Proof. apply kept_all_refl. Qed.
Definition tr_h (h : pyht) : Prop := trackers (m_clouds (h_sim h)).
Lemma tr_kept h h' : kept_h h h' -> tr_h h -> tr_h h'.
Proof. apply trackers_kept. Qed.

Lemma kept_reinit p h h' : reinitialize p h = Some h' -> kept_h h h'.
Proof. unfold reinitialize. intros H. bd H. injection H as <-. unfold kept_h. cbn. eapply kept_resets; eauto. Qed.

Lemma finalize_sim h h' : finalize h = Some h' -> h_sim h' = h_sim h /\ h_t h' = h_t h.
Proof. unfold finalize. intros H. bds H. injection H as <-. auto. Qed.
Lemma kept_finalize h h' : finalize h = Some h' -> kept_h h h'.
Proof. intros H. apply finalize_sim in H. destruct H as [H _]. unfold kept_h. rewrite H. apply kept_all_refl. Qed.

Lemma kept_far p h h' : finalize_and_reinitialize p h = Some h' -> kept_h h h'.
Proof.
  unfold finalize_and_reinitialize. destruct (z_slicemode p); [|discriminate]. intros H. bd H. apply kept_finalize in E. apply kept_reinit in H. eapply kept_h_trans; eauto.
Qed.

Lemma kept_cloud_step p first new inter ix dz dt b h b' h' : tr_h h -> cloud_step p first new inter ix dz dt b h = Some (b', h') -> kept_h h h'.
Proof.
  intros T H. unfold cloud_step in H. bd H. destruct p0 as [hs n]. bd H. destruct (dummy_beam _ _ _ _ _ _ _ _ _) as [tm hb]. bd H.
  apply kept_time_step in E1; auto. bds H. injection H as _ <-. exact E1.
Qed.

Lemma kept_cloud_steps p inter ix dz : forall dts first new b h b' h', tr_h h -> cloud_steps p first new inter ix dz dts b h = Some (b', h') -> kept_h h h'.
Proof.
  induction dts as [|dt dts IH]; intros first new b h b' h' T H; cbn [cloud_steps] in H; [injection H as <- <-; apply kept_h_refl|].
  bd H. destruct p0 as [b1 h1]. apply kept_cloud_step in E; auto. eapply kept_h_trans; [exact E|]. eapply IH; [|exact H]. eapply tr_kept; eauto.
Qed.

Lemma kept_passage p i force h new h' : passage p i force h = Some (new, h') -> kept_h h h'.
Proof.
  unfold passage. cbv zeta. destruct i as [| |io [ib|] is zl zr]; intros H; try (injection H as <- <-; exact (kept_h_refl h)).
  bd H. assert (K : kept_h h p0).
  { destruct (_ && _); [eapply kept_far; eauto|]. injection E as <-. apply kept_h_refl. }
  destruct (h_bunch p0 <? ib)%Z; injection H as <- <-; exact K.
Qed.

Lemma kept_slice p b ix dz force h b' h' : tr_h h -> track_single_slice p b ix dz force h = Some (b', h') -> kept_h h h'.
Proof.
  intros T H. unfold track_single_slice in H. destruct (_ || _); [discriminate|]. bd H. bd H. bd H. destruct p0 as [new h1].
  apply kept_passage in E1. eapply kept_h_trans; [exact E1|]. eapply kept_cloud_steps; [|exact H]. eapply tr_kept; eauto.
Qed.

Lemma kept_slices p sl : forall n b h b' h', tr_h h -> track_slices p sl n b h = Some (b', h') -> kept_h h h'.
Proof.
  induction n as [|n IH]; intros b h b' h' T H; cbn [track_slices] in H; [injection H as <- <-; apply kept_h_refl|].
  bd H. bd H. bd H. destruct p0 as [b1 h1]. apply kept_slice in E1; auto. eapply kept_h_trans; [exact E1|]. eapply IH; [|exact H]. eapply tr_kept; eauto.
Qed.

Lemma kept_bunch p sl b h b' h' : tr_h h -> track_bunch p sl b h = Some (b', h') -> kept_h h h'.
Proof.
  intros T H. unfold track_bunch in H. destruct (_ && _); [injection H as <- <-; apply kept_h_refl|]. bd H. bd H. destruct p1 as [b1 h1]. bd H. injection H as <- <-.
  apply kept_reinit in E. apply kept_finalize in E1. eapply kept_h_trans; [exact E|]. eapply kept_h_trans; [|exact E1]. eapply kept_slices; [|exact E0]. eapply tr_kept; eauto.
Qed.

Lemma kept_track_slice p c b h b' h' : tr_h h -> track_slice p c b h = Some (b', h') -> kept_h h h'.
Proof.
  intros T H. unfold track_slice in H. destruct c; [discriminate|]. destruct (q_info b); [discriminate|injection H as <- <-; apply kept_h_refl|]. eapply kept_slice; eauto.
Qed.

Lemma kept_list p : forall bs h bs' h', tr_h h -> track_list p bs h = Some (bs', h') -> kept_h h h'.
Proof.
  induction bs as [|b bs IH]; intros h bs' h' T H; cbn [track_list] in H; [injection H as <- <-; apply kept_h_refl|].
  bd H. destruct p0 as [b1 h1]. bd H. destruct p0 as [r h2]. injection H as <- <-. apply kept_track_slice in E; auto. eapply kept_h_trans; [exact E|]. eapply IH; [|exact E0]. eapply tr_kept; eauto.
Qed.

Lemma replace_sim h h' : replace_with_recorded_field_map h = Some h' -> h_sim h' = h_sim h.
Proof. unfold replace_with_recorded_field_map. destruct (h_map h); [intros H; injection H as <-; auto|]. destruct (h_fld h); try discriminate. intros H; injection H as <-; auto. Qed.

Lemma kept_act p a h h' : tr_h h -> act_run p a h = Some h' -> kept_h h h'.
Proof.
  intros T. destruct a as [sl b|b| |once fl|sl b|bs|]; cbn [act_run]; intros H.
  - bd H. destruct p0. injection H as <-. eapply kept_bunch; eauto.
  - bd H. destruct p0. injection H as <-. eapply kept_track_slice; eauto.
  - eapply kept_far; eauto.
  - injection H as <-. exact (kept_h_refl h).
  - bd H. destruct p0. injection H as <-. unfold track_once_bunch in E. bd E. destruct p1 as [b1 h1]. bd E. injection E as <- <-.
    apply kept_bunch in E0; auto. apply replace_sim in E1. cbn in E1. unfold kept_h in *. rewrite E1. exact E0.
  - bd H. destruct p0. injection H as <-. unfold track_once_slices in E. bd E. bd E. destruct p2 as [b1 h1]. bd E. bd E. injection E as <- <-.
    apply kept_reinit in E0. apply kept_list in E1; [|eapply tr_kept; [exact E0|exact T]]. apply kept_finalize in E2. apply replace_sim in E3. cbn in E3.
    assert (K : kept_h h p2) by (eapply kept_h_trans; [exact E0|]; eapply kept_h_trans; eauto). unfold kept_h in *. rewrite E3. exact K.
  - apply replace_sim in H. unfold kept_h. rewrite H. apply kept_all_refl.
Qed.

Lemma kept_acts p : forall l h h', tr_h h -> acts_run p l h = Some h' -> kept_h h h'.
Proof.
  induction l as [|a l IH]; intros h h' T H; cbn [acts_run] in H; [injection H as <-; apply kept_h_refl|].
  bd H. apply kept_act in E; auto. eapply kept_h_trans; [exact E|]. eapply IH; [|exact H]. eapply tr_kept; eauto.
Qed.

Lemma reinit_after_any p0 p m fl b0 h0 l h : Forall (fun c => wf (o_mp c)) (m_clouds m) -> trackers (m_clouds m) ->
  ecloud_ctor p0 m fl b0 = Some (p, h0) -> acts_run p l h0 = Some h ->
  exists h', reinitialize p h = Some h' /\ Forall2 restored (m_clouds m) (m_clouds (h_sim h')).
Proof.
  intros W T C R. unfold ecloud_ctor in C. destruct (_ || _); [discriminate|]. injection C as <- <-.
  apply kept_acts in R; [|exact T]. destruct (resets_restore _ _ W R) as (cl' & E & F). unfold reinitialize. cbn [z_init]. rewrite E. cbn [bind].
  eexists. split; [reflexivity|]. exact F.
Qed.
