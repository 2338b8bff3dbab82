(** The photons of the photoemission models and the initial distributions. *)
From Coq Require Import Lra Lia Permutation.
From Verif Require Import Num NumFacts MP SpecMP MPFacts Geom Poly Sey SpecSey SeyFacts SeyFacts2 SeyFacts4 Impact SpecImpact Source SpecSource SourceFacts SourceFacts2 SourceFacts4.
Local Open Scope list_scope.
Local Open Scope R_scope.

Lemma interp_from_ok x : forall tab l x0 f0, x0 <= x -> interpolated (l ++ (x0, f0) :: tab) x (interp_from x x0 f0 tab).
Proof.
  induction tab as [|[x1 f1] tab IH]; intros l x0 f0 H; cbn [interp_from].
  - right. left. exists l, x0, f0. auto.
  - destruct (Rltb x x1) eqn:E.
    + apply Rltb_true in E. right. right. exists l, x0, f0, x1, f1, tab. split; [reflexivity|]. split; [lra|]. field. lra.
    + apply Rltb_false in E. replace (l ++ (x0, f0) :: (x1, f1) :: tab) with ((l ++ [(x0, f0)]) ++ (x1, f1) :: tab) by (rewrite <- app_assoc; reflexivity).
      apply IH. exact E.
Qed.
Lemma interp_ok x tab v : np_interp x tab = Some v -> interpolated tab x v.
Proof.
  destruct tab as [|[x0 f0] tab]; [discriminate|]. cbn [np_interp]. intros E. injection E as <-. destruct (Rltb x x0) eqn:E.
  - apply Rltb_true in E. left. exists x0, f0, tab. auto.
  - apply Rltb_false in E. apply (interp_from_ok x tab [] x0 f0 E).
Qed.

(** * Two lists interleaved as a mask says *)
Fixpoint mix {A} (d : A) (m : list bool) (a b : list A) : list A :=
  match m with
  | [] => []
  | true :: m => hd d a :: mix d m (tl a) b
  | false :: m => hd d b :: mix d m a (tl b)
  end.

Lemma mix_put {A} (d : A) : forall m z a b, length z = length m -> length a = count_true m -> length b = count_true (map negb m) ->
  mask_put (map negb m) (mask_put m z a) b = mix d m a b.
Proof.
  induction m as [|f m IH]; intros [|z0 z] a b L1 L2 L3; try discriminate; [reflexivity|]. destruct f; cbn [map negb] in *.
  - change (count_true (true :: m)) with (S (count_true m)) in L2. destruct a as [|a0 a]; [discriminate|]. cbn [mask_put mix hd tl]. f_equal. apply IH; auto.
  - change (count_true (true :: map negb m)) with (S (count_true (map negb m))) in L3. destruct b as [|b0 b]; [discriminate|]. cbn [mask_put mix hd tl]. f_equal. apply IH; auto.
Qed.
Lemma mix_perm {A} (d : A) : forall m a b, length a = count_true m -> length b = count_true (map negb m) -> Permutation (mix d m a b) (a ++ b).
Proof.
  induction m as [|f m IH]; intros a b L1 L2.
  - destruct a, b; try discriminate. constructor.
  - destruct f; cbn [map negb] in *.
    + change (count_true (true :: m)) with (S (count_true m)) in L1. destruct a as [|a0 a]; [discriminate|]. cbn. constructor. apply IH; auto.
    + change (count_true (true :: map negb m)) with (S (count_true (map negb m))) in L2. destruct b as [|b0 b]; [discriminate|]. cbn.
      apply Permutation_cons_app. apply IH; auto.
Qed.
Lemma mix_nth {A B} (d : A) (e : B) (P Q : A -> B -> Prop) : forall m a b a' b' j f, length a = count_true m -> length b = count_true (map negb m) ->
  Forall2 P a a' -> Forall2 Q b b' -> nth_error m j = Some f ->
  exists t, nth_error (mix e m a' b') j = Some t /\ (if f then P else Q) (nth j (mix d m a b) d) t.
Proof.
  induction m as [|g m IH]; intros a b a' b' j f L1 L2 FA FB E; [destruct j; discriminate|]. destruct g; cbn [map negb] in *.
  - change (count_true (true :: m)) with (S (count_true m)) in L1. destruct FA as [|x y a a' H FA]; [discriminate|]. cbn [mix hd tl].
    destruct j as [|j]; [injection E as <-; exists y; auto|]. cbn [nth_error nth]. apply (IH a b a' b'); auto.
  - change (count_true (true :: map negb m)) with (S (count_true (map negb m))) in L2. destruct FB as [|x y b b' H FB]; [discriminate|]. cbn [mix hd tl].
    destruct j as [|j]; [injection E as <-; exists y; auto|]. cbn [nth_error nth]. apply (IH a b a' b'); auto.
Qed.

Lemma mapM_rel {A B} (f : A -> option B) : forall l r, mapM f l = Some r -> Forall2 (fun a b => f a = Some b) l r.
Proof.
  induction l as [|a l IH]; intros r E; cbn [mapM] in E; [injection E as <-; constructor|].
  destruct (f a) as [b|] eqn:FA; [|discriminate]. cbn [bind] in E. destruct (mapM f l) as [bs|]; [|discriminate]. cbn [bind] in E. injection E as <-. constructor; auto.
Qed.
Lemma Forall2_draw {B} (P : R -> B -> Prop) f k n l : Forall2 P (draw f k n) l -> Forall2 (fun i b => P (f i) b) (seq k n) l.
Proof. unfold draw. generalize (seq k n). intros s H. remember (map f s) as r eqn:E. revert s E. induction H; intros [|i s] E; try discriminate; constructor; injection E as -> ->; auto. Qed.

Lemma cos_pi_minus x : cos (PI - x) = - cos x.
Proof. rewrite cos_minus, cos_PI, sin_PI. ring. Qed.
Lemma sin_pi_minus x : sin (PI - x) = sin x.
Proof. rewrite sin_minus, cos_PI, sin_PI. ring. Qed.

Lemma refl_track_ok p sr i q : refl_track p (s_uni sr i) = Some q ->
  match p1_cdf p with
    | None => track4 q = photon 0 0 (ph_radius (p1_ph p)) (2 * PI * s_uni sr i)
    | Some tab => exists psi, interpolated tab (s_uni sr i) psi /\ track4 q = photon (p1_x0 p) 0 (2 * ph_radius (p1_ph p)) (PI - psi)
  end.
Proof.
  unfold refl_track, photon. destruct (p1_cdf p) as [tab|].
  - destruct (np_interp (s_uni sr i) tab) as [psi|] eqn:NI; [|discriminate]. cbn [bind]. intros E. injection E as <-. exists psi. split; [apply interp_ok; exact NI|].
    cbn [track4]. rewrite cos_pi_minus, sin_pi_minus. f_equal; ring.
  - intros E. injection E as <-. cbn [track4]. f_equal; ring.
Qed.
Lemma gauss_track_ok p g : track4 (gauss_track p g) = photon 0 0 (ph_radius (p1_ph p)) (p1_alimit p * g).
Proof. unfold gauss_track, photon. cbn [track4]. f_equal; ring. Qed.

Lemma photo1_tracks fuel kc ph refl al x0 y0 cdf w p mass lam Dt sr k s s' k' :
  photo1_ctor ph refl al x0 y0 cdf w = Some p ->
  wf s -> (N_mp s < capacity s)%nat -> 0 < nel_mp_ref s -> src_ok sr -> 0 < q_e kc -> 0 < mass -> 0 < ph_sig ph ->
  wall_ok w -> w_out w 0 0 = false ->
  0 <= photo_DNel kc (ph_k ph) (ph_mean ph) lam Dt ->
  photo1_generate fuel kc p w mass lam Dt sr k s = Some (s', k') ->
  exists new ks hs ix, live s' = live s ++ new /\ length ks = length new /\ w_hit w ks = Some hs /\
    Forall2 (photo_mp kc ph mass) (map hit4 (map fst hs)) new /\
    length ix = length new /\ NoDup ix /\ Forall (fun i => (k + length new < i < k + 1 + 2 * length new)%nat) ix /\
    forall j t, nth_error ks j = Some t -> photon1 (mkPhoto1 ph refl al x0 cdf) sr (s_uni sr (k + 1 + j)) (nth j ix 0%nat) t.
Proof.
  intros CT W F Hr HS Hq Hm Hg WO O0 HD E. unfold photo1_ctor in CT.
  destruct (Reqb y0 0) eqn:Y0; cbn [negb] in CT; [|discriminate]. apply Reqb_true in Y0. subst y0.
  destruct (w_out w x0 0) eqn:X0; [discriminate|]. injection CT as <-.
  unfold photo1_generate in E. cbn [p1_ph] in E.
  set (req := photo_DNel kc (ph_k ph) (ph_mean ph) lam Dt) in *.
  assert (Hq0 : 0 <= req / nel_mp_ref s) by (unfold Rdiv; apply Rmult_le_pos; auto; left; apply Rinv_0_lt_compat; auto).
  rewrite photo_number_stoch in E by auto.
  destruct (stoch_round_rounded _ (s_uni sr k) Hq0) as (n & En & Rn). rewrite En in E.
  destruct (Z.ltb_spec 0 (Z.of_nat n)) as [Hn|Hn].
  - rewrite Nat2Z.id in E. set (p := mkPhoto1 ph refl al x0 cdf) in *.
    set (rf := map _ (draw (s_uni sr) (S k) n)) in *.
    assert (LR : length rf = n) by (unfold rf; rewrite map_length, draw_length; auto).
    destruct (mapM (refl_track p) _) as [rt|] eqn:MR; [|discriminate]. cbn [bind] in E.
    set (nr := count_true rf) in *. set (ng := count_true (map negb rf)) in *.
    set (gt := map (gauss_track p) _) in E.
    assert (LT : length rt = nr) by (rewrite (mapM_length _ _ _ MR), draw_length; auto).
    assert (LG : length gt = ng) by (unfold gt; rewrite map_length, draw_length; auto).
    assert (NN : (nr + ng = n)%nat).
    { unfold nr, ng. rewrite <- LR. clear. unfold count_true. induction rf as [|b l IH]; [reflexivity|]. destruct b; cbn; lia. }
    assert (ST : Forall (fun q => w_out w (t_xin (track4 q)) (t_yin (track4 q)) = false)
      (mask_put (map negb rf) (mask_put rf (repeat (0, 0, 0, 0) n) rt) gt)).
    { apply mask_put_cover; auto.
      * rewrite repeat_length. auto.
      * eapply mapM_Forall; [|exact MR]. intros u b Hb. unfold refl_track in Hb. cbn [p p1_cdf p1_x0 p1_ph] in Hb.
        destruct cdf as [tab|].
        -- destruct (np_interp u tab); [|discriminate]. cbn in Hb. injection Hb as <-. exact X0.
        -- injection Hb as <-. exact O0.
      * unfold gt. rewrite Forall_map. apply draw_Forall. intros j. exact O0. }
    apply gen_energy_ok in E; auto; [|rewrite !mask_put_length, repeat_length; auto].
    destruct E as (new & hs & G & NH & LN & EH & V & CH). rewrite (mix_put (0, 0, 0, 0)) in EH by (rewrite ?repeat_length; auto).
    assert (LI : forall a m, length (seq a m) = m) by (intros; apply seq_length).
    set (ix := mix 0%nat rf (seq (S k + n) nr) (seq (S k + n + nr) ng)).
    assert (PX : Permutation ix (seq (S k + n) n)).
    { unfold ix. eapply Permutation_trans; [apply mix_perm; apply seq_length|]. rewrite <- seq_app, NN. reflexivity. }
    exists new, (map track4 (mix (0, 0, 0, 0) rf rt gt)), hs, ix. split; [exact (ge_live _ _ _ _ G)|]. split; [|split; [exact EH|split; [exact V|split; [|split; [|split]]]]].
    + rewrite map_length, LN. pose proof (Permutation_length (mix_perm (0, 0, 0, 0) rf rt gt LT LG)) as PL. rewrite PL, app_length. lia.
    + rewrite (Permutation_length PX), seq_length. auto.
    + apply (Permutation_NoDup (Permutation_sym PX)). apply seq_NoDup.
    + apply Forall_forall. intros i Hi. apply (Permutation_in _ PX) in Hi. apply in_seq in Hi. lia.
    + intros j t Ht. rewrite nth_error_map in Ht. destruct (nth_error (mix (0, 0, 0, 0) rf rt gt) j) as [q|] eqn:EQ; [|discriminate]. injection Ht as <-.
      assert (LJ : (j < n)%nat).
      { assert (nth_error (mix (0, 0, 0, 0) rf rt gt) j <> None) as Z by congruence. apply nth_error_Some in Z.
        rewrite (Permutation_length (mix_perm (0, 0, 0, 0) rf rt gt LT LG)), app_length in Z. lia. }
      assert (UE : nth_error rf j = Some (Rltb (s_uni sr (k + 1 + j)) refl)).
      { unfold rf, draw. rewrite !nth_error_map, (nth_error_nth' _ 0%nat) by (rewrite seq_length; exact LJ). rewrite seq_nth by exact LJ. cbn [option_map]. do 3 f_equal. lia. }
      apply mapM_rel, Forall2_draw in MR.
      assert (GR : Forall2 (fun i q => gauss_track p (s_norm sr i) = q) (seq (S k + n + nr) ng) gt).
      { unfold gt, draw. rewrite map_map. generalize (seq (S k + n + nr) ng). intros l. induction l; constructor; auto. }
      destruct (mix_nth 0%nat (0, 0, 0, 0) _ _ rf _ _ _ _ j _ (LI _ _) (LI _ _) MR GR UE) as (q' & EQ' & HQ). rewrite EQ in EQ'. injection EQ' as <-.
      change (mkPhoto1 ph refl al x0 cdf) with p. fold ix in HQ. split; intros Z; cbn [p p1_refl] in Z.
      * rewrite (proj2 (Rltb_true _ _) Z) in HQ. apply refl_track_ok in HQ. exact HQ.
      * rewrite (proj2 (Rltb_false _ _) Z) in HQ. rewrite <- HQ. apply gauss_track_ok.
  - injection E as <- <-. assert (n = 0%nat) by lia. subst n.
    destruct WO as [WL WO]. destruct (WO []) as (hs & EH & _); [constructor|]. pose proof (WL _ _ EH) as L. destruct hs; [|discriminate L].
    exists [], [], [], []. split; [rewrite app_nil_r; reflexivity|]. split; [reflexivity|]. split; [exact EH|]. split; [constructor|]. split; [reflexivity|]. split; [constructor|]. split; [constructor|].
    intros [|j] t; discriminate.
Qed.

Lemma photo2_tracks fuel kc ph cdf w mass lam Dt sr k s s' k' :
  wf s -> (N_mp s < capacity s)%nat -> 0 < nel_mp_ref s -> src_ok sr -> 0 < q_e kc -> 0 < mass -> 0 < ph_sig ph ->
  wall_ok w -> w_out w 0 0 = false ->
  0 <= photo_DNel kc (ph_k ph) (ph_mean ph) lam Dt ->
  photo2_generate fuel kc ph cdf w mass lam Dt sr k s = Some (s', k') ->
  exists new ks hs, live s' = live s ++ new /\ length ks = length new /\ w_hit w ks = Some hs /\
    Forall2 (photo_mp kc ph mass) (map hit4 (map fst hs)) new /\
    forall j t, nth_error ks j = Some t -> photon2 ph cdf sr (k + 1 + j) t.
Proof.
  intros W F Hr HS Hq Hm Hg WO O0 HD E.
  unfold photo2_generate in E.
  set (req := photo_DNel kc (ph_k ph) (ph_mean ph) lam Dt) in *.
  assert (Hq0 : 0 <= req / nel_mp_ref s) by (unfold Rdiv; apply Rmult_le_pos; auto; left; apply Rinv_0_lt_compat; auto).
  rewrite photo_number_stoch in E by auto.
  destruct (stoch_round_rounded _ (s_uni sr k) Hq0) as (n & En & Rn). rewrite En in E.
  destruct (Z.ltb_spec 0 (Z.of_nat n)) as [Hn|Hn].
  - rewrite Nat2Z.id in E.
    match type of E with context[bind ?o _] => destruct o as [th|] eqn:TH; [|discriminate] end. cbn [bind] in E.
    assert (TR : Forall2 (fun i t => match cdf with None => t = 2 * PI * s_uni sr i | Some tab => interpolated tab (s_uni sr i) t end) (seq (S k) n) th).
    { destruct cdf as [tab|].
      - apply mapM_rel, Forall2_draw in TH. clear -TH. induction TH; constructor; auto. apply interp_ok. assumption.
      - injection TH as <-. unfold draw. rewrite map_map. generalize (seq (S k) n). intros l. induction l; constructor; auto. ring. }
    assert (LT : length th = n) by (rewrite <- (Forall2_length TR), seq_length; reflexivity).
    apply gen_energy_ok in E; auto.
    + destruct E as (new & hs & G & NH & LN & EH & V & CH). rewrite map_map in EH. exists new, (map (fun t => track4 (0, 0, ph_radius ph * cos t, ph_radius ph * sin t)) th), hs.
      split; [exact (ge_live _ _ _ _ G)|]. split; [rewrite map_length; congruence|]. split; [exact EH|]. split; [exact V|].
      intros j t Ht. rewrite nth_error_map in Ht. destruct (nth_error th j) as [a|] eqn:EA; [|discriminate]. injection Ht as <-. exists a.
      split; [unfold photon; cbn [track4]; f_equal; ring|].
      assert (LJ : (j < n)%nat) by (rewrite <- LT; apply nth_error_Some; congruence).
      pose proof (SourceFacts2.Forall2_at _ _ _ TR) as AT. specialize (AT j (k + 1 + j)%nat a). apply AT; [|exact EA].
      rewrite (nth_error_nth' _ 0%nat) by (rewrite seq_length; exact LJ). rewrite seq_nth by exact LJ. f_equal. lia.
    + rewrite map_length. auto.
    + apply Forall_map, Forall_forall. intros. exact O0.
  - injection E as <- <-. assert (n = 0%nat) by lia. subst n.
    destruct WO as [WL WO]. destruct (WO []) as (hs & EH & _); [constructor|]. pose proof (WL _ _ EH) as L. destruct hs; [|discriminate L].
    exists [], [], []. split; [rewrite app_nil_r; reflexivity|]. split; [reflexivity|]. split; [exact EH|]. split; [constructor|]. intros [|j] t; discriminate.
Qed.

(** * The initial distributions *)
Section Uniform.
Context (rng : nat -> R).

Lemma put_map (f : nat -> R) : forall flag ix jx, length flag = length ix -> length jx = count_true flag ->
  mask_put flag (map f ix) (map f jx) = map f (mask_put flag ix jx).
Proof.
  induction flag as [|b flag IH]; intros [|i ix] jx L1 L2; try discriminate; [reflexivity|]. destruct b; cbn [map mask_put].
  - destruct jx as [|j jx]; [discriminate|]. cbn [map mask_put]. f_equal. apply IH; auto.
  - f_equal. apply IH; auto.
Qed.
Lemma draw_map (f : R -> R) k n : map f (draw rng k n) = map (fun i => f (rng i)) (seq k n).
Proof. unfold draw. apply map_map. Qed.
Lemma nodup_two (a b : list nat) : NoDup a -> NoDup b -> (forall x, In x a -> In x b -> False) -> NoDup (a ++ b).
Proof.
  induction a as [|x a IHa]; intros A B C; cbn; [exact B|]. inversion A; subst.
  constructor; [intros Z; apply in_app_or in Z; destruct Z; [auto|eapply C; [left; reflexivity|eassumption]]|].
  apply IHa; auto. intros y Y1 Y2. eapply C; [right; eassumption|eassumption].
Qed.
Lemma nodup_split (a b : list nat) : NoDup (a ++ b) -> NoDup a /\ NoDup b /\ forall x, In x a -> In x b -> False.
Proof.
  induction a as [|i ix IHx]; intros ND; cbn in ND; [split; [constructor|split; [exact ND|intros x []]]|]. inversion ND as [|? ? A B]; subst. destruct (IHx B) as (P & Q & R0).
  split; [constructor; [intros Z; apply A, in_or_app; auto|exact P]|]. split; [exact Q|]. intros x [<-|X] Y; [apply A, in_or_app; auto|eapply R0; eauto].
Qed.

Lemma uniform_redraw fuel c xa xi ya yi : forall k k0 ix iy xt' yt' k',
  length iy = length ix -> NoDup (ix ++ iy) -> Forall (fun i => (k0 <= i < k)%nat) (ix ++ iy) -> (k0 <= k)%nat ->
  redraw_uniform fuel c xa xi ya yi rng k (map (fun i => (xa - xi) * rng i + xi) ix) (map (fun i => (ya - yi) * rng i + yi) iy) = Some (xt', yt', k') ->
  exists jx jy, xt' = map (fun i => (xa - xi) * rng i + xi) jx /\ yt' = map (fun i => (ya - yi) * rng i + yi) jy /\
    length jx = length ix /\ length jy = length ix /\ NoDup (jx ++ jy) /\ Forall (fun i => (k0 <= i < k')%nat) (jx ++ jy) /\ (k <= k')%nat.
Proof.
  induction fuel as [|fuel IH]; intros k k0 ix iy xt' yt' k' L ND FR K H; cbn [redraw_uniform] in H.
  - destruct (Nat.eqb _ 0); [|discriminate]. injection H as <- <- <-. exists ix, iy. auto 10.
  - destruct (Nat.eqb _ 0); [injection H as <- <- <-; exists ix, iy; auto 10|].
    set (flag := map2 (outside c) _ _) in *. set (n := count_true flag) in *.
    assert (LF : length flag = length ix) by (unfold flag; rewrite map2_length, !map_length; lia).
    rewrite !draw_map, !put_map in H by (rewrite ?seq_length; auto; lia).
    rewrite Forall_forall in FR. destruct (nodup_split _ _ ND) as (NX & NY & NXY).
    assert (FX : forall x, In x ix -> (k0 <= x < k)%nat) by (intros x X; apply FR, in_or_app; auto).
    assert (FY : forall x, In x iy -> (k0 <= x < k)%nat) by (intros x X; apply FR, in_or_app; auto).
    apply (IH _ k0) in H.
    + destruct H as (jx & jy & A & B & C & D & E & F & G). rewrite mask_put_length in C, D. exists jx, jy. repeat (split; [assumption|]). lia.
    + rewrite !mask_put_length. assumption.
    + apply nodup_two.
      * apply mask_put_NoDup; [exact NX|apply seq_NoDup|]. intros x P Q. apply in_seq in Q. apply FX in P. lia.
      * apply mask_put_NoDup; [exact NY|apply seq_NoDup|]. intros x P Q. apply in_seq in Q. apply FY in P. lia.
      * intros x P Q. apply mask_put_In in P. apply mask_put_In in Q. rewrite !in_seq in *.
        destruct P as [P|P]; destruct Q as [Q|Q]; try lia; [eapply NXY; eauto|apply FX in P; lia|apply FY in Q; lia].
    + apply Forall_forall. intros x P. apply in_app_or in P. destruct P as [P|P]; apply mask_put_In in P; rewrite in_seq in P; destruct P as [P|P]; try lia; [apply FX in P|apply FY in P]; lia.
    + lia.
Qed.
End Uniform.

(** The velocities [write_uniform] writes. *)
Lemma write_speeds s n xt yt a b c t s' new : wf s -> (N_mp s + n <= capacity s)%nat -> write_uniform s n xt yt a b c t = Some s' ->
  live s' = live s ++ new -> Forall (fun p => m_vx p = a /\ m_vy p = b /\ m_vz p = c) new.
Proof.
  intros W F E EL. assert (NEW : forall i, (i < n)%nat -> let p := mp_at s' (N_mp s + i) in m_vx p = a /\ m_vy p = b /\ m_vz p = c).
  { unfold write_uniform in E. destruct (slice_set (x_mp s) _ _ _); [|discriminate]. cbn [bind] in E. destruct (slice_set (y_mp s) _ _ _); [|discriminate]. cbn [bind] in E. injection E as <-.
    intros i Hi. cbn. destruct W. rewrite !slice_fill_nth_in by (auto; lia). auto. }
  assert (NN : N_mp s' = (N_mp s + n)%nat).
  { unfold write_uniform in E. destruct (slice_set (x_mp s) _ _ _); [|discriminate]. cbn [bind] in E. destruct (slice_set (y_mp s) _ _ _); [|discriminate]. cbn [bind] in E. injection E as <-. reflexivity. }
  apply Forall_forall. intros p Hp. apply In_nth_error in Hp. destruct Hp as (j & Hj).
  assert (LN : length new = n) by (apply (f_equal (@length mp)) in EL; rewrite app_length, !live_length in EL; lia).
  assert (JN : (j < n)%nat) by (rewrite <- LN; apply nth_error_Some; congruence).
  assert (EQ : nth_error (live s') (N_mp s + j) = Some p).
  { rewrite EL, nth_error_app2 by (rewrite live_length; lia). rewrite live_length. rewrite <- Hj. f_equal. lia. }
  unfold live in EQ. rewrite nth_error_map, (nth_error_nth' _ 0%nat) in EQ by (rewrite seq_length; lia). rewrite seq_nth in EQ by lia. cbn [option_map Nat.add] in EQ. injection EQ as <-.
  apply NEW. exact JN.
Qed.

Lemma uniform_places fuel c DNel v0 oxa oxi oya oyi rng k s s' k' :
  let xmax := odef oxa (x_aper c) in let xmin := odef oxi (- x_aper c) in
  let ymax := odef oya (y_aper c) in let ymin := odef oyi (- y_aper c) in
  wf s -> (N_mp s < capacity s)%nat -> 0 < nel_mp_ref s -> (forall j, 0 <= rng j < 1) -> 0 <= DNel ->
  add_uniform_MP_distrib fuel c DNel v0 oxa oxi oya oyi rng k s = Some (s', k') ->
  exists new ix iy iv, live s' = live s ++ new /\ length ix = length new /\ length iy = length new /\
    NoDup (ix ++ iy ++ [iv; S iv; S (S iv)]) /\ (new <> [] -> Forall (fun i => (k < i < k')%nat) (ix ++ iy ++ [iv; S iv; S (S iv)])) /\
    (forall j p, nth_error new j = Some p -> m_x p = spread xmin xmax (rng (nth j ix 0%nat)) /\ m_y p = spread ymin ymax (rng (nth j iy 0%nat))) /\
    Forall (same_velocity v0 rng iv) new.
Proof.
  intros xmax xmin ymax ymin W F Hr HU HD E. unfold add_uniform_MP_distrib in E. fold xmax xmin ymax ymin in E.
  assert (Hq : 0 <= DNel / nel_mp_ref s) by (unfold Rdiv; apply Rmult_le_pos; auto; left; apply Rinv_0_lt_compat; auto).
  destruct (stoch_round_rounded _ (rng k) Hq) as (n & En & Rn). rewrite En in E.
  destruct (Z.ltb_spec 0 (Z.of_nat n)) as [Hn|Hn].
  - rewrite Nat2Z.id in E. rewrite !draw_map in E.
    destruct (redraw_uniform _ _ _ _ _ _ _ _ _ _) as [[[xt yt] k1]|] eqn:RD; [|discriminate]. cbn [bind] in E.
    pose proof RD as RD2. apply redraw_uniform_ok in RD2; [|rewrite !map_length, !seq_length; auto].
    rewrite map_length, seq_length in RD2. destruct RD2 as (L1 & L2 & IN).
    apply (uniform_redraw rng fuel c xmax xmin ymax ymin _ (k + 1)) in RD.
    2: rewrite !seq_length; reflexivity.
    2: { rewrite <- seq_app. apply seq_NoDup. }
    2: { rewrite <- seq_app. apply Forall_forall. intros x Hx. apply in_seq in Hx. lia. }
    2: lia.
    destruct RD as (jx & jy & EX & EY & LJ & LK & ND & FR & KK). rewrite seq_length in LJ, LK.
    match type of E with context[write_uniform s n xt yt ?a ?b ?d ?t] =>
      destruct (write_uniform s n xt yt a b d t) as [s1|] eqn:WU; [|discriminate] end.
    cbn [bind] in E. injection E as <- <-.
    assert (Fit : (N_mp s + n <= capacity s)%nat) by (eapply write_fits; [exact W|exact F| |exact WU]; auto).
    pose proof WU as WV. apply (write_any_t (outside c)) in WU; auto.
    + destruct WU as (new & G & LN & CH & NH & _ & MX & MY). exists new, jx, jy, k1. split; [exact (ge_live _ _ _ _ G)|]. split; [congruence|]. split; [congruence|].
      rewrite Forall_forall in FR. split; [|split; [|split]].
      * rewrite app_assoc. apply nodup_two; [exact ND| |intros x P Q; apply FR in P; cbn in Q; lia]. repeat constructor; cbn; lia.
      * intros _. rewrite app_assoc. apply Forall_forall. intros x P. apply in_app_or in P. destruct P as [P|P]; [apply FR in P; lia|]. cbn in P. lia.
      * intros j p Hp. assert (JN : (j < n)%nat) by (rewrite <- LN; apply nth_error_Some; congruence).
        assert (X : m_x p = nth j (map m_x new) 0) by (symmetry; apply nth_error_nth; rewrite nth_error_map, Hp; reflexivity).
        assert (Y : m_y p = nth j (map m_y new) 0) by (symmetry; apply nth_error_nth; rewrite nth_error_map, Hp; reflexivity).
        assert (NM : forall (f : nat -> R) l, (j < length l)%nat -> nth j (map f l) 0 = f (nth j l 0%nat)).
        { intros f l Hl. rewrite (nth_indep _ 0 (f 0%nat)) by (rewrite map_length; exact Hl). apply map_nth. }
        rewrite X, Y, MX, MY, EX, EY, !NM by lia. unfold spread. split; ring.
      * eapply Forall_impl; [|eapply write_speeds; [exact W|exact Fit|exact WV|exact (ge_live _ _ _ _ G)]].
        intros p (A & B & C). unfold same_velocity. rewrite A, B, C. replace (k1 + 1)%nat with (S k1) by lia. replace (k1 + 2)%nat with (S (S k1)) by lia. auto.
    + destruct (flag_lifetime_hist s); [|destruct W; auto]. rewrite slice_fill_length; destruct W; auto; lia.
    + intros i Hi. destruct (flag_lifetime_hist s); auto. apply slice_fill_clip; destruct W; lia.
  - injection E as <- <-. exists [], [], [], 0%nat. split; [rewrite app_nil_r; reflexivity|].
    split; [reflexivity|]. split; [reflexivity|]. split; [repeat constructor; cbn; lia|]. split; [congruence|]. split; [intros [|j] p; discriminate|constructor].
Qed.

Lemma density_places c n_ele v0 oxa oxi oya oyi rng k s s' k' :
  let xmax := odef oxa (x_aper c) in let xmin := odef oxi (- x_aper c) in
  let ymax := odef oya (y_aper c) in let ymin := odef oyi (- y_aper c) in
  let req := n_ele * (xmax - xmin) * (ymax - ymin) in
  wf s -> (N_mp s < capacity s)%nat -> 0 < nel_mp_ref s -> (forall j, 0 <= rng j < 1) -> 0 <= n_ele -> xmin <= xmax -> ymin <= ymax ->
  add_uniform_ele_density c n_ele v0 oxa oxi oya oyi rng k s = Some (s', k') ->
  exists new n, live s' = live s ++ new /\ rounded (req / nel_mp_ref s) (rng k) n /\
    map (fun p => (m_x p, m_y p)) new =
      filter (fun q => negb (outside c (fst q) (snd q))) (map (fun j => (spread xmin xmax (rng (k + 1 + j)%nat), spread ymin ymax (rng (k + 1 + n + j)%nat))) (seq 0 n)) /\
    Forall (same_velocity v0 rng (k + 1 + 2 * n)) new /\ (n <> 0%nat -> k' = (k + 1 + 2 * n + 3)%nat).
Proof.
  intros xmax xmin ymax ymin req W F Hr HU HD HX HY E. unfold add_uniform_ele_density in E.
  fold xmax xmin ymax ymin in E. fold req in E.
  assert (Hreq : 0 <= req) by (unfold req; apply Rmult_le_pos; [apply Rmult_le_pos|]; lra).
  assert (Hq : 0 <= req / nel_mp_ref s) by (unfold Rdiv; apply Rmult_le_pos; auto; left; apply Rinv_0_lt_compat; auto).
  destruct (stoch_round_rounded _ (rng k) Hq) as (n & En & Rn). rewrite En in E.
  destruct (Z.ltb_spec 0 (Z.of_nat n)) as [Hn|Hn].
  - rewrite Nat2Z.id in E. rewrite !draw_map in E.
    set (xt := map _ (seq (k + 1) n)) in *. set (yt := map _ (seq (k + 1 + n) n)) in *.
    assert (LX : length xt = n) by (unfold xt; rewrite map_length, seq_length; auto).
    assert (LY : length yt = n) by (unfold yt; rewrite map_length, seq_length; auto).
    assert (SH : forall a m, seq a m = map (fun j => (a + j)%nat) (seq 0 m)).
    { clear. intros a m. revert a. induction m as [|m IH]; intros a; cbn; [reflexivity|]. f_equal; [lia|]. rewrite IH, <- seq_shift, map_map. apply map_ext. intros; lia. }
    assert (XY : combine xt yt = map (fun j => (spread xmin xmax (rng (k + 1 + j)%nat), spread ymin ymax (rng (k + 1 + n + j)%nat))) (seq 0 n)).
    { unfold xt, yt. rewrite (SH (k + 1)%nat), (SH (k + 1 + n)%nat), !map_map. generalize (seq 0 n). intros l. induction l as [|j l IH]; cbn; [reflexivity|]. f_equal; [|exact IH]. unfold spread. f_equal; ring. }
    set (m := map negb (map2 (outside c) xt yt)) in *.
    assert (LM : length m = n) by (unfold m; rewrite map_length, map2_length; lia).
    match type of E with context[write_uniform s ?nn ?x ?y ?a ?b ?d ?t] =>
      destruct (write_uniform s nn x y a b d t) as [s1|] eqn:WU; [|discriminate] end.
    cbn [bind] in E. injection E as <- <-.
    assert (LEN : length (mask_get m yt) = length (mask_get m xt)) by (rewrite !mask_get_length by lia; auto).
    assert (Fit : (N_mp s + length (mask_get m xt) <= capacity s)%nat) by (eapply write_fits; [exact W|exact F| |exact WU]; auto).
    pose proof WU as WV. apply (write_any_t (outside c)) in WU; auto.
    + destruct WU as (new & G & LN & CH & _ & NH & MX & MY). exists new, n. split; [exact (ge_live _ _ _ _ G)|]. split; [exact Rn|]. split; [|split].
      * rewrite <- XY. transitivity (combine (map m_x new) (map m_y new)).
        { clear. induction new; cbn; congruence. }
        rewrite MX, MY. unfold m. assert (LXY : length xt = length yt) by lia. clearbody xt yt. clear -LXY.
        revert yt LXY; induction xt as [|x xt IH]; intros [|y yt] L; cbn in *; try lia; auto.
        destruct (outside c x y); cbn; auto. f_equal. auto.
      * eapply Forall_impl; [|eapply write_speeds; [exact W|exact Fit|exact WV|exact (ge_live _ _ _ _ G)]].
        intros p (A & B & C). unfold same_velocity. rewrite A, B, C. replace (k + 1 + 2 * n)%nat with (k + 1 + n + n)%nat by lia.
        replace (k + 1 + n + n + 1)%nat with (S (k + 1 + n + n)) by lia. replace (k + 1 + n + n + 2)%nat with (S (S (k + 1 + n + n))) by lia. auto.
      * lia.
    + apply keep_inside. lia.
    + destruct (flag_lifetime_hist s); [rewrite slice_fill_length|]; destruct W; auto; lia.
    + intros i Hi. destruct (flag_lifetime_hist s); auto. apply slice_fill_clip; destruct W; lia.
  - injection E as <- <-. assert (n = 0%nat) by lia. subst n. exists [], 0%nat. split; [rewrite app_nil_r; reflexivity|]. split; [auto|]. split; [reflexivity|]. split; [constructor|]. congruence.
Qed.
