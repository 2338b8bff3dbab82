(** Statement-level lemmas about the beam. *)
From Verif Require Import Num NumFacts Fort FortFacts Beam SpecBeam BeamFacts.

Lemma through_record {A} (f : beam -> A) (vis : list (beam * list beam)) : forall s,
  through (fun b _ s => Some (s ++ [f b])) vis s = Some (s ++ map (fun v => f (fst v)) vis).
Proof.
  induction vis as [|(b, ss) vis IH]; intros s; cbn [through map]; [rewrite app_nil_r; auto|].
  cbn [bind]. rewrite IH, <- app_assoc. auto.
Qed.

Lemma nth_ext_seq {A} (l : list A) (f : nat -> A) d : (forall i, (i < length l)%nat -> nth i l d = f i) -> l = map f (seq 0 (length l)).
Proof.
  revert f. induction l as [|x l IH]; intros f H; auto. cbn [length seq map]. rewrite (seq_shift_map f). f_equal; [apply (H 0%nat); cbn; lia|].
  apply IH. intros i Hi. apply (H (S i)). cbn. lia.
Qed.

(** C22: times and lengths of the steps. *)
Lemma run_steps b ss fuel : fresh b -> Forall (fun x => fresh x /\ length (b_t x) = length (b_t b)) ss -> (length (b_t b) <= fuel)%nat ->
  exists r, run record_steps None fuel b ss [] =
    Some (r, map (fun i => (nth i (b_t b) 0, nth (S i) (b_t b) 0 - nth i (b_t b) 0)) (seq 0 (length (b_t b) - 1))).
Proof.
  intros F FS HF. destruct (run_fresh record_steps None fuel b ss [] F FS HF) as (vis & -> & (N1 & N2) & V).
  exists (final vis b ss). unfold record_steps. rewrite through_record. cbn [bind app]. do 2 f_equal. rewrite <- N2.
  rewrite <- (map_length (fun v : beam * list beam => match b_now (fst v) with Some w => (w_t w, w_Dt w) | None => (0, 0) end) vis).
  apply nth_ext_seq with (d := (fun v : beam * list beam => match b_now (fst v) with Some w => (w_t w, w_Dt w) | None => (0, 0) end) (b, ss)).
  intros i Hi. rewrite map_length in Hi.
  rewrite (map_nth (fun v : beam * list beam => match b_now (fst v) with Some w => (w_t w, w_Dt w) | None => (0, 0) end)).
  destruct (V i (b, ss) Hi) as (A & _). destruct (as_now _ _ _ A) as (new & -> & _). auto.
Qed.

(** C23. *)
Lemma run_signals b ss fuel : fresh b -> Forall (fun x => fresh x /\ length (b_t x) = length (b_t b)) ss -> (length (b_t b) <= fuel)%nat ->
  exists r sigs, run record_signals None fuel b ss [] = Some (r, sigs) /\ length sigs = (length (b_t b) - 1)%nat /\
    (forall i, (i < length sigs)%nat -> nth i sigs false = true <->
       (-1 < passage b i)%Z /\ forall j, (j < i)%nat -> (passage b j < passage b i)%Z).
Proof.
  intros F FS HF. destruct (run_fresh record_signals None fuel b ss [] F FS HF) as (vis & -> & (N1 & N2) & V).
  exists (final vis b ss). unfold record_signals. rewrite through_record. cbn [bind app]. eexists. split; [reflexivity|].
  rewrite map_length. split; auto. intros i Hi.
  rewrite (nth_indep _ false ((fun v : beam * list beam => signal (fst v)) (b, ss))) by (rewrite map_length; auto).
  rewrite (map_nth (fun v : beam * list beam => signal (fst v))).
  destruct (V i (b, ss) Hi) as (A & _). destruct (as_now _ _ _ A) as (new & E & K). unfold signal. rewrite E. auto.
Qed.

Lemma run_signals_count b ss fuel : fresh b -> Forall (fun x => fresh x /\ length (b_t x) = length (b_t b)) ss -> (length (b_t b) <= fuel)%nat ->
  0 < b_spac b -> ascending (b_t b) -> 0 <= nth 0 (b_t b) 0 ->
  exists r sigs, run record_signals None fuel b ss [] = Some (r, sigs) /\ length sigs = (length (b_t b) - 1)%nat /\
    (forall i, (i < length sigs)%nat -> nth i sigs false = true <-> (i = 0%nat \/ (passage b (i - 1) < passage b i)%Z)) /\
    count_true sigs = length (nodup Z.eq_dec (map (passage b) (seq 0 (length (b_t b) - 1)))).
Proof.
  intros F FS HF SP A T0. destruct (run_signals b ss fuel F FS HF) as (r & sigs & E & L & V). exists r, sigs. split; auto. split; auto.
  assert (NN : forall i, (i < length sigs)%nat -> (-1 < passage b i)%Z).
  { intros i Hi. enough (0 <= passage b i)%Z by lia. apply passage_nonneg; auto. eapply Rle_trans; [exact T0|]. apply A. lia. }
  split.
  - intros i Hi. rewrite (V i Hi). split.
    + intros (_ & G). destruct i as [|i]; auto. right. apply G. lia.
    + intros [->|G]; split; auto; [intros j Hj; lia|]. intros j Hj. destruct i as [|i]; [lia|].
      apply Z.le_lt_trans with (passage b (S i - 1)); auto. apply passage_mono; auto. lia.
  - rewrite <- L.
    rewrite (nth_ext_seq sigs (fun i => nth i sigs false) false) at 1 by auto.
    apply count_increases.
    + intros i Hi. rewrite (V i Hi). split; [intros (_ & G); auto|intros G; split; auto].
    + intros i j H. apply passage_mono; auto. lia.
Qed.

(** C56: stopping at a user-defined time and continuing later. *)
Lemma run_stop_continue {S : Type} (sim : beam -> list beam -> S -> option S) te fuel b ss s : fresh b ->
  Forall (fun x => fresh x /\ length (b_t x) = length (b_t b)) ss -> (length (b_t b) <= fuel)%nat ->
  forall b1 ss1 s1 r, run sim te fuel b ss s = Some (b1, ss1, s1) -> run sim None fuel b1 ss1 s1 = Some r ->
  run sim None fuel b ss s = Some r.
Proof.
  intros F FS HF b1 ss1 s1 r H1 H2. pose proof (run_resume sim te fuel fuel b ss s b1 ss1 s1 r H1 H2) as K.
  destruct (run_fresh sim None fuel b ss s F FS HF) as (vis & E & _ & _).
  assert (E2 : run sim None fuel b ss s = run sim None (fuel + fuel) b ss s); [|congruence].
  destruct (run sim None fuel b ss s) as [r'|] eqn:R.
  - symmetry. apply run_more with (fuel := fuel); auto. lia.
  - exfalso. destruct (visits_spec None b ss) with (fuel := fuel) (n := 0%nat) (b := b) (ss := ss) as (v & V & _); try apply F.
    + eapply Forall_impl; [|exact FS]. intros x ((? & ? & ? & ? & ?) & ?). repeat split; auto.
    + apply fresh_pre. auto.
    + clear -FS. induction FS as [|x l (A & _)]; constructor; auto. apply fresh_pre. auto.
    + lia.
    + assert (V2 : visits None (fuel + fuel) b ss = Some v).
      { revert V. clear. generalize (fuel + fuel)%nat (Nat.le_add_r fuel fuel). intros f2 L. revert f2 L b ss v.
        induction fuel as [|fu IH]; intros f2 L b ss v V; destruct f2 as [|f2]; try lia; cbn [visits] in *;
          destruct (end_simulation b); auto; destruct (reached None b); auto; try discriminate.
        destruct (next_time_step b) as [b'|]; [|discriminate]. cbn [bind] in *. destruct (next_all ss) as [ss'|]; [|discriminate]. cbn [bind] in *.
        destruct (visits None fu b' ss') as [l|] eqn:E; [|discriminate]. rewrite (IH f2 ltac:(lia) _ _ _ E). auto. }
      rewrite (run_visits sim None fuel _ _ s _ V) in R. rewrite (run_visits sim None _ _ _ s _ V2) in K.
      destruct (through sim v s); discriminate.
Qed.

(** * The constructor *)
Lemma bunched_primary b_spac sigmaz t_offs Dt t_end fact coast ppb sv sz :
  0 < Dt -> 0 < b_spac -> 0 <= t_end -> slot_lengths sv sigmaz ppb = Some sz -> (length ppb <= length sz)%nat ->
  exists b, beam_bunched None b_spac sigmaz t_offs Dt t_end fact coast ppb sv = Some b /\ fresh b /\ SpecBeam.ascending (b_t b) /\
    nth 0 (b_t b) 0 = 0 /\ Beam.b_spac b = b_spac /\ b_unif b = true /\
    (forall i, (i < length (b_t b))%nat -> nth i (b_t b) 0 = INR i * Dt /\
       nth i (b_lam b) 0 = fact * train_density b_spac t_offs ppb sz (INR i * Dt) + coast) /\
    (2 <= length (b_t b))%nat /\ INR (length ppb) * b_spac + t_end <= nth (length (b_t b) - 2) (b_t b) 0 /\
    nth (length (b_t b) - 1) (b_t b) 0 < INR (length ppb) * b_spac + t_end + 2 * Dt.
Proof.
  intros HD HB HT HS HL. unfold beam_bunched. rewrite HS. cbn [bind]. rewrite train_spec by auto. cbn [bind].
  set (X := INR (length ppb) * b_spac + t_end). assert (HX : 0 <= X) by (unfold X; pose proof (pos_INR (length ppb)); nra).
  pose proof (arange_covers X Dt HD HX) as C. cbv zeta in C. set (t := arange0 (X + 2 * Dt) Dt) in *. destruct C as (C1 & C2 & C3).
  unfold finish. cbn [same_axis negb]. unfold last_of, py_nth.
  assert (TN : forall i, (i < length t)%nat -> nth i t 0 = INR i * Dt) by (intros i Hi; apply arange_nth; auto).
  rewrite (proj2 (Z.leb_gt 0 (-1))) by lia.
  rewrite (proj2 (Z.leb_le 0 (-1 + Z.of_nat (length t)))) by lia.
  destruct (nth_error t _) as [tl|] eqn:NE; [|apply nth_error_None in NE; lia]. cbn [bind]. rewrite (proj2 (Reqb_false b_spac 0)) by lra.
  eexists. split; [reflexivity|]. cbn [b_t b_lam Beam.b_spac b_ii b_old b_now b_Nt]. split; [|split; [|split; [|split; [|split; [|split]]]]]; auto.
  - repeat split. cbn. rewrite !map_length. auto.
  - intros i j H. rewrite !TN by lia. apply Rmult_le_compat_r; [lra|]. apply le_INR. lia.
  - rewrite TN by lia. cbn. lra.
  - intros i Hi. rewrite TN by auto. split; auto. rewrite map_map.
    set (f := fun x => fact * train_density b_spac t_offs ppb sz x + coast). rewrite (nth_indep _ 0 (f 0)) by (rewrite map_length; auto).
    rewrite (map_nth f). unfold f. rewrite TN by auto. auto.
Qed.

Lemma bunched_short tp b_spac sigmaz t_offs Dt t_end fact coast ppb sv : (length sv < length ppb)%nat ->
  beam_bunched tp b_spac sigmaz t_offs Dt t_end fact coast ppb (Some sv) = None.
Proof. intros H. unfold beam_bunched. cbn [slot_lengths bind]. unfold bunch_train4. rewrite train_loop_short by auto. auto. Qed.

Lemma default_slot_lengths sigmaz ppb : sigmaz <> -1 ->
  slot_lengths None sigmaz ppb = Some (map (fun q => if Rgtb q 0 then sigmaz else 0) ppb).
Proof. intros H. unfold slot_lengths. rewrite (proj2 (Reqb_false _ _)); auto. Qed.

(** A secondary beam. *)
Lemma bunched_secondary p b_spac sigmaz t_offs Dt t_end fact coast ppb sv sz :
  b_spac <> 0 -> 0 < Dt -> p <> [] -> slot_lengths sv sigmaz ppb = Some sz -> (length ppb <= length sz)%nat ->
  exists b, beam_bunched (Some p) b_spac sigmaz t_offs Dt t_end fact coast ppb sv = Some b /\ fresh b /\ b_t b = p /\ b_unif b = true /\
    forall i, (i < length p)%nat -> nth i (b_lam b) 0 = fact * train_density b_spac t_offs ppb sz (nth i p 0) + coast.
Proof.
  intros HB HD HP HS HL. unfold beam_bunched. rewrite HS. cbn [bind]. rewrite train_spec by auto. cbn [bind]. unfold finish.
  assert (SA : same_axis (Some p) p Dt = true).
  { unfold same_axis. rewrite Nat.eqb_refl. cbn [andb]. apply forallb_forall. intros (a, b) H. apply Rleb_true.
    assert (E : a = b). { revert H. clear. induction p as [|x p IH]; cbn; [easy|]. intros [H|H]; [congruence|auto]. }
    subst. cbn. rewrite Rminus_diag_eq, Rabs_R0 by auto. unfold Rdiv. rewrite Rmult_0_l. apply Rmult_le_pos; [lra|].
    left. apply Rinv_0_lt_compat. lra. }
  rewrite SA. cbn [negb]. unfold last_of, py_nth. rewrite (proj2 (Z.leb_gt 0 (-1))) by lia.
  assert (L : (1 <= length p)%nat) by (destruct p; [congruence|cbn; lia]).
  rewrite (proj2 (Z.leb_le 0 (-1 + Z.of_nat (length p)))) by lia.
  destruct (nth_error p _) eqn:E; [|apply nth_error_None in E; lia]. cbn [bind].
  rewrite (proj2 (Reqb_false b_spac 0)) by auto. eexists. split; [reflexivity|]. cbn. split; [|split; [|split]]; auto.
  - repeat split. cbn. rewrite !map_length. auto.
  - intros i Hi. rewrite map_map. set (f := fun x => fact * train_density b_spac t_offs ppb sz x + coast).
    rewrite (nth_indep _ 0 (f 0)) by (rewrite map_length; auto). rewrite (map_nth f). auto.
Qed.

(** * The profile *)
Lemma train_empty b_spac t_offs n sz t : train_density b_spac t_offs (repeat 0 n) sz t = 0.
Proof.
  unfold train_density. apply rsum_all0. intros i Hi. apply in_seq in Hi. rewrite repeat_length in Hi. rewrite nth_rep by lia. apply slot_density_0.
Qed.

Lemma train_alone b_spac t_offs ppb sz i t : 0 < b_spac ->
  (forall j k, (j < k < length ppb)%nat -> 10 * nth j sz 0 + 10 * nth k sz 0 <= c_light * b_spac) -> (i < length ppb)%nat ->
  slot_density b_spac t_offs i (nth i ppb 0) (nth i sz 0) t <> 0 ->
  train_density b_spac t_offs ppb sz t = slot_density b_spac t_offs i (nth i ppb 0) (nth i sz 0) t.
Proof.
  intros HB W Hi NZ. unfold train_density. set (f := fun ii => _).
  assert (Z : forall j, (j < length ppb)%nat -> j <> i -> f j = 0).
  { intros j Hj NE. unfold f. destruct (Nat.lt_ge_cases j i) as [G|G].
    - destruct (one_bunch b_spac t_offs j i (nth j ppb 0) (nth i ppb 0) (nth j sz 0) (nth i sz 0) t) as [E|E]; auto. easy.
    - destruct (one_bunch b_spac t_offs i j (nth i ppb 0) (nth j ppb 0) (nth i sz 0) (nth j sz 0) t) as [E|E]; auto; [apply W; lia|lia|easy]. }
  replace (length ppb) with (i + S (length ppb - S i))%nat in * by lia. rewrite seq_app, map_app, rsum_app. cbn [seq map Nat.add]. rewrite rsum_cons.
  rewrite !rsum_all0; [unfold f; lra| |]; intros j Hj; apply in_seq in Hj; apply Z; lia.
Qed.

Lemma map2_affine t b_spac t_offs p1 p2 sz a : length p1 = length p2 ->
  map (train_density b_spac t_offs (map2 (fun x y => a * x + y) p1 p2) sz) t =
  map2 (fun x y => a * x + y) (map (train_density b_spac t_offs p1 sz) t) (map (train_density b_spac t_offs p2 sz) t).
Proof.
  intros L. assert (E : map2 (fun x y => a * x + y) p1 p2 = map2 Rplus (map (fun q => a * q) p1) p2).
  { clear. revert p2. induction p1 as [|x p1 IH]; intros [|y p2]; cbn; auto. rewrite IH. auto. }
  rewrite E. induction t as [|x t IH]; cbn [map map2]; auto. rewrite IH. f_equal. rewrite train_add, train_scale; auto. rewrite map_length. auto.
Qed.
