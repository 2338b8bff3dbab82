(** Lemmas about the beam and the time loop. *)
From Coq Require Import Lra Lia Reals Psatz.
From Verif Require Import Num NumFacts Fort Beam SpecBeam.

(** * Profile *)
Lemma masked_update {A B} (p : A -> bool) (g : A -> R) (h : A -> B) (f : R -> B -> R) l :
  mask_put (map p l) (map g l) (map2 f (mask_get (map p l) (map g l)) (mask_get (map p l) (map h l))) =
  map (fun x => if p x then f (g x) (h x) else g x) l.
Proof. induction l as [|x l IH]; cbn; auto. destruct (p x); cbn; rewrite IH; auto. Qed.

Lemma train_slot_map b_spac t_offs ii q s t g :
  train_slot b_spac t_offs (map (fun x => c_light * x) t) ii q s (map g t) =
  map (fun x => g x + slot_density b_spac t_offs ii q s x) t.
Proof.
  unfold train_slot, slot_density. destruct (Rgtb s 0).
  - cbv zeta. rewrite map_map. rewrite masked_update. apply map_ext. intros x. destruct (Rltb _ _); [|lra]. unfold bunch_shape. auto.
  - apply map_ext. intros; lra.
Qed.

Lemma seq_shift_map {A} (f : nat -> A) k n : map f (seq (S k) n) = map (fun i => f (S i)) (seq k n).
Proof. rewrite <- seq_shift, map_map. auto. Qed.

Lemma train_loop_map b_spac t_offs t ppb : forall ii sz g, (length ppb <= length sz)%nat ->
  train_loop b_spac t_offs (map (fun x => c_light * x) t) ii ppb sz (map g t) =
  Some (map (fun x => g x + rsum (map (fun j => slot_density b_spac t_offs (ii + j) (nth j ppb 0) (nth j sz 0) x) (seq 0 (length ppb)))) t).
Proof.
  induction ppb as [|q ppb IH]; intros ii sz g L; cbn [train_loop length seq].
  - f_equal. apply map_ext. intros x. cbn. unfold rsum. cbn. lra.
  - destruct sz as [|s sz]; cbn in L; [lia|]. rewrite train_slot_map, IH by lia. f_equal. apply map_ext. intros x.
    cbn [map]. rewrite rsum_cons, Nat.add_0_r. cbn [nth]. rewrite seq_shift_map. cbn [nth].
    replace (map (fun i => slot_density b_spac t_offs (ii + S i) (nth i ppb 0) (nth i sz 0) x) (seq 0 (length ppb)))
      with (map (fun j => slot_density b_spac t_offs (S ii + j) (nth j ppb 0) (nth j sz 0) x) (seq 0 (length ppb))); [lra|].
    apply map_ext. intros j. f_equal. lia.
Qed.

Lemma train_loop_short b_spac t_offs zz ppb : forall ii sz val, (length sz < length ppb)%nat ->
  train_loop b_spac t_offs zz ii ppb sz val = None.
Proof. induction ppb as [|q ppb IH]; intros ii sz val L; cbn in L; [lia|]. destruct sz; cbn; auto. apply IH. cbn in L. lia. Qed.

Lemma train_spec t b_spac t_offs ppb sz : (length ppb <= length sz)%nat ->
  bunch_train4 t b_spac t_offs ppb sz = Some (map (train_density b_spac t_offs ppb sz) t).
Proof.
  intros L. unfold bunch_train4. rewrite train_loop_map by auto. f_equal. apply map_ext. intros x. unfold train_density. cbn [Nat.add]. lra.
Qed.

Lemma slot_density_lin b_spac t_offs ii q1 q2 s t :
  slot_density b_spac t_offs ii (q1 + q2) s t = slot_density b_spac t_offs ii q1 s t + slot_density b_spac t_offs ii q2 s t.
Proof. unfold slot_density. cbv zeta. destruct (Rgtb s 0); [|lra]. destruct (Rltb _ _); [|lra]. unfold Rdiv. ring. Qed.

Lemma slot_density_scale b_spac t_offs ii q1 a s t :
  slot_density b_spac t_offs ii (a * q1) s t = a * slot_density b_spac t_offs ii q1 s t.
Proof. unfold slot_density. cbv zeta. destruct (Rgtb s 0); [|lra]. destruct (Rltb _ _); [|lra]. unfold Rdiv. ring. Qed.

Lemma slot_density_0 b_spac t_offs ii s t : slot_density b_spac t_offs ii 0 s t = 0.
Proof. unfold slot_density. cbv zeta. destruct (Rgtb s 0); [|lra]. destruct (Rltb _ _); [|lra]. unfold Rdiv. ring. Qed.

Lemma slot_density_pos b_spac t_offs ii q s t : 0 <= q -> 0 <= slot_density b_spac t_offs ii q s t.
Proof.
  intros Q. unfold slot_density. cbv zeta. destruct (Rgtb s 0) eqn:S; [|lra]. apply Rgtb_true in S. destruct (Rltb _ _); [|lra].
  apply Rmult_le_pos; [|left; apply exp_pos]. apply Rmult_le_pos; auto. left. apply Rinv_0_lt_compat.
  apply Rmult_lt_0_compat; auto. apply sqrt_lt_R0. pose proof PI_RGT_0. lra.
Qed.

Lemma rsum_plus {A} (f g : A -> R) l : rsum (map (fun x => f x + g x) l) = rsum (map f l) + rsum (map g l).
Proof. induction l; cbn [map]; rewrite ?rsum_cons; [unfold rsum; cbn; lra|]. rewrite IHl. lra. Qed.
Lemma rsum_times {A} (f : A -> R) a l : rsum (map (fun x => a * f x) l) = a * rsum (map f l).
Proof. induction l; cbn [map]; rewrite ?rsum_cons; [unfold rsum; cbn; lra|]. rewrite IHl. lra. Qed.
Lemma rsum_all0 {A} (f : A -> R) l : (forall x, In x l -> f x = 0) -> rsum (map f l) = 0.
Proof.
  induction l as [|x l IH]; intros H; cbn [map]; rewrite ?rsum_cons; [unfold rsum; cbn; lra|].
  rewrite (H x (or_introl eq_refl)), IH; [lra|]. intros y Hy. apply H. right. auto.
Qed.

Lemma map2_nth0 (f : R -> R -> R) a b i : f 0 0 = 0 -> length a = length b -> nth i (map2 f a b) 0 = f (nth i a 0) (nth i b 0).
Proof. intros F. revert b i. induction a as [|x a IH]; intros [|y b] [|i] L; cbn in *; try discriminate; auto. Qed.

Lemma train_add b_spac t_offs p1 p2 sz t : length p1 = length p2 ->
  train_density b_spac t_offs (map2 Rplus p1 p2) sz t =
  train_density b_spac t_offs p1 sz t + train_density b_spac t_offs p2 sz t.
Proof.
  intros L. unfold train_density. rewrite map2_length, <- L, Nat.min_id. rewrite <- rsum_plus. f_equal. apply map_ext.
  intros i. rewrite map2_nth0 by (auto; lra). apply slot_density_lin.
Qed.

Lemma nth_map0 (f : R -> R) l i : f 0 = 0 -> nth i (map f l) 0 = f (nth i l 0).
Proof. intros F. revert i. induction l as [|x l IH]; intros [|i]; cbn; auto. Qed.
Lemma train_scale b_spac t_offs a p sz t :
  train_density b_spac t_offs (map (fun q => a * q) p) sz t = a * train_density b_spac t_offs p sz t.
Proof.
  unfold train_density. rewrite map_length, <- rsum_times. f_equal. apply map_ext. intros i.
  rewrite <- slot_density_scale. f_equal. apply (nth_map0 (fun q => a * q)). lra.
Qed.

Lemma train_nonneg b_spac t_offs p sz t : Forall (fun q => 0 <= q) p -> 0 <= train_density b_spac t_offs p sz t.
Proof.
  intros P. unfold train_density. apply rsum_nonneg. apply Forall_forall. intros x Hx. apply in_map_iff in Hx. destruct Hx as (i & <- & Hi).
  apply in_seq in Hi. apply slot_density_pos. rewrite Forall_forall in P. apply P. apply nth_In. lia.
Qed.

Lemma nth_rep {A} (c d : A) n i : (i < n)%nat -> nth i (repeat c n) d = c.
Proof. revert i. induction n; intros [|i] H; cbn; auto; try lia. apply IHn. lia. Qed.

(** With bunches of equal length given by the pattern itself. *)
Lemma default_lengths b_spac t_offs s p t : Forall (fun q => 0 <= q) p ->
  train_density b_spac t_offs p (map (fun q => if Rgtb q 0 then s else 0) p) t =
  train_density b_spac t_offs p (repeat s (length p)) t.
Proof.
  intros P. unfold train_density. f_equal. apply map_ext_in. intros i Hi. apply in_seq in Hi.
  rewrite (nth_map0 (fun q => if Rgtb q 0 then s else 0)) by (rewrite (proj2 (Rgtb_false 0 0)); lra || auto).
  rewrite nth_rep by lia.
  assert (Q : 0 <= nth i p 0) by (rewrite Forall_forall in P; apply P; apply nth_In; lia).
  destruct (Rgtb (nth i p 0) 0) eqn:G; auto. apply Rgtb_false in G. assert (Z : nth i p 0 = 0) by lra. rewrite Z, !slot_density_0. auto.
Qed.

(** Bunches whose windows do not overlap: at any time at most one slot
    contributes. *)
Lemma one_bunch b_spac t_offs i j q q' s s' t : 0 < b_spac -> 10 * s + 10 * s' <= c_light * b_spac -> (i < j)%nat ->
  slot_density b_spac t_offs i q s t = 0 \/ slot_density b_spac t_offs j q' s' t = 0.
Proof.
  intros B W H. unfold slot_density. cbv zeta.
  destruct (Rgtb s 0); [|auto]. destruct (Rgtb s' 0); [|auto].
  destruct (Rltb (Rabs (c_light * t - c_light * (t_offs + INR i * b_spac))) (10 * s)) eqn:A1; [|auto].
  destruct (Rltb (Rabs (c_light * t - c_light * (t_offs + INR j * b_spac))) (10 * s')) eqn:A2; [|auto].
  exfalso. apply Rltb_true in A1. apply Rltb_true in A2. apply Rabs_def2 in A1. apply Rabs_def2 in A2.
  assert (J : INR i + 1 <= INR j) by (rewrite <- S_INR; apply le_INR; lia).
  assert (C : 0 < c_light * b_spac) by (apply Rmult_lt_0_compat; auto; unfold c_light; lra).
  assert (c_light * b_spac <= c_light * b_spac * (INR j - INR i)) by nra. nra.
Qed.

(** * The time axis *)
Lemma ceil_spec x : IZR (rceil x) - 1 < x <= IZR (rceil x).
Proof. unfold rceil. rewrite opp_IZR. destruct (base_Int_part (- x)). lra. Qed.

Lemma arange_length stop step : length (arange0 stop step) = Z.to_nat (rceil (stop / step)).
Proof. unfold arange0. rewrite map_length, seq_length. auto. Qed.
Lemma arange_nth stop step i : (i < length (arange0 stop step))%nat -> nth i (arange0 stop step) 0 = INR i * step.
Proof.
  intros H. rewrite arange_length in H. unfold arange0. set (n := Z.to_nat _) in *.
  rewrite (nth_indep _ 0 ((fun i => INR i * step) 0%nat)) by (rewrite map_length, seq_length; auto). rewrite (map_nth (fun i => INR i * step)), seq_nth; auto.
Qed.

Lemma arange_covers X step : 0 < step -> 0 <= X ->
  let t := arange0 (X + 2 * step) step in
  (2 <= length t)%nat /\ X <= nth (length t - 2) t 0 /\ nth (length t - 1) t 0 < X + 2 * step.
Proof.
  intros S HX t. pose proof (ceil_spec ((X + 2 * step) / step)) as C. set (z := rceil _) in *.
  assert (E : (X + 2 * step) / step = X / step + 2) by (field; lra). rewrite E in C.
  assert (P : 0 <= X / step) by (apply Rmult_le_pos; [auto|left; apply Rinv_0_lt_compat; auto]).
  assert (Z2 : (2 <= z)%Z) by (apply le_IZR; lra).
  assert (L : length t = Z.to_nat z) by apply arange_length.
  assert (XE : X / step * step = X) by (field; lra).
  split; [lia|]. unfold t. rewrite !arange_nth; fold t; try lia. rewrite L.
  rewrite !minus_INR by lia. rewrite INR_IZR_INZ, Z2Nat.id by lia. cbn [INR]. split; nra.
Qed.

(** * Steps *)
(** The beam before step [n]. *)
Record pre (b0 : beam) (n : nat) (b : beam) : Prop := mkPre {
  pr_t : b_t b = b_t b0; pr_lam : b_lam b = b_lam b0; pr_sp : b_spac b = b_spac b0; pr_Nt : b_Nt b = b_Nt b0;
  pr_Dt : b_Dt b = b_Dt b0; pr_un : b_unif b = b_unif b0; pr_Np : b_Npass b = b_Npass b0;
  pr_ii : b_ii b = (Z.of_nat n - 1)%Z;
  pr_old : (-1 <= b_old b)%Z; pr_ge : forall j, (j < n)%nat -> (passage b0 j <= b_old b)%Z;
  pr_ex : b_old b = (-1)%Z \/ exists j, (j < n)%nat /\ passage b0 j = b_old b;
  pr_0 : n = 0%nat -> b_now b = None;
  pr_now : forall i, n = Datatypes.S i -> exists w, b_now b = Some w /\ w_t w = nth i (b_t b0) 0 }.

Lemma fresh_pre b : fresh b -> pre b 0 b.
Proof. intros (A & B & C & D & E). constructor; auto; intros; try lia. Qed.

Lemma py_nth_nat {A} (l : list A) i d : (i < length l)%nat -> py_nth l (Z.of_nat i) = Some (nth i l d).
Proof.
  intros H. unfold py_nth. rewrite (proj2 (Z.leb_le 0 (Z.of_nat i))) by lia. rewrite Nat2Z.id. apply nth_error_nth'. auto.
Qed.

Lemma next_pre b0 n b : b_Nt b0 = length (b_t b0) -> length (b_lam b0) = length (b_t b0) -> pre b0 n b -> (S n < length (b_t b0))%nat ->
  exists b', next_time_step b = Some b' /\ pre b0 (S n) b' /\ at_step b0 n b'.
Proof.
  intros E1 E2 P H. destruct P. unfold next_time_step. rewrite pr_ii0, pr_t0, pr_lam0, pr_sp0.
  replace (Z.of_nat n - 1 + 1)%Z with (Z.of_nat n) by lia. replace (Z.of_nat n + 1)%Z with (Z.of_nat (S n)) by lia.
  rewrite !(py_nth_nat (b_t b0) _ 0), (py_nth_nat (b_lam b0) _ 0) by lia. cbn [bind]. fold (passage b0 n).
  eexists. split; [reflexivity|].
  assert (K : (b_old b <? passage b0 n)%Z = true <-> (-1 < passage b0 n)%Z /\ forall j, (j < n)%nat -> (passage b0 j < passage b0 n)%Z).
  { rewrite Z.ltb_lt. split.
    - intros G. split; [lia|]. intros j Hj. specialize (pr_ge0 j Hj). lia.
    - intros (G1 & G2). destruct pr_ex0 as [->|(j & Hj & <-)]; auto. }
  split.
  - constructor; cbn [b_t b_lam b_spac b_Nt b_Dt b_unif b_Npass b_ii b_old b_now]; auto; try lia.
    + destruct (Z.ltb_spec (b_old b) (passage b0 n)); lia.
    + intros j Hj. destruct (Nat.eq_dec j n) as [->|]; [|specialize (pr_ge0 j ltac:(lia))]; destruct (Z.ltb_spec (b_old b) (passage b0 n)); lia.
    + destruct (Z.ltb_spec (b_old b) (passage b0 n)); [right; exists n; auto|]. destruct pr_ex0 as [|(j & Hj & G)]; auto. right. exists j. auto.
    + intros i Hi. injection Hi as <-. eexists. split; [reflexivity|]. auto.
  - constructor; cbn [b_t b_lam b_spac b_Nt b_Dt b_unif b_Npass b_ii b_old b_now]; auto. eexists. split; [reflexivity|]. auto.
Qed.

Definition sec_like (b0 s0 : beam) : Prop := b_Nt s0 = length (b_t s0) /\ length (b_lam s0) = length (b_t s0) /\ length (b_t s0) = length (b_t b0).

Lemma next_all_pre b0 n ss0 ss : Forall (sec_like b0) ss0 -> Forall2 (fun s0 s => pre s0 n s) ss0 ss -> (S n < length (b_t b0))%nat ->
  exists ss', next_all ss = Some ss' /\ Forall2 (fun s0 s => pre s0 (S n) s) ss0 ss' /\ Forall2 (fun s0 s => at_step s0 n s) ss0 ss'.
Proof.
  intros L F H. revert L. induction F as [|s0 s ss0 ss P F IH]; intros L; cbn [next_all]; [eexists; auto|].
  inversion L as [|? ? (A & B & C) L']; subst. destruct (next_pre s0 n s A B P) as (b' & -> & P1 & P2); [lia|]. cbn [bind].
  destruct (IH L') as (ss' & -> & Q1 & Q2). cbn [bind]. eexists. split; [reflexivity|]. auto.
Qed.

Lemma end_pre b0 n b : b_Nt b0 = length (b_t b0) -> pre b0 n b -> end_simulation b = Nat.leb (length (b_t b0)) (S n).
Proof.
  intros E P. unfold end_simulation. rewrite (pr_Nt _ _ _ P), (pr_ii _ _ _ P), E.
  destruct (Nat.leb_spec (length (b_t b0)) (S n)); [apply Z.leb_le|apply Z.leb_gt]; lia.
Qed.

Lemma reached_pre b0 n b te : pre b0 n b -> reached te b =
  match te, n with Some t, Datatypes.S i => Rgeb (nth i (b_t b0) 0) t | _, _ => false end.
Proof.
  intros P. unfold reached. destruct te as [t|]; auto. destruct n as [|i].
  - rewrite (pr_0 _ _ _ P); auto.
  - destruct (pr_now _ _ _ P i eq_refl) as (w & -> & ->). auto.
Qed.

(** The state after the visited steps. *)
Definition final (vis : list (beam * list beam)) (b : beam) (secs : list beam) : beam * list beam := last vis (b, secs).

(** The visited steps, without the simulation. *)
Fixpoint visits (te : option R) (fuel : nat) (b : beam) (secs : list beam) : option (list (beam * list beam)) :=
  if end_simulation b then Some []
  else if reached te b then Some []
  else match fuel with
  | O => None
  | Datatypes.S fu =>
      do b <- next_time_step b ; do secs <- next_all secs ; do l <- visits te fu b secs ; Some ((b, secs) :: l)
  end.

Lemma last_cons {A} (x : A) l d : last (x :: l) d = last l x.
Proof.
  revert x d. induction l as [|y l IH]; intros x d; auto. change (last (y :: l) d = last (y :: l) x). rewrite !IH. auto.
Qed.

Lemma run_visits {S : Type} (sim : beam -> list beam -> S -> option S) te fuel : forall b ss s vis,
  visits te fuel b ss = Some vis ->
  run sim te fuel b ss s = (do s' <- through sim vis s ; Some (final vis b ss, s')).
Proof.
  induction fuel as [|fu IH]; intros b ss s vis H; cbn [visits run] in *.
  - destruct (end_simulation b); [injection H as <-; auto|]. destruct (reached te b); [injection H as <-; auto|discriminate].
  - destruct (end_simulation b); [injection H as <-; auto|]. destruct (reached te b); [injection H as <-; auto|].
    destruct (next_time_step b) as [b'|]; [|discriminate]. cbn [bind] in *. destruct (next_all ss) as [ss'|]; [|discriminate]. cbn [bind] in *.
    destruct (visits te fu b' ss') as [l|] eqn:V; [|discriminate]. cbn [bind] in H. injection H as <-. cbn [through].
    destruct (sim b' ss' s) as [s1|]; auto. cbn [bind]. rewrite (IH _ _ _ _ V). destruct (through sim l s1); auto. cbn [bind]. unfold final.
    rewrite last_cons. auto.
Qed.

Lemma visits_spec te b0 ss0 :
  b_Nt b0 = length (b_t b0) -> length (b_lam b0) = length (b_t b0) -> Forall (sec_like b0) ss0 ->
  forall fuel n b ss, pre b0 n b -> Forall2 (fun s0 s => pre s0 n s) ss0 ss -> (length (b_t b0) - 1 - n <= fuel)%nat ->
  exists vis, visits te fuel b ss = Some vis /\
    (forall i d, (i < length vis)%nat -> at_step b0 (n + i) (fst (nth i vis d)) /\
       Forall2 (fun s0 s => at_step s0 (n + i) s) ss0 (snd (nth i vis d))) /\
    (n + length vis <= max n (length (b_t b0) - 1))%nat /\
    match te with
    | None => (n + length vis = max n (length (b_t b0) - 1))%nat
    | Some t => (forall i, (n <= Datatypes.S i)%nat -> (Datatypes.S i < n + length vis)%nat -> nth i (b_t b0) 0 < t) /\
        ((n + length vis < length (b_t b0) - 1)%nat -> (1 <= n + length vis)%nat /\ t <= nth (n + length vis - 1) (b_t b0) 0)
    end.
Proof.
  intros E1 E2 L. induction fuel as [|fu IH]; intros n b ss P Q H; cbn [visits]; rewrite (end_pre b0 n b E1 P);
    (destruct (Nat.leb_spec (length (b_t b0)) (Datatypes.S n)) as [G|G];
     [exists []; split; [auto|]; split; [intros i d Hi; cbn in Hi; lia|]; cbn [length]; split; [lia|]; destruct te; [split; [|lia]; intros; lia|lia]|]).
  - lia.
  - rewrite (reached_pre b0 n b te P).
    assert (GO : exists vis, (do b <- next_time_step b ; do secs <- next_all ss ; do l <- visits te fu b secs ; Some ((b, secs) :: l)) = Some vis /\
    (forall i d, (i < length vis)%nat -> at_step b0 (n + i) (fst (nth i vis d)) /\
       Forall2 (fun s0 s => at_step s0 (n + i) s) ss0 (snd (nth i vis d))) /\
    (n + length vis <= max n (length (b_t b0) - 1))%nat /\
    match te with
    | None => (n + length vis = max n (length (b_t b0) - 1))%nat
    | Some t => (forall i, (n <= i)%nat -> (Datatypes.S i < n + length vis)%nat -> nth i (b_t b0) 0 < t) /\
        ((n + length vis < length (b_t b0) - 1)%nat -> (1 <= n + length vis)%nat /\ t <= nth (n + length vis - 1) (b_t b0) 0)
    end).
    { destruct (next_pre b0 n b E1 E2 P) as (b' & -> & P1 & P2); [lia|]. cbn [bind].
      destruct (next_all_pre b0 n ss0 ss L Q) as (ss' & -> & Q1 & Q2); [lia|]. cbn [bind].
      destruct (IH (Datatypes.S n) b' ss' P1 Q1 ltac:(lia)) as (vis & -> & R2 & R3 & R4). exists ((b', ss') :: vis).
      split; [auto|]. split; [|split].
      + intros [|i] d Hi; cbn [nth]; [rewrite Nat.add_0_r; auto|]. replace (n + Datatypes.S i)%nat with (Datatypes.S n + i)%nat by lia.
        apply R2. cbn in Hi. lia.
      + cbn [length]. lia.
      + cbn [length]. destruct te as [t|]; [|lia]. destruct R4 as (R4 & R5).
        replace (n + Datatypes.S (length vis))%nat with (Datatypes.S n + length vis)%nat by lia. split; auto.
        intros i Hi Hi2. apply R4; lia. }
    assert (GO' : match te, n with Some t, Datatypes.S i => nth i (b_t b0) 0 < t | _, _ => True end ->
      exists vis, (do b <- next_time_step b ; do secs <- next_all ss ; do l <- visits te fu b secs ; Some ((b, secs) :: l)) = Some vis /\
    (forall i d, (i < length vis)%nat -> at_step b0 (n + i) (fst (nth i vis d)) /\
       Forall2 (fun s0 s => at_step s0 (n + i) s) ss0 (snd (nth i vis d))) /\
    (n + length vis <= max n (length (b_t b0) - 1))%nat /\
    match te with
    | None => (n + length vis = max n (length (b_t b0) - 1))%nat
    | Some t => (forall i, (n <= Datatypes.S i)%nat -> (Datatypes.S i < n + length vis)%nat -> nth i (b_t b0) 0 < t) /\
        ((n + length vis < length (b_t b0) - 1)%nat -> (1 <= n + length vis)%nat /\ t <= nth (n + length vis - 1) (b_t b0) 0)
    end).
    { intros K. destruct GO as (vis & V1 & V2 & V3 & V4). exists vis. split; auto. split; auto. split; auto. destruct te as [t|]; auto.
      destruct V4 as (V4 & V5). split; auto. intros i Hi Hi2. destruct (Nat.eq_dec n (Datatypes.S i)) as [EQ|]; [rewrite EQ in K; auto|apply V4; lia]. }
    destruct te as [t|]; [|apply GO'; auto]. destruct n as [|i]; [apply GO'; auto|]. destruct (Rgeb (nth i (b_t b0) 0) t) eqn:RG.
    + exists []. split; [auto|]. split; [intros j d Hj; cbn in Hj; lia|]. cbn [length]. split; [lia|]. split; [intros; lia|].
      intros _. split; [lia|]. rewrite Nat.add_0_r. replace (Datatypes.S i - 1)%nat with i by lia. apply Rleb_true in RG. auto.
    + apply GO'. apply Rgeb_false in RG. auto.
Qed.

(** A fresh simulation. *)
Lemma run_fresh {S : Type} (sim : beam -> list beam -> S -> option S) te fuel b ss s :
  fresh b -> Forall (fun x => fresh x /\ length (b_t x) = length (b_t b)) ss -> (length (b_t b) <= fuel)%nat ->
  exists vis, run sim te fuel b ss s = (do s' <- through sim vis s ; Some (final vis b ss, s')) /\
    n_steps te (b_t b) (length vis) /\
    forall i d, (i < length vis)%nat -> at_step b i (fst (nth i vis d)) /\ Forall2 (fun s0 s => at_step s0 i s) ss (snd (nth i vis d)).
Proof.
  intros F FS HF. destruct F as (F1 & F2 & F3 & F4 & F5).
  destruct (visits_spec te b ss F4 F5) with (fuel := fuel) (n := 0%nat) (b := b) (ss := ss) as (vis & V1 & V2 & V3 & V4).
  - eapply Forall_impl; [|exact FS]. intros x ((? & ? & ? & ? & ?) & ?). repeat split; auto.
  - apply fresh_pre. repeat split; auto.
  - clear -FS. induction FS as [|x l (A & _)]; constructor; auto. apply fresh_pre. auto.
  - lia.
  - exists vis. split; [apply run_visits; auto|]. split; [|intros i d Hi; apply (V2 i d Hi)]. cbn [Nat.add] in *.
    unfold n_steps. rewrite Nat.max_0_l in *. split; auto. destruct te as [t|]; auto. destruct V4 as (V4 & V5). split; auto.
    intros i Hi. apply V4; lia.
Qed.

(** * Stopping and continuing *)
Lemma run_more {S : Type} (sim : beam -> list beam -> S -> option S) te fuel : forall fuel' b ss s r,
  run sim te fuel b ss s = Some r -> (fuel <= fuel')%nat -> run sim te fuel' b ss s = Some r.
Proof.
  induction fuel as [|fu IH]; intros fuel' b ss s r H L; cbn [run] in H.
  - destruct fuel'; cbn [run]; destruct (end_simulation b), (reached te b); auto; discriminate.
  - destruct fuel' as [|fu']; [lia|]. cbn [run]. destruct (end_simulation b); auto. destruct (reached te b); auto.
    destruct (next_time_step b) as [b'|]; [|discriminate]. cbn [bind] in *. destruct (next_all ss) as [ss'|]; [|discriminate]. cbn [bind] in *.
    destruct (sim b' ss' s); [|discriminate]. cbn [bind] in *. apply IH; auto. lia.
Qed.

Lemma run_resume {S : Type} (sim : beam -> list beam -> S -> option S) te fuel1 : forall fuel2 b ss s b1 ss1 s1 r,
  run sim te fuel1 b ss s = Some (b1, ss1, s1) -> run sim None fuel2 b1 ss1 s1 = Some r ->
  run sim None (fuel1 + fuel2) b ss s = Some r.
Proof.
  induction fuel1 as [|fu IH]; intros fuel2 b ss s b1 ss1 s1 r H1 H2; cbn [run] in H1.
  - cbn [Nat.add]. assert (E : (b, ss, s) = (b1, ss1, s1)) by (destruct (end_simulation b), (reached te b); congruence). injection E as -> -> ->. auto.
  - destruct (end_simulation b) eqn:E.
    { injection H1 as <- <- <-. apply (run_more _ _ fuel2); auto. lia. }
    destruct (reached te b).
    { injection H1 as <- <- <-. apply (run_more _ _ fuel2); auto. lia. }
    cbn [Nat.add run]. rewrite E. cbn [reached].
    destruct (next_time_step b) as [b'|]; [|discriminate]. cbn [bind] in *. destruct (next_all ss) as [ss'|]; [|discriminate]. cbn [bind] in *.
    destruct (sim b' ss' s); [|discriminate]. cbn [bind] in *. eapply IH; eauto.
Qed.

(** * Passages *)
Lemma floor_mono x y : x <= y -> (rfloor x <= rfloor y)%Z.
Proof.
  intros H. unfold rfloor. destruct (base_Int_part x), (base_Int_part y). apply Z.lt_succ_r. apply lt_IZR. rewrite succ_IZR. lra.
Qed.
Lemma floor_nonneg x : 0 <= x -> (0 <= rfloor x)%Z.
Proof. intros H. unfold rfloor. destruct (base_Int_part x). apply Z.lt_succ_r. apply lt_IZR. rewrite succ_IZR. lra. Qed.

Lemma passage_mono b i j : 0 < b_spac b -> ascending (b_t b) -> (i <= j < length (b_t b))%nat -> (passage b i <= passage b j)%Z.
Proof.
  intros S A H. unfold passage. apply floor_mono. apply Rmult_le_compat_r; [left; apply Rinv_0_lt_compat; auto|]. apply A. auto.
Qed.
Lemma passage_nonneg b i : 0 < b_spac b -> 0 <= nth i (b_t b) 0 -> (0 <= passage b i)%Z.
Proof. intros S H. apply floor_nonneg. apply Rmult_le_pos; auto. left. apply Rinv_0_lt_compat. auto. Qed.

(** Number of distinct values of a sorted sequence = number of increases. *)
Lemma count_increases (p : nat -> Z) (f : nat -> bool) n :
  (forall i, (i < n)%nat -> f i = true <-> forall j, (j < i)%nat -> (p j < p i)%Z) ->
  (forall i j, (i <= j < n)%nat -> (p i <= p j)%Z) ->
  count_true (map f (seq 0 n)) = length (nodup Z.eq_dec (map p (seq 0 n))).
Proof.
  intros F M. assert (G : forall m, (m <= n)%nat -> count_true (map f (seq 0 m)) = length (nodup Z.eq_dec (map p (seq 0 m)))); [|apply G; auto].
  induction m as [|m IH]; intros Hm; auto. rewrite seq_S, !map_app. cbn [map Nat.add].
  assert (CT : forall a b, count_true (a ++ b) = (count_true a + count_true b)%nat).
  { clear. intros a b. unfold count_true. induction a as [|x a IHa]; cbn; auto. destruct x; rewrite IHa; auto. }
  rewrite CT, IH by lia. unfold count_true at 1. cbn [fold_right].
  assert (ND : forall l x, length (nodup Z.eq_dec (l ++ [x])) = (length (nodup Z.eq_dec l) + (if in_dec Z.eq_dec x l then 0 else 1))%nat).
  { clear. intros l x. rewrite <- (rev_involutive (l ++ [x])), rev_app_distr. cbn [rev app].
    assert (E : forall l : list Z, length (nodup Z.eq_dec (rev l)) = length (nodup Z.eq_dec l)).
    { intros m. apply Nat.le_antisymm; apply NoDup_incl_length; try apply NoDup_nodup; intros z Hz; apply nodup_In; apply nodup_In in Hz; rewrite <- in_rev in *; auto. }
    change (rev (rev l) ++ [x]) with (rev (rev l) ++ rev [x]). rewrite <- rev_app_distr. cbn [app]. rewrite E. cbn [nodup].
    destruct (in_dec Z.eq_dec x (rev l)) as [I|I]; destruct (in_dec Z.eq_dec x l) as [J|J]; try (apply in_rev in I; contradiction).
    - rewrite E. lia.
    - apply in_rev in J. contradiction.
    - cbn [length]. rewrite E. lia. }
  rewrite ND. f_equal. destruct (in_dec Z.eq_dec (p m) (map p (seq 0 m))) as [I|I].
  - apply in_map_iff in I. destruct I as (j & Ej & Hj). apply in_seq in Hj. destruct (f m) eqn:Fm; auto. exfalso.
    pose proof (proj1 (F m ltac:(lia)) Fm j ltac:(lia)). lia.
  - destruct (f m) eqn:Fm; auto. exfalso. assert (f m = true); [|congruence]. apply F; [lia|]. intros j Hj.
    specialize (M j m ltac:(lia)). assert (p j <> p m); [|lia]. intros E. apply I. apply in_map_iff. exists j. split; auto. apply in_seq. lia.
Qed.

(** * Field *)
Definition shaped (n : nat) (f : fld) : Prop := match f with Scal _ => True | Vec l => length l = n end.

Lemma fadd_ok n a b : shaped n a -> shaped n b -> exists c, fadd a b = Some c /\ shaped n c /\
  forall i, (i < n)%nat -> fat c i = fat a i + fat b i.
Proof.
  destruct a as [x|l], b as [y|m]; cbn; intros A B.
  - eexists; split; [eauto|]; cbn; auto.
  - eexists; split; [eauto|]; cbn. rewrite map_length. split; auto. intros i Hi.
    rewrite (nth_indep _ 0 (x + 0)) by (rewrite map_length; lia). apply (map_nth (fun y => x + y)).
  - eexists; split; [eauto|]; cbn. rewrite map_length. split; auto. intros i Hi.
    rewrite (nth_indep _ 0 (0 + y)) by (rewrite map_length; lia). apply (map_nth (fun x => x + y)).
  - rewrite A, B, Nat.eqb_refl. eexists; split; [eauto|]; cbn. rewrite map2_length. split; [lia|]. intros i Hi. apply (map2_nth0 Rplus); [lra|lia].
Qed.

Lemma beam_field_ok f pos : let '(ex, ey) := get_beam_eletric_field f pos in
  shaped (length pos) ex /\ shaped (length pos) ey /\
  forall i d, (i < length pos)%nat -> (fat ex i, fat ey i) = beam_at f (nth i pos d).
Proof.
  unfold get_beam_eletric_field, beam_at. destruct (Rgtb (f_lam f) (f_th f)); cbn [andb].
  - destruct (Nat.eqb_spec (length pos) 0) as [Z|Z]; cbn [negb].
    + split; [exact I|]. split; [exact I|]. intros i d H. lia.
    + cbn [shaped]. unfold int_field. rewrite !map_length. split; auto. split; auto. intros i d Hi. cbn [fat]. rewrite !map_map. cbn [fst snd].
      f_equal.
      * set (g := fun x : R * R => _). rewrite (nth_indep _ 0 (g d)) by (rewrite map_length; auto). apply (map_nth g).
      * set (g := fun x : R * R => _). rewrite (nth_indep _ 0 (g d)) by (rewrite map_length; auto). apply (map_nth g).
  - split; [exact I|]. split; [exact I|]. intros; auto.
Qed.

Lemma add_sec_ok pos secs : forall ex ey, shaped (length pos) ex -> shaped (length pos) ey ->
  exists rx ry, add_sec_beams (map get_beam_eletric_field secs) pos ex ey = Some (rx, ry) /\ shaped (length pos) rx /\ shaped (length pos) ry /\
  forall i d, (i < length pos)%nat ->
    fat rx i = fat ex i + rsum (map (fun f => fst (beam_at f (nth i pos d))) secs) /\
    fat ry i = fat ey i + rsum (map (fun f => snd (beam_at f (nth i pos d))) secs).
Proof.
  induction secs as [|f secs IH]; intros ex ey Sx Sy; cbn [map add_sec_beams].
  - exists ex, ey. split; auto. split; auto. split; auto. intros i d Hi. unfold rsum. cbn. lra.
  - pose proof (beam_field_ok f pos) as B. destruct (get_beam_eletric_field f pos) as [sx sy]. destruct B as (B1 & B2 & B3).
    destruct (fadd_ok (length pos) ex sx Sx B1) as (cx & -> & Cx & Vx). cbn [bind].
    destruct (fadd_ok (length pos) ey sy Sy B2) as (cy & -> & Cy & Vy). cbn [bind].
    destruct (IH cx cy Cx Cy) as (rx & ry & R & Rx & Ry & V). exists rx, ry. split; auto. split; auto. split; auto. intros i d Hi.
    destruct (V i d Hi) as (W1 & W2). specialize (B3 i d Hi). cbn [map]. rewrite !rsum_cons, W1, W2, Vx, Vy by auto.
    rewrite <- B3. cbn. lra.
Qed.

Lemma total_field_ok sc main secs pos : length sc = length pos ->
  exists ex ey, total_field sc (get_beam_eletric_field main) (map get_beam_eletric_field secs) pos = Some (Vec ex, Vec ey) /\ length ex = length pos /\ length ey = length pos /\
  forall i d d', (i < length pos)%nat ->
    nth i ex 0 = fst (nth i sc d') + rsum (map (fun f => fst (beam_at f (nth i pos d))) (main :: secs)) /\
    nth i ey 0 = snd (nth i sc d') + rsum (map (fun f => snd (beam_at f (nth i pos d))) (main :: secs)).
Proof.
  intros L. unfold total_field, field_from_beams. pose proof (beam_field_ok main pos) as B. destruct (get_beam_eletric_field main pos) as [sx sy]. destruct B as (B1 & B2 & B3).
  destruct (add_sec_ok pos secs sx sy B1 B2) as (rx & ry & -> & Rx & Ry & V). cbn [bind].
  destruct (fadd_ok (length pos) (Vec (map fst sc)) rx) as (cx & Ex & Cx & Vx); auto; [cbn; rewrite map_length; auto|].
  destruct (fadd_ok (length pos) (Vec (map snd sc)) ry) as (cy & Ey & Cy & Vy); auto; [cbn; rewrite map_length; auto|].
  rewrite Ex. cbn [bind]. rewrite Ey. cbn [bind].
  assert (KX : exists l, cx = Vec l) by (unfold fadd in Ex; destruct rx; [injection Ex as <-; eauto|destruct (Nat.eqb _ _); [injection Ex as <-; eauto|discriminate]]).
  assert (KY : exists l, cy = Vec l) by (unfold fadd in Ey; destruct ry; [injection Ey as <-; eauto|destruct (Nat.eqb _ _); [injection Ey as <-; eauto|discriminate]]).
  destruct KX as (lx & ->). destruct KY as (ly & ->). exists lx, ly. split; auto. split; auto. split; auto. intros i d d' Hi.
  destruct (V i d Hi) as (W1 & W2). specialize (B3 i d Hi). specialize (Vx i Hi). specialize (Vy i Hi). cbn [fat] in Vx, Vy. rewrite Vx, Vy, W1, W2.
  assert (S1 : nth i (map fst sc) 0 = fst (nth i sc d')) by (rewrite (nth_indep _ 0 (fst d')) by (rewrite map_length; lia); apply (map_nth fst)).
  assert (S2 : nth i (map snd sc) 0 = snd (nth i sc d')) by (rewrite (nth_indep _ 0 (snd d')) by (rewrite map_length; lia); apply (map_nth snd)).
  rewrite S1, S2. cbn [map]. rewrite !rsum_cons, <- B3. cbn. lra.
Qed.
