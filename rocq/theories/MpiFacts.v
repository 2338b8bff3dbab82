(** Facts about the exchange protocol. *)
From Coq Require Import Lra Lia.
From Verif Require Import Num NumFacts MP Sim SpecSim Mpi SpecMpi.
Local Open Scope list_scope.
Local Open Scope R_scope.

(** * The mean *)
Lemma concat_nth n : forall bufs, Forall (fun b => List.length b = n) bufs -> forall r i, (i < n)%nat -> nth (r * n + i) (concat bufs) 0 = nth i (nth r bufs []) 0.
Proof.
  induction 1 as [|b l Hb F IH]; intros r i Hi; [destruct r; cbn; destruct i; try destruct (_ + _)%nat; reflexivity|].
  cbn [concat]. destruct r as [|r]; cbn [nth].
  - cbn [Nat.mul Nat.add]. apply app_nth1. lia.
  - rewrite app_nth2 by (rewrite Hb; cbn; lia). rewrite Hb. replace (S r * n + i - n)%nat with (r * n + i)%nat by (cbn; lia). apply IH. exact Hi.
Qed.
Lemma map_nth_seq {A B} (f : A -> B) d : forall l, map (fun r => f (nth r l d)) (seq 0 (List.length l)) = map f l.
Proof.
  intros l. assert (G : forall l k, map (fun r => f (nth (r - k) l d)) (seq k (List.length l)) = map f l).
  { induction l0 as [|x l0 IH]; intros k; [reflexivity|]. cbn [List.length seq map]. f_equal; [rewrite Nat.sub_diag; reflexivity|]. rewrite <- (IH (S k)). apply map_ext_in.
    intros r Hr. apply in_seq in Hr. replace (r - k)%nat with (S (r - S k))%nat by lia. reflexivity. }
  rewrite <- (G l 0%nat). apply map_ext. intros r. rewrite Nat.sub_0_r. reflexivity.
Qed.

Lemma average_ok bufs a : average bufs = Some a -> exists n, Forall (fun b => List.length b = n) bufs /\ bufs <> [] /\ mean_of n bufs a.
Proof.
  unfold average. destruct bufs as [|b l]; cbn [gather bind]; [discriminate|]. destruct (forallb _ (b :: l)) eqn:E; cbn [bind]; [|discriminate]. intros H.
  assert (F : Forall (fun x => List.length x = List.length b) (b :: l)).
  { rewrite Forall_forall. intros x Hx. rewrite forallb_forall in E. apply Nat.eqb_eq. apply E. exact Hx. }
  exists (List.length b). split; [exact F|]. split; [discriminate|]. injection H as <-. cbn [hd]. unfold mean_rows.
  split; [rewrite map_length, seq_length; reflexivity|]. intros i Hi.
  set (g := fun i0 => rsum (map (fun r => nth (r * List.length b + i0) (concat (b :: l)) 0) (seq 0 (List.length (b :: l)))) / INR (List.length (b :: l))).
  change (INR (List.length (b :: l)) * nth i (map g (seq 0 (List.length b))) 0 = rsum (map (fun x => nth i x 0) (b :: l))).
  assert (N : nth i (map g (seq 0 (List.length b))) 0 = g i).
  { rewrite (nth_indep _ 0 (g 0%nat)) by (rewrite map_length, seq_length; exact Hi). rewrite map_nth, seq_nth by exact Hi. reflexivity. }
  rewrite N. unfold g. rewrite (map_ext_in _ (fun r => nth i (nth r (b :: l) []) 0)) by (intros r _; apply concat_nth; assumption).
  rewrite (map_nth_seq (fun x => nth i x 0) [] (b :: l)). field. apply not_0_INR. discriminate.
Qed.
Lemma average_some n bufs : bufs <> [] -> Forall (fun b => List.length b = n) bufs -> exists a, average bufs = Some a.
Proof.
  intros NE F. destruct bufs as [|b l]; [congruence|]. unfold average. cbn [gather].
  replace (forallb _ (b :: l)) with true; [eexists; reflexivity|]. symmetry. apply forallb_forall. intros x Hx. rewrite Forall_forall in F. apply Nat.eqb_eq.
  rewrite (F x Hx), (F b (or_introl eq_refl)). reflexivity.
Qed.
Lemma mean_unique n bufs a a' : bufs <> [] -> mean_of n bufs a -> mean_of n bufs a' -> a = a'.
Proof.
  intros NE [L1 H1] [L2 H2]. apply (nth_ext _ _ 0 0); [congruence|]. intros i Hi. assert (N : INR (List.length bufs) <> 0) by (apply not_0_INR; destruct bufs; [congruence|discriminate]).
  apply (Rmult_eq_reg_l (INR (List.length bufs))); [|exact N]. rewrite H1, H2 by lia. reflexivity.
Qed.
Lemma average_repeat b n : average (repeat b (S n)) = Some b.
Proof.
  destruct (average_some (List.length b) (repeat b (S n))) as [a E]; [discriminate|apply Forall_forall; intros x Hx; apply repeat_spec in Hx; congruence|].
  rewrite E. f_equal. destruct (average_ok _ _ E) as (m & F & NE & M). assert (m = List.length b) by (inversion F; congruence). subst m.
  eapply mean_unique; [exact NE|exact M|]. split; [reflexivity|]. intros i _. rewrite repeat_length. clear. generalize (S n). intros k.
  induction k as [|k IH]; [cbn; unfold rsum; cbn; lra|]. cbn [repeat map]. rewrite rsum_cons, <- IH, S_INR. lra.
Qed.

Section Protocol.
Context {T : Type} (next : T -> outcome T).
Notation round := (round next). Notation together := (together next). Notation apart_at := (apart_at next). Notation path := (path next). Notation move := (move next).

(** * Rounds *)
Inductive three (a : list R) : list T -> list (list R) -> list T -> Prop :=
| th_nil : three a [] [] []
| th_cons s b k L bufs L' : next s = Ask b k -> three a L bufs L' -> three a (s :: L) (b :: bufs) (k a :: L').

Lemma round_three L L' : round L L' <-> exists bufs a, average bufs = Some a /\ three a L bufs L'.
Proof.
  split.
  - intros (bufs & a & A & L1 & L2 & H). exists bufs, a. split; [exact A|]. clear A. revert bufs L' L1 L2 H.
    induction L as [|s L IH]; intros [|b bufs] [|s' L'] L1 L2 H; try discriminate; [constructor|].
    destruct (H 0%nat s eq_refl) as (b0 & k & E1 & E2 & E3). cbn in E2, E3. injection E2 as <-. injection E3 as ->. constructor; [exact E1|].
    apply IH; [injection L1; auto|injection L2; auto|]. intros i t Hi. exact (H (S i) t Hi).
  - intros (bufs & a & A & H). exists bufs, a. split; [exact A|]. clear A. assert (Z : List.length bufs = List.length L /\ List.length L' = List.length L) by (induction H; cbn; intuition). destruct Z as [Z1 Z2]. split; [exact Z1|]. split; [exact Z2|]. clear Z1 Z2.
    induction H as [|s b k L bufs L' E H IH]; intros [|i] t Hi; cbn in Hi; try discriminate; [|apply IH; exact Hi]. injection Hi as <-. exists b, k. auto.
Qed.
Lemma three_same a L bufs L' L2 : three a L bufs L' -> Forall2 (fun s s' => next s' = next s) L L2 -> three a L2 bufs L'.
Proof. intros H. revert L2. induction H; intros L2 F; inversion F; subst; constructor; [congruence|auto]. Qed.
Lemma round_same L L' L2 : round L L' -> Forall2 (fun s s' => next s' = next s) L L2 -> round L2 L'.
Proof. rewrite !round_three. intros (bufs & a & A & H) F. exists bufs, a. split; [exact A|]. eapply three_same; eauto. Qed.
Lemma ends_same L F L2 : ends next L F -> Forall2 (fun s s' => next s' = next s) L L2 -> ends next L2 F.
Proof. unfold ends. intros H. revert L2. induction H; intros L2 G; inversion G; subst; constructor; [congruence|auto]. Qed.
Lemma together_same r L F L2 : together r L F -> Forall2 (fun s s' => next s' = next s) L L2 -> together r L2 F.
Proof. intros [L0 F0 E|r0 L0 L' F0 E H] G; [constructor; eapply ends_same; eauto|econstructor; [eapply round_same; eauto|exact H]]. Qed.

Lemma three_in a L bufs L' s : three a L bufs L' -> In s L -> exists b k, next s = Ask b k.
Proof. induction 1 as [|u b k L bufs L2 E H IH]; intros I; [contradiction|]. destruct I as [<-|I]; eauto. Qed.
Lemma together_finish r L F s f : together r L F -> In s L -> next s = Finish f -> r = 0%nat.
Proof.
  intros [L0 F0 E|r0 L0 L' F0 E H] I N; [reflexivity|]. apply round_three in E. destruct E as (bufs & a & _ & E). destruct (three_in _ _ _ _ _ E I) as (b & k & K). congruence.
Qed.
Lemma together_ask r L F s b k : together r L F -> In s L -> next s = Ask b k -> exists r', r = S r'.
Proof.
  intros [L0 F0 E|r0 L0 L9 F0 E H] I N; [|eauto]. unfold ends in E. exfalso. revert I; induction E as [|u v L9 F9 E1 E2 IH]; intros I; [contradiction|]. destruct I as [->|I]; [congruence|auto].
Qed.

(** * Invariant of the moves *)
Inductive peer_ok (s : T) : peer T -> Prop :=
| po_run : peer_ok s (mkPeer (Running s) [] [])
| po_sent b k : next s = Ask b k -> peer_ok s (mkPeer (Waiting b k) [b] [])
| po_back b k a : k a = s -> peer_ok s (mkPeer (Waiting b k) [] [a])
| po_end f : next s = Finish f -> peer_ok s (mkPeer (Ended f) [] []).
Inductive root_ok (s : T) : status T -> Prop :=
| ro_run : root_ok s (Running s)
| ro_wait b k : next s = Ask b k -> root_ok s (Waiting b k)
| ro_end f : next s = Finish f -> root_ok s (Ended f).
Definition inv (L : list T) (w : world T) : Prop :=
  exists s0 ss, L = s0 :: ss /\ root_ok s0 (wo_root w) /\ Forall2 peer_ok ss (wo_peers w).

Lemma inv_start s0 ss : inv (s0 :: ss) (start_world s0 ss).
Proof. exists s0, ss. split; [reflexivity|]. split; [constructor|]. cbn [start_world wo_peers]. induction ss; constructor; [constructor|assumption]. Qed.

(** Moves still to do. *)
Definition rcost (r : nat) (st : status T) : nat := match st with Running _ => 2 * r + 1 | Waiting _ _ => 2 * r | Ended _ => 0 end.
Definition pcost (r : nat) (p : peer T) : nat :=
  match pr_st p, pr_down p with Running _, _ => 2 * r + 1 | Waiting _ _, [] => 2 * r | Waiting _ _, _ => 2 * r + 2 | Ended _, _ => 0 end.
Definition cost (r : nat) (w : world T) : nat := rcost r (wo_root w) + list_sum (map (pcost r) (wo_peers w)).

Lemma upd_split {A} : forall (l : list A) j x y, nth_error l j = Some x -> exists l1 l2, l = l1 ++ x :: l2 /\ upd_nth l j (fun _ => y) = l1 ++ y :: l2.
Proof.
  induction l as [|z l IH]; intros [|j] x y H; try discriminate; cbn in H.
  - injection H as ->. exists [], l. auto.
  - destruct (IH j x y H) as (l1 & l2 & -> & E). exists (z :: l1), l2. cbn [upd_nth]. rewrite E. auto.
Qed.
Lemma cost_split r (l1 l2 : list (peer T)) p : list_sum (map (pcost r) (l1 ++ p :: l2)) = (pcost r p + list_sum (map (pcost r) (l1 ++ l2)))%nat.
Proof. rewrite !map_app, !list_sum_app. cbn [map]. change (list_sum (pcost r p :: map (pcost r) l2)) with (pcost r p + list_sum (map (pcost r) l2))%nat. lia. Qed.

(** All peers have sent. *)
Lemma take_all_ok : forall ss ps bs a bufs L', Forall2 peer_ok ss ps -> take_all ps = Some bs -> three a ss bufs L' ->
  bufs = bs /\ Forall2 peer_ok L' (answer_all a ps) /\ forall r, list_sum (map (pcost r) (answer_all a ps)) = list_sum (map (pcost (S r)) ps).
Proof.
  induction ss as [|s ss IH]; intros ps bs a bufs L' F TA TH; inversion F as [|? p ? ps' P F']; subst.
  - cbn in TA. injection TA as <-. inversion TH; subst. cbn. repeat split. constructor.
  - cbn [take_all fold_right] in TA. destruct (pr_up p) as [|b u] eqn:EU; [discriminate|].
    change (fold_right _ (Some []) ps') with (take_all ps') in TA. destruct (take_all ps') as [bs'|] eqn:ET; [|discriminate]. injection TA as <-.
    inversion TH as [|? b' k ? bufs' L2 N TH']; subst. destruct (IH _ _ _ _ _ F' ET TH') as (-> & I2 & I3).
    inversion P as [|b1 k1 N1| |]; subst; cbn [pr_up] in EU; try discriminate. injection EU as <- <-. assert (E : b1 = b' /\ k1 = k) by (split; congruence). destruct E as [-> ->].
    split; [reflexivity|]. split.
    + cbn [answer_all map pr_st pr_up pr_down tl app]. constructor; [constructor; reflexivity|exact I2].
    + intros r. change (pcost r (mkPeer (Waiting b' k) [] [a]) + list_sum (map (pcost r) (answer_all a ps')) = pcost (S r) (mkPeer (Waiting b' k) [b'] []) + list_sum (map (pcost (S r)) ps'))%nat.
      rewrite I3. cbn [pcost pr_st pr_down]. lia.
Qed.
Lemma take_all_asks a : forall ss ps bs, Forall2 peer_ok ss ps -> take_all ps = Some bs -> exists L', three a ss bs L'.
Proof.
  induction ss as [|s ss IH]; intros ps bs F TA; inversion F as [|? p ? ps' P F']; subst.
  - cbn in TA. injection TA as <-. exists []. constructor.
  - cbn [take_all fold_right] in TA. destruct (pr_up p) as [|b u] eqn:EU; [discriminate|].
    change (fold_right _ (Some []) ps') with (take_all ps') in TA. destruct (take_all ps') as [bs'|] eqn:ET; [|discriminate]. injection TA as <-.
    inversion P as [|b1 k1 N1| |]; subst; cbn [pr_up] in EU; try discriminate. injection EU as <- <-. destruct (IH _ _ F' ET) as (L' & H).
    exists (k1 a :: L'). constructor; assumption.
Qed.

(** The root collects: the ranks agree on a round. *)
Lemma collect L w w' b k : inv L w -> wo_root w = Waiting b k -> root_move next w = Some w' ->
  exists L', round L L' /\ inv L' w' /\ forall r, (S (cost r w') = cost (S r) w)%nat.
Proof.
  intros (s0 & ss & -> & R & F) WR H. unfold root_move in H. rewrite WR in H. destruct (take_all (wo_peers w)) as [bs|] eqn:TA; cbn [bind] in H; [|discriminate].
  destruct (average (b :: bs)) as [a|] eqn:AV; cbn [bind] in H; [|discriminate]. injection H as <-. rewrite WR in R. inversion R as [|b0 k0 N|]; subst.
  destruct (take_all_asks a _ _ _ F TA) as (L'' & TH). destruct (take_all_ok _ _ _ _ _ _ F TA TH) as (_ & I2 & I3).
  exists (k a :: L''). split; [|split].
  - apply round_three. exists (b :: bs), a. split; [exact AV|]. constructor; assumption.
  - exists (k a), L''. split; [reflexivity|]. split; [constructor|exact I2].
  - intros r. unfold cost. cbn [wo_root wo_peers]. rewrite I3, WR. cbn [rcost]. lia.
Qed.

(** A move that is not a collection keeps the round. *)
Lemma other_move L w w' i : inv L w -> move i w = Some w' -> (i = 0%nat -> forall b k, wo_root w <> Waiting b k) ->
  inv L w' /\ exists s, In s L /\ ((exists f, next s = Finish f /\ (S (cost 0 w') = cost 0 w)%nat) \/ (exists b k, next s = Ask b k /\ forall r, (S (cost (S r) w') = cost (S r) w)%nat) \/ (forall r, (S (cost r w') = cost r w)%nat)).
Proof.
  intros (s0 & ss & -> & R & F) H NC. destruct i as [|j]; cbn [Mpi.move] in H.
  - unfold root_move in H. destruct (wo_root w) as [s|b k|f] eqn:WR; [|exfalso; exact (NC eq_refl b k eq_refl)|discriminate]. injection H as <-. assert (s = s0) by (inversion R; reflexivity). subst s. split.
    + exists s0, ss. split; [reflexivity|]. cbn [wo_root wo_peers]. split; [|exact F]. destruct (next s0) eqn:E; constructor; exact E.
    + exists s0. split; [left; reflexivity|]. destruct (next s0) as [f|b k] eqn:E.
      * left. exists f. split; [reflexivity|]. unfold cost. rewrite WR. cbn [wo_root wo_peers rcost]. lia.
      * right. left. exists b, k. split; [reflexivity|]. intros r. unfold cost. rewrite WR. cbn [wo_root wo_peers rcost]. lia.
  - destruct (nth_error (wo_peers w) j) as [p|] eqn:NP; [|discriminate]. destruct (peer_move next p) as [p'|] eqn:PM; cbn [bind] in H; [|discriminate]. injection H as <-.
    destruct (upd_split _ _ _ p' NP) as (l1 & l2 & E1 & E2). rewrite E1 in F. apply Forall2_app_inv_r in F. destruct F as (s1 & s2' & F1 & F2 & ->).
    inversion F2 as [|s ? s2 ? P F2']; subst.
    assert (Q : peer_ok s p' /\ ((exists f, next s = Finish f /\ (S (pcost 0 p') = pcost 0 p)%nat) \/ (exists b k, next s = Ask b k /\ forall r, (S (pcost (S r) p') = pcost (S r) p)%nat) \/ (forall r, (S (pcost r p') = pcost r p)%nat))).
    { unfold peer_move in PM. inversion P as [|b k N|b k a N|f N]; subst; cbn [pr_st pr_down pr_up] in PM.
      - injection PM as <-. destruct (next s) as [f|b k] eqn:E; cbn [app].
        + split; [constructor; exact E|]. left. exists f. split; reflexivity.
        + split; [constructor; exact E|]. right. left. exists b, k. split; [reflexivity|]. intros r. cbn. lia.
      - discriminate.
      - injection PM as <-. split; [constructor|]. right. right. intros r. cbn. lia.
      - discriminate. }
    destruct Q as [Q1 Q2]. split.
    + exists s0, (s1 ++ s :: s2). split; [reflexivity|]. cbn [wo_root wo_peers]. rewrite E2. split; [exact R|]. apply Forall2_app; [exact F1|]. constructor; assumption.
    + exists s. split; [right; apply in_or_app; right; left; reflexivity|]. unfold cost. cbn [wo_root wo_peers]. rewrite E2, E1.
      destruct Q2 as [(f & N & C)|[(b & k & N & C)|C]].
      * left. exists f. split; [exact N|]. rewrite !cost_split. lia.
      * right. left. exists b, k. split; [exact N|]. intros r. specialize (C r). rewrite !cost_split. lia.
      * right. right. intros r. specialize (C r). rewrite !cost_split. lia.
Qed.

Lemma round_det L L1 L2 : round L L1 -> round L L2 -> L1 = L2.
Proof.
  rewrite !round_three. intros (b1 & a1 & A1 & H1) (b2 & a2 & A2 & H2).
  assert (E : b1 = b2). { clear A1 A2. revert b2 L2 H2. induction H1; intros b2 L2' H2; inversion H2; subst; [reflexivity|]. f_equal; [congruence|eauto]. }
  subst b2. assert (a1 = a2) by congruence. subst a2. clear A1 A2. revert L2 H2. induction H1; intros L2' H2; inversion H2; subst; [reflexivity|].
  f_equal; [congruence|eauto].
Qed.

Lemma any_move r L F w w' i : together r L F -> inv L w -> move i w = Some w' -> exists r' L', together r' L' F /\ inv L' w' /\ (S (cost r' w') = cost r w)%nat.
Proof.
  intros TG I H. assert (D : (exists b k, i = 0%nat /\ wo_root w = Waiting b k) \/ (i = 0%nat -> forall b k, wo_root w <> Waiting b k)).
  { destruct i as [|j]; [|right; discriminate]. destruct (wo_root w) as [s|b k|f]; [right; intros _ b k; discriminate|left; eauto|right; intros _ b k; discriminate]. }
  destruct D as [(b & k & -> & WR)|NC].
  - destruct (collect L w w' b k I WR H) as (L' & RD & I' & C). destruct TG as [L0 F0 E|r0 L0 L1 F0 RD1 TG].
    + exfalso. apply round_three in RD. destruct RD as (bufs & a & _ & TH). destruct I as (s0 & ss & -> & _). inversion E; inversion TH; subst. congruence.
    + assert (L1 = L') by (eapply round_det; eauto). subst L1. exists r0, L'. auto.
  - destruct (other_move L w w' i I H NC) as (I' & s & IN & Q). exists r, L. split; [exact TG|]. split; [exact I'|].
    destruct Q as [(f & N & C)|[(b & k & N & C)|C]]; [rewrite (together_finish _ _ _ _ _ TG IN N); exact C|destruct (together_ask _ _ _ _ _ _ TG IN N) as (r' & ->); apply C|apply C].
Qed.

Lemma any_path l w w' : path l w w' -> forall r L F, together r L F -> inv L w -> exists r' L', together r' L' F /\ inv L' w' /\ (List.length l + cost r' w' = cost r w)%nat.
Proof.
  induction 1 as [w|i l w w1 w2 M P IH]; intros r L F TG I; [exists r, L; auto|]. destruct (any_move _ _ _ _ _ _ TG I M) as (r1 & L1 & T1 & I1 & C1).
  destruct (IH _ _ _ T1 I1) as (r2 & L2 & T2 & I2 & C2). exists r2, L2. split; [exact T2|]. split; [exact I2|]. cbn [List.length]. lia.
Qed.

(** * No deadlock *)
Lemma peers_stuck ss ps : Forall2 peer_ok ss ps -> (forall j p, nth_error ps j = Some p -> peer_move next p = None) ->
  Forall2 (fun s p => (exists b k, next s = Ask b k /\ p = mkPeer (Waiting b k) [b] []) \/ (exists f, next s = Finish f /\ p = mkPeer (Ended f) [] [])) ss ps.
Proof.
  induction 1 as [|s p ss ps P F IH]; intros H; [constructor|]. constructor; [|apply IH; intros j q Hj; exact (H (S j) q Hj)].
  specialize (H 0%nat p eq_refl). unfold peer_move in H. inversion P as [|b k N|b k a N|f N]; subst; cbn [pr_st pr_down] in H; try discriminate; [left; eauto|right; eauto].
Qed.
Lemma stuck_peers w : (forall i, move i w = None) -> forall j p, nth_error (wo_peers w) j = Some p -> peer_move next p = None.
Proof. intros H j p Hj. specialize (H (S j)). cbn [Mpi.move] in H. rewrite Hj in H. destruct (peer_move next p); [discriminate|reflexivity]. Qed.

Lemma three_take a L bufs L' ps : three a L bufs L' ->
  Forall2 (fun s p => (exists b k, next s = Ask b k /\ p = mkPeer (Waiting b k) [b] []) \/ (exists f, next s = Finish f /\ p = mkPeer (Ended f) [] [])) L ps -> take_all ps = Some bufs.
Proof.
  intros H. revert ps. induction H as [|s b k L bufs L' E H IH]; intros ps F; inversion F as [|? p ? ps' P F']; subst; [reflexivity|].
  destruct P as [(b1 & k1 & N1 & ->)|(f & N1 & _)]; [|congruence]. cbn [take_all fold_right pr_up]. change (fold_right _ (Some []) ps') with (take_all ps'). rewrite (IH _ F'). congruence.
Qed.

Lemma stuck_ended r L F w : together r L F -> inv L w -> (forall i, move i w = None) -> ended_in w F /\ cost r w = 0%nat.
Proof.
  intros TG (s0 & ss & -> & R & FP) ST. pose proof (peers_stuck _ _ FP (stuck_peers w ST)) as PS. pose proof (ST 0%nat) as R0. cbn [Mpi.move] in R0. unfold root_move in R0.
  inversion R as [E0|b k N E0|f N E0]; rewrite <- E0 in R0; [discriminate| |].
  - exfalso. destruct (together_ask _ _ _ s0 b k TG (or_introl eq_refl) N) as (r' & ->). inversion TG as [|? ? L' ? RD TG']; subst. apply round_three in RD. destruct RD as (bufs & a & AV & TH).
    inversion TH as [|? b1 k1 ? bufs' L2 N1 TH']; subst. rewrite (three_take _ _ _ _ _ TH' PS) in R0. cbn [bind] in R0. assert (b = b1) by congruence. subst b1. rewrite AV in R0. discriminate.
  - assert (r = 0%nat) by (eapply together_finish; [exact TG|left; reflexivity|exact N]). subst r. inversion TG as [L0 F0 E|]; subst.
    inversion E as [|? f0 ? F' E1 E2]; subst. unfold ended_in, cost. rewrite <- E0. cbn [map rcost]. assert (f0 = f) by congruence. subst f0. clear - PS E2.
    assert (G : map pr_st (wo_peers w) = map Ended F' /\ list_sum (map (pcost 0) (wo_peers w)) = 0%nat).
    { revert F' E2. induction PS as [|s p ss ps P PS IH]; intros F' E2; inversion E2 as [|? f0 ? F2 E1 E3]; subst; [split; reflexivity|]. destruct (IH _ E3) as [I1 I2].
      destruct P as [(b & k & N1 & ->)|(f1 & N1 & ->)]; [congruence|]. cbn [map pr_st]. split; [rewrite I1; congruence|]. cbn. exact I2. }
    destruct G as [-> ->]. auto.
Qed.

Lemma ended_stuck w F : ended_in w F -> forall i, move i w = None.
Proof.
  intros E. unfold ended_in in E. destruct F as [|f F]; [discriminate|]. cbn [map] in E. injection E as E1 E2. intros [|j]; cbn [Mpi.move].
  - unfold root_move. rewrite E1. reflexivity.
  - destruct (nth_error (wo_peers w) j) as [p|] eqn:N; [|reflexivity]. apply (map_nth_error pr_st) in N. rewrite E2, nth_error_map in N. destruct (nth_error F j) as [f'|]; [|discriminate]. injection N as N.
    unfold peer_move. rewrite <- N. reflexivity.
Qed.

Lemma cost_start r s0 ss : cost r (start_world s0 ss) = (S (List.length ss) * (2 * r + 1))%nat.
Proof.
  unfold cost, start_world. cbn [wo_root wo_peers rcost]. rewrite map_map. induction ss as [|s ss IH]; [cbn; lia|]. cbn [map list_sum fold_right List.length]. unfold list_sum in IH. cbn [pcost pr_st] in *. lia.
Qed.

Lemma schedule r s0 ss F l w : together r (s0 :: ss) F -> path l (start_world s0 ss) w ->
  (List.length l <= S (List.length ss) * (2 * r + 1))%nat /\
  ((forall i, move i w = None) -> ended_in w F /\ List.length l = (S (List.length ss) * (2 * r + 1))%nat) /\
  (forall G, ended_in w G -> G = F).
Proof.
  intros TG P. destruct (any_path _ _ _ P _ _ _ TG (inv_start s0 ss)) as (r' & L' & T' & I' & C). rewrite cost_start in C. split; [lia|].
  assert (ST : (forall i, move i w = None) -> ended_in w F /\ List.length l = (S (List.length ss) * (2 * r + 1))%nat).
  { intros ST. destruct (stuck_ended _ _ _ _ T' I' ST) as [E1 E2]. split; [exact E1|]. rewrite E2 in C. lia. }
  split; [exact ST|]. intros G EG. destruct (ST (ended_stuck _ _ EG)) as [EF _]. unfold ended_in in *. rewrite EF in EG. clear - EG.
  revert G EG. induction F as [|f F IH]; intros [|g G] E; try discriminate; [reflexivity|]. injection E as -> E. f_equal. apply IH. exact E.
Qed.

(** * Ranks that get apart *)
Lemma apart_move L w w' i : apart_at L -> inv L w -> move i w = Some w' -> exists L', apart_at L' /\ inv L' w'.
Proof.
  intros AP I H. assert (D : (exists b k, i = 0%nat /\ wo_root w = Waiting b k) \/ (i = 0%nat -> forall b k, wo_root w <> Waiting b k)).
  { destruct i as [|j]; [|right; discriminate]. destruct (wo_root w) as [s|b k|f]; [right; intros _ b k; discriminate|left; eauto|right; intros _ b k; discriminate]. }
  destruct D as [(b & k & -> & WR)|NC].
  - destruct (collect L w w' b k I WR H) as (L' & RD & I' & C). exists L'. split; [|exact I']. destruct AP as [L0 s s' f b1 k1 I1 I2 N1 N2|L0 L1 R1 A1].
    + exfalso. apply round_three in RD. destruct RD as (bufs & a & _ & TH). destruct (three_in _ _ _ _ _ TH I1) as (b2 & k2 & N). congruence.
    + assert (L1 = L') by (eapply round_det; eauto). subst L1. exact A1.
  - destruct (other_move L w w' i I H NC) as (I' & _). exists L. auto.
Qed.
Lemma apart_never s0 ss l w F : apart_at (s0 :: ss) -> path l (start_world s0 ss) w -> ~ ended_in w F.
Proof.
  intros AP P. assert (G : exists L, apart_at L /\ inv L w).
  { assert (Q : exists L, apart_at L /\ inv L (start_world s0 ss)) by (exists (s0 :: ss); split; [exact AP|apply inv_start]). clear AP. revert Q. induction P as [|i l w w1 w2 M P IH]; intros (L & AP & I); [eauto|].
    apply IH. eapply apart_move; eauto. }
  destruct G as (L & AP' & (s1 & ss1 & -> & R & FP)). intros E. unfold ended_in in E. destruct F as [|f F]; [discriminate|]. cbn [map] in E. injection E as E1 E2.
  assert (ALL : Forall (fun s => exists f, next s = Finish f) (s1 :: ss1)).
  { constructor; [rewrite E1 in R; inversion R; subst; eauto|]. clear - FP E2. revert F E2. induction FP as [|s p ss ps P FP IH]; intros F E2; [constructor|]. destruct F as [|g F]; [discriminate|].
    cbn [map] in E2. injection E2 as E3 E4. constructor; [|eapply IH; exact E4]. inversion P; subst; cbn [pr_st] in E3; try discriminate. eauto. }
  rewrite Forall_forall in ALL. inversion AP' as [L0 s s' f0 b k I1 I2 N1 N2|L0 L1 R1 A1]; subst.
  - destruct (ALL s' I2) as (f1 & N). congruence.
  - apply round_three in R1. destruct R1 as (bufs & a & _ & TH). destruct (three_in _ _ _ _ _ TH (or_introl eq_refl)) as (b & k & N). destruct (ALL s1 (or_introl eq_refl)) as (f1 & N1). congruence.
Qed.

(** A complete schedule exists. *)
Lemma path_app l1 w w1 : path l1 w w1 -> forall l2 w2, path l2 w1 w2 -> path (l1 ++ l2) w w2.
Proof. induction 1; intros l2 w3 H2; [exact H2|]. cbn [app]. econstructor; eauto. Qed.
Definition movable (w : world T) : {i | exists w', move i w = Some w'} + {forall i, move i w = None}.
Proof.
  assert (G : forall n, {i | exists w', move i w = Some w'} + {forall i, (i < n)%nat -> move i w = None}).
  { induction n as [|n [S|N]]; [right; intros; lia|left; exact S|]. destruct (move n w) as [w'|] eqn:E; [left; exists n; eauto|]. right. intros i Hi.
    destruct (Nat.eq_dec i n) as [->|]; [exact E|apply N; lia]. }
  destruct (G (S (List.length (wo_peers w)))) as [S|N]; [left; exact S|]. right. intros i. destruct (Nat.lt_ge_cases i (S (List.length (wo_peers w)))) as [C|C]; [apply N; exact C|].
  destruct i as [|j]; [lia|]. cbn [Mpi.move]. rewrite (proj2 (nth_error_None _ _)) by lia. reflexivity.
Defined.
Lemma completes r s0 ss F : together r (s0 :: ss) F -> exists l w, path l (start_world s0 ss) w /\ ended_in w F.
Proof.
  intros TG. assert (G : forall n r L w, together r L F -> inv L w -> cost r w = n -> exists l w', path l w w' /\ ended_in w' F).
  { induction n as [|n IH]; intros r1 L w TG1 I C.
    - destruct (movable w) as [(i & w' & M)|N]; [exfalso; destruct (any_move _ _ _ _ _ _ TG1 I M) as (? & ? & _ & _ & X); lia|]. exists [], w. split; [constructor|]. eapply stuck_ended; eauto.
    - destruct (movable w) as [(i & w' & M)|N]; [|exfalso; destruct (stuck_ended _ _ _ _ TG1 I N); lia]. destruct (any_move _ _ _ _ _ _ TG1 I M) as (r2 & L2 & T2 & I2 & X).
      destruct (IH r2 L2 w' T2 I2 ltac:(lia)) as (l & w2 & P & E). exists (i :: l), w2. split; [econstructor; eauto|exact E]. }
  eapply G; [exact TG|apply inv_start|reflexivity].
Qed.
End Protocol.
