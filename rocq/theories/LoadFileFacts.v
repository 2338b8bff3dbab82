(** Facts about reading input files, for C102. *)
From Coq Require Import List String Bool Arith Lia.
From Verif Require Import LoadFile SpecLoadFile.
Import ListNotations.

Section Facts.
Context {M : Type} (exec : string -> option M).
Notation step := (step exec). Notation steps := (steps exec). Notation interleave := (interleave exec).

(** Two file systems that look the same to the call. *)
Definition agree (p : call) (fs fs' : fsys) : Prop :=
  isdir fs (c_dir p) = isdir fs' (c_dir p) /\ (forall n, file fs (c_dir p) n = file fs' (c_dir p) n) /\
  file fs (c_sdir p) (c_sname p) = file fs' (c_sdir p) (c_sname p).
Lemma agree_refl p fs : agree p fs fs.
Proof. unfold agree. auto. Qed.
Lemma step_agree p s fs fs' : c_sdir p <> c_dir p -> agree p fs fs' -> fst (step p s fs) = fst (step p s fs') /\ agree p (snd (step p s fs)) (snd (step p s fs')).
Proof.
  intros D (A & B & C). pose proof (proj2 (String.eqb_neq _ _) D) as D'.
  destruct s; cbn [LoadFile.step]; rewrite ?A, ?B, ?C;
    repeat match goal with |- context [match ?x with _ => _ end] => destruct x eqn:?; cbn [fst snd] end;
    cbn [fst snd]; (split; [reflexivity|]); unfold agree, set_dir, write, rmtree; cbn [isdir file]; rewrite ?String.eqb_refl, ?D'; cbn [andb];
    repeat split; try congruence; intros; rewrite ?B; reflexivity.
Qed.
(** A step touches only the directory of its call. *)
Lemma step_other p s fs e : e <> c_dir p -> isdir (snd (step p s fs)) e = isdir fs e /\ forall n, file (snd (step p s fs)) e n = file fs e n.
Proof.
  intros D. pose proof (proj2 (String.eqb_neq _ _) D) as D'.
  destruct s; cbn [LoadFile.step];
    repeat match goal with |- context [match ?x with _ => _ end] => destruct x eqn:?; cbn [fst snd] end;
    unfold set_dir, write, rmtree; cbn [isdir file]; rewrite ?D'; cbn [andb]; auto.
Qed.
Lemma steps_add p n m s fs : steps p (n + m) s fs = let (s', fs') := steps p n s fs in steps p m s' fs'.
Proof. revert s fs. induction n as [|n IH]; intros s fs; [reflexivity|]. cbn [plus LoadFile.steps]. destruct (step p s fs) as [s' fs']. apply IH. Qed.
Lemma steps_done p n r fs : steps p n (Done r) fs = (Done r, fs).
Proof. induction n as [|n IH]; [reflexivity|exact IH]. Qed.
Lemma steps_other p n s fs e : e <> c_dir p -> isdir (snd (steps p n s fs)) e = isdir fs e /\ forall m, file (snd (steps p n s fs)) e m = file fs e m.
Proof.
  intros D. revert s fs. induction n as [|n IH]; intros s fs; [auto|]. cbn [LoadFile.steps]. pose proof (step_other p s fs e D) as (A & B).
  destruct (step p s fs) as [s' fs']. cbn [snd] in *. destruct (IH s' fs') as (A' & B'). split; [congruence|]. intros m. rewrite B', B. reflexivity.
Qed.

(** The call on its own. *)
Lemma alone_done p fs : c_sdir p <> c_dir p ->
  exists fs', steps p 8 Start fs = (Done (meaning exec fs p), fs') /\ (isdir fs' (c_dir p) = false /\ forall n, file fs' (c_dir p) n = None).
Proof.
  intros D. pose proof (proj2 (String.eqb_neq _ _) D) as D'. unfold meaning. fold preamble.
  assert (G : forall k g, isdir g (c_dir p) = true -> file g (c_sdir p) (c_sname p) = file fs (c_sdir p) (c_sname p) ->
    exists fs', steps p (6 + k) Made g = (Done match file fs (c_sdir p) (c_sname p) with Some t => exec (preamble ++ t) | None => None end, fs') /\
      isdir fs' (c_dir p) = false /\ forall n, file fs' (c_dir p) n = None).
  { intros k g I E. cbn [plus LoadFile.steps LoadFile.step]. rewrite E. destruct (file fs (c_sdir p) (c_sname p)) as [t|]; cbn iota.
    - rewrite I. cbn [LoadFile.steps LoadFile.step write isdir file]. rewrite !String.eqb_refl. cbn [andb LoadFile.steps LoadFile.step isdir write]. rewrite I.
      cbn [LoadFile.steps LoadFile.step write isdir file]. rewrite !String.eqb_refl. cbn [andb].
      destruct (exec (preamble ++ t)) as [m|]; cbn [LoadFile.steps LoadFile.step isdir write]; rewrite I; cbn [LoadFile.steps LoadFile.step]; rewrite steps_done;
        (eexists; split; [reflexivity|]); unfold rmtree; cbn [isdir file]; rewrite !String.eqb_refl; auto.
    - cbn [LoadFile.steps LoadFile.step]. rewrite I. cbn [LoadFile.steps LoadFile.step]. rewrite steps_done. eexists. split; [reflexivity|]. unfold rmtree; cbn [isdir file]; rewrite !String.eqb_refl; auto. }
  destruct (isdir fs (c_dir p)) eqn:I.
  - change 8 with (1 + (6 + 1)). rewrite steps_add. cbn [LoadFile.steps LoadFile.step]. rewrite I. exact (G 1 fs I eq_refl).
  - change 8 with (2 + (6 + 0)). rewrite steps_add. cbn [LoadFile.steps LoadFile.step]. rewrite I. cbn [LoadFile.step]. rewrite I. apply (G 0).
    + unfold set_dir. cbn [isdir]. rewrite String.eqb_refl. reflexivity.
    + reflexivity.
Qed.
Lemma alone p n fs : c_sdir p <> c_dir p -> 8 <= n ->
  exists fs', steps p n Start fs = (Done (meaning exec fs p), fs') /\ gone (c_dir p) fs' /\ same_but [c_dir p] fs fs'.
Proof.
  intros D N. destruct (alone_done p fs D) as (fs' & E & G). exists fs'.
  assert (E' : steps p n Start fs = (Done (meaning exec fs p), fs')).
  { replace n with (8 + (n - 8)) by lia. rewrite steps_add, E. apply steps_done. }
  split; [exact E'|]. split; [exact G|]. intros e He.
  assert (Ne : e <> c_dir p) by (intros ->; apply He; left; reflexivity).
  pose proof (steps_other p n Start fs e Ne) as O. rewrite E' in O. exact O.
Qed.

(** Several calls. *)
Lemma set_nth_same {A} i (x : A) l : i < List.length l -> nth_error (set_nth i x l) i = Some x.
Proof.
  intros I. unfold set_nth. rewrite nth_error_map.
  assert (E : nth_error (combine (seq 0 (List.length l)) l) i = Some (i, nth i l x)).
  { rewrite (nth_error_nth' _ (0, x)) by (rewrite combine_length, seq_length; lia). rewrite combine_nth by (rewrite seq_length; reflexivity). rewrite seq_nth by exact I. reflexivity. }
  rewrite E. cbn. rewrite Nat.eqb_refl. reflexivity.
Qed.
Lemma set_nth_other {A} i j (x : A) l : i <> j -> nth_error (set_nth i x l) j = nth_error l j.
Proof.
  intros D. unfold set_nth. rewrite nth_error_map. destruct (nth_error l j) as [y|] eqn:E.
  - assert (J : j < List.length l) by (apply nth_error_Some; congruence).
    rewrite (nth_error_nth' _ (0, y)) by (rewrite combine_length, seq_length; lia). rewrite combine_nth by (rewrite seq_length; reflexivity). rewrite seq_nth by exact J.
    cbn. rewrite (proj2 (Nat.eqb_neq j i)) by auto. rewrite (nth_error_nth _ _ y E). reflexivity.
  - apply nth_error_None in E. rewrite (proj2 (nth_error_None _ _)); [reflexivity|]. rewrite combine_length, seq_length. lia.
Qed.
Lemma set_nth_length {A} i (x : A) l : List.length (set_nth i x l) = List.length l.
Proof. unfold set_nth. rewrite map_length, combine_length, seq_length. lia. Qed.

(** After any schedule each call is where its own steps bring it. *)
Lemma schedule_inv ps : separate ps -> forall sched ss fs ss' fs', List.length ss = List.length ps ->
  interleave ps sched ss fs = (ss', fs') ->
  List.length ss' = List.length ps /\ same_but (map c_dir ps) fs fs' /\
  forall i p s, nth_error ps i = Some p -> nth_error ss i = Some s ->
    let r := steps p (count_occ Nat.eq_dec sched i) s fs in nth_error ss' i = Some (fst r) /\ agree p (snd r) fs'.
Proof.
  intros (ND & SD) sched. induction sched as [|i sched IH]; intros ss fs ss' fs' L E; cbn [LoadFile.interleave] in E.
  - injection E as <- <-. split; [exact L|]. split; [intros e _; auto|]. intros i p s P S. cbn. split; [exact S|apply agree_refl].
  - destruct (nth_error ps i) as [p|] eqn:P.
    2: { destruct (IH _ _ _ _ L E) as (A & B & C). split; [exact A|]. split; [exact B|]. intros j q s Q S. cbn [count_occ].
         destruct (Nat.eq_dec i j) as [->|]; [congruence|]. exact (C j q s Q S). }
    assert (I : i < List.length ps) by (apply nth_error_Some; congruence).
    destruct (nth_error ss i) as [s|] eqn:S; [|apply nth_error_None in S; lia].
    destruct (step p s fs) as [s1 fs1] eqn:T. pose proof (fun e => step_other p s fs e) as O. rewrite T in O. cbn [snd] in O.
    destruct (IH (set_nth i s1 ss) fs1 ss' fs' ltac:(rewrite set_nth_length; exact L) E) as (A & B & C).
    assert (Pin : In p ps) by (eapply nth_error_In; exact P).
    split; [exact A|]. split.
    { intros e He. destruct (B e He) as (B1 & B2). assert (Ne : e <> c_dir p) by (intros ->; apply He, in_map; exact Pin).
      destruct (O e Ne) as (O1 & O2). split; [congruence|]. intros n. rewrite B2, O2. reflexivity. }
    intros j q t Q Tq. cbn [count_occ]. destruct (Nat.eq_dec i j) as [<-|Nij].
    + assert (q = p) by congruence. assert (t = s) by congruence. subst q t. cbn [LoadFile.steps]. rewrite T.
      exact (C i p s1 P (set_nth_same i s1 ss ltac:(lia))).
    + destruct (C j q t Q) as (C1 & C2); [rewrite set_nth_other by exact Nij; exact Tq|].
      assert (Dn : c_dir q <> c_dir p).
      { intros Eq. apply Nij. apply (proj1 (NoDup_nth_error (map c_dir ps)) ND); [rewrite map_length; exact I|].
        rewrite !nth_error_map, P, Q. cbn. congruence. }
      assert (Ag : agree q fs fs1).
      { destruct (O _ Dn) as (O1 & O2). split; [congruence|]. split; [intros n; rewrite O2; reflexivity|].
        destruct (O (c_sdir q) (SD q p (nth_error_In _ _ Q) Pin)) as (_ & O4). rewrite O4. reflexivity. }
      assert (Sq : c_sdir q <> c_dir q) by (apply SD; eapply nth_error_In; exact Q).
      assert (Gn : forall n u g g', agree q g g' -> fst (steps q n u g) = fst (steps q n u g') /\ agree q (snd (steps q n u g)) (snd (steps q n u g'))).
      { intros n. induction n as [|n IHn]; intros u g g' H; [cbn; auto|]. cbn [LoadFile.steps].
        destruct (step_agree q u g g' Sq H) as (X & Y). destruct (step q u g) as [u1 g1], (step q u g') as [u2 g2]. cbn [fst snd] in X, Y. subst u2. exact (IHn u1 g1 g2 Y). }
      destruct (Gn (count_occ Nat.eq_dec sched j) t fs fs1 Ag) as (X & Y). cbv zeta in *. rewrite X. split; [exact C1|].
      destruct Y as (Y1 & Y2 & Y3), C2 as (Z1 & Z2 & Z3). split; [congruence|]. split; [intros n; rewrite Y2; apply Z2|congruence].
Qed.
Lemma nth_error_repeat' {A} (x : A) n i : i < n -> nth_error (repeat x n) i = Some x.
Proof. revert i. induction n as [|n IH]; intros [|i] H; cbn; try lia; [reflexivity|apply IH; lia]. Qed.

Lemma schedule_main ps sched fs ss' fs' : separate ps ->
  interleave ps sched (repeat Start (List.length ps)) fs = (ss', fs') ->
  same_but (map c_dir ps) fs fs' /\
  forall i p, nth_error ps i = Some p -> 8 <= count_occ Nat.eq_dec sched i ->
    nth_error ss' i = Some (Done (meaning exec fs p)) /\ gone (c_dir p) fs'.
Proof.
  intros S E. destruct (schedule_inv ps S sched _ fs ss' fs' ltac:(apply repeat_length) E) as (_ & B & C). split; [exact B|].
  intros i p P N. assert (I : i < List.length ps) by (apply nth_error_Some; congruence).
  destruct (C i p Start P (nth_error_repeat' Start _ i I)) as (X & (Y1 & Y2 & _)).
  assert (D : c_sdir p <> c_dir p) by (apply S; eapply nth_error_In; exact P).
  destruct (alone p (count_occ Nat.eq_dec sched i) fs D N) as (g & G1 & (G2 & G3) & _). rewrite G1 in *. cbn [fst snd] in *.
  split; [exact X|]. split; [congruence|]. intros n. rewrite <- Y2. apply G3.
Qed.
(** Whatever was left by a crash. *)
Lemma after_crash ps sched fs ss' fs' p n : separate ps -> In p ps ->
  interleave ps sched (repeat Start (List.length ps)) fs = (ss', fs') -> 8 <= n ->
  exists fs2, steps p n Start fs' = (Done (meaning exec fs p), fs2) /\ gone (c_dir p) fs2.
Proof.
  intros S I E N. destruct (schedule_main ps sched fs ss' fs' S E) as (B & _).
  assert (D : c_sdir p <> c_dir p) by (apply S; exact I).
  destruct (alone p n fs' D N) as (g & G1 & G2 & _). exists g. split; [|exact G2]. rewrite G1. f_equal. f_equal. unfold meaning.
  rewrite (proj2 (B (c_sdir p) ltac:(intros H; apply in_map_iff in H; destruct H as (q & Q1 & Q2); exact (proj2 S p q I Q2 (eq_sym Q1))))). reflexivity.
Qed.
End Facts.
