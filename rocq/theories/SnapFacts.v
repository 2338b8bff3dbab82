(** Proofs about states saved at requested times, videos and the end of a passage. *)
From Coq Require Import String Ascii DecimalString DecimalNat Lra Lia.
From Verif Require Import Num NumFacts MP SpecMP Snap SpecSnap.
From Verif Require Ckpt CkptFacts.
Local Open Scope list_scope.
Local Open Scope R_scope.

(** * Requests *)
Section Serve.
Context {A : Type} (ok : nat -> A -> bool) (N : nat).
Fixpoint serve (i n : nat) (steps : list A) : list nat :=
  match steps with
  | [] => []
  | a :: r => if (i <? N)%nat && ok i a then n :: serve (S i) (S n) r else serve i (S n) r
  end.
Lemma serve_len steps : forall i n, (i <= N)%nat -> (length (serve i n steps) <= N - i)%nat.
Proof.
  induction steps as [|a r IH]; intros i n H; cbn [serve]; [cbn; lia|]. destruct (i <? N)%nat eqn:E; cbn [andb]; [|apply IH; exact H]. apply Nat.ltb_lt in E.
  destruct (ok i a); [cbn [length]; specialize (IH (S i) (S n)); lia|apply IH; exact H].
Qed.
Lemma serve_ok steps : forall i n k m, nth_error (serve i n steps) k = Some m -> (n <= m)%nat /\ exists a, nth_error steps (m - n) = Some a /\ ok (i + k) a = true.
Proof.
  induction steps as [|a r IH]; intros i n k m; cbn [serve]; [destruct k; discriminate|].
  assert (T : forall i' k', nth_error (serve i' (S n) r) k' = Some m -> (n <= m)%nat /\ exists a0, nth_error (a :: r) (m - n) = Some a0 /\ ok (i' + k') a0 = true).
  { intros i' k' H. apply IH in H. destruct H as (L & a0 & X & Y). split; [lia|]. exists a0. split; [|exact Y]. replace (m - n)%nat with (S (m - S n)) by lia. exact X. }
  destruct ((i <? N)%nat && ok i a) eqn:E; [|apply T]. apply andb_prop in E. destruct E as [_ E]. destruct k as [|k]; cbn [nth_error].
  - intros H. injection H as <-. split; [lia|]. exists a. rewrite Nat.sub_diag, Nat.add_0_r. auto.
  - intros H. replace (i + S k)%nat with (S i + k)%nat by lia. apply T. exact H.
Qed.
Lemma serve_up steps : forall i n k m m', nth_error (serve i n steps) k = Some m -> nth_error (serve i n steps) (S k) = Some m' -> (m < m')%nat.
Proof.
  induction steps as [|a r IH]; intros i n k m m'; cbn [serve]; [destruct k; discriminate|].
  destruct ((i <? N)%nat && ok i a); [|apply IH]. destruct k as [|k]; cbn [nth_error].
  - intros H1 H2. injection H1 as <-. change (nth_error (serve (S i) (S n) r) 0 = Some m') in H2. apply serve_ok in H2. lia.
  - apply IH.
Qed.
Lemma serve_all steps : forall i n k p a, (i + k < N)%nat -> nth_error steps p = Some a -> ok (i + k) a = true ->
  (k = 0%nat \/ exists j m, k = S j /\ nth_error (serve i n steps) j = Some m /\ (m < n + p)%nat) ->
  exists m, nth_error (serve i n steps) k = Some m /\ (m <= n + p)%nat.
Proof.
  induction steps as [|b r IH]; intros i n k p a L P O C; [destruct p; discriminate|]. cbn [serve] in *.
  destruct ((i <? N)%nat && ok i b) eqn:E.
  - destruct k as [|k]; [exists n; split; [reflexivity|lia]|]. cbn [nth_error]. destruct C as [C|(j & m & Ej & C & M)]; [lia|]. injection Ej as <-.
    destruct p as [|p]; [destruct k; cbn [nth_error] in C; [injection C as <-; lia|apply serve_ok in C; lia]|]. cbn [nth_error] in P.
    replace (n + S p)%nat with (S n + p)%nat by lia. apply (IH _ _ _ p a); [lia|exact P|replace (S i + k)%nat with (i + S k)%nat by lia; exact O|].
    destruct k as [|k]; [left; reflexivity|right]. exists k, m. cbn [nth_error] in C. split; [reflexivity|]. split; [exact C|lia].
  - destruct p as [|p].
    + destruct C as [->|(j & m & _ & C & M)]; [|apply serve_ok in C; lia]. cbn [nth_error] in P. injection P as ->. rewrite Nat.add_0_r in *. apply andb_false_iff in E. destruct E as [E|E]; [apply Nat.ltb_ge in E; lia|congruence].
    + cbn [nth_error] in P. replace (n + S p)%nat with (S n + p)%nat by lia. apply (IH _ _ _ p a); auto. destruct C as [C|(j & m & C1 & C2 & C3)]; [left; exact C|right]. exists j, m. repeat split; auto; lia.
Qed.
Lemma serve_schedule steps : schedule (fun k a => ok k a = true) N steps (serve 0 0 steps).
Proof.
  split; [pose proof (serve_len steps 0 0); lia|]. split; [|split].
  - intros k n H. apply serve_ok in H. destruct H as (_ & a & H1 & H2). exists a. rewrite Nat.sub_0_r in H1. auto.
  - intros k m n. apply serve_up.
  - intros k n a L P O C. apply (serve_all steps 0 0 k n a); auto.
Qed.
End Serve.

Lemma schedule_impl {A} (p q : nat -> A -> Prop) N steps ns : (forall k a, p k a <-> q k a) -> schedule p N steps ns -> schedule q N steps ns.
Proof.
  intros E (H1 & H2 & H3 & H4). split; [exact H1|]. split; [|split; [exact H3|]].
  - intros k n H. destruct (H2 k n H) as (a & X & Y). exists a. split; [exact X|apply E; exact Y].
  - intros k n a L P O. apply (H4 k n a L P). apply E. exact O.
Qed.

(** The schedule is unique. *)
Lemma schedule_prev {A} ok N (steps : list A) ns k n : schedule ok N steps ns -> nth_error ns (S k) = Some n -> exists m, nth_error ns k = Some m /\ (m < n)%nat.
Proof.
  intros (_ & _ & H3 & _) E. destruct (nth_error ns k) as [m|] eqn:M; [exists m; split; [reflexivity|apply (H3 k); assumption]|].
  apply nth_error_None in M. assert (nth_error ns (S k) <> None) by congruence. apply nth_error_Some in H. lia.
Qed.
Lemma schedule_unique {A} ok N (steps : list A) ns ns' : schedule ok N steps ns -> schedule ok N steps ns' -> ns = ns'.
Proof.
  intros SC SC'. assert (H : forall k, nth_error ns k = nth_error ns' k).
  { induction k as [|k IH].
    - destruct (nth_error ns 0) as [n|] eqn:X, (nth_error ns' 0) as [n'|] eqn:Y; auto.
      + pose proof SC as (L & O & _ & C). pose proof SC' as (L' & O' & _ & C').
        destruct (O _ _ X) as (a & P & Q). destruct (O' _ _ Y) as (a' & P' & Q'). assert (K : (0 < N)%nat) by (destruct ns; cbn in *; [discriminate|lia]).
        destruct (C _ _ _ K P' Q' (or_introl eq_refl)) as (m & M1 & M2). destruct (C' _ _ _ K P Q (or_introl eq_refl)) as (m' & M1' & M2'). f_equal. assert (m = n) by congruence. assert (m' = n') by congruence. lia.
      + pose proof SC as (L & O & _ & _). pose proof SC' as (_ & _ & _ & C'). destruct (O _ _ X) as (a & P & Q). assert (K : (0 < N)%nat) by (destruct ns; cbn in *; [discriminate|lia]).
        destruct (C' _ _ _ K P Q (or_introl eq_refl)) as (m & M & _). congruence.
      + pose proof SC' as (L & O & _ & _). pose proof SC as (_ & _ & _ & C'). destruct (O _ _ Y) as (a & P & Q). assert (K : (0 < N)%nat) by (destruct ns'; cbn in *; [discriminate|lia]).
        destruct (C' _ _ _ K P Q (or_introl eq_refl)) as (m & M & _). congruence.
    - assert (D : forall l l', schedule ok N steps l -> schedule ok N steps l' -> nth_error l k = nth_error l' k -> forall n, nth_error l (S k) = Some n -> exists m, nth_error l' (S k) = Some m /\ (m <= n)%nat).
      { intros l l' G G' E n X. destruct (schedule_prev _ _ _ _ _ _ G X) as (m & M & LT). pose proof G as (L & O & _ & _). pose proof G' as (_ & _ & _ & C). destruct (O _ _ X) as (a & P & Q).
        assert (K : (S k < N)%nat) by (assert (T : nth_error l (S k) <> None) by congruence; apply nth_error_Some in T; lia).
        apply (C _ _ _ K P Q). right. exists k, m. split; [reflexivity|]. split; [congruence|exact LT]. }
      destruct (nth_error ns (S k)) as [n|] eqn:X.
      + destruct (D _ _ SC SC' IH n X) as (m & M & L). rewrite M. destruct (D _ _ SC' SC (eq_sym IH) m M) as (n' & N' & L'). rewrite X in N'. injection N' as ->. f_equal. lia.
      + destruct (nth_error ns' (S k)) as [n|] eqn:Y; auto. destruct (D _ _ SC' SC (eq_sym IH) n Y) as (m & M & _). congruence. }
  clear SC SC'. revert ns' H. induction ns as [|a l IH]; intros [|b l'] H; auto; try (specialize (H 0%nat); discriminate).
  pose proof (H 0%nat) as H0. injection H0 as ->. f_equal. apply IH. intros k. exact (H (S k)).
Qed.

(** With the requests apart, each is served at the first step at or after its time. *)
Lemma first_exists {A} t (steps : list (R * A)) : forall n a, nth_error steps n = Some a -> t <= fst a -> exists m b, first_at t steps m b /\ (m <= n)%nat.
Proof.
  induction steps as [|s r IH]; intros n a E L; [destruct n; discriminate|]. destruct (Rle_dec t (fst s)) as [Y|Y].
  - exists 0%nat, s. split; [|lia]. split; [reflexivity|]. split; [exact Y|intros; lia].
  - destruct n as [|n]; [cbn in E; injection E as ->; contradiction|]. destruct (IH n a E L) as (m & b & (F1 & F2 & F3) & M). exists (S m), b. split; [|lia]. split; [exact F1|]. split; [exact F2|].
    intros [|p] c P C; [cbn in C; injection C as <-; lra|]. apply (F3 p c); [lia|exact C].
Qed.
Lemma schedule_on_time {A} obs (steps : list (R * A)) ok ns :
  (forall j n b, nth_error steps n = Some b -> (ok j b <-> nth j obs 0 <= fst b)) -> apart obs steps -> (forall i j, (i <= j < length obs)%nat -> nth i obs 0 <= nth j obs 0) ->
  schedule ok (length obs) steps ns -> forall k n a, (k < length obs)%nat -> first_at (nth k obs 0) steps n a -> nth_error ns k = Some n.
Proof.
  intros OK AP UP SC. pose proof SC as (_ & O & _ & C).
  assert (D : forall k n a, first_at (nth k obs 0) steps n a -> forall m, nth_error ns k = Some m -> (m <= n)%nat -> nth_error ns k = Some n).
  { intros k n a (F1 & F2 & F3) m M L. destruct (O _ _ M) as (b & B1 & B2). apply (OK _ _ _ B1) in B2. destruct (Nat.lt_ge_cases m n) as [LT|GE]; [specialize (F3 _ _ LT B1); lra|]. assert (m = n) by lia. congruence. }
  induction k as [|k IH]; intros n a L F.
  - pose proof F as (F1 & F2 & F3). destruct (C 0%nat n a L F1 (proj2 (OK _ _ _ F1) F2) (or_introl eq_refl)) as (m & M1 & M2). apply (D _ _ _ F m); assumption.
  - pose proof F as (F1 & F2 & F3). destruct (first_exists (nth k obs 0) steps n a F1) as (n' & a' & F' & LE); [pose proof (UP k (S k) ltac:(lia)); lra|].
    assert (E : nth_error ns k = Some n') by (apply (IH n' a'); [lia|exact F']). pose proof (AP k n' a' F' L) as T.
    assert (n' <> n). { intros ->. destruct F' as (G & _). assert (a = a') by congruence. subst. lra. }
    destruct (C (S k) n a L F1 (proj2 (OK _ _ _ F1) F2)) as (m & M1 & M2); [right; exists k, n'; split; [reflexivity|split; [exact E|lia]]|]. apply (D _ _ _ F m); assumption.
Qed.

(** * Files *)
Lemma files_from {A B} (ok : nat -> A -> bool) N (name : nat -> string) (f : A -> B) (run : nat -> list A -> list (string * B)) :
  (forall i, run i [] = []) -> (forall i a r, run i (a :: r) = if (i <? N)%nat && ok i a then (name i, f a) :: run (S i) r else run i r) ->
  forall steps i n, length (run i steps) = length (serve ok N i n steps) /\
    forall k m, nth_error (serve ok N i n steps) k = Some m -> exists a, nth_error steps (m - n) = Some a /\ nth_error (run i steps) k = Some (name (i + k)%nat, f a).
Proof.
  intros R0 R1. induction steps as [|a r IH]; intros i n; [rewrite R0; split; [reflexivity|intros [|k]; discriminate]|]. rewrite R1. cbn [serve].
  assert (T : forall i' k m, nth_error (serve ok N i' (S n) r) k = Some m -> exists a0, nth_error (a :: r) (m - n) = Some a0 /\ nth_error (run i' r) k = Some (name (i' + k)%nat, f a0)).
  { intros i' k m H. destruct (IH i' (S n)) as [_ H2]. destruct (H2 k m H) as (a0 & X & Y). exists a0. split; [|exact Y]. apply serve_ok in H. replace (m - n)%nat with (S (m - S n)) by lia. exact X. }
  destruct ((i <? N)%nat && ok i a).
  - split; [cbn [length]; f_equal; apply IH|]. intros [|k] m H; cbn [nth_error] in *.
    + injection H as <-. exists a. rewrite Nat.sub_diag, Nat.add_0_r. split; reflexivity.
    + replace (i + S k)%nat with (S i + k)%nat by lia. apply T. exact H.
  - split; [apply IH|intros k m; apply T].
Qed.
Lemma files_serve {A B} (ok : nat -> A -> bool) N (name : nat -> string) (f : A -> B) (run : nat -> list A -> list (string * B)) steps :
  (forall i, run i [] = []) -> (forall i a r, run i (a :: r) = if (i <? N)%nat && ok i a then (name i, f a) :: run (S i) r else run i r) ->
  files_of name f steps (serve ok N 0 0 steps) (run 0%nat steps).
Proof.
  intros R0 R1. destruct (files_from ok N name f run R0 R1 steps 0 0) as [L F]. split; [exact L|]. intros k n H. destruct (F k n H) as (a & X & Y). exists a. rewrite Nat.sub_0_r in X. auto.
Qed.

Lemma mp_files multiple cloud obs steps : exists ns,
  schedule (fun k a => nth k obs 0 <= fst a /\ live (snd a) <> []) (length obs) steps ns /\
  files_of (mp_state_name multiple cloud) (fun a => mp_content (fst a) (snd a)) steps ns (MP_state_run multiple cloud (Some (mkSnaps obs 0)) steps).
Proof.
  set (ok := fun k (a : R * mpsys) => (0 <? N_mp (snd a))%nat && Rgeb (fst a) (nth k obs 0)). exists (serve ok (length obs) 0 0 steps). split.
  - apply (schedule_impl (fun k a => ok k a = true)); [|apply serve_schedule]. intros k [t s]. unfold ok, Rgeb. cbn [fst snd]. rewrite andb_true_iff, Rleb_true, Nat.ltb_lt.
    unfold live. split.
    + intros [X Y]. split; [exact Y|]. intros E. apply map_eq_nil in E. destruct (N_mp s); [lia|discriminate].
    + intros [X Y]. split; [|exact X]. destruct (N_mp s); [contradiction Y; reflexivity|lia].
  - apply (files_serve ok (length obs) (mp_state_name multiple cloud) _ (fun i => MP_state_run multiple cloud (Some (mkSnaps obs i)))); [reflexivity|].
    intros i [t s] r. cbn [MP_state_run MP_state_save s_i s_obs fst snd]. unfold ok. cbn [fst snd]. destruct (0 <? N_mp s)%nat, (i <? length obs)%nat; cbn [andb]; try reflexivity.
    destruct (Rgeb t (nth i obs 0)); reflexivity.
Qed.
Lemma sim_files {D} obs (steps : list (R * D)) : exists ns,
  schedule (fun k a => nth k obs 0 <= fst a) (length obs) steps ns /\
  files_of sim_state_name snd steps ns (sim_state_run true (Some (mkSnaps obs 0)) steps).
Proof.
  set (ok := fun k (a : R * D) => Rgeb (fst a) (nth k obs 0)). exists (serve ok (length obs) 0 0 steps). split.
  - apply (schedule_impl (fun k a => ok k a = true)); [|apply serve_schedule]. intros k [t s]. unfold ok, Rgeb. apply Rleb_true.
  - apply (files_serve ok (length obs) sim_state_name _ (fun i => sim_state_run true (Some (mkSnaps obs i)))); [reflexivity|].
    intros i [t s] r. cbn [sim_state_run sim_state_save s_i s_obs fst snd]. unfold ok. cbn [fst snd]. destruct (i <? length obs)%nat; cbn [andb]; try reflexivity.
    destruct (Rgeb t (nth i obs 0)); reflexivity.
Qed.
Lemma sim_others {D} st : forall steps : list (R * D), sim_state_run false st steps = [].
Proof.
  intros steps. revert st. induction steps as [|[t d] r IH]; intros st; [reflexivity|]. cbn [sim_state_run]. unfold sim_state_save. destruct st as [sn|]; [|apply IH]. destruct (s_i sn <? _)%nat; [|apply IH]. destruct (Rgeb _ _); apply IH.
Qed.

Lemma content_holds t s : wf s -> holds_cloud (mp_content t s) t s.
Proof.
  intros W. assert (H : forall (a : list R) (g : mp -> R), (N_mp s <= length a)%nat -> (forall i, g (mp_at s i) = nth i a 0) -> slice_get a 0 (N_mp s) = map g (live s)).
  { intros a g L G. rewrite slice_get_0. unfold live. rewrite map_map. rewrite (map_ext _ _ G). clear G. revert a L. generalize (N_mp s) as n. induction n as [|n IH]; intros a L; [reflexivity|].
    destruct a as [|x a]; [cbn in L; lia|]. cbn [seq map firstn nth]. f_equal. rewrite <- seq_shift, map_map. apply IH. cbn in L. lia. }
  destruct W. unfold holds_cloud, mp_content. cbn [sv_t sv_N sv_x sv_y sv_z sv_vx sv_vy sv_vz sv_nel]. split; [reflexivity|]. split; [unfold live; rewrite map_length, seq_length; reflexivity|].
  unfold capacity in *. repeat split; apply H; try reflexivity; lia.
Qed.


(** * Names *)
Lemma snat_inj i j : snat i = snat j -> i = j.
Proof.
  unfold snat. intros H. apply (f_equal NilZero.uint_of_string) in H. rewrite !NilZero.usu in H by apply CkptFacts.to_uint_nn. injection H as H. rewrite <- (DecimalNat.Unsigned.of_to i), <- (DecimalNat.Unsigned.of_to j), H. reflexivity.
Qed.
Lemma tail_app c s x s' x' : Ckpt.has c x = false -> Ckpt.has c x' = false -> (s ++ String c x)%string = (s' ++ String c x')%string -> s = s' /\ x = x'.
Proof.
  intros X X' E. assert (x = x'). { apply (f_equal (Ckpt.after_last c)) in E. rewrite !CkptFacts.after_last_app in E by assumption. exact E. }
  subst x'. split; [|reflexivity]. revert s' E. induction s as [|a s IH]; intros [|b s'] E; auto.
  - exfalso. cbn [append] in E. injection E as _ E. apply (f_equal (Ckpt.has c)) in E. rewrite CkptFacts.has_app in E. cbn [Ckpt.has] in E. rewrite Ascii.eqb_refl, orb_true_r in E. congruence.
  - exfalso. cbn [append] in E. injection E as _ E. apply (f_equal (Ckpt.has c)) in E. rewrite CkptFacts.has_app in E. cbn [Ckpt.has] in E. rewrite Ascii.eqb_refl, orb_true_r in E. congruence.
  - cbn [append] in E. injection E as -> E. f_equal. apply IH. exact E.
Qed.
Lemma mp_names cloud cloud' i j : mp_state_name true cloud i = mp_state_name true cloud' j -> cloud = cloud' /\ i = j.
Proof.
  unfold mp_state_name. intros E. assert (N : forall k, Ckpt.has "_" (snat k) = false) by (intros k; apply CkptFacts.number_has; reflexivity).
  apply CkptFacts.app_inj_s in E. apply tail_app in E; auto. destruct E as [E1 E2]. split; [exact E1|]. apply snat_inj. exact E2.
Qed.
Lemma mp_name i j cloud : mp_state_name false cloud i = mp_state_name false cloud j -> i = j.
Proof. unfold mp_state_name. intros E. apply CkptFacts.app_inj_s in E. apply snat_inj. exact E. Qed.

(** * Videos *)
Lemma video_state {F} steps : forall st : option (list R * list F), no_new steps ->
  fold_left (fun s v => fst (video_save s v)) steps st =
  match steps, st with [], _ => st | _, None => Some (map v_t (taken steps), map v_pic (taken steps)) | _, Some (ts, ps) => Some (ts ++ map v_t (taken steps), ps ++ map v_pic (taken steps)) end.
Proof.
  induction steps as [|v r IH]; intros st H; [reflexivity|]. cbn [fold_left]. assert (Hr : no_new r) by (intros w W; apply H; right; exact W). rewrite IH by exact Hr.
  assert (V : v_new v = false) by (apply H; left; reflexivity). unfold video_save. rewrite V. unfold taken. cbn [filter].
  destruct st as [[ts ps]|]; destruct (v_check v); cbn [fst map]; destruct r as [|v' r']; cbn [filter map]; rewrite <- ?app_assoc, ?app_nil_r; reflexivity.
Qed.
Lemma video_run_app {F} a : forall (st : option (list R * list F)) b, video_run st (a ++ b) = video_run st a ++ video_run (fold_left (fun s v => fst (video_save s v)) a st) b.
Proof.
  induction a as [|v a IH]; intros st b; [reflexivity|]. cbn [video_run app fold_left]. destruct (video_save st v) as [st' out]. cbn [fst app]. rewrite IH. reflexivity.
Qed.
Lemma video_run_len {F} a : forall (st : option (list R * list F)), length (video_run st a) = length a.
Proof. induction a as [|v a IH]; intros st; [reflexivity|]. cbn [video_run]. destruct (video_save st v). cbn [length]. rewrite IH. reflexivity. Qed.
Lemma new_clears {F} (st : option (list R * list F)) a : ends_new a -> let st' := fold_left (fun s v => fst (video_save s v)) a st in a = [] /\ st' = st \/ st' = Some ([], []).
Proof.
  intros [->|(b & v & -> & V)]; [left; auto|right]. rewrite fold_left_app. cbn [fold_left]. unfold video_save. destruct (fold_left _ b st) as [[ts ps]|]; destruct (v_check v); rewrite V; reflexivity.
Qed.
Lemma video_file {F} (pre mid post : list (vstep F)) v : ends_new pre -> no_new mid -> v_new v = true ->
  nth_error (video_run None (pre ++ mid ++ v :: post)) (length pre + length mid) =
  Some [mkVfile (v_pass v - 1) (map v_t (taken (mid ++ [v]))) (map v_pic (taken (mid ++ [v])))].
Proof.
  intros E N V. rewrite app_assoc. rewrite video_run_app. rewrite nth_error_app2 by (rewrite video_run_len, app_length; lia). rewrite video_run_len, app_length, Nat.sub_diag.
  rewrite fold_left_app. cbn [video_run]. set (st := fold_left _ pre None). assert (S : st = None \/ st = Some ([], [])).
  { destruct (new_clears None pre E) as [[_ H]|H]; [left; exact H|right; exact H]. }
  rewrite video_state by exact N. unfold taken. rewrite filter_app, !map_app. cbn [filter]. unfold video_save. rewrite V.
  destruct S as [-> | ->]; destruct mid as [|m mid]; destruct (v_check v); cbn [filter map app nth_error]; rewrite ?app_nil_r; reflexivity.
Qed.
Lemma video_none {F} (steps : list (vstep F)) n v : nth_error steps n = Some v -> v_new v = false -> forall st, nth_error (video_run st steps) n = Some [].
Proof.
  revert n. induction steps as [|w r IH]; intros n E V st; [destruct n; discriminate|]. cbn [video_run]. destruct (video_save st w) as [st' out] eqn:S. destruct n as [|n].
  - cbn in E. injection E as ->. unfold video_save in S. rewrite V in S. cbn [nth_error]. destruct st as [[ts ps]|], (v_check v); injection S as _ <-; reflexivity.
  - cbn [nth_error]. apply IH; assumption.
Qed.

(** The video of one cloud whose density is known at every picture. *)
Lemma cloud_video_is {F} (steps : list (vstep F)) : forall st, cloud_video_run st (map (fun v => mkVstep (v_check v) (v_t v) (v_new v) (v_pass v) (Some (v_pic v))) steps) = video_run st steps.
Proof.
  induction steps as [|v r IH]; intros st; [reflexivity|]. cbn [map cloud_video_run video_run]. unfold cloud_video_save, video_save. cbn [v_check v_t v_new v_pass v_pic].
  destruct st as [[ts ps]|]; destruct (v_check v); destruct (v_new v); rewrite IH; reflexivity.
Qed.

(** Folders. *)
Lemma there_made ds p : dir_there (collapse p :: ds) p = true.
Proof. unfold dir_there. cbn [existsb]. rewrite String.eqb_refl. reflexivity. Qed.
Lemma video_folders folder kind n ds : exists ds', steps_folder (fun ds => video_folder ds folder kind) n ds = Some ds' /\ (n <> 0%nat -> dir_there ds' (folder ++ "/" ++ kind) = true).
Proof.
  assert (T : forall n ds, dir_there ds (folder ++ "/" ++ kind) = true -> steps_folder (fun ds => video_folder ds folder kind) n ds = Some ds).
  { induction n0 as [|m IH]; intros d D; [reflexivity|]. cbn [steps_folder]. unfold video_folder at 1. rewrite D. cbn [bind]. apply IH. exact D. }
  destruct n as [|n]; [exists ds; split; [reflexivity|congruence]|]. cbn [steps_folder]. unfold video_folder at 1. destruct (dir_there ds _) eqn:D; cbn [bind].
  - exists ds. split; [apply T; exact D|intros _; exact D].
  - unfold makedirs. rewrite D. cbn [bind]. eexists. split; [apply T; apply there_made|intros _; apply there_made].
Qed.
(** A folder name that ends with a slash. *)
Lemma collapse_slash a b : collapse ((a ++ "/") ++ "/" ++ b) = collapse ((a ++ "/") ++ b).
Proof.
  rewrite CkptFacts.app_assoc_s. change ("/" ++ "/" ++ b)%string with (String "/" (String "/" b)). rewrite CkptFacts.app_assoc_s. change ("/" ++ b)%string with (String "/" b).
  induction a as [|c a IH]; [reflexivity|]. cbn [append]. destruct (Ascii.eqb c "/") eqn:E.
  - apply Ascii.eqb_eq in E. subst c. destruct a as [|c' a]; [reflexivity|]. cbn [append] in *. destruct (Ascii.eqb c' "/") eqn:E'.
    + apply Ascii.eqb_eq in E'. subst c'. exact IH.
    + assert (G : forall x y, Ascii.eqb x "/" = false -> collapse (String "/" (String x y)) = String "/" (collapse (String x y))).
      { intros x y X. destruct x as [[] [] [] [] [] [] [] []]; try reflexivity; discriminate. }
      rewrite !(G c') by exact E'. f_equal. exact IH.
  - assert (G : forall y, collapse (String c y) = String c (collapse y)). { intros y. destruct c as [[] [] [] [] [] [] [] []]; try reflexivity; discriminate. }
    rewrite !G. f_equal. exact IH.
Qed.
Lemma cloud_folder_slash a cloud ds : let folder := (a ++ "/")%string in cloud_video_folder ds folder cloud = video_folder ds folder ("rho_video_" ++ cloud).
Proof.
  cbv zeta. unfold cloud_video_folder, video_folder. change ("/rho_video_" ++ cloud)%string with ("/" ++ ("rho_video_" ++ cloud))%string.
  set (b := ("rho_video_" ++ cloud)%string). destruct (dir_there ds _); [reflexivity|]. unfold makedirs, dir_there. rewrite (collapse_slash a b). reflexivity.
Qed.

(** * End of a passage *)
Lemma clouds_go w every clouds pass N : p_stop w = false -> clouds_end w every clouds pass N = (flat_map (fun c => fst (pass_end w every c pass N)) clouds, true).
Proof.
  intros S. induction clouds as [|c r IH]; [reflexivity|]. cbn [clouds_end flat_map]. unfold pass_end at 1. cbn [log_progress_stop]. unfold log_progress_stop. rewrite S. cbn [negb]. rewrite IH. reflexivity.
Qed.
Lemma clouds_stop w every c r pass N : p_stop w = true -> clouds_end w every (c :: r) pass N = (fst (pass_end w every c pass N), false).
Proof. intros S. cbn [clouds_end]. unfold pass_end at 1, log_progress_stop. rewrite S. reflexivity. Qed.
Lemma passes_go every N clouds steps : (forall new pass w, In (new, pass, w) steps -> new = true -> p_stop w = false) ->
  passes every N clouds steps = (map (fun q => let '(new, pass, w) := q in if (new : bool) then flat_map (fun c => fst (pass_end w every c pass N)) clouds else []) steps, true).
Proof.
  induction steps as [|[[new pass] w] r IH]; intros H; [reflexivity|]. cbn [passes map]. assert (Hr : forall n p v, In (n, p, v) r -> n = true -> p_stop v = false) by (intros; eapply H; [right; eassumption|assumption]).
  destruct new; [rewrite clouds_go by (apply (H true pass w); [left; reflexivity|reflexivity])|]; rewrite IH by exact Hr; reflexivity.
Qed.
Lemma passes_stop every N c clouds pre pass w post : (forall new pass w, In (new, pass, w) pre -> new = true -> p_stop w = false) -> p_stop w = true ->
  exists evs, passes every N (c :: clouds) pre = (evs, true) /\ passes every N (c :: clouds) (pre ++ (true, pass, w) :: post) = (evs ++ [fst (pass_end w every c pass N)], false).
Proof.
  intros H S. eexists. split; [apply passes_go; exact H|]. revert H. induction pre as [|[[new p] v] r IH]; intros H.
  - cbn [app passes map]. rewrite clouds_stop by exact S. reflexivity.
  - cbn [app passes map]. assert (Hr : forall n p v, In (n, p, v) r -> n = true -> p_stop v = false) by (intros; eapply H; [right; eassumption|assumption]).
    destruct new; [rewrite clouds_go by (apply (H true p v); [left; reflexivity|reflexivity])|]; rewrite IH by exact Hr; reflexivity.
Qed.

(** * Settings and cases *)
Lemma mp_init_asked v l : asked v l -> (forall x, l = [x] -> v = TList l) -> l <> [] -> MP_state_init v = Some (Some (mkSnaps l 0)).
Proof.
  intros [->| ->] N E; destruct l as [|a [|b l]]; try reflexivity; try contradiction. specialize (N a eq_refl). discriminate.
Qed.
Lemma states_saved multiple cloud v l st steps : asked v l -> MP_state_init v = Some (Some st) -> (forall t s, In (t, s) steps -> wf s) ->
  let files := MP_state_run multiple cloud (Some st) steps in
  exists ns, schedule (fun k a => nth k l 0 <= fst a /\ live (snd a) <> []) (length l) steps ns /\ length files = length ns /\
    forall k n, nth_error ns k = Some n -> exists t s f, nth_error steps n = Some (t, s) /\ nth_error files k = Some (mp_state_name multiple cloud k, f) /\ holds_cloud f t s.
Proof.
  intros A I W. assert (E : st = mkSnaps l 0). { destruct A as [->| ->]; destruct l as [|a [|b l]]; cbn in I; try discriminate; injection I as <-; reflexivity. }
  subst st. cbv zeta. destruct (mp_files multiple cloud l steps) as (ns & S & L & F). exists ns. split; [exact S|]. split; [exact L|]. intros k n H. destruct (F k n H) as ([t s] & X & Y).
  exists t, s, (mp_content t s). split; [exact X|]. split; [exact Y|]. apply content_holds. apply (W t s). eapply nth_error_In. exact X.
Qed.
Lemma states_on_time multiple cloud v l st steps k n t s : asked v l -> MP_state_init v = Some (Some st) -> (forall t s, In (t, s) steps -> wf s /\ live s <> []) ->
  apart l steps -> (forall i j, (i <= j < length l)%nat -> nth i l 0 <= nth j l 0) -> (k < length l)%nat -> first_at (nth k l 0) steps n (t, s) ->
  exists f, nth_error (MP_state_run multiple cloud (Some st) steps) k = Some (mp_state_name multiple cloud k, f) /\ holds_cloud f t s.
Proof.
  intros A I W AP UP K F. destruct (states_saved multiple cloud v l st steps A I) as (ns & S & _ & Q); [intros; eapply W; eassumption|].
  assert (E : nth_error ns k = Some n).
  { refine (schedule_on_time l steps (fun k a => nth k l 0 <= fst a /\ live (snd a) <> []) ns _ AP UP S k n (t, s) K F). intros j m [t' s'] H. cbn [fst snd]. split; [tauto|]. intros L. split; [exact L|]. apply (W t' s'). eapply nth_error_In. exact H. }
  destruct (Q k n E) as (t' & s' & f & X & Y & Z). destruct F as (F1 & _). rewrite F1 in X. injection X as <- <-. exists f. auto.
Qed.
Lemma sims_saved {D} v l st (steps : list (R * D)) : asked v l -> sim_state_init v = Some (Some st) ->
  let files := sim_state_run true (Some st) steps in
  exists ns, schedule (fun k a => nth k l 0 <= fst a) (length l) steps ns /\ files_of sim_state_name snd steps ns files.
Proof.
  intros A I. assert (E : st = mkSnaps l 0). { destruct A as [->| ->]; destruct l as [|a [|b l]]; cbn in I; try discriminate; injection I as <-; reflexivity. }
  subst st. apply sim_files.
Qed.
