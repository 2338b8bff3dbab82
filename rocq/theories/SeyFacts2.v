(** Facts about [impacts_on_surface]: splitting and velocities. *)
From Coq Require Import Lra Lia Reals Psatz.
From Verif Require Import Num NumFacts Sey SpecSey SeyFacts.

Lemma mask_put_map {A B} (f : A -> B) m a v : mask_put m (map f a) (map f v) = map f (mask_put m a v).
Proof.
  revert a v. induction m as [|b m IH]; intros [|x a] v; cbn; auto. destruct b.
  - destruct v as [|y v]; cbn; f_equal; [apply (IH a [])|apply IH].
  - cbn. f_equal. apply IH.
Qed.

Lemma mask_put_view {X A B} (g : X -> bool) (a : X -> A) (h : X -> B) f l :
  mask_put (map g l) (map a l) (map f (mask_get (map g l) (map h l))) =
  map (fun x => if g x then f (h x) else a x) l.
Proof. induction l as [|x l IH]; cbn; auto. destruct (g x) eqn:G; cbn; f_equal; auto. Qed.

Lemma mask_put_rel {X A} (P : X -> A -> Prop) (g : X -> bool) (a : X -> A) l v :
  Forall2 P (mask_get (map g l) l) v ->
  Forall2 (fun x w => if g x then P x w else w = a x) l (mask_put (map g l) (map a l) v).
Proof.
  revert v. induction l as [|x l IH]; intros v H; cbn; [constructor|]. cbn in H. destruct (g x) eqn:G.
  - inversion H; subst. constructor; [rewrite G; auto|apply IH; auto].
  - constructor; [rewrite G; auto|apply IH; auto].
Qed.

Lemma mask_get_map_l {X A} (g : X -> bool) (h : X -> A) l :
  mask_get (map g l) (map h l) = map h (mask_get (map g l) l).
Proof. apply mask_get_map. Qed.

Lemma count_get {X} (g : X -> bool) l : count_true (map g l) = length (mask_get (map g l) l).
Proof. induction l as [|x l IH]; auto. unfold count_true in *. cbn. destruct (g x); cbn; rewrite <- IH; reflexivity. Qed.

(** * Energies *)
Lemma above_none lim en : count_true (above lim en) = 0%nat -> length lim = length en ->
  Forall2 (fun l e => match l with Some m => e <= m | None => True end) lim en.
Proof.
  revert en. induction lim as [|l lim IH]; intros [|e en] H HL; cbn in *; try discriminate; [constructor|].
  destruct l as [m|]; [destruct (Rgtb e m) eqn:G; [discriminate|]|]; constructor; auto.
  apply Rgtb_false in G. auto.
Qed.

Lemma mask_put_Forall {A} (P : A -> Prop) m a v : Forall P a -> Forall P v -> Forall P (mask_put m a v).
Proof.
  revert a v. induction m as [|b m IH]; intros [|x a] v Ha Hv; cbn; auto. inversion Ha; subst. destruct b.
  - destruct v as [|y v]; [constructor; auto|]. inversion Hv; subst. constructor; auto.
  - constructor; auto.
Qed.

Lemma draw_Forall (P : R -> Prop) f k n : (forall j, P (f j)) -> Forall P (draw f k n).
Proof. intros H. unfold draw. rewrite Forall_map. apply Forall_forall. auto. Qed.

Lemma redraw_ok fuel sr k lim en r k' : src_ok sr -> redraw fuel sr k lim en = Some (r, k') ->
  length lim = length en -> Forall (fun e => 0 <= e) en ->
  length r = length en /\ Forall (fun e => 0 <= e) r /\
  Forall2 (fun l e => match l with Some m => e <= m | None => True end) lim r.
Proof.
  intros [_ Hs]. revert k en. induction fuel as [|f IH]; intros k en H HL Hp; cbn in H;
    destruct (Nat.eqb (count_true (above lim en)) 0) eqn:Q; try discriminate.
  - injection H as <- <-. apply Nat.eqb_eq in Q. split; [auto|]. split; auto. apply above_none; auto.
  - injection H as <- <-. apply Nat.eqb_eq in Q. split; [auto|]. split; auto. apply above_none; auto.
  - apply IH in H.
    + rewrite mask_put_length in H. auto.
    + rewrite mask_put_length. auto.
    + apply mask_put_Forall; auto. apply draw_Forall. auto.
Qed.

Lemma Forall2_nth {A B} (P : A -> B -> Prop) a b : length a = length b ->
  (forall i x y, nth_error a i = Some x -> nth_error b i = Some y -> P x y) -> Forall2 P a b.
Proof.
  revert b. induction a as [|x a IH]; intros [|y b] HL H; try discriminate; [constructor|]. constructor.
  - apply (H 0%nat); reflexivity.
  - apply IH; [cbn in HL; lia|]. intros i. apply (H (S i)).
Qed.

Lemma Forall2_impl2 {A B} (P Q : A -> B -> Prop) a b :
  (forall x y, In x a -> P x y -> Q x y) -> Forall2 P a b -> Forall2 Q a b.
Proof.
  intros H F. induction F; constructor.
  - apply H; auto. left. auto.
  - apply IHF. intros. apply H; auto. right. auto.
Qed.

Lemma Forall2_and {A B} (P Q : A -> B -> Prop) a b :
  Forall2 P a b -> Forall2 Q a b -> Forall2 (fun x y => P x y /\ Q x y) a b.
Proof. intros F. induction F; intros G; inversion G; subst; constructor; auto. Qed.

Lemma Forall2_right {A B} (P : B -> Prop) (a : list A) b : length a = length b ->
  Forall P b -> Forall2 (fun _ y => P y) a b.
Proof.
  revert b. induction a as [|x a IH]; intros [|y b] HL H; try discriminate; [constructor|].
  inversion H; subst. constructor; auto.
Qed.

Lemma low_energies (low : list bool) Es us : Forall (fun u => 0 <= u < 1) us ->
  Forall2 (fun (E y : R) => 0 <= E -> 0 <= y <= E) (mask_get low Es)
    (map2 (fun E u => E * sqrt u) (mask_get low Es) us) \/ (length us < length (mask_get low Es))%nat.
Proof.
  generalize (mask_get low Es). intros l Hu. revert us Hu. induction l as [|E l IH]; intros us Hu; cbn; [left; constructor|].
  destruct us as [|u us]; cbn; [right; lia|]. inversion Hu; subst. destruct (IH us H2) as [G|G]; [left|right; lia].
  constructor; auto. intros HE. assert (0 <= sqrt u) by apply sqrt_pos.
  assert (sqrt u <= 1) by (rewrite <- sqrt_1; apply sqrt_le_1_alt; lra). split; [apply Rmult_le_pos; auto|]. nra.
Qed.

Lemma energies_ok sw fuel sr k n Eth Es thl en k' (c : ecfg) : src_ok sr -> c_switch c = sw -> c_Eth c = Eth -> c_thlow c = thl ->
  length Es = n -> Forall (fun E => 0 <= E) Es ->
  sec_energy_hilleret_model2 sw fuel sr k n Eth Es thl = Some (en, k') ->
  Forall2 (energy_ok c) Es en.
Proof.
  intros Hs H1 H2 H3 Hn HE H. unfold sec_energy_hilleret_model2 in H.
  destruct (sw =? 0)%Z eqn:S0; [|destruct (sw =? 2)%Z eqn:S2; [|discriminate]].
  - apply Z.eqb_eq in S0. apply redraw_ok in H; auto.
    + destruct H as (L & P & F). rewrite draw_length in L. apply Forall2_nth; [lia|]. intros i x y Hx Hy.
      rewrite Forall_forall in P. pose proof (P y ltac:(eapply nth_error_In; eauto)) as Py.
      split; auto. left. split; [congruence|].
      assert (G : exists l, nth_error (repeat (Some Eth) n) i = Some l /\ (match l with Some m => y <= m | None => True end)).
      { clear - F Hy. revert i Hy. induction F; intros [|i] Hy; cbn in *; try discriminate.
        - injection Hy as ->. eauto.
        - apply IHF. auto. }
      destruct G as (l & G1 & G2). apply nth_error_In in G1. apply repeat_spec in G1. subst l. lra.
    + rewrite repeat_length, draw_length. auto.
    + apply draw_Forall. apply Hs.
  - apply Z.eqb_eq in S2. unfold bind in H. destruct (redraw _ _ _ _ _) as [[r k1]|] eqn:RD; [|discriminate].
    injection H as <- <-. apply redraw_ok in RD; auto.
    2:{ rewrite map2_length, !map_length, draw_length. lia. }
    2:{ apply draw_Forall. apply Hs. }
    destruct RD as (L & P & F). rewrite draw_length in L.
    set (low := fun E => Rltb E thl) in *.
    destruct (low_energies (map low Es) Es (draw (s_uni sr) k1 (count_true (map low Es)))) as [G|G].
    { apply draw_Forall. apply Hs. }
    2:{ rewrite draw_length, count_get in G. lia. }
    set (v := map2 (fun E u : R => E * sqrt u) _ _) in *.
    (* view the energies as a relation with Es *)
    assert (F2 : Forall2 (fun E e => 0 <= e /\ (low E = false -> e <= (if Rgtb E Eth then Eth else E))) Es r).
    { apply Forall2_and; [apply Forall2_right; auto; lia|].
      clear - F. revert r F. induction Es as [|E Es IH]; intros r F; cbn in F; inversion F; subst; constructor.
      - destruct (low E); auto. intros; discriminate.
      - apply IH. auto. }
    clear F P. revert HE r L F2 G. generalize v. clear v. subst n. 
    induction Es as [|E Es IH]; intros v HE r L F2 G; inversion F2; subst; [constructor|].
    inversion HE; subst. cbn in G. cbn [map mask_put]. destruct (low E) eqn:LE.
    + inversion G; subst. constructor.
      * match goal with h : 0 <= E -> 0 <= _ <= E |- _ => specialize (h ltac:(auto)) end. unfold low in LE. apply Rltb_true in LE. split; [lra|]. right. split; [auto|]. split; [lra|]. intros; lra.
      * apply IH; auto.
    + constructor.
      * match goal with h : 0 <= _ /\ (_ -> _) |- _ => destruct h as [P1 P2] end. specialize (P2 eq_refl). unfold low in LE. apply Rltb_false in LE. split; auto. right. split; auto.
        destruct (Rgtb E (c_Eth c)) eqn:GG; [apply Rgtb_true in GG|apply Rgtb_false in GG]; split; try intros; lra.
      * apply IH; auto.
Qed.

(** * Velocities *)
Lemma angle_ok {X} (fE fnx fny : X -> R) (l : list X) (P : X -> R -> Prop) d c sr k en :
  src_ok sr -> 0 < c_qe c -> 0 < c_mass c ->
  (forall x, In x l -> fnx x * fnx x + fny x * fny x = 1) ->
  Forall2 (energy_ok c) (map fE l) en ->
  Forall2 (fun x v => leaves c (fE x) (fnx x) (fny x) v) l
    (fst (angle_dist_func d (c_qe c) (c_mass c) sr k (length l) en (map fnx l) (map fny l))).
Proof.
  intros Hs Hq Hm Hn HE. unfold angle_dist_func.
  assert (V : forall x e st phi, In x l -> energy_ok c (fE x) e -> 0 <= st <= 1 ->
    leaves c (fE x) (fnx x) (fny x) (vel_angle (c_qe c) (c_mass c) e (fnx x) (fny x) st phi)).
  { intros x e st phi Hx He Hst. 
    pose proof (vel_angle_ok (c_qe c) (c_mass c) e (fnx x) (fny x) st phi Hq Hm (proj1 He) (Hn x Hx) Hst) as K.
    unfold leaves. destruct (vel_angle _ _ _ _ _ _ _) as [[vx vy] vz]. destruct K as [-> K]. auto. }
  assert (VN : forall x e, In x l -> energy_ok c (fE x) e ->
    leaves c (fE x) (fnx x) (fny x) (vel_normal (c_qe c) (c_mass c) e (fnx x) (fny x))).
  { intros x e Hx He. 
    pose proof (vel_normal_ok (c_qe c) (c_mass c) e (fnx x) (fny x) Hq Hm (proj1 He) (Hn x Hx)) as K.
    unfold leaves. destruct (vel_normal _ _ _ _ _) as [[vx vy] vz]. destruct K as [-> K]. auto. }
  assert (SQ : forall u, 0 <= u < 1 -> 0 <= sqrt u <= 1).
  { intros u Hu. split; [apply sqrt_pos|]. rewrite <- sqrt_1. apply sqrt_le_1_alt. lra. }
  assert (GEN : forall st phi, length st = length l -> length phi = length l -> Forall (fun s => 0 <= s <= 1) st ->
    Forall2 (fun x v => leaves c (fE x) (fnx x) (fny x) v) l
     (map2 (fun '(e, (a, b)) '(s, p) => vel_angle (c_qe c) (c_mass c) e a b s p)
        (combine en (combine (map fnx l) (map fny l))) (combine st phi))).
  { clear Hn VN SQ. revert en HE. induction l as [|x l IH]; intros en HE st phi L1 L2 F; cbn in HE; inversion HE; subst; [constructor|].
    destruct st as [|s st]; [discriminate|]. destruct phi as [|p phi]; [discriminate|]. inversion F; subst. cbn. constructor.
    - apply V; auto. left. auto.
    - apply IH; auto. intros. apply V; auto. right. auto. }
  destruct d; cbn [fst].
  - apply GEN; try (rewrite !map_length, ?draw_length, ?seq_length; auto; fail).
    + rewrite Forall_map. apply draw_Forall. intros. apply SQ. apply Hs.
  - apply GEN; try (rewrite ?map_length, ?draw_length; auto; fail).
    apply draw_Forall. intros j. pose proof (proj1 Hs j). lra.
  - clear V GEN Hn. revert en HE. induction l as [|x l IH]; intros en HE; cbn in HE; inversion HE; subst; [constructor|].
    cbn. constructor; [apply VN; auto; left; auto|]. apply IH; auto. intros. apply VN; auto. right. auto.
Qed.

Lemma gen_vel_ok {X} (fE fnx fny : X -> R) (l : list X) c sr k n vel k' :
  src_ok sr -> 0 < c_qe c -> 0 < c_mass c -> n = length l ->
  (forall x, In x l -> fnx x * fnx x + fny x * fny x = 1) -> (forall x, In x l -> 0 <= fE x) ->
  gen_vel c sr k n (map fE l) (map fnx l) (map fny l) = Some (vel, k') ->
  Forall2 (fun x v => leaves c (fE x) (fnx x) (fny x) v) l vel.
Proof.
  intros Hs Hq Hm -> Hn HE H. unfold gen_vel, bind in H.
  destruct (sec_energy_hilleret_model2 _ _ _ _ _ _ _ _) as [[en k1]|] eqn:EN; [|discriminate].
  destruct (c_angle c) as [d|]; [|discriminate]. injection H as H.
  replace vel with (fst (vel, k')) by auto. rewrite <- H. apply (angle_ok fE fnx fny l (fun _ _ => True)); auto.
  eapply energies_ok; try exact EN; auto; [apply map_length|]. rewrite Forall_map. apply Forall_forall. auto.
Qed.

(** * The emission step *)
Definition ncl (th : R) (x : imp * (R * bool)) : nat :=
  if snd (snd x) then 0%nat else n_clones (fst (snd x)) th.
Definition nelr (th : R) (x : imp * (R * bool)) : R :=
  if snd (snd x) then fst (snd x) else fst (snd x) / (INR (n_clones (fst (snd x)) th) + 1).
Definition vel0 (x : imp * (R * bool)) : R * R * R :=
  let p := fst x in
  if snd (snd x) then (i_vx p - 2 * i_vn p * i_nx p, i_vy p - 2 * i_vn p * i_ny p, i_vz p)
  else (i_vx p, i_vy p, i_vz p).
Definition typ (x : imp * (R * bool)) : nat := if snd (snd x) then 0%nat else 1%nat.

Lemma repeat_each_nil {A} (a : list A) c : nsum c = 0%nat -> repeat_each a c = [].
Proof.
  revert a. induction c as [|n c IH]; intros [|x a] H; cbn in *; auto.
  assert (n = 0)%nat by lia. subst. cbn. apply IH. auto.
Qed.

(** Elementwise form of [emit_surface]. *)
Lemma emit_view_gen c th fs sr k (l : list (imp * (R * bool))) e k' (P : imp -> R * R * R -> Prop) :
  (forall k l' vel k', (forall x, In x l' -> In x l) ->
    gen_vel c sr k (length l') (map (fun x => i_E (fst x)) l') (map (fun x => i_nx (fst x)) l') (map (fun x => i_ny (fst x)) l')
      = Some (vel, k') -> Forall2 (fun x v => P (fst x) v) l' vel) ->
  emit_surface c th fs sr k (map fst l) (map snd l) = Some (e, k') ->
  let parents := repeat_each (map fst l) (map (ncl th) l) in
  o_tot e = map (fun x => fst (snd x)) l /\ o_type e = map typ l /\
  o_ext e = o_type e ++ repeat_each (o_type e) (map (ncl th) l) /\
  o_nel e = map (nelr th) l /\
  o_x e = map i_x (map fst l) /\ o_y e = map i_y (map fst l) /\ o_z e = map i_z (map fst l) /\
  o_seg e = map i_seg (map fst l) /\
  n_nel e = repeat_each (o_nel e) (map (ncl th) l) /\
  n_x e = map i_x parents /\ n_y e = map i_y parents /\ n_z e = map i_z parents /\
  (fs = true -> n_seg e = map i_seg parents) /\
  (exists W, o_vx e = map fst3 W /\ o_vy e = map snd3 W /\ o_vz e = map thd3 W /\
     Forall2 (fun x w => if negb (snd (snd x)) then P (fst x) w
                         else w = vel0 x) l W) /\
  (exists V, n_vx e = map fst3 V /\ n_vy e = map snd3 V /\ n_vz e = map thd3 V /\
     Forall2 P parents V).
Proof.
  intros HG H parents. unfold emit_surface in H. rewrite !map_map in H.
  set (ts := fun x : imp * (R * bool) => negb (snd (snd x))) in *.
  change (map (fun x => negb (snd (snd x))) l) with (map ts l) in H.
  set (el := fun x : imp * (R * bool) => snd (snd x)) in *.
  change (map (fun x => snd (snd x)) l) with (map el l) in H.
  rewrite !mask_get_map_l in H. rewrite !map_map in H.
  cbv zeta in H.
  assert (E1 : forall (f : imp -> R * R), mask_set (map el l) (map (fun x => i_vx (fst x)) l)
     (map fst (map (fun x => f (fst x)) (mask_get (map el l) l))) = Some (map (fun x => if el x then fst (f (fst x)) else i_vx (fst x)) l)).
  { intros f. rewrite mask_set_exact by (rewrite !map_length, count_get; auto). f_equal. rewrite map_map.
    replace (map (fun x => fst (f (fst x))) (mask_get (map el l) l)) with (map (fun x => fst (f (fst x))) (mask_get (map el l) (map (fun x => x) l))) by (rewrite map_id; auto).
    rewrite (mask_put_view el (fun x => i_vx (fst x)) (fun x => x)). auto. }
  assert (E2 : forall (f : imp -> R * R), mask_set (map el l) (map (fun x => i_vy (fst x)) l)
     (map snd (map (fun x => f (fst x)) (mask_get (map el l) l))) = Some (map (fun x => if el x then snd (f (fst x)) else i_vy (fst x)) l)).
  { intros f. rewrite mask_set_exact by (rewrite !map_length, count_get; auto). f_equal. rewrite map_map.
    replace (map (fun x => snd (f (fst x))) (mask_get (map el l) l)) with (map (fun x => snd (f (fst x))) (mask_get (map el l) (map (fun x => x) l))) by (rewrite map_id; auto).
    rewrite (mask_put_view el (fun x => i_vy (fst x)) (fun x => x)). auto. }
  match type of H with context [mask_set (map el l) ?a ?v] =>
    pose proof (E1 (fun p => specular_velocity (i_vx p) (i_vy p) (i_nx p) (i_ny p) (i_vn p))) as E1'
  end.
  pose proof (E2 (fun p => specular_velocity (i_vx p) (i_vy p) (i_nx p) (i_ny p) (i_vn p))) as E2'.
  rewrite map_map in E1', E2'. rewrite E1', E2' in H. clear E1 E2 E1' E2'. cbn [bind] in H.
  set (W0 := map vel0 l).
  assert (WX : map (fun x => if el x then fst (specular_velocity (i_vx (fst x)) (i_vy (fst x)) (i_nx (fst x)) (i_ny (fst x)) (i_vn (fst x))) else i_vx (fst x)) l = map fst3 W0).
  { unfold W0. rewrite map_map. apply map_ext. intros [p [q b]]. unfold el, vel0. cbn. destruct b; auto. }
  assert (WY : map (fun x => if el x then snd (specular_velocity (i_vx (fst x)) (i_vy (fst x)) (i_nx (fst x)) (i_ny (fst x)) (i_vn (fst x))) else i_vy (fst x)) l = map snd3 W0).
  { unfold W0. rewrite map_map. apply map_ext. intros [p [q b]]. unfold el, vel0. cbn. destruct b; auto. }
  assert (WZ : map (fun x : imp * (R * bool) => i_vz (fst x)) l = map thd3 W0).
  { unfold W0. rewrite map_map. apply map_ext. intros [p [q b]]. unfold vel0. cbn. destruct b; auto. }
  rewrite WX, WY, WZ in H. clear WX WY WZ.
  assert (TY : map (fun x : imp * (R * bool) => if negb (snd (snd x)) then 1%nat else 0%nat) l = map typ l).
  { apply map_ext. intros [p [q b]]. unfold typ. cbn. destruct b; auto. }
  rewrite TY in H.
  destruct (Nat.eqb (count_true (map ts l)) 0) eqn:N0.
  { apply Nat.eqb_eq in N0. injection H as <- <-. cbn [o_tot o_type o_ext o_nel o_x o_y o_z o_seg n_nel n_x n_y n_z n_seg o_vx o_vy o_vz n_vx n_vy n_vz].
    assert (AL : forall x, In x l -> snd (snd x) = true).
    { clear - N0. induction l as [|a l IH]; intros x Hx; [destruct Hx|]; destruct Hx as [<-|Hx]; cbn in N0; unfold ts in N0; destruct (snd (snd a)) eqn:Q; cbn in N0; try discriminate; auto. }
    assert (C0 : map (ncl th) l = map (fun _ => 0%nat) l).
    { apply map_ext_in. intros x Hx. unfold ncl. rewrite (AL x Hx). auto. }
    assert (RE : forall {A} (a : list A), repeat_each a (map (ncl th) l) = []).
    { intros A a. rewrite C0. clear. revert a. induction l; intros [|? ?]; cbn; auto. }
    unfold parents. rewrite !RE. rewrite !map_map. repeat split; auto.
    - symmetry. apply app_nil_r.
    - apply map_ext_in. intros x Hx. unfold nelr. rewrite (AL x Hx). auto.
    - exists W0. repeat split; auto. unfold W0. clear - AL. induction l as [|a l IH]; [constructor|]. cbn. constructor.
      + rewrite (AL a) by (left; auto). reflexivity.
      + apply IH. intros. apply AL. right. auto.
    - exists []. repeat split; auto. }
  rewrite (mask_put_view ts (fun x => 0%nat) (fun x => fst (snd x)) (fun q => n_clones q th)) in H || idtac.
  assert (NA : mask_put (map ts l) (map (fun _ : imp * (R * bool) => 0%nat) l)
     (map (fun x => n_clones (fst (snd x)) th) (mask_get (map ts l) l)) = map (ncl th) l).
  { replace (mask_get (map ts l) l) with (mask_get (map ts l) (map (fun x => x) l)) by (rewrite map_id; auto).
    rewrite (mask_put_view ts (fun _ => 0%nat) (fun x => x)). apply map_ext. intros [p [q b]]. unfold ts, ncl. cbn. destruct b; auto. }
  rewrite NA in H. rewrite mask_get_map_l in H.
  assert (M2 : forall (v : list (imp * (R * bool))), map2 (fun q n => q / (INR n + 1)) (map (fun x => fst (snd x)) v) (map (ncl th) v) = map (fun x => fst (snd x) / (INR (ncl th x) + 1)) v).
  { clear. induction v; cbn; f_equal; auto. }
  rewrite M2 in H.
  rewrite mask_set_exact in H by (rewrite !map_length, count_get; auto).
  cbn [bind] in H.
  assert (NR : mask_put (map ts l) (map (fun x => fst (snd x)) l) (map (fun x => fst (snd x) / (INR (ncl th x) + 1)) (mask_get (map ts l) l)) = map (nelr th) l).
  { replace (mask_get (map ts l) l) with (mask_get (map ts l) (map (fun x => x) l)) by (rewrite map_id; auto).
    rewrite (mask_put_view ts (fun x => fst (snd x)) (fun x => x)). apply map_ext. intros [p [q b]]. unfold ts, ncl, nelr. cbn. destruct b; auto. }
  rewrite NR in H.
  destruct (gen_vel c sr k _ _ _ _) as [[vel k1]|] eqn:GV; [|discriminate]. cbn [bind] in H.
  rewrite count_get in GV. apply HG in GV; [|intros x Hx; apply mask_get_In in Hx; auto].
  assert (LV : length vel = count_true (map ts l)) by (rewrite count_get; symmetry; eapply Forall2_length; eauto).
  rewrite !mask_set_exact in H by (rewrite map_length; auto). cbn [bind] in H. rewrite !mask_put_map in H.
  pose proof (mask_put_rel _ ts vel0 l vel GV) as REL.
  set (W := mask_put (map ts l) (map vel0 l) vel) in *. change (mask_put (map ts l) W0 vel) with W in H.
  assert (PA : repeat_each (map fst l) (map (ncl th) l) = map fst (repeat_each l (map (ncl th) l))) by apply repeat_each_map.
  destruct (Nat.eqb (nsum (map (ncl th) l)) 0) eqn:T0.
  { apply Nat.eqb_eq in T0. injection H as <- <-. cbn [o_tot o_type o_ext o_nel o_x o_y o_z o_seg n_nel n_x n_y n_z n_seg o_vx o_vy o_vz n_vx n_vy n_vz].
    assert (RE : forall {A} (a : list A), repeat_each a (map (ncl th) l) = []).
    { intros A a. apply repeat_each_nil. auto. }
    unfold parents. rewrite !RE. rewrite !map_map. repeat split; auto.
    - symmetry. apply app_nil_r.
    - exists W. repeat split; auto.
    - exists []. repeat split; auto. }
  rewrite !repeat_each_map in H.
  destruct (gen_vel c sr k1 _ _ _ _) as [[vel2 k2]|] eqn:GV2; [|discriminate]. cbn [bind] in H.
  rewrite <- (repeat_each_length l) in GV2 by (rewrite map_length; auto).
  apply HG in GV2; [|intros x Hx; apply repeat_each_In in Hx; auto].
  injection H as <- <-. cbn [o_tot o_type o_ext o_nel o_x o_y o_z o_seg n_nel n_x n_y n_z n_seg o_vx o_vy o_vz n_vx n_vy n_vz].
  unfold parents. rewrite PA, !map_map. rewrite !repeat_each_map. repeat split; auto.
  - intros ->. auto.
  - exists W. repeat split; auto.
  - exists vel2. repeat split; auto. clear - GV2. induction GV2; cbn; constructor; auto.
Qed.

Lemma emit_view c th fs sr k (l : list (imp * (R * bool))) e k' :
  src_ok sr -> 0 < c_qe c -> 0 < c_mass c ->
  (forall x, In x l -> unit_n (fst x)) -> (forall x, In x l -> 0 <= i_E (fst x)) ->
  emit_surface c th fs sr k (map fst l) (map snd l) = Some (e, k') ->
  let parents := repeat_each (map fst l) (map (ncl th) l) in
  o_tot e = map (fun x => fst (snd x)) l /\ o_type e = map typ l /\
  o_ext e = o_type e ++ repeat_each (o_type e) (map (ncl th) l) /\
  o_nel e = map (nelr th) l /\
  o_x e = map i_x (map fst l) /\ o_y e = map i_y (map fst l) /\ o_z e = map i_z (map fst l) /\
  o_seg e = map i_seg (map fst l) /\
  n_nel e = repeat_each (o_nel e) (map (ncl th) l) /\
  n_x e = map i_x parents /\ n_y e = map i_y parents /\ n_z e = map i_z parents /\
  (fs = true -> n_seg e = map i_seg parents) /\
  (exists W, o_vx e = map fst3 W /\ o_vy e = map snd3 W /\ o_vz e = map thd3 W /\
     Forall2 (fun x w => if negb (snd (snd x)) then leaves c (i_E (fst x)) (i_nx (fst x)) (i_ny (fst x)) w
                         else w = vel0 x) l W) /\
  (exists V, n_vx e = map fst3 V /\ n_vy e = map snd3 V /\ n_vz e = map thd3 V /\
     Forall2 (fun p w => leaves c (i_E p) (i_nx p) (i_ny p) w) parents V).
Proof.
  intros Hs Hq Hm Hu HE H.
  apply (emit_view_gen c th fs sr k l e k' (fun p w => leaves c (i_E p) (i_nx p) (i_ny p) w)); auto.
  intros k0 l' vel k1 HI G.
  apply (gen_vel_ok (fun x => i_E (fst x)) (fun x => i_nx (fst x)) (fun x => i_ny (fst x))) in G; auto.
  intros x Hx. apply (Hu x). auto.
Qed.

(** Lengths only: no assumption on the impacts. *)
Lemma redraw_length fuel sr k lim en r k' : redraw fuel sr k lim en = Some (r, k') -> length r = length en.
Proof.
  revert k en. induction fuel as [|f IH]; intros k en H; cbn in H;
    destruct (Nat.eqb (count_true (above lim en)) 0); try discriminate; try (injection H as <- <-; auto).
  apply IH in H. rewrite mask_put_length in H. auto.
Qed.

Lemma gen_vel_length c sr k n E nx ny vel k' : length nx = n -> length ny = n ->
  gen_vel c sr k n E nx ny = Some (vel, k') -> length vel = n.
Proof.
  intros L1 L2 H. unfold gen_vel, bind in H.
  destruct (sec_energy_hilleret_model2 _ _ _ _ _ _ _ _) as [[en k1]|] eqn:EN; [|discriminate].
  destruct (c_angle c) as [d|]; [|discriminate].
  assert (LE : length en = n).
  { unfold sec_energy_hilleret_model2 in EN. destruct (_ =? 0)%Z.
    - apply redraw_length in EN. rewrite draw_length in EN. auto.
    - destruct (_ =? 2)%Z; [|discriminate]. unfold bind in EN. destruct (redraw _ _ _ _ _) as [[r k2]|] eqn:RD; [|discriminate].
      injection EN as <- <-. apply redraw_length in RD. rewrite mask_put_length. rewrite draw_length in RD. auto. }
  unfold angle_dist_func in H. destruct d; injection H as <- <-;
    rewrite ?map2_length, ?map_length, ?combine_length, ?map_length, ?combine_length, ?draw_length; lia.
Qed.
