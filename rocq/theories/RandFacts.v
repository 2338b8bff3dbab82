(** Facts about the use of random numbers: emission and sources. *)
From Coq Require Import Lra Lia.
From Verif Require Import Num NumFacts MP Fort Geom Poly Sey Furman Impact SpecImpact SpecFurman Source Sim SpecRand.
Local Open Scope list_scope.
Local Open Scope R_scope.

Lemma agree_sub a b a' b' sr sr' : agree a b sr sr' -> (a <= a')%nat -> (b' <= b)%nat -> agree a' b' sr sr'.
Proof. intros A H1 H2 i Hi. apply A. lia. Qed.
Lemma draw_uni a b sr sr' k n : agree a b sr sr' -> (a <= k)%nat -> (k + n <= b)%nat -> draw (s_uni sr') k n = draw (s_uni sr) k n.
Proof. intros A H1 H2. unfold draw. apply map_ext_in. intros i Hi. apply in_seq in Hi. apply A. lia. Qed.
Lemma draw_logn a b sr sr' k n : agree a b sr sr' -> (a <= k)%nat -> (k + n <= b)%nat -> draw (s_logn sr') k n = draw (s_logn sr) k n.
Proof. intros A H1 H2. unfold draw. apply map_ext_in. intros i Hi. apply in_seq in Hi. apply A. lia. Qed.
Lemma draw_norm a b sr sr' k n : agree a b sr sr' -> (a <= k)%nat -> (k + n <= b)%nat -> draw (s_norm sr') k n = draw (s_norm sr) k n.
Proof. intros A H1 H2. unfold draw. apply map_ext_in. intros i Hi. apply in_seq in Hi. apply A. lia. Qed.
Lemma uni_at a b sr sr' k : agree a b sr sr' -> (a <= k < b)%nat -> s_uni sr' k = s_uni sr k.
Proof. intros A H. apply A. exact H. Qed.

(** Open the next bind of [H]. *)
Ltac op H := match type of H with bind ?m _ = Some _ => let E := fresh "E" in destruct m eqn:E; cbn [bind] in H; [|discriminate H] end.
Ltac dr A := cbn [bind]; cbv beta zeta; repeat (first [rewrite (draw_uni _ _ _ _ _ _ A) by lia | rewrite (draw_logn _ _ _ _ _ _ A) by lia | rewrite (draw_norm _ _ _ _ _ _ A) by lia | rewrite (uni_at _ _ _ _ _ A) by lia]).
(** Use what is known of a call. *)
Ltac use K A := cbv beta zeta in K; match type of A with agree _ _ _ ?s' => rewrite (K s') by (eapply agree_sub; [exact A|lia|lia]) end; cbn [bind]; dr A.

(** * Secondary emission *)
Lemma sey_local m ps : local agree (fun sr k => SEY_process m sr k ps).
Proof. intros s k r k' H. unfold SEY_process in *. op H. injection H as <- <-. split; [lia|]. intros s' A. dr A. rewrite E. reflexivity. Qed.
Lemma charging_local qe segs E0 gs ps Q : local agree (fun sr k => charging_process qe segs E0 gs sr k ps Q).
Proof. intros s k r k' H. unfold charging_process in *. op H. injection H as <- <-. split; [lia|]. intros s' A. dr A. rewrite E. reflexivity. Qed.
Lemma redraw_local lim : forall fuel en, local agree (fun sr k => redraw fuel sr k lim en).
Proof.
  induction fuel as [|f IH]; intros en s k r k' H; cbn [redraw] in *; destruct (Nat.eqb (count_true (above lim en)) 0); try discriminate; try (injection H as <- <-; auto).
  destruct (IH _ _ _ _ _ H) as [M K]. split; [lia|]. intros s' A. dr A. apply K. eapply agree_sub; [exact A|lia|lia].
Qed.
Lemma energy_local sw fuel n Eth En th : local agree (fun sr k => sec_energy_hilleret_model2 sw fuel sr k n Eth En th).
Proof.
  intros s k r k' H. unfold sec_energy_hilleret_model2 in *. destruct (sw =? 0)%Z.
  - destruct (redraw_local _ _ _ _ _ _ _ H) as [M K]. split; [lia|]. intros s' A. dr A. apply K. eapply agree_sub; [exact A|lia|lia].
  - destruct (sw =? 2)%Z; [|discriminate]. op H. destruct p as [en k1]. destruct (redraw_local _ _ _ _ _ _ _ E) as [M K]. injection H as <- <-. split; [lia|]. intros s' A. dr A. use K A. cbn [bind]. reflexivity.
Qed.
Lemma angle_local d qe mass n En nx ny s k v k' : angle_dist_func d qe mass s k n En nx ny = (v, k') ->
  (k <= k')%nat /\ forall s', agree k k' s s' -> angle_dist_func d qe mass s' k n En nx ny = (v, k').
Proof.
  intros H. unfold angle_dist_func in *. destruct d; injection H as <- <-; (split; [lia|]); intros s' A; dr A; reflexivity.
Qed.
Lemma gen_vel_local c n E nx ny : local agree (fun sr k => gen_vel c sr k n E nx ny).
Proof.
  intros s k r k' H. unfold gen_vel in *. op H. destruct p as [en k1]. destruct (energy_local _ _ _ _ _ _ _ _ _ _ E0) as [M K]. op H. injection H as H. destruct (angle_local _ _ _ _ _ _ _ _ _ _ _ H) as [M2 K2].
  split; [lia|]. intros s' A. use K A. cbn [bind]. use K2 A. reflexivity.
Qed.
Lemma emit_local c th fs ps pr : local agree (fun sr k => emit_surface c th fs sr k ps pr).
Proof.
  intros s k r k' H. unfold emit_surface in *. op H. op H. destruct (Nat.eqb (count_true (map negb (map snd pr))) 0); [injection H as <- <-; auto|].
  op H. op H. destruct p as [v k1]. destruct (gen_vel_local _ _ _ _ _ _ _ _ _ E2) as [M K]. op H. op H. op H. destruct (Nat.eqb (nsum _) 0) eqn:EN.
  - injection H as <- <-. split; [lia|]. intros s' A. use K A. cbn [bind]. rewrite E3, E4, E5. cbn [bind]. reflexivity.
  - op H. destruct p as [v2 k2]. destruct (gen_vel_local _ _ _ _ _ _ _ _ _ E6) as [M2 K2]. injection H as <- <-. split; [lia|]. intros s' A. use K A. cbn [bind]. rewrite E3, E4, E5. cbn [bind]. use K2 A. reflexivity.
Qed.
Lemma impacts_local m c th fs ps : local agree (fun sr k => impacts_on_surface m c th fs sr k ps).
Proof.
  intros s k r k' H. unfold impacts_on_surface in *. op H. destruct p as [pr k1]. destruct (sey_local _ _ _ _ _ _ E) as [M K]. destruct (emit_local _ _ _ _ _ _ _ _ _ H) as [M2 K2].
  split; [lia|]. intros s' A. use K A. cbn [bind]. use K2 A. reflexivity.
Qed.
Lemma impacts_charging_local segs E0 gs c th fs ps Q : local agree (fun sr k => impacts_on_surface_charging segs E0 gs c th fs sr k ps Q).
Proof.
  intros s k r k' H. unfold impacts_on_surface_charging in *. op H. destruct p as [[pr Q1] k1]. destruct (charging_local _ _ _ _ _ _ _ _ _ _ E) as [M K]. op H. destruct p as [o k2].
  destruct (emit_local _ _ _ _ _ _ _ _ _ E1) as [M2 K2]. injection H as <- <-.
  split; [lia|]. intros s' A. use K A. cbn [bind]. use K2 A. reflexivity.
Qed.

(** * Furman-Pivi *)
Lemma en_true_local sp f nn E : local agree (fun sr k => en_true sp f sr k nn E).
Proof.
  intros s k r k' H. unfold en_true in *. destruct (f_ecl_energy f); [apply (energy_local _ _ _ _ _ _ _ _ _ _ H)|]. destruct (Nat.eqb (length E) 0); [injection H as <- <-; auto|].
  op H. injection H as <- <-. split; [lia|]. intros s' A. dr A. rewrite E0. reflexivity.
Qed.
Lemma conserve_local sp f rep nn E : forall fuel En Ea, local agree (fun sr k => conserve fuel sp f sr k rep nn E En Ea).
Proof.
  induction fuel as [|fu IH]; intros En Ea s k r k' H; cbn [conserve] in *; op H; rewrite ?E0; cbn [bind]; destruct (Nat.eqb (count_true (viol rep E En Ea)) 0); try discriminate; try (injection H as <- <-; auto).
  op H. destruct p as [l1 k1]. destruct (en_true_local _ _ _ _ _ _ _ _ E1) as [M1 K1]. op H. op H. destruct p as [l2 k2]. destruct (en_true_local _ _ _ _ _ _ _ _ E3) as [M2 K2]. op H.
  destruct (IH _ _ _ _ _ _ H) as [M3 K3]. split; [lia|]. intros s' A. use K1 A. cbn [bind]. rewrite E2. cbn [bind]. use K2 A. cbn [bind]. rewrite E4. cbn [bind]. use K3 A. reflexivity.
Qed.
Lemma ang_local f En nx ny : local agree (fun sr k => ang f sr k En nx ny).
Proof. intros s k r k' H. unfold ang in *. op H. injection H as H. destruct (angle_local _ _ _ _ _ _ _ _ _ _ _ H) as [M K]. split; [exact M|]. intros s' A. cbn [bind]. rewrite (K _ A). reflexivity. Qed.
Lemma fp_back_local sp f ps bs vel : local agree (fun sr k => fp_back sp f sr ps bs vel k).
Proof.
  intros s k r k' H. unfold fp_back in *. destruct (f_ecl_energy f).
  - op H. injection H as <- <-. split; [lia|]. reflexivity.
  - op H. destruct p as [v k1]. destruct (ang_local _ _ _ _ _ _ _ _ E) as [M K]. op H. injection H as <- <-. split; [lia|]. intros s' A. dr A. use K A. cbn [bind]. rewrite E0. reflexivity.
Qed.
Lemma fp_redi_local f ps rd vel : local agree (fun sr k => fp_redi f sr ps rd vel k).
Proof.
  intros s k r k' H. unfold fp_redi in *. destruct (f_excl f).
  - injection H as <- <-. split; [lia|]. reflexivity.
  - op H. destruct p as [v k1]. destruct (ang_local _ _ _ _ _ _ _ _ E) as [M K]. op H. injection H as <- <-. split; [lia|]. intros s' A. dr A. use K A. cbn [bind]. rewrite E0. reflexivity.
Qed.
Lemma fp_true_local cfuel sp f ps ts nem ns vel : local agree (fun sr k => fp_true cfuel sp f sr ps ts nem ns vel k).
Proof.
  intros s k r k' H. unfold fp_true in *. op H. destruct p as [En k1]. destruct (en_true_local _ _ _ _ _ _ _ _ E) as [M1 K1]. destruct (Nat.eqb (nsum _) 0) eqn:EN.
  { injection H as <- <-. split; [lia|]. intros s' A. use K1 A. cbn [bind]. reflexivity. }
  op H. destruct p as [Ea k2]. destruct (en_true_local _ _ _ _ _ _ _ _ E0) as [M2 K2]. op H. destruct p as [[En2 Ea2] k3].
  assert (C : (k2 <= k3)%nat /\ forall s', agree k2 k3 s s' -> (if f_conserve f then
       conserve cfuel sp f s' k2 (mask_get (map (fun n => Nat.ltb 0 n) ns) (mask_get ts (map (fun n => (n - 1)%nat) nem))) (mask_get (map (fun n => Nat.ltb 0 n) ns) ns)
         (mask_get (map (fun n => Nat.ltb 0 n) ns) (mask_get ts (map i_E ps))) En Ea
     else Some (En, Ea, k2)) = Some (En2, Ea2, k3)).
  { destruct (f_conserve f); [apply (conserve_local _ _ _ _ _ _ _ _ _ _ _ _ E1)|]. injection E1 as <- <- <-. auto. }
  destruct C as [M3 K3]. op H. destruct p as [v k4]. destruct (ang_local _ _ _ _ _ _ _ _ E2) as [M4 K4]. op H. op H. destruct p as [va k5]. destruct (ang_local _ _ _ _ _ _ _ _ E4) as [M5 K5]. injection H as <- <-.
  split; [lia|]. intros s' A. use K1 A. cbn [bind]. use K2 A. cbn [bind]. use K3 A. cbn [bind]. use K4 A. cbn [bind]. rewrite E3. cbn [bind]. use K5 A. reflexivity.
Qed.
Lemma agreeF_sub a b a' b' fs fs' : agreeF a b fs fs' -> (a <= a')%nat -> (b' <= b)%nat -> agreeF a' b' fs fs'.
Proof. intros [A B] H1 H2. split; [eapply agree_sub; eauto|]. intros i lam Hi. apply B. lia. Qed.
Ltac useF K A := cbv beta zeta in K; match type of A with agreeF _ _ _ ?s' => rewrite (K s') by (eapply agreeF_sub; [exact A|lia|lia]) end.
Lemma poisson_ext fs fs' lams : forall k a b, agreeF a b fs fs' -> (a <= k)%nat -> (k + length lams <= b)%nat -> poisson fs' k lams = poisson fs k lams.
Proof.
  intros k a b [_ A] H1 H2. unfold poisson. destruct (existsb _ lams); [reflexivity|]. f_equal. revert k H1 H2. induction lams as [|l lams IH]; intros k H1 H2; [reflexivity|]. cbn [seq map2 length] in *.
  rewrite A by lia. f_equal. apply IH; lia.
Qed.
Lemma map2_len {A B C} (f : A -> B -> C) a b : length a = length b -> length (map2 f a b) = length a.
Proof. intros H. rewrite map2_length. lia. Qed.
Lemma cut_local Mcut lams : forall fuel at0 ns, (length ns = length lams)%nat -> local agreeF (fun fs k => cut_rounds fuel fs k Mcut lams at0 ns).
Proof.
  induction fuel as [|f IH]; intros at0 ns L s k r k' H; cbn [cut_rounds] in *; destruct (Nat.eqb (count_true (map (fun n => Nat.ltb Mcut n) ns)) 0); try discriminate; try (injection H as <- <-; auto).
  op H. apply IH in H; [|rewrite mask_put_length; exact L]. destruct H as [M K]. split; [lia|]. intros s' A.
  rewrite (poisson_ext s s' _ k k k' A) by (first [lia | rewrite mask_get_length by (rewrite map_length; lia); lia]). rewrite E. cbn [bind]. useF K A. reflexivity.
Qed.
Lemma fp_numbers_local f dl ts : local agreeF (fun fs k => fp_numbers f fs dl ts k).
Proof.
  intros s k r k' H. unfold fp_numbers in *. op H. set (lam := map _ (mask_get ts dl)) in *.
  assert (L : length l = length lam). { unfold poisson in E. destruct (existsb _ lam); [discriminate|]. injection E as <-. rewrite map2_length, seq_length. lia. }
  destruct (cut_local _ _ _ _ _ L _ _ _ _ H) as [M K]. split; [lia|]. intros s' A. rewrite (poisson_ext s s' lam k k k' A) by lia. rewrite E. cbn [bind]. useF K A. reflexivity.
Qed.
Lemma fp_local cfuel sp f th seg ps : local agreeF (fun fs k => fp_impacts cfuel sp f fs th seg ps k).
Proof.
  intros s k r k' H. unfold fp_impacts in *. op H. op H. destruct p as [v1 k1]. destruct (fp_back_local _ _ _ _ _ _ _ _ _ E0) as [M1 K1]. op H. destruct p as [v2 k2].
  destruct (fp_redi_local _ _ _ _ _ _ _ _ E1) as [M2 K2]. op H. destruct p as [[[nem v3] news] k3].
  set (ts := map thd3 _) in *.
  assert (C : (k2 <= k3)%nat /\ forall s', agreeF k2 k3 s s' -> (if Nat.eqb (count_true ts) 0 then Some (map (fun _ => 0%nat) ps, v2, [], k2) else
       do (ns, k) <- fp_numbers f s' l ts k2 ;
       let nem := mask_put ts (map (fun _ => 0%nat) ps) ns in
       do (vel, news, k) <- fp_true cfuel sp f (f_src s') ps ts nem ns v2 k ;
       Some (nem, vel, news, k)) = Some (nem, v3, news, k3)).
  { destruct (Nat.eqb (count_true ts) 0); [injection E2 as <- <- <- <-; auto|]. op E2. destruct p as [ns k4]. destruct (fp_numbers_local _ _ _ _ _ _ _ E3) as [M3 K3]. op E2. destruct p as [[v4 nw] k5].
    destruct (fp_true_local _ _ _ _ _ _ _ _ _ _ _ _ E4) as [M4 K4]. injection E2 as <- <- <- <-. split; [lia|]. intros s' A. useF K3 A. cbn [bind]. cbv zeta. destruct A as [A _]. use K4 A. reflexivity. }
  destruct C as [M3 K3]. injection H as <- <-. split; [lia|]. intros s' A. pose proof A as [A0 _]. dr A0. use K1 A0. cbn [bind]. use K2 A0. cbn [bind]. fold ts. useF K3 A. cbn [bind]. reflexivity.
Qed.

(** * Gas ionisation *)
Lemma gas_coord_local sg pos ap un s k r k' : gas_coord sg pos ap s k un = (r, k') -> (k <= k')%nat /\ forall s', agree k k' s s' -> gas_coord sg pos ap s' k un = (r, k').
Proof. intros H. unfold gas_coord in *. injection H as <- <-. split; [lia|]. intros s' A. dr A. reflexivity. Qed.
Lemma redraw_gas_local c sx sy xb yb un : forall fuel xt yt, local agree (fun sr k => redraw_gas fuel c sx sy xb yb sr k un xt yt).
Proof.
  induction fuel as [|f IH]; intros xt yt s k r k' H; cbn [redraw_gas] in *; destruct (Nat.eqb (count_true (map2 (outside c) xt yt)) 0); try discriminate; try (injection H as <- <-; auto).
  destruct (gas_coord sx xb (x_aper c) s k _) as [x1 k1] eqn:E1. destruct (gas_coord sy yb (y_aper c) s k1 _) as [y1 k2] eqn:E2.
  destruct (gas_coord_local _ _ _ _ _ _ _ _ E1) as [M1 K1]. destruct (gas_coord_local _ _ _ _ _ _ _ _ E2) as [M2 K2]. destruct (IH _ _ _ _ _ _ H) as [M3 K3]. split; [lia|]. intros s' A.
  use K1 A. use K2 A. use K3 A. reflexivity.
Qed.
Lemma gas_local fuel kc g c mass lam Dt sx sy xb yb st : local agree (fun sr k => gas_generate fuel kc g c mass lam Dt sx sy xb yb sr k st).
Proof.
  intros s k r k' H. unfold gas_generate in *. set (nz := stoch_round _ (s_uni s k)) in *. 
  assert (NZ : forall s', (k < k')%nat -> agree k k' s s' -> stoch_round (gas_DNel kc g lam Dt / nel_mp_ref st) (s_uni s' k) = nz) by (intros s' L A; dr A; reflexivity).
  destruct (0 <? nz)%Z eqn:EZ.
  - destruct (gas_coord sx xb (x_aper c) s _ _) as [x1 k1] eqn:E1. destruct (gas_coord sy yb (y_aper c) s k1 _) as [y1 k2] eqn:E2.
    destruct (gas_coord_local _ _ _ _ _ _ _ _ E1) as [M1 K1]. destruct (gas_coord_local _ _ _ _ _ _ _ _ E2) as [M2 K2]. op H. destruct p as [[x2 y2] k3]. destruct (redraw_gas_local _ _ _ _ _ _ _ _ _ _ _ _ _ E) as [M3 K3].
    op H. op H. injection H as <- <-. split; [lia|]. intros s' A. rewrite NZ by (auto; lia). rewrite EZ. dr A. use K1 A. use K2 A. use K3 A. cbn [bind]. rewrite E0. cbn [bind]. dr A. rewrite E3. reflexivity.
  - injection H as <- <-. split; [lia|]. intros s' A. rewrite NZ by (auto; lia). rewrite EZ. reflexivity.
Qed.

(** * Photoemission *)
Lemma redraw_neg_local sg mx : forall fuel en, local agree (fun sr k => redraw_neg fuel sg mx sr k en).
Proof.
  induction fuel as [|f IH]; intros en s k r k' H; cbn [redraw_neg] in *; destruct (Nat.eqb (count_true (map (fun e => Rltb e 0) en)) 0); try discriminate; try (injection H as <- <-; auto).
  destruct (IH _ _ _ _ _ H) as [M K]. split; [lia|]. intros s' A. dr A. use K A. reflexivity.
Qed.
Lemma get_energy_local fuel d sg mx n : local agree (fun sr k => get_energy fuel d sg mx sr k n).
Proof.
  intros s k r k' H. unfold get_energy in *. destruct d; try (injection H as <- <-; (split; [lia|]); intros s' A; dr A; reflexivity).
  destruct (redraw_neg_local _ _ _ _ _ _ _ _ H) as [M K]. split; [lia|]. intros s' A. dr A. use K A. reflexivity.
Qed.
Lemma photo_set_local fuel kc ph mass n xs ys nx ny st : local agree (fun sr k => photo_set fuel kc ph mass sr k n xs ys nx ny st).
Proof.
  intros s k r k' H. unfold photo_set in *. op H. destruct p as [en k1]. destruct (get_energy_local _ _ _ _ _ _ _ _ _ E) as [M1 K1]. destruct (angle_dist_func _ _ _ s k1 n en nx ny) as [v k2] eqn:EA.
  destruct (angle_local _ _ _ _ _ _ _ _ _ _ _ EA) as [M2 K2]. op H. injection H as <- <-. split; [lia|]. intros s' A. use K1 A. cbn [bind]. use K2 A. rewrite E0. reflexivity.
Qed.
Lemma gen_set_local fuel kc ph w mass n xy st : local agree (fun sr k => gen_energy_and_set_MPs fuel kc ph w mass sr k n xy st).
Proof. intros s k r k' H. unfold gen_energy_and_set_MPs in *. op H. destruct (photo_set_local _ _ _ _ _ _ _ _ _ _ _ _ _ _ H) as [M K]. split; [exact M|]. intros s' A. cbn [bind]. apply K. exact A. Qed.
Lemma photo1_local fuel kc p w mass lam Dt st : local agree (fun sr k => photo1_generate fuel kc p w mass lam Dt sr k st).
Proof.
  intros s k r k' H. unfold photo1_generate in *. set (nz := photo_number _ (s_uni s k)) in *.
  assert (NZ : forall s', (k < k')%nat -> agree k k' s s' -> photo_number (photo_DNel kc (ph_k (p1_ph p)) (ph_mean (p1_ph p)) lam Dt / nel_mp_ref st) (s_uni s' k) = nz) by (intros s' L A; dr A; reflexivity).
  destruct (0 <? nz)%Z eqn:EZ.
  - op H. destruct (gen_set_local _ _ _ _ _ _ _ _ _ _ _ _ H) as [M K]. split; [lia|]. intros s' A. rewrite NZ by (auto; lia). rewrite EZ. rewrite (draw_uni k k' s s' (S k) (Z.to_nat nz) A) by lia. dr A. rewrite E. cbn [bind]. dr A. use K A. reflexivity.
  - injection H as <- <-. split; [lia|]. intros s' A. rewrite NZ by (auto; lia). rewrite EZ. reflexivity.
Qed.
Lemma photo2_local fuel kc ph cdf w mass lam Dt st : local agree (fun sr k => photo2_generate fuel kc ph cdf w mass lam Dt sr k st).
Proof.
  intros s k r k' H. unfold photo2_generate in *. set (nz := photo_number _ (s_uni s k)) in *.
  assert (NZ : forall s', (k < k')%nat -> agree k k' s s' -> photo_number (photo_DNel kc (ph_k ph) (ph_mean ph) lam Dt / nel_mp_ref st) (s_uni s' k) = nz) by (intros s' L A; dr A; reflexivity).
  destruct (0 <? nz)%Z eqn:EZ.
  - op H. destruct (gen_set_local _ _ _ _ _ _ _ _ _ _ _ _ H) as [M K]. split; [lia|]. intros s' A. rewrite NZ by (auto; lia). rewrite EZ. dr A. rewrite E. cbn [bind]. use K A. reflexivity.
  - injection H as <- <-. split; [lia|]. intros s' A. rewrite NZ by (auto; lia). rewrite EZ. reflexivity.
Qed.
Lemma segment_local out x0 y0 dx dy : forall fuel n, local agree (fun sr k => segment_points fuel out x0 y0 dx dy sr k n).
Proof.
  induction fuel as [|f IH]; intros n s k r k' H; cbn [segment_points] in *; [discriminate|].
  destruct (Nat.eqb (count_true _) 0) eqn:EN.
  - injection H as <- <-. split; [lia|]. intros s' A. dr A. rewrite EN. reflexivity.
  - op H. destruct p as [[xo yo] k1]. destruct (IH _ _ _ _ _ E) as [M K]. injection H as <- <-. split; [lia|]. intros s' A. dr A. rewrite EN. use K A. reflexivity.
Qed.
Lemma segments_local fuel pc : forall counts i, local agree (fun sr k => segments_loop fuel pc sr k i counts).
Proof.
  induction counts as [|c counts IH]; intros i s k r k' H; cbn [segments_loop] in *; [injection H as <- <-; auto|].
  op H. destruct p as [pts k1].
  assert (C : (k <= k1)%nat /\ forall s', agree k k1 s s' -> (if Nat.eqb c 0 then Some ([], k)
         else
           do x0 <- nth_error (pc_x0 pc) i ;
           do y0 <- nth_error (pc_y0 pc) i ;
           do (nx, ny) <- nth_error (pc_nrm pc) i ;
           do (xs, ys, k) <- segment_points fuel (p_outside (pc_poly pc)) x0 y0
              (vx (pc_poly pc) (S i) - vx (pc_poly pc) i) (vy (pc_poly pc) (S i) - vy (pc_poly pc) i) s' k c ;
           Some (map2 (fun x y => (x, y, nx, ny)) xs ys, k)) = Some (pts, k1)).
  { destruct (Nat.eqb c 0); [injection E as <- <-; auto|]. op E. op E. op E. destruct p as [nx ny]. op E. destruct p as [[xs ys] k2]. destruct (segment_local _ _ _ _ _ _ _ _ _ _ _ E3) as [M K]. injection E as <- <-.
    split; [exact M|]. intros s' A. cbn [bind]. use K A. reflexivity. }
  destruct C as [M1 K1]. op H. destruct p as [rest k2]. destruct (IH _ _ _ _ _ E0) as [M2 K2]. injection H as <- <-. split; [lia|]. intros s' A. use K1 A. cbn [bind]. use K2 A. reflexivity.
Qed.
Lemma positions_local fuel pc n : local agree (fun sr k => get_photoelectron_positions fuel pc sr k n).
Proof.
  intros s k r k' H. unfold get_photoelectron_positions in *. op H. op H. destruct p as [pts k1]. destruct (segments_local _ _ _ _ _ _ _ _ E0) as [M K]. destruct (Nat.eqb (length pts) n) eqn:EN; [|discriminate].
  injection H as <- <-. split; [lia|]. intros s' A. dr A. rewrite E. cbn [bind]. use K A. cbn [bind]. rewrite EN. reflexivity.
Qed.
Lemma photo3_local fuel kc ph pc mass lam Dt st : local agree (fun sr k => photo3_generate fuel kc ph pc mass lam Dt sr k st).
Proof.
  intros s k r k' H. unfold photo3_generate in *. set (nz := photo_number _ (s_uni s k)) in *.
  assert (NZ : forall s', (k < k')%nat -> agree k k' s s' -> photo_number (photo_DNel kc (ph_k ph) (ph_mean ph) lam Dt / nel_mp_ref st) (s_uni s' k) = nz) by (intros s' L A; dr A; reflexivity).
  destruct (0 <? nz)%Z eqn:EZ.
  - op H. destruct p as [pts k1]. destruct (positions_local _ _ _ _ _ _ _ E) as [M1 K1]. destruct (photo_set_local _ _ _ _ _ _ _ _ _ _ _ _ _ _ H) as [M K]. split; [lia|]. intros s' A. rewrite NZ by (auto; lia). rewrite EZ. use K1 A. cbn [bind]. use K A. reflexivity.
  - injection H as <- <-. split; [lia|]. intros s' A. rewrite NZ by (auto; lia). rewrite EZ. reflexivity.
Qed.
