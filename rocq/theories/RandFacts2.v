(** Facts about the use of random numbers: cross-ionisation, regeneration and
    the time step. *)
From Coq Require Import Lra Lia String.
From Verif Require Import Num NumFacts MP Fort Geom Poly Sey Furman Impact SpecImpact SpecFurman Source CrossIon Sim SpecSim SpecRand RandFacts.
Local Open Scope list_scope.
Local Open Scope R_scope.

Lemma agreeR_sub a b a' b' r r' : agreeR a b r r' -> (a <= a')%nat -> (b' <= b)%nat -> agreeR a' b' r r'.
Proof. intros A H1 H2 i Hi. apply A. lia. Qed.
Lemma draw_R a b r r' k n : agreeR a b r r' -> (a <= k)%nat -> (k + n <= b)%nat -> draw r' k n = draw r k n.
Proof. intros A H1 H2. unfold draw. apply map_ext_in. intros i Hi. apply in_seq in Hi. apply A. lia. Qed.
Ltac drR A := cbn [bind]; cbv beta zeta; repeat (rewrite (draw_R _ _ _ _ _ _ A) by lia).
Ltac useR K A := cbv beta zeta in K; match type of A with agreeR _ _ _ ?s' => rewrite (K s') by (eapply agreeR_sub; [exact A|lia|lia]) end; drR A.
Lemma agree_R a b sr sr' : agree a b sr sr' -> agreeR a b (s_uni sr) (s_uni sr').
Proof. intros A i Hi. apply A. exact Hi. Qed.

(** Binds whose first part is known. *)
Ltac rw := repeat (cbn [bind]; match goal with E : ?m = Some _ |- bind ?m _ = _ => rewrite E end); cbn [bind].

(** * Cross-ionisation *)
Lemma info_local qe p mass ref counts pr r k i k' : product_info qe p mass ref counts pr r k = (i, k') ->
  (k <= k')%nat /\ forall r', agreeR k k' r r' -> product_info qe p mass ref counts pr r' k = (i, k').
Proof.
  intros H. unfold product_info in *. destruct (0 <? zsum counts)%Z; injection H as <- <-; (split; [lia|]); intros r' A; drR A; reflexivity.
Qed.
Lemma products_local qe p cl DN sh pr : forall prods, local agreeR (fun r k => products_loop qe p cl DN sh pr prods r k).
Proof.
  induction prods as [|name prods IH]; intros r k o k' H; cbn [products_loop] in *; [injection H as <- <-; auto|].
  op H. destruct (match sh with Some (r0, cs) => (r0, cs, k) | None => (nel_mp_ref (xc_mp x), counts_of DN (nel_mp_ref (xc_mp x)) r k, (k + length DN)%nat) end) as [[ref cs] k1] eqn:ES.
  destruct (product_info qe p (xc_mass x) ref cs pr r k1) as [i k2] eqn:EI. destruct (info_local _ _ _ _ _ _ _ _ _ _ EI) as [M1 K1].
  op H. destruct p0 as [rest k3]. destruct (IH _ _ _ _ E0) as [M2 K2]. injection H as <- <-.
  assert (C : (k <= k1)%nat /\ forall r', agreeR k k1 r r' -> match sh with Some (r0, cs) => (r0, cs, k) | None => (nel_mp_ref (xc_mp x), counts_of DN (nel_mp_ref (xc_mp x)) r' k, (k + length DN)%nat) end = (ref, cs, k1)).
  { destruct sh as [[r0 c0]|]; injection ES as <- <- <-; (split; [lia|]); intros r' A; [reflexivity|]. unfold counts_of. drR A. reflexivity. }
  destruct C as [M3 K3]. split; [lia|]. intros r' A. cbn [bind]. cbv zeta. useR K3 A. useR K1 A. useR K2 A. reflexivity.
Qed.
Lemma process_local qe p Dt cl mass pr : local agreeR (fun r k => process_generate qe p Dt cl mass pr r k).
Proof.
  intros r k o k' H. unfold process_generate in *. op H. op H. destruct p0 as [sh k1].
  assert (C : (k <= k1)%nat /\ forall r', agreeR k k1 r r' -> (if x_equal p then
       do ref <- mean_ref cl (INR (length (x_prods p))) (x_prods p) 0 ; Some (Some (ref, counts_of l ref r' k), (k + length l)%nat) else Some (None, k)) = Some (sh, k1)).
  { destruct (x_equal p); [op E0|]; injection E0 as <- <-; (split; [lia|]); intros r' A; [|reflexivity]. cbn [bind]. unfold counts_of. drR A. reflexivity. }
  destruct C as [M1 K1]. op H. destruct p0 as [infos k2]. destruct (products_local _ _ _ _ _ _ _ _ _ _ _ E1) as [M2 K2]. injection H as <- <-.
  split; [lia|]. intros r' A. cbn [bind]. useR K1 A. useR K2 A. reflexivity.
Qed.
Lemma procs_local qe Dt cl mass pr : forall ps d cnt, local agreeR (fun r k => procs_loop qe Dt cl mass pr ps d cnt r k).
Proof.
  induction ps as [|p ps IH]; intros d cnt r k o k' H; cbn [procs_loop] in *; [injection H as <- <-; auto|].
  op H. destruct p0 as [[[p' infos] DN] k1]. destruct (process_local _ _ _ _ _ _ _ _ _ _ E) as [M1 K1]. op H. destruct p0 as [d2 cnt2]. op H. destruct p0 as [[[rest d3] cnt3] k2].
  destruct (IH _ _ _ _ _ _ E1) as [M2 K2]. injection H as <- <-. split; [lia|]. intros r' A. useR K1 A. rewrite E0. cbn [bind]. useR K2 A. reflexivity.
Qed.
Lemma proj_local qe Dt cl : forall pd d cnt, local agreeR (fun r k => proj_loop qe Dt cl pd d cnt r k).
Proof.
  induction pd as [|[name ps] pd IH]; intros d cnt r k o k' H; cbn [proj_loop] in *; [injection H as <- <-; auto|].
  op H. op H. destruct p as [[[ps1 d1] cnt1] k1].
  assert (C : (k <= k1)%nat /\ forall r', agreeR k k1 r r' -> (if Nat.ltb 0 (N_mp (xc_mp x))
         then procs_loop qe Dt cl (xc_mass x) (projectiles (xc_mp x)) ps d cnt r' k
         else Some (ps, d, cnt, k)) = Some (ps1, d1, cnt1, k1)).
  { destruct (Nat.ltb 0 (N_mp (xc_mp x))); [apply (procs_local _ _ _ _ _ _ _ _ _ _ _ _ E0)|]. injection E0 as <- <- <- <-. auto. }
  destruct C as [M1 K1]. op H. destruct p as [[[rest d2] cnt2] k2]. destruct (IH _ _ _ _ _ _ E1) as [M2 K2]. injection H as <- <-.
  split; [lia|]. intros r' A. cbn [bind]. useR K1 A. useR K2 A. reflexivity.
Qed.
Lemma cross_local qe Dt x cl : local agreeR (fun r k => cross_generate qe Dt x cl r k).
Proof.
  intros r k o k' H. unfold cross_generate in *. op H. destruct p as [[[procs d] cnt] k1]. destruct (proj_local _ _ _ _ _ _ _ _ _ _ E) as [M K]. op H. destruct p as [xs cnt2]. injection H as <- <-.
  split; [exact M|]. intros r' A. useR K A. rewrite E0. reflexivity.
Qed.

(** * Regeneration *)
Lemma soft_local target s : local agreeR (fun r k => perform_soft_regeneration target r k s).
Proof.
  intros r k o k' H. unfold perform_soft_regeneration in *. destruct (Nat.ltb target (N_mp s)); [|injection H as <- <-; auto].
  op H. op H. op H. injection H as <- <-. split; [lia|]. intros r' A. drR A. rewrite E. cbn [bind]. rewrite E0. cbn [bind]. rewrite E1. reflexivity.
Qed.
Lemma check_soft_local thr s : local agreeR (fun r k => check_for_soft_regeneration thr r k s).
Proof.
  intros r k o k' H. unfold check_for_soft_regeneration in *. destruct thr as [[a b]|]; [|injection H as <- <-; auto]. destruct (Nat.ltb a (N_mp s)); [|injection H as <- <-; auto].
  apply (soft_local _ _ _ _ _ _ H).
Qed.
Lemma check_async_local thr s : local agreeR (fun r k => check_for_async_regeneration thr r k s).
Proof.
  intros r k o k' H. unfold check_for_async_regeneration in *. destruct thr as [[a b]|]; [|injection H as <- <-; auto]. destruct (Nat.ltb a (N_mp s)); [|injection H as <- <-; auto].
  op H. cbn [bind]. destruct (Nat.ltb a (N_mp m)); [|injection H as <- <-; auto]. apply (soft_local _ _ _ _ _ _ H).
Qed.
Lemma cells_local c Dx Dy cxs cys : forall fuel xt yt, local agreeR (fun r k => redraw_cells fuel c Dx Dy cxs cys r k xt yt).
Proof.
  induction fuel as [|f IH]; intros xt yt r k o k' H; cbn [redraw_cells] in *; destruct (Nat.eqb (count_true (map2 (outside c) xt yt)) 0); try discriminate; try (injection H as <- <-; auto).
  destruct (IH _ _ _ _ _ _ H) as [M K]. split; [lia|]. intros r' A. drR A. useR K A. reflexivity.
Qed.
Lemma fill_local fi c d cells : forall fuel num r st st', fill_loop fuel fi c d cells num r st = Some st' ->
  (f_k st <= f_k st')%nat /\ forall r', agreeR (f_k st) (f_k st') r r' -> fill_loop fuel fi c d cells num r' st = Some st'.
Proof.
  induction fuel as [|f IH]; intros num r st st' H; cbn [fill_loop] in *; destruct (Nat.eqb (count_true (map (fun n => (0 <? n)%Z) num)) 0); try discriminate; try (injection H as <-; auto).
  op H. destruct p as [[xt yt] k1]. destruct (cells_local _ _ _ _ _ _ _ _ _ _ _ _ E) as [M K]. op H. op H. op H. op H. op H. destruct (IH _ _ _ _ H) as [M2 K2]. cbn [f_k] in M2, K2.
  split; [lia|]. intros r' A. drR A. useR K A. rewrite E0. cbn [bind]. rewrite E1. cbn [bind]. rewrite E2. cbn [bind]. rewrite E3. cbn [bind]. rewrite E4. cbn [bind]. useR K2 A. reflexivity.
Qed.
Lemma regen_local fuel fi cfg c s : local agreeR (fun r k => check_for_regeneration fuel fi cfg c r k s).
Proof.
  intros r k o k' H. unfold check_for_regeneration in *. cbv zeta in *. destruct (regen_needed cfg s); [|injection H as <- <-; auto].
  op H. op H. op H. op H. destruct (fill_local _ _ _ _ _ _ _ _ _ E2) as [M K]. cbn [f_k] in M, K. injection H as <- <-. split; [lia|]. intros r' A. cbn [bind]. rewrite E0. drR A. rewrite E1. cbn [bind]. useR K A. reflexivity.
Qed.

(** * Emission models *)
Lemma agreeF_src a b fs fs' : agreeF a b fs fs' -> agree a b (f_src fs) (f_src fs').
Proof. intros [A _]. exact A. Qed.
Lemma plain_alike m c fs fs' : em_alike fs fs' (plain_em m c (f_src fs)) (plain_em m c (f_src fs')).
Proof.
  intros th seg ps k Q o k' Q' H. unfold plain_em, std_emitter in *. cbn [fst snd] in *. op H. destruct p as [o1 k1]. injection H as <- <- <-.
  destruct (impacts_local _ _ _ _ _ _ _ _ _ E) as [M K]. split; [exact M|]. intros A. cbv beta in K. rewrite (K _ (agreeF_src _ _ _ _ A)). reflexivity.
Qed.
Lemma charging_alike segs E0 gs c fs fs' : em_alike fs fs' (charging_emitter segs E0 gs c (f_src fs)) (charging_emitter segs E0 gs c (f_src fs')).
Proof.
  intros th seg ps k Q o k' Q' H. unfold charging_emitter in *. cbn [fst snd] in *. op H. destruct p as [[o1 Q1] k1]. injection H as <- <- <-.
  destruct (impacts_charging_local _ _ _ _ _ _ _ _ _ _ _ _ E) as [M K]. split; [exact M|]. intros A. cbv beta in K. rewrite (K _ (agreeF_src _ _ _ _ A)). reflexivity.
Qed.
Lemma fp_alike cf sp f fs fs' : em_alike fs fs' (fp_em cf sp f fs) (fp_em cf sp f fs').
Proof.
  intros th seg ps k Q o k' Q' H. unfold fp_em in *. cbn [fst snd] in *. op H. destruct p as [o1 k1]. injection H as <- <- <-.
  destruct (fp_local _ _ _ _ _ _ _ _ _ _ E) as [M K]. split; [exact M|]. intros A. cbv beta in K. rewrite (K _ A). reflexivity.
Qed.
Lemma absorb_alike fs fs' : em_alike fs fs' absorb_em absorb_em.
Proof. intros th seg ps k Q o k' Q' H. unfold absorb_em in *. injection H as <- <- <-. auto. Qed.

(** * The time step *)
Lemma back_local fs fs' em em' w c tt old g s k Q g1 s1 k' Q' : em_alike fs fs' em em' ->
  backtrack_and_second_emiss w c em tt old g s (k, Q) = Some (g1, s1, (k', Q')) ->
  (k <= k')%nat /\ (agreeF k k' fs fs' -> backtrack_and_second_emiss w c em' tt old g s (k, Q) = Some (g1, s1, (k', Q'))).
Proof.
  intros EA H. unfold backtrack_and_second_emiss in *. destruct old as [[xo yo] zo]. cbv zeta in *.
  destruct (Nat.eqb (N_mp s) 0); [injection H as <- <- <- <-; auto|]. destruct (Nat.eqb (count_true (impact_mask w s)) 0); [injection H as <- <- <- <-; auto|].
  op H. op H. destruct p as [lh tl]. op H. op H. op H. destruct p as [o [k1 Q1]]. destruct (EA _ _ _ _ _ _ _ _ E3) as [M K].
  op H. op H. destruct (Nat.eqb (length (Sey.n_nel o)) 0) eqn:EN.
  - injection H as <- <- <- <-. split; [exact M|]. intros A. rw. rewrite (K A). cbn [bind]. rewrite E4. cbn [bind]. rewrite E5. cbn [bind]. rewrite EN. reflexivity.
  - op H. op H. injection H as <- <- <- <-. split; [exact M|]. intros A. rw. rewrite (K A). cbn [bind]. rewrite E4. cbn [bind]. rewrite E5. cbn [bind]. rewrite EN. rewrite E6. cbn [bind]. rewrite E7. reflexivity.
Qed.
Lemma gas_loop_local g mass sr' : forall bs e k full s s1 k' f1, gas_loop e g mass bs k full s = Some (s1, k', f1) ->
  (k <= k')%nat /\ (agree k k' (e_sr e) sr' -> gas_loop (with_src e sr') g mass bs k full s = Some (s1, k', f1)).
Proof.
  induction bs as [|b bs IH]; intros e k full s s1 k' f1 H; cbn [gas_loop] in *; [injection H as <- <- <-; auto|].
  op H. destruct p as [s2 k2]. destruct (gas_local _ _ _ _ _ _ _ _ _ _ _ _ _ _ _ _ E) as [M K]. destruct (IH _ _ _ _ _ _ _ H) as [M2 K2]. split; [lia|]. intros A. cbn [with_src e_fuel e_kc e_cham e_sr].
  use K A. apply K2. eapply agree_sub; [exact A|lia|lia].
Qed.
Lemma photo_step_local e p mass lam Dt s sr' k s1 k' : photo_step e p mass lam Dt k s = Some (s1, k') ->
  (k <= k')%nat /\ (agree k k' (e_sr e) sr' -> photo_step (with_src e sr') p mass lam Dt k s = Some (s1, k')).
Proof.
  intros H. unfold photo_step in *. destruct p as [|p|ph cdf|ph pc]; cbn [with_src e_fuel e_kc e_wall e_sr] in *.
  - injection H as <- <-. auto.
  - destruct (photo1_local _ _ _ _ _ _ _ _ _ _ _ _ H) as [M K]. split; [exact M|]. intros A. apply K. exact A.
  - destruct (photo2_local _ _ _ _ _ _ _ _ _ _ _ _ _ H) as [M K]. split; [exact M|]. intros A. apply K. exact A.
  - destruct (photo3_local _ _ _ _ _ _ _ _ _ _ _ _ H) as [M K]. split; [exact M|]. intros A. apply K. exact A.
Qed.
Lemma primary_local e main secs c c' sr' k full s s1 k' f1 : a_gas c' = a_gas c -> a_mass c' = a_mass c -> a_tion c' = a_tion c -> a_photo c' = a_photo c ->
  primary_generation e main secs c k full s = Some (s1, k', f1) ->
  (k <= k')%nat /\ (agree k k' (e_sr e) sr' -> primary_generation (with_src e sr') main secs c' k full s = Some (s1, k', f1)).
Proof.
  intros G1 G2 G3 G4 H. unfold primary_generation in *. rewrite G1, G2, G3, G4. op H. destruct p as [[s2 k2] f2].
  assert (C : (k <= k2)%nat /\ (agree k k2 (e_sr e) sr' -> match a_gas c with
     | Some g => if Rltb (ti_t main) (a_tion c) then gas_loop (with_src e sr') g (a_mass c) (main :: secs) k full s else Some (s, k, full)
     | None => Some (s, k, full) end = Some (s2, k2, f2))).
  { destruct (a_gas c) as [g|]; [|injection E as <- <- <-; auto]. destruct (Rltb (ti_t main) (a_tion c)); [|injection E as <- <- <-; auto]. apply gas_loop_local. exact E. }
  destruct C as [M1 K1]. op H. destruct p as [s3 k3]. destruct (photo_step_local _ _ _ _ _ _ sr' _ _ _ E0) as [M2 K2]. injection H as <- <- <-. split; [lia|]. intros A.
  rewrite K1 by (eapply agree_sub; [exact A|lia|lia]). cbn [bind]. rewrite K2 by (eapply agree_sub; [exact A|lia|lia]). reflexivity.
Qed.

Lemma motion_same e sr' a main secs sc c em' s : cloud_motion (with_src e sr') a main secs sc
    (mkCset (a_name c) (a_mass c) (a_charge c) (a_dyn c) (a_icfg c) em' (a_evol c) (a_gas c) (a_tion c) (a_photo c) (a_regen c) (a_soft c) (a_async c)) s = cloud_motion e a main secs sc c s.
Proof. reflexivity. Qed.
Lemma step_cloud_local fs fs' e a main secs sc k full c c' c1 k' f1 : e_sr e = f_src fs -> cloud_alike fs fs' c c' ->
  step_cloud e a main secs sc k full c = Some (c1, k', f1) ->
  (k <= k')%nat /\ (agreeF k k' fs fs' -> exists c1', step_cloud (with_src e (f_src fs')) a main secs sc k full c' = Some (c1', k', f1) /\ cloud_alike fs fs' c1 c1').
Proof.
  intros ES ((EA & EC) & EM & ER & EI & EQ) H. unfold step_cloud in *. op H. op H. destruct p as [[g s2] [k2 Q2]]. cbn [fst snd] in *.
  destruct (back_local _ _ _ _ _ _ _ _ _ _ _ _ _ _ _ _ EA E0) as [M1 K1]. op H. destruct p as [[s3 k3] f3].
  destruct (primary_local _ _ _ _ (o_set c') (f_src fs') _ _ _ _ _ _ ltac:(rewrite EC; reflexivity) ltac:(rewrite EC; reflexivity) ltac:(rewrite EC; reflexivity) ltac:(rewrite EC; reflexivity) E1) as [M2 K2].
  injection H as <- <- <-. split; [lia|]. intros A. eexists. split.
  - rewrite EM, EI, EQ. pose proof (motion_same e (f_src fs') a main secs sc (o_set c) (a_em (o_set c')) (o_mp c)) as EMo. rewrite <- EC in EMo. rewrite EMo, E. cbn [bind].
    replace (a_icfg (o_set c')) with (a_icfg (o_set c)) by (rewrite EC; reflexivity). change (e_wall (with_src e (f_src fs'))) with (e_wall e).
    rewrite K1 by (eapply agreeF_sub; [exact A|lia|lia]). cbn [bind fst snd]. rewrite K2; [cbn [bind]; reflexivity|]. rewrite ES. apply agreeF_src. eapply agreeF_sub; [exact A|lia|lia].
  - unfold cloud_alike. cbn [o_set o_mp o_rho o_iman o_Q]. split; [split; [exact EA|exact EC]|]. split; [reflexivity|]. split; [exact ER|]. split; [reflexivity|]. rewrite EC. reflexivity.
Qed.
Lemma clouds_local fs fs' e a main secs sc : e_sr e = f_src fs -> forall cl cl' k full r k' f1, Forall2 (cloud_alike fs fs') cl cl' ->
  clouds_loop e a main secs sc k full cl = Some (r, k', f1) ->
  (k <= k')%nat /\ (agreeF k k' fs fs' -> exists r', clouds_loop (with_src e (f_src fs')) a main secs sc k full cl' = Some (r', k', f1) /\ Forall2 (cloud_alike fs fs') r r').
Proof.
  intros ES. induction cl as [|c cl IH]; intros cl' k full r k' f1 F H; inversion F as [|c0 c' cl0 cl2 HC HF]; subst; cbn [clouds_loop] in *.
  - injection H as <- <- <-. split; [lia|]. intros _. exists []. auto.
  - op H. destruct p as [[c1 k1] f2]. destruct (step_cloud_local _ _ _ _ _ _ _ _ _ _ _ _ _ _ ES HC E) as [M1 K1]. op H. destruct p as [[r1 k2] f3]. destruct (IH _ _ _ _ _ _ HF E0) as [M2 K2].
    injection H as <- <- <-. split; [lia|]. intros A. destruct K1 as (c1' & X1 & Y1); [eapply agreeF_sub; [exact A|lia|lia]|]. destruct K2 as (r' & X2 & Y2); [eapply agreeF_sub; [exact A|lia|lia]|].
    exists (c1' :: r'). rewrite X1. cbn [bind]. rewrite X2. cbn [bind]. split; [reflexivity|]. constructor; auto.
Qed.
Lemma to_x_alike fs fs' cl cl' : Forall2 (cloud_alike fs fs') cl cl' -> map to_x cl' = map to_x cl.
Proof. induction 1 as [|c c' cl cl' ((_ & EC) & EM & _) _ IH]; [reflexivity|]. cbn [map]. rewrite IH. f_equal. unfold to_x. rewrite EM, EC. reflexivity. Qed.
Lemma put_mp_alike fs fs' : forall cl cl' xs, Forall2 (cloud_alike fs fs') cl cl' -> Forall2 (cloud_alike fs fs') (map2 put_mp cl xs) (map2 put_mp cl' xs).
Proof.
  intros cl cl' xs F. revert xs. induction F as [|c c' cl cl' (ES & EM & ER & EI & EQ) _ IH]; intros xs; [constructor|]. destruct xs as [|x xs]; [constructor|]. cbn [map2]. constructor; [|apply IH].
  unfold put_mp, cloud_alike. cbn. auto.
Qed.
Lemma cross_step_local fs fs' e Dt x k cl cl' x1 r k' : e_sr e = f_src fs -> Forall2 (cloud_alike fs fs') cl cl' -> cross_step e Dt x k cl = Some (x1, r, k') ->
  (k <= k')%nat /\ (agreeF k k' fs fs' -> exists r', cross_step (with_src e (f_src fs')) Dt x k cl' = Some (x1, r', k') /\ Forall2 (cloud_alike fs fs') r r').
Proof.
  intros ES F H. unfold cross_step in *. destruct x as [x|]; [|injection H as <- <- <-; split; [lia|]; intros _; exists cl'; auto].
  op H. destruct p as [[x2 xs] k2]. destruct (cross_local _ _ _ _ _ _ _ _ E) as [M K]. injection H as <- <- <-. split; [exact M|]. intros A. exists (map2 put_mp cl' xs). cbn [with_src e_kc e_sr].
  rewrite (to_x_alike _ _ _ _ F). cbv beta in K. rewrite K by (rewrite ES; apply agree_R, agreeF_src, A). cbn [bind]. split; [reflexivity|]. apply put_mp_alike. exact F.
Qed.
Lemma recompute_alike fs fs' p : forall cl cl' before sc r sc1, Forall2 (cloud_alike fs fs') cl cl' -> recompute_loop p before cl sc = (r, sc1) ->
  exists r', recompute_loop p before cl' sc = (r', sc1) /\ Forall2 (cloud_alike fs fs') r r'.
Proof.
  induction cl as [|c cl IH]; intros cl' before sc r sc1 F H; inversion F as [|c0 c' cl0 cl2 HC HF]; subst; cbn [recompute_loop] in *.
  - injection H as <- <-. exists []. auto.
  - destruct HC as (HS & EM & ER & EI & EQ). pose proof HS as [_ EC]. cbv zeta in *.
    replace (a_charge (o_set c')) with (a_charge (o_set c)) by (rewrite EC; reflexivity). rewrite EM, EI, EQ.
    replace (match cl2 with [] => true | _ :: _ => false end) with (match cl with [] => true | _ :: _ => false end) by (inversion HF; reflexivity).
    destruct (recompute_loop p (before ++ _) cl _) as [r1 s1] eqn:E. injection H as <- <-. destruct (IH _ _ _ _ _ HF E) as (r' & X & Y). rewrite X. eexists. split; [reflexivity|].
    constructor; [|exact Y]. unfold cloud_alike. cbn. auto.
Qed.
Lemma full_alike fs fs' cl cl' : Forall2 (cloud_alike fs fs') cl cl' -> existsb (fun c => is_full (o_mp c)) cl' = existsb (fun c => is_full (o_mp c)) cl.
Proof. induction 1 as [|c c' cl cl' (_ & EM & _) _ IH]; [reflexivity|]. cbn [existsb]. rewrite IH, EM. reflexivity. Qed.
Lemma step_main_local fs fs' e a main secs m m' m1 : e_sr e = f_src fs -> sim_alike fs fs' m m' -> step_main e a main secs m = Some m1 ->
  (m_k m <= m_k m1)%nat /\ (agreeF (m_k m) (m_k m1) fs fs' -> exists m1', step_main (with_src e (f_src fs')) a main secs m' = Some m1' /\ sim_alike fs fs' m1 m1').
Proof.
  intros ES (F & S1 & S2 & S3 & S4) H. unfold step_main in *. rewrite S1, S2, S3, S4. destruct (check_for_recomputation (ti_t main) (m_sc m)) as [flag sc]. op H. destruct p as [[cl k1] f1].
  destruct (clouds_local _ _ _ _ _ _ _ ES _ _ _ _ _ _ _ F E) as [M1 K1]. op H. destruct p as [[x cl2] k2].
  destruct (recompute_cloud_spacecharge e (ti_t main) flag (s_force_sc a) cl2 sc) as [cl3 sc3] eqn:ER. injection H as <-. cbn [m_k].
  assert (M2 : (k1 <= k2)%nat). { unfold cross_step in E0. destruct (m_xion m); [|injection E0 as _ _ <-; lia]. op E0. destruct p as [[x2 xs] k3]. destruct (cross_local _ _ _ _ _ _ _ _ E1) as [M _]. injection E0 as _ _ <-. exact M. }
  split; [lia|]. intros A. destruct K1 as (cl' & X1 & Y1); [eapply agreeF_sub; [exact A|lia|lia]|]. rewrite X1. cbn [bind].
  destruct (cross_step_local _ _ _ _ _ _ _ _ _ _ _ ES Y1 E0) as [_ K2]. destruct K2 as (cl2' & X2 & Y2); [eapply agreeF_sub; [exact A|lia|lia]|]. rewrite X2. cbn [bind]. cbv zeta.
  assert (C : exists cl3', recompute_cloud_spacecharge (with_src e (f_src fs')) (ti_t main) flag (s_force_sc a) cl2' sc = (cl3', sc3) /\ Forall2 (cloud_alike fs fs') cl3 cl3').
  { unfold recompute_cloud_spacecharge in *. cbn [with_src e_tsc e_pic]. destruct ((Rgtb (ti_t main) (e_tsc e) && flag) || s_force_sc a); [eapply recompute_alike; eauto|]. injection ER as <- <-. exists cl2'. auto. }
  destruct C as (cl3' & X3 & Y3). rewrite X3. eexists. split; [reflexivity|]. unfold sim_alike. cbn. rewrite (full_alike _ _ _ _ Y2). auto.
Qed.
Lemma clean_one_local e a new c c' sr' k s s1 k' : a_regen c' = a_regen c -> a_soft c' = a_soft c -> a_async c' = a_async c -> clean_one e a new c k s = Some (s1, k') ->
  (k <= k')%nat /\ (agree k k' (e_sr e) sr' -> clean_one (with_src e sr') a new c' k s = Some (s1, k')).
Proof.
  intros G1 G2 G3 H. unfold clean_one in *. rewrite G1, G2, G3. cbn [with_src e_fuel e_cham e_sr]. cbv zeta in *. op H. destruct p as [s2 k2].
  assert (C : (k <= k2)%nat /\ (agree k k2 (e_sr e) sr' -> (if new then
       do s <- (if s_noclean a then Some s else clean_small_MPs s) ;
       if s_noregen a then Some (s, k) else
       do (s, k) <- check_for_regeneration (e_fuel e) (e_fuel e) (a_regen c) (e_cham e) (s_uni sr') k s ;
       check_for_soft_regeneration (a_soft c) (s_uni sr') k s
     else Some (s, k)) = Some (s2, k2))).
  { destruct new; [|injection E as <- <-; auto]. op E. cbn [bind]. destruct (s_noregen a); [injection E as <- <-; auto|]. op E. destruct p as [s3 k3]. destruct (regen_local _ _ _ _ _ _ _ _ _ E1) as [M1 K1].
    destruct (check_soft_local _ _ _ _ _ _ E) as [M2 K2]. split; [lia|]. intros A. apply agree_R in A. useR K1 A. useR K2 A. reflexivity. }
  destruct C as [M1 K1]. destruct (check_async_local _ _ _ _ _ _ H) as [M2 K2]. split; [lia|]. intros A. rewrite K1 by (eapply agree_sub; [exact A|lia|lia]). cbn [bind]. apply agree_R in A. useR K2 A. reflexivity.
Qed.
Lemma clean_loop_local fs fs' e a new : e_sr e = f_src fs -> forall cl cl' k r k', Forall2 (cloud_alike fs fs') cl cl' -> clean_loop e a new k cl = Some (r, k') ->
  (k <= k')%nat /\ (agreeF k k' fs fs' -> exists r', clean_loop (with_src e (f_src fs')) a new k cl' = Some (r', k') /\ Forall2 (cloud_alike fs fs') r r').
Proof.
  intros ES. induction cl as [|c cl IH]; intros cl' k r k' F H; inversion F as [|c0 c' cl0 cl2 HC HF]; subst; cbn [clean_loop] in *.
  - injection H as <- <-. split; [lia|]. intros _. exists []. auto.
  - destruct HC as (HS & EM & ER & EI & EQ). pose proof HS as [_ EC]. op H. destruct p as [s1 k1].
    destruct (clean_one_local _ _ _ _ (o_set c') (f_src fs') _ _ _ _ ltac:(rewrite EC; reflexivity) ltac:(rewrite EC; reflexivity) ltac:(rewrite EC; reflexivity) E) as [M1 K1].
    op H. destruct p as [r1 k2]. destruct (IH _ _ _ _ HF E0) as [M2 K2]. injection H as <- <-. split; [lia|]. intros A. rewrite EM, ER, EI, EQ.
    rewrite K1 by (rewrite ES; apply agreeF_src; eapply agreeF_sub; [exact A|lia|lia]). cbn [bind]. destruct K2 as (r' & X & Y); [eapply agreeF_sub; [exact A|lia|lia]|]. rewrite X. cbn [bind]. eexists. split; [reflexivity|].
    constructor; [|exact Y]. unfold cloud_alike. cbn. auto.
Qed.
Lemma step_local fs fs' e a main secs m m' m1 : e_sr e = f_src fs -> sim_alike fs fs' m m' -> sim_time_step e a main secs m = Some m1 ->
  (m_k m <= m_k m1)%nat /\ (agreeF (m_k m) (m_k m1) fs fs' -> exists m1', sim_time_step (with_src e (f_src fs')) a main secs m' = Some m1' /\ sim_alike fs fs' m1 m1').
Proof.
  intros ES SA H. unfold sim_time_step in *. op H. destruct (step_main_local _ _ _ _ _ _ _ _ _ ES SA E) as [M1 K1]. op H. destruct p as [cl k]. injection H as <-. cbn [m_k].
  assert (M2 : (m_k s <= k)%nat). { assert (F : Forall2 (cloud_alike fs fs) (m_clouds s) (m_clouds s) -> (m_k s <= k)%nat) by (intros F; apply (clean_loop_local fs fs e a _ ES _ _ _ _ _ F E0)).
    clear - E0. revert E0. generalize (m_clouds s) (m_k s). intros l. revert cl k. induction l as [|c l IH]; intros cl k n E0; cbn [clean_loop] in E0; [injection E0 as _ <-; lia|].
    op E0. destruct p as [s1 k1]. destruct (clean_one_local _ _ _ _ (o_set c) (e_sr e) _ _ _ _ eq_refl eq_refl eq_refl E) as [M1 _]. op E0. destruct p as [r1 k2]. apply IH in E1. injection E0 as _ <-. lia. }
  split; [lia|]. intros A. destruct K1 as (s' & X1 & (F & S1 & S2 & S3 & S4)); [eapply agreeF_sub; [exact A|lia|lia]|]. rewrite X1. cbn [bind]. rewrite S3.
  destruct (clean_loop_local _ _ _ _ _ ES _ _ _ _ _ F E0) as [_ K2]. destruct K2 as (r' & X2 & Y2); [eapply agreeF_sub; [exact A|lia|lia]|]. rewrite X2. cbn [bind]. eexists. split; [reflexivity|].
  unfold sim_alike. cbn. auto.
Qed.

Lemma agreeF_refl a b fs : agreeF a b fs fs.
Proof. split; [intros i Hi; auto|auto]. Qed.
Lemma self_alike fs fs' m m' : sim_alike fs fs' m m' -> sim_alike fs fs m m.
Proof.
  intros (F & _). split; [|auto]. induction F as [|c c' cl cl' ((EA & _) & _) _ IH]; constructor; [|exact IH]. split; [|auto]. split; [|destruct (o_set c); reflexivity].
  intros th seg ps k Q o k' Q' H. destruct (EA _ _ _ _ _ _ _ _ H) as [M _]. auto.
Qed.
Lemma with_own e : with_src e (e_sr e) = e.
Proof. destruct e. reflexivity. Qed.
Lemma self_step fs e a main secs m m1 : e_sr e = f_src fs -> sim_alike fs fs m m -> sim_time_step e a main secs m = Some m1 -> sim_alike fs fs m1 m1.
Proof.
  intros ES SA H. destruct (step_local _ _ _ _ _ _ _ _ _ ES SA H) as [_ K]. destruct (K (agreeF_refl _ _ _)) as (m2 & X & Y). rewrite <- ES, with_own, H in X. injection X as <-. exact Y.
Qed.
Lemma last_cons {A} (x : A) l d : last (x :: l) d = last l x.
Proof. revert x d. induction l as [|y l IH]; intros x d; [reflexivity|]. change (last (y :: l) d = last (y :: l) x). rewrite !IH. reflexivity. Qed.
Lemma run_mono fs e : e_sr e = f_src fs -> forall l m ms, sim_alike fs fs m m -> sim_run e l m = Some ms -> (m_k m <= m_k (last ms m))%nat.
Proof.
  intros ES. induction l as [|[[a main] secs] l IH]; intros m ms SA H; cbn [sim_run] in *; [injection H as <-; cbn; lia|].
  op H. op H. injection H as <-. rewrite last_cons. destruct (step_local _ _ _ _ _ _ _ _ _ ES SA E) as [M _]. pose proof (IH _ _ (self_step _ _ _ _ _ _ _ ES SA E) E0). lia.
Qed.
Lemma run_local fs fs' e : e_sr e = f_src fs -> forall l m m' ms, sim_alike fs fs' m m' -> sim_run e l m = Some ms ->
  (m_k m <= m_k (last ms m))%nat /\ (agreeF (m_k m) (m_k (last ms m)) fs fs' -> exists ms', sim_run (with_src e (f_src fs')) l m' = Some ms' /\ Forall2 (sim_alike fs fs') ms ms').
Proof.
  intros ES. induction l as [|[[a main] secs] l IH]; intros m m' ms SA H; split; try (eapply run_mono; [exact ES|eapply self_alike; exact SA|exact H]); cbn [sim_run] in *.
  - injection H as <-. intros _. exists []. auto.
  - op H. destruct (step_local _ _ _ _ _ _ _ _ _ ES SA E) as [M1 K1]. op H. injection H as <-. rewrite last_cons. intros A.
    pose proof (run_mono _ _ ES _ _ _ (self_step _ _ _ _ _ _ _ ES (self_alike _ _ _ _ SA) E) E0) as M2.
    destruct K1 as (s' & X1 & Y1); [eapply agreeF_sub; [exact A|lia|lia]|]. destruct (IH _ _ _ Y1 E0) as [_ K2]. destruct K2 as (r & X2 & Y2); [eapply agreeF_sub; [exact A|lia|lia]|].
    exists (s' :: r). rewrite X1. cbn [bind]. rewrite X2. cbn [bind]. split; [reflexivity|]. constructor; auto.
Qed.

(** * Initial distributions *)
Lemma at_R a b r r' k : agreeR a b r r' -> (a <= k < b)%nat -> r' k = r k.
Proof. intros A H. apply A. exact H. Qed.
Lemma redraw_uniform_local c x1 x0 y1 y0 : forall fuel xt yt, local agreeR (fun r k => redraw_uniform fuel c x1 x0 y1 y0 r k xt yt).
Proof.
  induction fuel as [|f IH]; intros xt yt r k o k' H; cbn [redraw_uniform] in *; destruct (Nat.eqb (count_true (map2 (outside c) xt yt)) 0); try discriminate; try (injection H as <- <-; auto).
  destruct (IH _ _ _ _ _ _ H) as [M K]. split; [lia|]. intros r' A. drR A. useR K A. reflexivity.
Qed.
Lemma uniform_local fuel c DN v0 x1 x0 y1 y0 s : local agreeR (fun r k => add_uniform_MP_distrib fuel c DN v0 x1 x0 y1 y0 r k s).
Proof.
  intros r k o k' H. unfold add_uniform_MP_distrib in *. cbv zeta in *.
  assert (NZ : forall r', (k < k')%nat -> agreeR k k' r r' -> r' k = r k) by (intros r' L A; apply A; lia).
  destruct (0 <? stoch_round (DN / nel_mp_ref s) (r k))%Z eqn:EZ.
  - op H. destruct p as [[xt yt] k1]. destruct (redraw_uniform_local _ _ _ _ _ _ _ _ _ _ _ _ E) as [M K]. op H. injection H as <- <-. split; [lia|]. intros r' A. rewrite NZ by (auto; lia). rewrite EZ. drR A. useR K A.
    rewrite !(at_R _ _ _ _ _ A) by lia. rewrite E0. reflexivity.
  - injection H as <- <-. split; [lia|]. intros r' A. rewrite NZ by (auto; lia). rewrite EZ. reflexivity.
Qed.
Lemma density_local c ne v0 x1 x0 y1 y0 s : local agreeR (fun r k => add_uniform_ele_density c ne v0 x1 x0 y1 y0 r k s).
Proof.
  intros r k o k' H. unfold add_uniform_ele_density in *. cbv zeta in *.
  assert (NZ : forall r', (k < k')%nat -> agreeR k k' r r' -> r' k = r k) by (intros r' L A; apply A; lia).
  destruct (0 <? stoch_round _ (r k))%Z eqn:EZ.
  - op H. injection H as <- <-. split; [lia|]. intros r' A. rewrite NZ by (auto; lia). rewrite EZ. drR A. rewrite !(at_R _ _ _ _ _ A) by lia. rewrite E. reflexivity.
  - injection H as <- <-. split; [lia|]. intros r' A. rewrite NZ by (auto; lia). rewrite EZ. reflexivity.
Qed.

Lemma parts_local : (forall m ps, local agree (fun sr k => SEY_process m sr k ps)) /\
  (forall sw fuel n Eth En th, local agree (fun sr k => sec_energy_hilleret_model2 sw fuel sr k n Eth En th)) /\
  (forall d qe mass n En nx ny, local agree (fun sr k => Some (angle_dist_func d qe mass sr k n En nx ny))) /\
  (forall fuel d sg mx n, local agree (fun sr k => get_energy fuel d sg mx sr k n)) /\
  (forall fuel pc n, local agree (fun sr k => get_photoelectron_positions fuel pc sr k n)) /\
  (forall f dl ts, local agreeF (fun fs k => fp_numbers f fs dl ts k)).
Proof.
  split; [exact sey_local|]. split; [exact energy_local|]. split; [|split; [exact get_energy_local|split; [exact positions_local|exact fp_numbers_local]]].
  intros d qe mass n En nx ny s k r k' H. injection H as H. destruct (angle_local _ _ _ _ _ _ _ _ _ _ _ H) as [M K]. split; [exact M|]. intros s' A. rewrite (K _ A). reflexivity.
Qed.
