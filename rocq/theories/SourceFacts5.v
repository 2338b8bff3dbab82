(** Where and how fast the electrons freed from the gas start. *)
From Coq Require Import Lra Lia.
From Verif Require Import Num NumFacts MP SpecMP MPFacts Geom Poly Sey SpecSey SeyFacts SeyFacts2 SeyFacts4 Impact SpecImpact Source SpecSource SourceFacts SourceFacts2 SourceFacts4.
Local Open Scope list_scope.
Local Open Scope R_scope.

Section Gas.
Context (sr : src).

Definition gval (sigma pos aper : R) (b : bool) (i : nat) : R := if b then aper * (2 * (s_uni sr i - 1/2)) else sigma * s_norm sr i + pos.
Fixpoint gidx (k n : nat) (unif : list bool) : list nat :=
  match unif with [] => [] | b :: l => (if b then k + n else k)%nat :: gidx (S k) n l end.

Lemma gidx_length : forall unif k n, length (gidx k n unif) = length unif.
Proof. induction unif; intros k n; cbn; auto. Qed.
Lemma gidx_range : forall unif k n i, In i (gidx k n unif) -> (k <= i < k + n + length unif)%nat.
Proof. induction unif as [|b l IH]; intros k n i; cbn; [intros []|]. intros [<-|H]; [destruct b; lia|]. apply IH in H. lia. Qed.
Lemma gidx_exact : forall unif k n i, In i (gidx k n unif) -> (k <= i < k + length unif)%nat \/ (k + n <= i < k + n + length unif)%nat.
Proof. induction unif as [|b l IH]; intros k n i; cbn; [intros []|]. intros [<-|H]; [destruct b; lia|]. apply IH in H. lia. Qed.
Lemma gidx_nodup : forall unif k n, (length unif <= n)%nat -> NoDup (gidx k n unif).
Proof.
  induction unif as [|b l IH]; intros k n L; cbn [gidx] in *; constructor; [|apply IH; cbn in L; lia].
  intros H. apply gidx_exact in H. cbn in L. destruct b; lia.
Qed.

Lemma coord_val sg pos ap : forall unif k m, map3 (fun (b : bool) g u => if b then ap * (2 * (u - 1/2)) else sg * g + pos) unif
   (draw (s_norm sr) k (length unif)) (draw (s_uni sr) (k + m) (length unif)) = map2 (gval sg pos ap) unif (gidx k m unif).
Proof.
  induction unif as [|b l IH]; intros k m; cbn [length]; [reflexivity|]. unfold draw. cbn [seq map map3 map2 gidx]. f_equal; [destruct b; reflexivity|].
  specialize (IH (S k) m). unfold draw in IH. replace (S (k + m)) with (S k + m)%nat by lia. exact IH.
Qed.
Lemma gas_coord_val sg pos ap k unif : gas_coord sg pos ap sr k unif = (map2 (gval sg pos ap) unif (gidx k (length unif) unif), (k + length unif + length unif)%nat).
Proof. unfold gas_coord. rewrite coord_val. reflexivity. Qed.

Lemma put_val sg pos ap : forall flag unif ix jx, length ix = length unif -> length jx = length (mask_get flag unif) ->
  mask_put flag (map2 (gval sg pos ap) unif ix) (map2 (gval sg pos ap) (mask_get flag unif) jx) = map2 (gval sg pos ap) unif (mask_put flag ix jx).
Proof.
  induction flag as [|f flag IH]; intros [|b unif] [|i ix] jx L1 L2; cbn in L1; try discriminate; try reflexivity. destruct f; cbn [mask_get map2 mask_put].
  - destruct jx as [|j jx]; [cbn in L2; discriminate|]. cbn [map2 mask_put]. f_equal. apply IH; [lia|]. cbn in L2. lia.
  - cbn in L2. f_equal. apply IH; auto.
Qed.

Lemma redraw_places fuel c sx sy xb yb : forall k k0 unif ix iy xt' yt' k',
  length ix = length unif -> length iy = length unif -> NoDup (ix ++ iy) -> Forall (fun i => (k0 <= i < k)%nat) (ix ++ iy) -> (k0 <= k)%nat ->
  redraw_gas fuel c sx sy xb yb sr k unif (map2 (gval sx xb (x_aper c)) unif ix) (map2 (gval sy yb (y_aper c)) unif iy) = Some (xt', yt', k') ->
  exists jx jy, xt' = map2 (gval sx xb (x_aper c)) unif jx /\ yt' = map2 (gval sy yb (y_aper c)) unif jy /\
    length jx = length unif /\ length jy = length unif /\ NoDup (jx ++ jy) /\ Forall (fun i => (k0 <= i < k')%nat) (jx ++ jy) /\ (k <= k')%nat.
Proof.
  induction fuel as [|fuel IH]; intros k k0 unif ix iy xt' yt' k' L1 L2 ND FR K H; cbn [redraw_gas] in H.
  - destruct (Nat.eqb _ 0); [|discriminate]. injection H as <- <- <-. exists ix, iy. auto 10.
  - destruct (Nat.eqb _ 0); [injection H as <- <- <-; exists ix, iy; auto 10|].
    set (flag := map2 (outside c) _ _) in *. rewrite !gas_coord_val in H. set (u := mask_get flag unif) in *. set (n := length u) in *.
    rewrite (put_val sx xb (x_aper c)), (put_val sy yb (y_aper c)) in H by (try assumption; rewrite gidx_length; reflexivity).
    apply (IH _ k0) in H.
    + destruct H as (jx & jy & A & B & C & D & E & F & G). exists jx, jy. repeat (split; [assumption|]). lia.
    + rewrite mask_put_length. assumption.
    + rewrite mask_put_length. assumption.
    + assert (R1 := gidx_range u k n). assert (R2 := gidx_range u (k + n + n) n). fold n in R1, R2.
      rewrite Forall_forall in FR. assert (NX : NoDup ix /\ NoDup iy /\ forall x, In x ix -> In x iy -> False).
      { clear - ND. induction ix as [|i ix IHx]; cbn in ND; [split; [constructor|split; [exact ND|intros x []]]|]. inversion ND as [|? ? A B]; subst. destruct (IHx B) as (P & Q & R0).
        split; [constructor; [intros Z; apply A, in_or_app; auto|exact P]|]. split; [exact Q|]. intros x [<-|X] Y; [apply A, in_or_app; auto|eapply R0; eauto]. }
      destruct NX as (NX & NY & NXY).
      assert (AP : forall (a b : list nat), NoDup a -> NoDup b -> (forall x, In x a -> In x b -> False) -> NoDup (a ++ b)).
      { clear. induction a as [|x a IHa]; intros b A B C; cbn; [exact B|]. inversion A; subst. constructor; [intros Z; apply in_app_or in Z; destruct Z; [auto|eapply C; [left; reflexivity|eassumption]]|].
        apply IHa; auto. intros y Y1 Y2. eapply C; [right; eassumption|eassumption]. }
      apply AP.
      * apply mask_put_NoDup; [exact NX|apply gidx_nodup; reflexivity|]. intros x P Q. apply R1 in Q. assert (Z := FR x (in_or_app _ _ _ (or_introl P))). lia.
      * apply mask_put_NoDup; [exact NY|apply gidx_nodup; reflexivity|]. intros x P Q. apply R2 in Q. assert (Z := FR x (in_or_app _ _ _ (or_intror P))). lia.
      * intros x P Q. apply mask_put_In in P. apply mask_put_In in Q.
        destruct P as [P|P]; [assert (Z := FR x (in_or_app _ _ _ (or_introl P)))|apply R1 in P]; (destruct Q as [Q|Q]; [assert (Y := FR x (in_or_app _ _ _ (or_intror Q)))|apply R2 in Q]); try lia.
        eapply NXY; eauto.
    + rewrite Forall_forall in FR |- *. intros x P. apply in_app_or in P. destruct P as [P|P]; apply mask_put_In in P; destruct P as [P|P].
      * assert (Z := FR x (in_or_app _ _ _ (or_introl P))). lia.
      * apply gidx_range in P. fold n in P. lia.
      * assert (Z := FR x (in_or_app _ _ _ (or_intror P))). lia.
      * apply gidx_range in P. fold n in P. lia.
    + lia.
Qed.
End Gas.

Lemma nth_map2_val sr sg pos ap : forall unif ix j d b, length ix = length unif -> nth_error unif j = Some b -> nth j (map2 (gval sr sg pos ap) unif ix) d = gval sr sg pos ap b (nth j ix 0%nat).
Proof. induction unif as [|u unif IH]; intros [|i ix] [|j] d b L E; cbn in *; try discriminate; [congruence|]. apply IH; auto. Qed.

Lemma gas_places fuel kc g c mass lam Dt sx sy xb yb sr k s s' k' :
  wf s -> (N_mp s < capacity s)%nat -> 0 < nel_mp_ref s -> (forall j, 0 <= s_uni sr j < 1) -> gs_life g = flag_lifetime_hist s -> 0 <= gas_DNel kc g lam Dt ->
  gas_generate fuel kc g c mass lam Dt sx sy xb yb sr k s = Some (s', k') ->
  exists new ix iy iv, generated (outside c) s s' new /\ length ix = length new /\ length iy = length new /\
    NoDup (ix ++ iy ++ [iv; S iv; S (S iv)]) /\ (new <> [] -> Forall (fun i => (k + 1 + length new <= i < k')%nat) (ix ++ iy ++ [iv; S iv; S (S iv)])) /\
    (forall j p, nth_error new j = Some p ->
       gas_place sr sx xb (x_aper c) (s_uni sr (k + 1 + j) < gs_unif g) (nth j ix 0%nat) (m_x p) /\
       gas_place sr sy yb (y_aper c) (s_uni sr (k + 1 + j) < gs_unif g) (nth j iy 0%nat) (m_y p)) /\
    Forall (fun p => let v := sqrt (2 * (gs_E g / 3) * q_e kc / mass) in
       m_vx p = v * (1/2 - s_uni sr iv) /\ m_vy p = v * (1/2 - s_uni sr (S iv)) /\ m_vz p = v * (1/2 - s_uni sr (S (S iv)))) new.
Proof.
  intros W F Hr HU HL HD E. unfold gas_generate in E.
  set (q := gas_DNel kc g lam Dt / nel_mp_ref s) in *.
  assert (Hq : 0 <= q) by (unfold q, Rdiv; apply Rmult_le_pos; auto; left; apply Rinv_0_lt_compat; auto).
  destruct (stoch_round_rounded q (s_uni sr k) Hq) as (n & En & Rn). rewrite En in E.
  destruct (Z.ltb_spec 0 (Z.of_nat n)) as [Hn|Hn].
  - rewrite Nat2Z.id in E. set (unif := map _ (draw (s_uni sr) _ n)) in *.
    assert (LU : length unif = n) by (unfold unif; rewrite map_length, draw_length; auto).
    rewrite !gas_coord_val in E. rewrite LU in E. set (ix0 := gidx (S k + n) n unif) in *. set (k1 := (S k + n + n + n)%nat) in *. set (iy0 := gidx k1 n unif) in *.
    assert (X1 := gidx_range unif (S k + n) n). assert (X2 := gidx_range unif k1 n). rewrite LU in X1, X2.
    destruct (redraw_gas fuel c sx sy xb yb sr (k1 + n + n) unif (map2 (gval sr sx xb (x_aper c)) unif ix0) (map2 (gval sr sy yb (y_aper c)) unif iy0)) as [[[xt' yt'] k3]|] eqn:RD; [|discriminate].
    cbn [bind] in E.
    assert (L0 : forall ax ay u (l : list bool) k, length (map2 (gval sr ax ay u) l (gidx k n l)) = length l) by (intros; rewrite map2_length, gidx_length; lia).
    pose proof RD as RD2. apply redraw_gas_ok in RD2; [|apply L0|apply L0]. destruct RD2 as (LX' & LY' & IN).
    apply (redraw_places sr fuel c sx sy xb yb (k1 + n + n) (S k + n)) in RD; [|unfold ix0; apply gidx_length|unfold iy0; apply gidx_length| | |unfold k1; lia].
    2:{ assert (AP : forall (a b : list nat), NoDup a -> NoDup b -> (forall x, In x a -> In x b -> False) -> NoDup (a ++ b)).
      { clear. induction a as [|x a IHa]; intros b A B C; cbn; [exact B|]. inversion A; subst. constructor; [intros Z; apply in_app_or in Z; destruct Z; [auto|eapply C; [left; reflexivity|eassumption]]|].
        apply IHa; auto. intros y Y1 Y2. eapply C; [right; eassumption|eassumption]. }
      apply AP; [apply gidx_nodup; lia|apply gidx_nodup; lia|]. intros x P Q. apply X1 in P. apply X2 in Q. unfold k1 in Q. lia. }
    2:{ apply Forall_forall. intros x P. apply in_app_or in P. destruct P as [P|P]; [apply X1 in P|apply X2 in P]; unfold k1 in *; lia. }
    destruct RD as (jx & jy & EX & EY & LJ & LK & ND & FR & KK).
    rewrite HL in E.
    match type of E with context[bind ?o _] =>
      replace o with (Some (if flag_lifetime_hist s then slice_fill (t_last_impact s) (N_mp s) (N_mp s + n) (-1) else t_last_impact s)) in E
       by (destruct (flag_lifetime_hist s); reflexivity) end.
    cbn [bind] in E.
    match type of E with context[write_uniform s n xt' yt' ?a ?b ?d ?t] =>
      destruct (write_uniform s n xt' yt' a b d t) as [s1|] eqn:WU; [|discriminate] end.
    cbn [bind] in E. injection E as <- <-.
    assert (Fit : (N_mp s + n <= capacity s)%nat) by (eapply write_fits; eauto; lia).
    rewrite write_uniform_add in WU by auto.
    destruct (full_batch_added (outside c) _ _ _ _ _ _ _ _ W F (eq_trans LX' LU) (eq_trans LY' LU)
      (repeat_length _ _) (repeat_length _ _) (repeat_length _ _) IN Fit WU) as (new & G & NH & LN & EN & CH).
    exists new, jx, jy, k3. rewrite LN, LJ, LK. split; [exact G|]. split; [exact LU|]. split; [exact LU|]. rewrite Forall_forall in FR. split; [|split; [|split]].
    + rewrite app_assoc. assert (AP : forall (a b : list nat), NoDup a -> NoDup b -> (forall x, In x a -> In x b -> False) -> NoDup (a ++ b)).
      { clear. induction a as [|x a IHa]; intros b A B C; cbn; [exact B|]. inversion A; subst. constructor; [intros Z; apply in_app_or in Z; destruct Z; [auto|eapply C; [left; reflexivity|eassumption]]|].
        apply IHa; auto. intros y Y1 Y2. eapply C; [right; eassumption|eassumption]. }
      apply AP; [exact ND| |intros x P Q; apply FR in P; cbn in Q; lia]. repeat constructor; cbn; lia.
    + intros _. rewrite app_assoc. apply Forall_forall. intros x P. apply in_app_or in P. destruct P as [P|P]; [apply FR in P; lia|]. cbn in P. unfold k1 in KK. lia.
    + intros j p Hp. rewrite EN in Hp. rewrite nth_error_map in Hp. assert (LJn : (j < n)%nat).
      { destruct (nth_error (seq 0 n) j) eqn:Z; [|discriminate]. assert (nth_error (seq 0 n) j <> None) by congruence. apply nth_error_Some in H. rewrite seq_length in H. exact H. }
      rewrite (nth_error_nth' _ 0%nat) in Hp by (rewrite seq_length; exact LJn). rewrite seq_nth in Hp by exact LJn. cbn [option_map Nat.add] in Hp. injection Hp as <-.
      cbn [batch_mp full_batch b_x b_y m_x m_y]. subst xt' yt'.
      assert (UE : nth_error unif j = Some (Rltb (s_uni sr (k + 1 + j)) (gs_unif g))).
      { unfold unif, draw. rewrite !nth_error_map, (nth_error_nth' _ 0%nat) by (rewrite seq_length; exact LJn). rewrite seq_nth by exact LJn. cbn [option_map]. do 3 f_equal. f_equal. lia. }
      rewrite (nth_map2_val _ _ _ _ _ _ _ _ _ LJ UE), (nth_map2_val _ _ _ _ _ _ _ _ _ LK UE). unfold gval, gas_place.
      split; split; intros Z; try (rewrite (proj2 (Rltb_true _ _)) by exact Z; lra); rewrite (proj2 (Rltb_false _ _)) by lra; lra.
    + rewrite EN. apply Forall_map, Forall_forall. intros j Hj. apply in_seq in Hj. cbn [batch_mp full_batch b_vx b_vy b_vz m_vx m_vy m_vz]. cbv zeta.
      rewrite !(nth_repeat_lt) by lia. replace (k3 + 1)%nat with (S k3) by lia. replace (k3 + 2)%nat with (S (S k3)) by lia. repeat split; ring.
  - injection E as <- <-. assert (n = 0%nat) by lia. subst n. exists [], [], [], 0%nat. split; [apply generated_none; auto|].
    split; [reflexivity|]. split; [reflexivity|]. split; [repeat constructor; cbn; lia|]. split; [congruence|]. split; [intros [|j] p; discriminate|constructor].
Qed.

Lemma gas_energy qe mass E u1 u2 u3 : 0 < qe -> 0 < mass -> 0 <= E -> 0 <= u1 < 1 -> 0 <= u2 < 1 -> 0 <= u3 < 1 ->
  let v := sqrt (2 * (E / 3) * qe / mass) in kin_eV qe mass (v * (1/2 - u1)) (v * (1/2 - u2)) (v * (1/2 - u3)) <= E / 4.
Proof.
  intros Q M HE U1 U2 U3 v. assert (V : v * v = 2 * (E / 3) * qe / mass).
  { unfold v. apply sqrt_sqrt. unfold Rdiv. repeat apply Rmult_le_pos; try lra. left. apply Rinv_0_lt_compat; auto. }
  unfold kin_eV. replace (1 / 2 * mass / qe * (v * (1 / 2 - u1) * (v * (1 / 2 - u1)) + v * (1 / 2 - u2) * (v * (1 / 2 - u2)) + v * (1 / 2 - u3) * (v * (1 / 2 - u3))))
    with (1 / 2 * mass / qe * (v * v) * ((1/2 - u1)*(1/2 - u1) + (1/2 - u2)*(1/2 - u2) + (1/2 - u3)*(1/2 - u3))) by (field; lra).
  rewrite V. replace (1 / 2 * mass / qe * (2 * (E / 3) * qe / mass)) with (E / 3) by (field; lra).
  assert (B : forall u, 0 <= u < 1 -> (1/2 - u) * (1/2 - u) <= 1/4) by (intros u U; nra).
  pose proof (B u1 U1). pose proof (B u2 U2). pose proof (B u3 U3).
  assert (0 <= E / 3 * (3/4 - ((1/2 - u1)*(1/2 - u1) + (1/2 - u2)*(1/2 - u2) + (1/2 - u3)*(1/2 - u3)))) by (apply Rmult_le_pos; lra). lra.
Qed.

(** ** Energies of photoelectrons *)

Lemma F2_map_self {A B} (P : A -> B -> Prop) (f : A -> B) l : (forall a, P a (f a)) -> Forall2 P l (map f l).
Proof. intros H. induction l; cbn; constructor; auto. Qed.

Lemma neg_fresh sr k0 sig mx fuel : forall k idx r k', NoDup idx -> Forall (fun i => (k0 <= i < k)%nat) idx -> (k0 <= k)%nat ->
  redraw_neg fuel sig mx sr k (map (fun i => s_norm sr i * sig + mx) idx) = Some (r, k') ->
  exists idx', r = map (fun i => s_norm sr i * sig + mx) idx' /\ NoDup idx' /\ Forall (fun i => (k0 <= i < k')%nat) idx' /\ (k <= k')%nat.
Proof.
  induction fuel as [|fuel IH]; intros k idx r k' N F K H; cbn [redraw_neg] in H; destruct (Nat.eqb _ 0).
  - injection H as <- <-. exists idx. auto.
  - discriminate.
  - injection H as <- <-. exists idx. auto.
  - unfold draw in H. rewrite (map_map (s_norm sr) (fun g => g * sig + mx)) in H. rewrite mask_put_map in H. rewrite Forall_forall in F. apply IH in H.
    + destruct H as (idx' & A & B & C & D). exists idx'. repeat split; auto. lia.
    + apply mask_put_NoDup; auto; [apply seq_NoDup|]. intros x P Q. apply F in P. apply in_seq in Q. lia.
    + apply Forall_forall. intros x P. destruct (mask_put_In _ _ _ _ P) as [Q|Q]; [apply F in Q; lia|apply in_seq in Q; lia].
    + lia.
Qed.

Lemma cauchy_inverse u loc scale : 0 <= u < 1 -> 0 < scale ->
  let m := lorentz_cdf scale loc 0 in lorentz_cdf scale loc (cauchy_ppf (u * (1 - m) + m) loc scale) = m + u * (1 - m).
Proof.
  intros U S m. assert (PP := PI_RGT_0).
  assert (M : 0 < m < 1).
  { unfold m, lorentz_cdf. destruct (atan_bound ((0 - loc) / scale)) as [A B]. set (a := atan _) in *.
    assert (- (1/2) < a / PI < 1/2); [|lra]. split; [apply Rmult_lt_reg_r with PI|apply Rmult_lt_reg_r with PI]; auto; unfold Rdiv; rewrite Rmult_assoc, Rinv_l by lra; lra. }
  unfold lorentz_cdf at 1, cauchy_ppf. set (w := u * (1 - m) + m). assert (W : 0 < w < 1) by (unfold w; nra).
  replace ((loc + scale * tan (PI * (w - 1/2)) - loc) / scale) with (tan (PI * (w - 1/2))) by (field; lra).
  rewrite atan_tan by (split; nra). unfold Rdiv at 2. replace (PI * (w - 1/2) * / PI) with (w - 1/2) by (field; lra). unfold w. lra.
Qed.

Lemma energies_fresh fuel d sig mx sr k n en k' : (forall i, 0 <= s_uni sr i < 1) -> 0 < sig -> get_energy fuel d sig mx sr k n = Some (en, k') ->
  exists idx, length idx = n /\ Forall2 (energy_draw d sig mx sr) idx en /\ (d <> Mono -> NoDup idx /\ Forall (fun i => (k <= i < k')%nat) idx).
Proof.
  intros U S H. assert (FS : Forall (fun i => (k <= i < k + n)%nat) (seq k n)) by (apply Forall_forall; intros x Q; apply in_seq in Q; lia).
  destruct d; cbn [get_energy] in H.
  - injection H as <- <-. exists (seq k n). rewrite seq_length. split; [reflexivity|]. split; [apply F2_map_self; reflexivity|]. intros _. split; [apply seq_NoDup|exact FS].
  - destruct (redraw_neg_ok _ _ _ _ _ _ _ _ H) as [L _]. unfold draw in H, L. rewrite map_map in H. 
    destruct (neg_fresh sr k sig mx fuel (k + n)%nat (seq k n) _ _ (seq_NoDup _ _) FS ltac:(lia) H) as (idx & -> & N & F & _).
    rewrite !map_length, seq_length in L. exists idx. split; [exact L|]. split; [apply F2_map_self; intros a; cbn; ring|]. auto.
  - injection H as <- <-. exists (seq k n). rewrite seq_length. split; [reflexivity|]. split; [unfold draw; rewrite map_map; apply F2_map_self; intros a; cbn; lra|]. intros _. split; [apply seq_NoDup|exact FS].
  - injection H as <- <-. exists (repeat 0%nat n). rewrite repeat_length. split; [reflexivity|]. split; [|congruence]. clear. induction n; cbn; constructor; auto. cbn. ring.
  - injection H as <- <-. exists (seq k n). rewrite seq_length. split; [reflexivity|]. split; [|intros _; split; [apply seq_NoDup|exact FS]].
    unfold draw; rewrite map_map. apply F2_map_self. intros a. cbn [energy_draw]. apply cauchy_inverse; auto.
Qed.

Lemma gas_energies fuel kc g c mass lam Dt sx sy xb yb sr k s s' k' :
  wf s -> (N_mp s < capacity s)%nat -> 0 < nel_mp_ref s -> (forall j, 0 <= s_uni sr j < 1) -> gs_life g = flag_lifetime_hist s ->
  0 < kB kc -> 0 <= c_light kc -> 0 <= gs_P g -> 0 <= gs_sigma g -> 0 < gs_T g -> 0 <= lam -> 0 <= Dt -> 0 < q_e kc -> 0 < mass -> 0 <= gs_E g ->
  gas_generate fuel kc g c mass lam Dt sx sy xb yb sr k s = Some (s', k') ->
  exists new, live s' = live s ++ new /\ Forall (fun p => kin_eV (q_e kc) mass (m_vx p) (m_vy p) (m_vz p) <= gs_E g / 4) new.
Proof.
  intros W F Hr U HL K1 K2 K3 K4 K5 K6 K7 Q M EE H.
  destruct (gas_places fuel kc g c mass lam Dt sx sy xb yb sr k s s' k' W F Hr U HL (gas_DNel_nonneg kc g lam Dt K1 K2 K3 K4 K5 K6 K7) H)
    as (new & ix & iy & iv & G & _ & _ & _ & _ & _ & V).
  exists new. split; [exact (ge_live _ _ _ _ G)|]. eapply Forall_impl; [|exact V]. cbv beta zeta. intros p (-> & -> & ->). apply gas_energy; auto.
Qed.
