From Coq Require Import Lra Lia Reals.
From Verif Require Import Num NumFacts MP SpecMP MPFacts Push SpecPush.

(* ---------- Boris ---------- *)
Lemma boris_energy qm Dtt B p : speed2 (boris_one qm Dtt (0, 0, 0) B p) = speed2 p.
Proof.
  destruct B as [[Bx By] Bz]. unfold speed2, boris_one. cbn -[Rmult Rplus Rminus Rdiv].
  set (a := (1/2) * qm * Dtt * Bx). set (b := (1/2) * qm * Dtt * By). set (c := (1/2) * qm * Dtt * Bz).
  field. nra.
Qed.

Lemma boris_substeps_energy n qm Dtt getB : forall p,
  speed2 (boris_substeps n qm Dtt getB (0, 0, 0) p) = speed2 p.
Proof.
  induction n as [|n IH]; intros p; simpl; auto. rewrite IH. apply boris_energy.
Qed.

Lemma boris_noB qm Dtt Ex Ey Ez p :
  boris_one qm Dtt (Ex, Ey, Ez) (0, 0, 0) p =
  mkP6 (px p + (pvx p + qm * Ex * Dtt) * Dtt) (py p + (pvy p + qm * Ey * Dtt) * Dtt)
       (pz p + (pvz p + qm * Ez * Dtt) * Dtt)
       (pvx p + qm * Ex * Dtt) (pvy p + qm * Ey * Dtt) (pvz p + qm * Ez * Dtt).
Proof. unfold boris_one. cbv zeta. rewrite ?Rmult_0_r. f_equal; field; nra. Qed.

Lemma boris_substeps_noB n qm Dtt Ex Ey Ez : forall p,
  let p' := boris_substeps n qm Dtt (B_none 0 0 0) (Ex, Ey, Ez) p in
  let t := INR n * Dtt in
  pvx p' = pvx p + qm * Ex * t /\ pvy p' = pvy p + qm * Ey * t /\ pvz p' = pvz p + qm * Ez * t /\
  px p' = px p + pvx p * t + qm * Ex * t * (t + Dtt) / 2 /\
  py p' = py p + pvy p * t + qm * Ey * t * (t + Dtt) / 2 /\
  pz p' = pz p + pvz p * t + qm * Ez * t * (t + Dtt) / 2.
Proof.
  induction n as [|n IH]; intros p p' t.
  - subst p' t. simpl. repeat split; field.
  - subst p' t. cbn [boris_substeps]. change (B_none 0 0 0 (px p) (py p)) with (0, 0, 0). rewrite boris_noB.
    match goal with |- context [boris_substeps n qm Dtt _ _ ?q] => specialize (IH q) end.
    cbv zeta in IH. cbn [px py pz pvx pvy pvz] in IH.
    destruct IH as (E1 & E2 & E3 & E4 & E5 & E6). rewrite S_INR.
    split; [rewrite E1; field|]. split; [rewrite E2; field|]. split; [rewrite E3; field|].
    split; [rewrite E4; field|]. split; [rewrite E5; field|]. rewrite E6; field.
Qed.

(** Fixed point: with [E + v x B = 0] the velocity does not change. *)
Lemma boris_drift qm Dtt B p :
  let v := (pvx p, pvy p, pvz p) in
  let '(cx, cy, cz) := cross v B in
  let p' := boris_one qm Dtt (- cx, - cy, - cz) B p in
  pvx p' = pvx p /\ pvy p' = pvy p /\ pvz p' = pvz p.
Proof.
  destruct B as [[Bx By] Bz]. unfold boris_one, cross. cbn -[Rmult Rplus Rminus Rdiv].
  set (a := (1/2) * qm * Dtt * Bx). set (b := (1/2) * qm * Dtt * By). set (c := (1/2) * qm * Dtt * Bz).
  replace ((1/2) * qm * - (pvy p * Bz - pvz p * By) * Dtt) with (pvz p * b - pvy p * c) by (subst b c; ring).
  replace ((1/2) * qm * - (pvz p * Bx - pvx p * Bz) * Dtt) with (pvx p * c - pvz p * a) by (subst a c; ring).
  replace ((1/2) * qm * - (pvx p * By - pvy p * Bx) * Dtt) with (pvy p * a - pvx p * b) by (subst b a; ring).
  repeat split; field; nra.
Qed.

(** The component of the velocity along a uniform field is kept. *)
Lemma boris_parallel qm Dtt Bx By Bz p :
  let p' := boris_one qm Dtt (0, 0, 0) (Bx, By, Bz) p in
  pvx p' * Bx + pvy p' * By + pvz p' * Bz = pvx p * Bx + pvy p * By + pvz p * Bz.
Proof.
  unfold boris_one. cbn -[Rmult Rplus Rminus Rdiv]. field.
  pose proof (Rle_0_sqr ((1/2) * qm * Dtt * Bx)). pose proof (Rle_0_sqr ((1/2) * qm * Dtt * By)).
  pose proof (Rle_0_sqr ((1/2) * qm * Dtt * Bz)). unfold Rsqr in *. 
  match goal with |- ?e <> 0 => assert (0 < e) end; [|lra].
  nra.
Qed.

(* ---------- frame ---------- *)
Lemma push_moves f s : moves_each f s (push_live f s).
Proof.
  assert (N : forall g i (a : list R), (i < N_mp s)%nat ->
    nth i (map (fun i => g (f i (get6 s i))) (seq 0 (N_mp s)) ++ skipn (N_mp s) a) 0 = g (f i (get6 s i))).
  { intros g i a Hi. rewrite app_nth1 by (rewrite map_length, seq_length; auto).
    rewrite (nth_indep _ 0 (g (f 0%nat (get6 s 0%nat)))) by (rewrite map_length, seq_length; auto).
    rewrite (map_nth (fun i => g (f i (get6 s i)))), seq_nth by auto. reflexivity. }
  assert (T : forall (g : nat -> R) i (a : list R), (N_mp s <= i)%nat -> (N_mp s <= length a)%nat ->
    nth i (map g (seq 0 (N_mp s)) ++ skipn (N_mp s) a) 0 = nth i a 0).
  { intros g i a Hi Ha. rewrite app_nth2 by (rewrite map_length, seq_length; auto).
    rewrite map_length, seq_length, nth_skipn'. f_equal. lia. }
  split; [reflexivity|]. split; [reflexivity|]. split; [reflexivity|]. split; [|do 3 (split; [reflexivity|]); split].
  - intros []. unfold capacity in *. split.
    + constructor; unfold push_live, capacity; simpl; rewrite ?app_length, ?map_length, ?seq_length, ?skipn_length; lia.
    + unfold same_cfg, push_live, capacity; simpl. rewrite ?app_length, ?map_length, ?seq_length, ?skipn_length.
      repeat split; lia.
  - intros i Hi. unfold get6 at 1. unfold push_live. cbn [x_mp y_mp z_mp vx_mp vy_mp vz_mp].
    rewrite !N by auto. destruct (f i (get6 s i)); reflexivity.
  - intros [] i Hi. unfold capacity in *. unfold get6. unfold push_live. cbn [x_mp y_mp z_mp vx_mp vy_mp vz_mp].
    rewrite !T by lia. reflexivity.
Qed.

(* ---------- multipoles ---------- *)
Lemma hd_tl_nth (l : list R) n : nth n l 0 = hd 0 (skipn n l).
Proof. revert l; induction n; intros [|a l]; simpl; auto. Qed.

Lemma cpow_step z n : cpow z (S n) = cmul (cpow z n) z.
Proof. simpl. unfold cmul. f_equal; simpl; ring. Qed.

Lemma mult_loop_spec x y : forall k sk n rexy imxy Bx By,
  (rexy, imxy) = cpow (x, y) n ->
  mult_loop k sk x y rexy imxy Bx By =
  (Bx + snd (fold_right cadd (0, 0) (map (fun j => cmul (nth j k 0, nth j sk 0) (cpow (x, y) (n + 1 + j))) (seq 0 (length k)))),
   By + fst (fold_right cadd (0, 0) (map (fun j => cmul (nth j k 0, nth j sk 0) (cpow (x, y) (n + 1 + j))) (seq 0 (length k))))).
Proof.
  induction k as [|kn k IH]; intros sk n rexy imxy Bx By Hc.
  - simpl. f_equal; ring.
  - cbn [mult_loop].
    assert (Hc' : (rexy * x - imxy * y, imxy * x + rexy * y) = cpow (x, y) (S n)).
    { rewrite cpow_step, <- Hc. unfold cmul. simpl. f_equal; ring. }
    rewrite (IH (tl sk) (S n) _ _ _ _ Hc').
    cbn [length seq map fold_right]. rewrite <- seq_shift, map_map.
    replace (map (fun j => cmul (nth (S j) (kn :: k) 0, nth (S j) sk 0) (cpow (x, y) (n + 1 + S j))) (seq 0 (length k)))
      with (map (fun j => cmul (nth j k 0, nth j (tl sk) 0) (cpow (x, y) (S n + 1 + j))) (seq 0 (length k))).
    2:{ apply map_ext. intros j. replace (n + 1 + S j)%nat with (S n + 1 + j)%nat by lia.
        destruct sk, j; reflexivity. }
    set (T := fold_right cadd (0, 0) _).
    replace (n + 1 + 0)%nat with (S n) by lia. rewrite <- Hc'.
    replace (nth 0 sk 0) with (hd 0 sk) by (destruct sk; reflexivity).
    unfold cadd, cmul. cbn [fst snd nth]. f_equal; ring.
Qed.

Lemma mult_field_harmonic k sk x y :
  k <> [] ->
  mult_field k sk None x y =
  (snd (harmonic k sk (x, y)), fst (harmonic k sk (x, y)), 0).
Proof.
  intros Hk. destruct k as [|k0 k]; [easy|]. unfold mult_field, harmonic.
  cbn [tl hd]. rewrite (mult_loop_spec x y k (tl sk) 0 1 0 _ _ eq_refl).
  cbn [length seq map fold_right]. rewrite <- seq_shift, map_map.
  replace (map (fun j => cmul (nth (S j) (k0 :: k) 0, nth (S j) sk 0) (cpow (x, y) (S j))) (seq 0 (length k)))
    with (map (fun j => cmul (nth j k 0, nth j (tl sk) 0) (cpow (x, y) (0 + 1 + j))) (seq 0 (length k))).
  2:{ apply map_ext. intros j.
      destruct sk, j; reflexivity. }
  set (T := fold_right cadd (0, 0) _).
  replace (nth 0 sk 0) with (hd 0 sk) by (destruct sk; reflexivity).
  unfold cadd, cmul. cbn [fst snd nth cpow]. f_equal; f_equal; ring.
Qed.

Lemma mult_field_custom k sk c x y :
  k <> [] ->
  mult_field k sk (Some c) x y =
  (snd (harmonic k sk (x, y)) + fst (fst c), fst (harmonic k sk (x, y)) + snd (fst c), snd c).
Proof.
  intros Hk. pose proof (mult_field_harmonic k sk x y Hk) as H. unfold mult_field in *.
  destruct (mult_loop _ _ _ _ _ _ _ _) as [Bx By]. destruct c as [[cx cy] cz].
  injection H as -> ->. simpl. f_equal. ring.
Qed.

Lemma boris_c_is_boris n qm Dtt k sk custom Ex Ey : forall p,
  boris_c n qm Dtt k sk custom Ex Ey p =
  boris_substeps n qm Dtt (mult_field k sk custom) (Ex, Ey, 0) p.
Proof.
  induction n as [|n IH]; intros p; [reflexivity|].
  cbn [boris_c boris_substeps]. destruct (mult_field k sk custom (px p) (py p)) as [[Bx By] Bz].
  rewrite IH. f_equal. unfold boris_one. f_equal; ring.
Qed.

(* ---------- strong field trackers ---------- *)
Lemma qm_e_pos : 0 < qm_e.
Proof.
  unfold qm_e, qe, me. apply Rdiv_lt_0_compat; apply Rdiv_lt_0_compat; try apply pow_lt; lra.
Qed.

Lemma sc1 t : sin t * sin t = 1 - cos t * cos t.
Proof. pose proof (sin2_cos2 t) as H. unfold Rsqr in H. lra. Qed.

Lemma dipole_energy Dt B p : speed2 (dipole_one Dt B (0, 0) p) = speed2 p.
Proof.
  unfold speed2, dipole_one. cbn [pvx pvy pvz px py pz].
  set (w := B * qm_e * Dt). pose proof (sc1 w).
  transitivity (pvx p * pvx p * (cos w * cos w + sin w * sin w) + pvy p * pvy p
     + pvz p * pvz p * (cos w * cos w + sin w * sin w)); [ring|]. rewrite H. ring.
Qed.

Lemma strongB_energy Dt B0x B0y src thr p :
  0 < thr -> speed2 (strongB_one Dt B0x B0y src thr (0, 0) p) = speed2 p.
Proof.
  intros Ht. unfold speed2, strongB_one. set (Bx := fst _ + B0x). set (By := snd _ + B0y).
  destruct (Rltb _ thr) eqn:E; cbn [pvx pvy pvz px py pz]; [ring|].
  apply Rltb_false in E. set (B := sqrt (Bx * Bx + By * By)) in *.
  assert (HB : B * B = Bx * Bx + By * By) by (apply sqrt_sqrt; nra).
  assert (0 < B) by lra. pose proof qm_e_pos. set (w := B * qm_e * Dt). pose proof (sc1 w) as S1.
  set (q := qm_e) in *. set (s := sin w) in *. set (c := cos w) in *.
  set (vx := pvx p). set (vy := pvy p). set (vz := pvz p).
  set (u := (vx * By - vy * Bx) / B).
  assert (Hu : vx * By - vy * Bx = u * B) by (subst u; field; lra).
  replace ((0 * By - 0 * Bx) / (B * B)) with 0 by (field; lra).
  set (Dz := vz * s / (B * q) + u * c / (B * q) + 0 * (Dt - s / (B * q)) - u / (B * q)).
  assert (HD : q * Dz * B = vz * s + u * c - u) by (subst Dz; field; split; lra).
  transitivity (vx * vx + vy * vy + 2 * (q * Dz) * (vx * By - vy * Bx) + (q * Dz) * (q * Dz) * (Bx * Bx + By * By)
    + (vz * c - u * s) * (vz * c - u * s)); [ring|].
  rewrite Hu, <- HB.
  transitivity (vx * vx + vy * vy + 2 * (q * Dz * B) * u + (q * Dz * B) * (q * Dz * B)
    + (vz * c - u * s) * (vz * c - u * s)); [ring|].
  rewrite HD.
  transitivity (vx * vx + vy * vy + vz * vz * (s * s + c * c) + u * u * (c * c + s * s) - u * u); [ring|].
  rewrite S1. ring.
Qed.

Lemma sqrt_abs B : sqrt (0 * 0 + B * B) = Rabs B.
Proof. replace (0 * 0 + B * B) with (Rsqr B) by (unfold Rsqr; ring). apply sqrt_Rsqr_abs. Qed.

Lemma strongB_is_dipole Dt B thr E p :
  0 < thr -> thr <= Rabs B -> 1 / 10000 <= Rabs (B * qm_e * Dt) ->
  strongB_one Dt 0 B SrcNone thr E p = dipole_one Dt B E p.
Proof.
  intros Ht Hb Hw. destruct E as [Ex Ey]. unfold strongB_one, dipole_one. cbn [src_field fst snd].
  rewrite !Rplus_0_l. rewrite sqrt_abs.
  replace (Rltb (Rabs B) thr) with false by (symmetry; apply Rltb_false; auto).
  unfold sincc, cosincc, cubsincc.
  replace (Rltb (Rabs (B * qm_e * Dt)) (1 / 10000)) with false by (symmetry; apply Rltb_false; auto).
  pose proof qm_e_pos as Hq. set (q := qm_e) in *.
  assert (B <> 0) by (intros ->; rewrite Rabs_R0 in Hb; lra).
  assert (Dt <> 0) by (intros ->; rewrite Rmult_0_r, Rabs_R0 in Hw; lra).
  unfold Rabs. destruct (Rcase_abs B) as [Hn|Hn].
  - replace (- B * q * Dt) with (- (B * q * Dt)) by ring. rewrite sin_neg, cos_neg.
    f_equal; field; repeat split; lra.
  - f_equal; field; repeat split; lra.
Qed.

Lemma electron_ratio : qm_e * (910938291 / 10 ^ 39) = 1602176565 / 10 ^ 28.
Proof. unfold qm_e, qe, me. assert (10 ^ 39 <> 0) by (apply pow_nonzero; lra). assert (10 ^ 28 <> 0) by (apply pow_nonzero; lra). field. Qed.
