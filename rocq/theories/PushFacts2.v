(** Facts on the tracker steps at the level of the whole system. *)
From Coq Require Import Lra Lia Reals.
From Verif Require Import Num NumFacts MP SpecMP Push SpecPush PushFacts PushOde.

Lemma push_get f s i : (i < N_mp s)%nat -> get6 (push_live f s) i = f i (get6 s i).
Proof. intros H. destruct (push_moves f s) as (_ & _ & _ & _ & _ & _ & _ & A & _). exact (A i H). Qed.

Lemma boris_step_energy charge mass getB E Dt n s i :
  (i < N_mp s)%nat -> E i = (0, 0) ->
  speed2 (get6 (boris_step charge mass getB E Dt n s) i) = speed2 (get6 s i).
Proof.
  intros Hi He. unfold boris_step, boris_stepcustomDt. rewrite push_get by auto. rewrite He.
  apply boris_substeps_energy.
Qed.

Lemma mult_step_energy charge mass bf bs b0 bn E Dt n s i :
  (i < N_mp s)%nat -> E i = (0, 0) ->
  speed2 (get6 (multipole_stepcustomDt charge mass bf bs b0 bn E Dt n s) i) = speed2 (get6 s i).
Proof.
  intros Hi He. unfold multipole_stepcustomDt. rewrite push_get by auto. rewrite He, boris_c_is_boris.
  apply boris_substeps_energy.
Qed.

Lemma boris_step_noB charge mass E Dt n s i :
  (i < N_mp s)%nat -> (0 < n)%nat ->
  let p := get6 s i in
  let p' := get6 (boris_step charge mass (B_none 0 0 0) E Dt n s) i in
  let qm := charge / mass in
  pvx p' = pvx p + qm * fst (E i) * Dt /\ pvy p' = pvy p + qm * snd (E i) * Dt /\ pvz p' = pvz p /\
  px p' = px p + pvx p * Dt + qm * fst (E i) * Dt * (Dt + Dt / INR n) / 2 /\
  py p' = py p + pvy p * Dt + qm * snd (E i) * Dt * (Dt + Dt / INR n) / 2 /\
  pz p' = pz p + pvz p * Dt.
Proof.
  intros Hi Hn p p' qm. subst p'. unfold boris_step, boris_stepcustomDt. rewrite push_get by auto.
  fold p qm.
  destruct (boris_substeps_noB n qm (Dt / INR n) (fst (E i)) (snd (E i)) 0 p) as (A & B & C & D & F & G).
  assert (Hd : INR n * (Dt / INR n) = Dt) by (field; apply not_0_INR; lia).
  rewrite Hd in *. rewrite A, B, C, D, F, G. repeat split; try reflexivity; unfold Rdiv; ring.
Qed.

Lemma boris_step_ext charge mass g1 g2 E Dt n s :
  (forall x y, g1 x y = g2 x y) ->
  boris_stepcustomDt charge mass g1 E Dt n s = boris_stepcustomDt charge mass g2 E Dt n s.
Proof.
  intros H. unfold boris_stepcustomDt.
  assert (G : forall n qm Dtt E p, boris_substeps n qm Dtt g1 E p = boris_substeps n qm Dtt g2 E p).
  { clear - H. induction n as [|n IH]; intros; simpl; auto. rewrite H. apply IH. }
  unfold push_live. f_equal; f_equal; apply map_ext; intros i; rewrite G; reflexivity.
Qed.

Lemma multipole_is_boris charge mass bf bs b0 E Dt n s g :
  bf <> [] ->
  (forall x y, g x y = mult_field bf bs (custom_B b0 (None, None, None)) x y) ->
  multipole_stepcustomDt charge mass bf bs b0 (fun _ => (None, None, None)) E Dt n s =
  boris_stepcustomDt charge mass g E Dt n s.
Proof.
  intros _ H. rewrite (boris_step_ext charge mass g (mult_field bf bs (custom_B b0 (None, None, None))) E Dt n s H).
  unfold multipole_stepcustomDt, boris_stepcustomDt, push_live.
  f_equal; f_equal; apply map_ext; intros i; rewrite boris_c_is_boris; reflexivity.
Qed.

Lemma quad_is_mult k0 k1 b0 x y :
  let od (o : option R) := match o with Some v => v | None => 0 end in
  mult_field [k0; k1] [0; 0] (custom_B b0 (None, None, None)) x y =
  B_quad (od (fst (fst b0))) (k0 + od (snd (fst b0))) (od (snd b0)) k1 x y.
Proof.
  destruct b0 as [[b0x b0y] b0z]. unfold mult_field, B_quad, custom_B. simpl.
  destruct b0x, b0y, b0z; f_equal; try f_equal; ring.
Qed.

Lemma dip_is_mult k0 s0 b0 x y :
  let od (o : option R) := match o with Some v => v | None => 0 end in
  mult_field [k0] [s0] (custom_B b0 (None, None, None)) x y =
  B_none (s0 + od (fst (fst b0))) (k0 + od (snd (fst b0))) (od (snd b0)) x y.
Proof.
  destruct b0 as [[b0x b0y] b0z]. unfold mult_field, B_none, custom_B. simpl.
  destruct b0x, b0y, b0z; f_equal; try f_equal; ring.
Qed.

Lemma custom_adds k sk b0 bn x y : k <> [] ->
  mult_field k sk (custom_B b0 bn) x y =
  (snd (harmonic k sk (x, y)) + given (fst (fst b0)) + given (fst (fst bn)),
   fst (harmonic k sk (x, y)) + given (snd (fst b0)) + given (snd (fst bn)),
   given (snd b0) + given (snd bn)).
Proof.
  intros Hk. destruct b0 as [[b0x b0y] b0z], bn as [[bnx bny] bnz]. unfold custom_B. cbn [fst snd].
  destruct b0x, b0y, b0z, bnx, bny, bnz; rewrite ?mult_field_custom, ?mult_field_harmonic by auto; cbn [given fst snd];
    repeat match goal with |- (_, _) = (_, _) => apply f_equal2 end; try reflexivity; try ring.
Qed.

Lemma multipole_step_adds charge mass k sk b0 bn E Dt n s i : k <> [] -> (i < N_mp s)%nat ->
  get6 (multipole_stepcustomDt charge mass k sk b0 bn E Dt n s) i =
  get6 (boris_stepcustomDt charge mass (fun x y =>
    (snd (harmonic k sk (x, y)) + given (fst (fst b0)) + given (fst (fst (bn i))),
     fst (harmonic k sk (x, y)) + given (snd (fst b0)) + given (snd (fst (bn i))),
     given (snd b0) + given (snd (bn i)))) E Dt n s) i.
Proof.
  intros Hk Hi. rewrite <- (boris_step_ext charge mass (mult_field k sk (custom_B b0 (bn i)))).
  - unfold multipole_stepcustomDt, boris_stepcustomDt. rewrite !push_get by auto. apply boris_c_is_boris.
  - intros x y. apply custom_adds, Hk.
Qed.

Lemma map2_div_fact : forall l a n,
  n = length l ->
  map2 Rdiv l (map (fun i => INR (fact i)) (seq a n)) = 
  map (fun i => nth i l 0 / INR (fact (a + i))) (seq 0 n).
Proof.
  induction l as [|v l IH]; intros a n ->; simpl; auto.
  rewrite Nat.add_0_r. f_equal. rewrite (IH (S a) (length l) eq_refl), <- seq_shift, map_map.
  apply map_ext. intros i. rewrite Nat.add_succ_r. reflexivity.
Qed.

Lemma mult_ctor_spec k s :
  k <> [] -> length s = length k ->
  mult_ctor (Some k) (Some s) =
  Some (map (fun i => nth i k 0 / INR (fact i)) (seq 0 (length k)),
        map (fun i => nth i s 0 / INR (fact i)) (seq 0 (length k))).
Proof.
  intros Hk Hs. unfold mult_ctor. destruct k as [|k0 k]; [easy|].
  unfold np_div. rewrite map_length, seq_length, Nat.eqb_refl. cbn [bind].
  rewrite Hs, Nat.eqb_refl. cbn [bind].
  rewrite (map2_div_fact (k0 :: k) 0 (length (k0 :: k)) eq_refl), (map2_div_fact s 0) by auto. reflexivity.
Qed.

Lemma mult_ctor_noskew k :
  k <> [] ->
  mult_ctor (Some k) None =
  Some (map (fun i => nth i k 0 / INR (fact i)) (seq 0 (length k)), repeat 0 (length k)).
Proof.
  intros Hk. unfold mult_ctor. destruct k as [|k0 k]; [easy|].
  unfold np_div. rewrite map_length, seq_length, Nat.eqb_refl. cbn [bind].
  rewrite (map2_div_fact (k0 :: k) 0 (length (k0 :: k)) eq_refl). rewrite map_length, seq_length. reflexivity.
Qed.

Lemma strongB_step_energy Dt B0x B0y src thr E s i :
  0 < thr -> (i < N_mp s)%nat -> E i = (0, 0) ->
  speed2 (get6 (strongB_step Dt B0x B0y src thr E s) i) = speed2 (get6 s i).
Proof. intros Ht Hi He. unfold strongB_step. rewrite push_get, He by auto. apply strongB_energy; auto. Qed.

Lemma dipole_step_energy Dt B E s i :
  (i < N_mp s)%nat -> E i = (0, 0) ->
  speed2 (get6 (dipole_step Dt B E s) i) = speed2 (get6 s i).
Proof. intros Hi He. unfold dipole_step. rewrite push_get, He by auto. apply dipole_energy; auto. Qed.

Lemma strongB_dipole_step Dt B thr E s :
  0 < thr -> thr <= Rabs B -> 1 / 10000 <= Rabs (B * qm_e * Dt) ->
  strongB_step Dt 0 B SrcNone thr E s = dipole_step Dt B E s.
Proof.
  intros. unfold strongB_step, dipole_step, push_live.
  f_equal; f_equal; apply map_ext; intros i; rewrite strongB_is_dipole; auto.
Qed.

(** All lengths of the skew list. *)
Lemma mult_ctor_lengths k s : k <> [] ->
  mult_ctor (Some k) (Some s) =
  (let kn := map (fun i => nth i k 0 / INR (fact i)) (seq 0 (length k)) in
   if Nat.eqb (length s) (length k) then Some (kn, map (fun i => nth i s 0 / INR (fact i)) (seq 0 (length k)))
   else if Nat.eqb (length s) 1 then Some (kn, map (fun i => nth 0 s 0 / INR (fact i)) (seq 0 (length k)))
   else if Nat.eqb (length k) 1 then Some (kn, s)
   else None).
Proof.
  intros Hk. cbv zeta. destruct (Nat.eqb (length s) (length k)) eqn:E.
  { apply Nat.eqb_eq in E. apply mult_ctor_spec; auto. }
  unfold mult_ctor. destruct k as [|k0 k]; [easy|].
  unfold np_div. rewrite map_length, seq_length, Nat.eqb_refl. cbn [bind]. rewrite E.
  rewrite (map2_div_fact (k0 :: k) 0 (length (k0 :: k)) eq_refl).
  destruct s as [|s0 [|s1 s]].
  - destruct k as [|k1 k]; reflexivity.
  - cbn [bind nth]. rewrite map_map. reflexivity.
  - cbn [length Nat.eqb]. destruct k as [|k1 k]; [|reflexivity].
    cbn [length seq map Nat.eqb fact]. cbn [bind]. f_equal. f_equal.
    change (INR 1) with 1. rewrite (map_ext (fun x => x / 1) (fun x => x)) by (intros a; field).
    rewrite map_id. f_equal; [field|f_equal; field].
Qed.
