From Coquelicot Require Import Coquelicot.
From Coq Require Import Lra Lia Reals.
From Verif Require Import Num NumFacts MP Push SpecPush PushFacts.

Lemma strongB_lorentz B0x B0y thr Ex Ey p t :
  0 < thr -> thr <= sqrt (B0x * B0x + B0y * B0y) ->
  lorentz qm_e (Ex, Ey) (B0x, B0y) (fun t => strongB_one t B0x B0y SrcNone thr (Ex, Ey) p) t.
Proof.
  intros Ht Hb. unfold lorentz, strongB_one. cbn [src_field fst snd].
  rewrite !Rplus_0_l.
  set (B := sqrt (B0x * B0x + B0y * B0y)) in *.
  assert (HB : B * B = B0x * B0x + B0y * B0y) by (apply sqrt_sqrt; nra).
  replace (Rltb B thr) with false by (symmetry; apply Rltb_false; auto).
  cbn [pvx pvy pvz px py pz].
  pose proof qm_e_pos as Hq. set (q := qm_e) in *.
  assert (HBp : 0 < B) by lra. assert (Hw : B * q <> 0) by (apply Rgt_not_eq; apply Rmult_lt_0_compat; auto).
  set (vx := pvx p). set (vy := pvy p). set (vz := pvz p).
  set (u := (vx * B0y - vy * B0x) / B).
  assert (Hu : vx * B0y - vy * B0x = u * B) by (subst u; field; lra).
  set (EB := (Ex * B0y - Ey * B0x) / (B * B)).
  assert (HE : Ex * B0y - Ey * B0x = EB * (B * B)) by (subst EB; field; lra).
  clearbody u EB.
  set (w := B * q) in *.
  split; [|split; [|split; [|split; [|split]]]]; apply is_derive_Reals.
  - auto_derive; auto. field. auto.
  - auto_derive; auto. field. auto.
  - auto_derive; auto. field. auto.
  - auto_derive; auto. field. auto.
  - auto_derive; auto. field. auto.
  - auto_derive; auto.
    match goal with |- _ = - q * (?a * B0y - ?b * B0x) =>
      replace (a * B0y - b * B0x) with
       ((vx * B0y - vy * B0x) - q * t * (Ex * B0y - Ey * B0x)
        + q * (B0x * B0x + B0y * B0y) * (vz * sin (w * t) / w + u * cos (w * t) / w + EB * (t - sin (w * t) / w) - u / w))
       by (field; auto) end.
    rewrite Hu, HE, <- HB.
    assert (Hwq : q * B = w) by (subst w; ring).
    transitivity (vz * (- w * sin (w * t)) - u * (w * cos (w * t)) + EB * (w * sin (w * t))); [ring|].
    transitivity (- (q * B) * u + (q * B) * (q * B) * t * EB - (q * B) * (q * B) * (vz * sin (w * t) / w + u * cos (w * t) / w + EB * (t - sin (w * t) / w) - u / w)); [|ring].
    rewrite Hwq. field. auto.
Qed.

Lemma strongB_zero_lorentz B0x B0y thr Ex Ey p t :
  sqrt (B0x * B0x + B0y * B0y) < thr ->
  lorentz qm_e (Ex, Ey) (0, 0) (fun t => strongB_one t B0x B0y SrcNone thr (Ex, Ey) p) t.
Proof.
  intros Hb. unfold lorentz, strongB_one. cbn [src_field fst snd]. rewrite !Rplus_0_l.
  replace (Rltb _ thr) with true by (symmetry; apply Rltb_true; auto).
  cbn [pvx pvy pvz px py pz].
  split; [|split; [|split; [|split; [|split]]]]; apply is_derive_Reals; auto_derive; auto; field.
Qed.

Lemma strongB_start B0x B0y src thr E p :
  0 < thr -> strongB_one 0 B0x B0y src thr E p = p.
Proof.
  intros Ht. destruct E as [Ex Ey]. unfold strongB_one. set (Bx := fst _ + B0x). set (By := snd _ + B0y).
  destruct (Rltb _ thr) eqn:F.
  - destruct p; simpl. f_equal; ring.
  - apply Rltb_false in F. set (B := sqrt _) in *. pose proof qm_e_pos.
    rewrite !Rmult_0_r, ?sin_0, ?cos_0. destruct p; simpl. f_equal; field; lra.
Qed.
