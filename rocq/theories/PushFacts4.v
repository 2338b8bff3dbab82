(** Magnetic fields of the trackers. *)
From Coq Require Import ZArith Lra Lia Reals.
From Verif Require Import Num NumFacts MP Fort SpecFort FortFacts Push SpecPush PushFacts PushOde SpecMagnet.

Lemma interp_one_ext bx by_ dx dy n m (f g : grid) x y :
  0 < dx -> 0 < dy -> covered x bx dx n -> covered y by_ dy m ->
  (forall i j, (1 <= i <= Z.of_nat n)%Z -> (1 <= j <= Z.of_nat m)%Z -> f i j = g i j) ->
  interp_one bx by_ dx dy (Z.of_nat n) (Z.of_nat m) f x y = interp_one bx by_ dx dy (Z.of_nat n) (Z.of_nat m) g x y.
Proof.
  intros Hx Hy C1 C2 H. unfold interp_one. rewrite in_grid_covered by auto.
  destruct (cell_covered _ _ _ _ Hx C1) as (_ & _ & Bi & Hi). destruct (cell_covered _ _ _ _ Hy C2) as (_ & _ & Bj & Hj).
  rewrite !H by lia. reflexivity.
Qed.

Lemma on_map_interp m g x y b : on_map m g x y b ->
  interp_one (bm_x0 m) (bm_y0 m) (bm_dx m) (bm_dy m) (bm_nx m) (bm_ny m) g x y = b.
Proof.
  intros (nx & ny & c0 & c1 & c2 & c3 & N1 & N2 & D1 & D2 & C1 & C2 & H & ->). rewrite N1, N2.
  rewrite (interp_one_ext _ _ _ _ _ _ g _ x y D1 D2 C1 C2 H). apply (interp_bilinear _ _ _ _ _ _ c0 c1 c2 c3 x y D1 D2 C1 C2).
Qed.

Lemma magnet_src src x y b : magnet src x y b -> src_field src x y = b.
Proof.
  destruct src as [|g|m]; cbn [magnet src_field]; [auto|auto|]. intros [A B]. rewrite (on_map_interp _ _ _ _ _ A), (on_map_interp _ _ _ _ _ B).
  symmetry. apply surjective_pairing.
Qed.

Lemma strongB_src t B0x B0y src thr E p b : magnet src (px p) (py p) b ->
  strongB_one t B0x B0y src thr E p = strongB_one t (fst b + B0x) (snd b + B0y) SrcNone thr E p.
Proof.
  intros H. unfold strongB_one. rewrite (magnet_src _ _ _ _ H). cbn [src_field fst snd]. rewrite !(Rplus_0_l). reflexivity.
Qed.

Lemma magnet_motion src B0x B0y thr Ex Ey p b : 0 < thr -> magnet src (px p) (py p) b ->
  let Bx := fst b + B0x in let By := snd b + B0y in
  let q t := strongB_one t B0x B0y src thr (Ex, Ey) p in
  q 0 = p /\ (thr <= sqrt (Bx * Bx + By * By) -> forall t, lorentz qm_e (Ex, Ey) (Bx, By) q t) /\
  (sqrt (Bx * Bx + By * By) < thr -> forall t, lorentz qm_e (Ex, Ey) (0, 0) q t).
Proof.
  intros T H. cbv zeta. split; [apply strongB_start; exact T|]. split; intros HB t.
  - pose proof (strongB_lorentz _ _ thr Ex Ey p t T HB) as L. unfold lorentz in *. rewrite !(strongB_src _ _ _ _ _ _ _ _ H).
    repeat split; eapply derivable_pt_lim_ext; try apply L; intros u; cbv beta; rewrite ?(strongB_src _ _ _ _ _ _ _ _ H); reflexivity.
  - pose proof (strongB_zero_lorentz _ _ thr Ex Ey p t HB) as L. unfold lorentz in *. rewrite !(strongB_src _ _ _ _ _ _ _ _ H).
    repeat split; eapply derivable_pt_lim_ext; try apply L; intros u; cbv beta; rewrite ?(strongB_src _ _ _ _ _ _ _ _ H); reflexivity.
Qed.

Lemma file_field B0x B0y B0z m x y bx by_ : on_map m (bm_x m) x y bx -> on_map m (bm_y m) x y by_ ->
  (bm_z m = None -> B_file B0x B0y B0z m x y = (bx + B0x, by_ + B0y, B0z)) /\
  (forall g bz, bm_z m = Some g -> on_map m g x y bz -> B_file B0x B0y B0z m x y = (bx + B0x, by_ + B0y, bz + B0z)).
Proof.
  intros A B. unfold B_file. rewrite (on_map_interp _ _ _ _ _ A), (on_map_interp _ _ _ _ _ B). split.
  - intros ->. rewrite Rplus_0_l. reflexivity.
  - intros g bz -> C. rewrite (on_map_interp _ _ _ _ _ C). reflexivity.
Qed.

(** A map with 3 by 3 nodes of a quadrupole of gradient 2. *)
Definition exMap : bmap := mkBmap (-1) (-1) 1 1 3 3 (fun i j => 2 * (IZR j - 2)) (fun i j => 2 * (IZR i - 2)) None.
Lemma exMap_ok : magnet (SrcMap exMap) (1/2) (1/4) (1/2, 1).
Proof.
  split; exists 3%nat, 3%nat.
  - exists 0, 0, 2, 0. unfold covered. cbn -[IZR]. do 4 (split; [first [reflexivity|lra]|]). split; [split; lra|]. split; [split; lra|].
    split; [intros; lra|lra].
  - exists 0, 2, 0, 0. unfold covered. cbn -[IZR]. do 4 (split; [first [reflexivity|lra]|]). split; [split; lra|]. split; [split; lra|].
    split; [intros; lra|lra].
Qed.

Lemma no_multipoles o c x y : o = None \/ o = Some [] -> exists bf bs, mult_ctor o None = Some (bf, bs) /\
  mult_field bf bs None x y = (0, 0, 0) /\ mult_field bf bs (Some c) x y = c.
Proof.
  destruct c as [[c1 c2] c3]. intros [->| ->]; eexists _, _; (split; [reflexivity|]); split; unfold mult_field; cbn; repeat f_equal; field.
Qed.
