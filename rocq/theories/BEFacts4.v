(** Field maps from a file, and the cases without a map. *)
From Coq Require Import Lra Lia Psatz.
From Verif Require Import Num NumFacts Fort SpecFort FortFacts Erf SpecErf ErfFacts BE SpecBE BEFacts BEFacts2 BEFacts3.
From Verif Require Beam SpecBeam.
Local Open Scope R_scope.

Lemma steps_list x0 d n : 0 < d -> (2 <= n)%nat -> list_min (equal_steps x0 d n) = Some x0 /\
  nth_error (equal_steps x0 d n) 1 = Some (x0 + d) /\ nth_error (equal_steps x0 d n) 0 = Some x0 /\ length (equal_steps x0 d n) = n.
Proof.
  intros D N. unfold equal_steps. rewrite map_length, seq_length. destruct n as [|[|n]]; [lia|lia|]. cbn [seq map list_min nth_error].
  assert (Z : x0 + INR 0 * d = x0) by (cbn; ring). rewrite Z. split; [|split; [|split; [reflexivity|reflexivity]]].
  - apply f_equal. apply fold_min_first. intros y Y. change (In y (map (fun i => x0 + INR i * d) (seq 1 (S n)))) in Y. apply in_map_iff in Y. destruct Y as (i & <- & _).
    pose proof (pos_INR i). nra.
  - cbn. apply f_equal. ring.
Qed.

Lemma file_nodes r x0 y0 dx dy n m q lam th i j : 0 < dx -> 0 < dy -> (2 <= n)%nat -> (2 <= m)%nat ->
  r_xx r = equal_steps x0 dx n -> r_yy r = equal_steps y0 dy m -> (i < n - 1)%nat -> (j < m - 1)%nat -> th < lam ->
  exists u, use_map r = Some u /\
    SpecBeam.beam_at (with_map q lam th u) (x0 + INR i * dx, y0 + INR j * dy) =
      (q * lam * r_Ex r (Z.of_nat i + 1)%Z (Z.of_nat j + 1)%Z, q * lam * r_Ey r (Z.of_nat i + 1)%Z (Z.of_nat j + 1)%Z).
Proof.
  intros DX DY N M X Y I J L. unfold use_map. rewrite X, Y. destruct (steps_list x0 dx n DX N) as (A1 & A2 & A3 & A4). destruct (steps_list y0 dy m DY M) as (B1 & B2 & B3 & B4).
  rewrite A1, B1. cbn [bind]. rewrite A2, A3, B2, B3. cbn [bind]. rewrite A4, B4. eexists. split; [reflexivity|].
  unfold SpecBeam.beam_at, with_map, Rgtb. cbn [Beam.f_lam Beam.f_th Beam.f_q Beam.f_x0 Beam.f_y0 Beam.f_dx Beam.f_dy Beam.f_nx Beam.f_ny Beam.f_Ex Beam.f_Ey u_x0 u_y0 u_dx u_dy u_nx u_ny u_Ex u_Ey fst snd].
  rewrite (proj2 (Rltb_true th lam)) by exact L. replace (x0 + dx - x0) with dx by ring. replace (y0 + dy - y0) with dy by ring.
  replace (x0 + INR i * dx) with (x0 + (IZR (Z.of_nat i + 1) - 1) * dx) by (rewrite plus_IZR, <- INR_IZR_INZ; ring).
  replace (y0 + INR j * dy) with (y0 + (IZR (Z.of_nat j + 1) - 1) * dy) by (rewrite plus_IZR, <- INR_IZR_INZ; ring).
  rewrite !interp_node by (auto; lia). reflexivity.
Qed.

(** A file with unequal distances. *)
Definition odd_file : rawmap :=
  mkRaw [0; 2; 3; 4] [0; 1; 2] (fun i _ => if (i =? 3)%Z then 1 else 0) (fun _ _ => 0).
Lemma odd_used : exists u, use_map odd_file = Some u /\ nth_error (r_xx odd_file) 2 = Some 3 /\ nth_error (r_yy odd_file) 0 = Some 0 /\ r_Ex odd_file 3%Z 1%Z = 1 /\
  SpecBeam.beam_at (with_map 1 1 0 u) (3, 0) = (1 / 2, 0).
Proof.
  eexists. split; [reflexivity|]. split; [reflexivity|]. split; [reflexivity|]. split; [reflexivity|].
  unfold SpecBeam.beam_at, with_map, Rgtb. cbn [Beam.f_lam Beam.f_th Beam.f_q Beam.f_x0 Beam.f_y0 Beam.f_dx Beam.f_dy Beam.f_nx Beam.f_ny Beam.f_Ex Beam.f_Ey u_x0 u_y0 u_dx u_dy u_nx u_ny u_Ex u_Ey fst snd].
  rewrite (proj2 (Rltb_true 0 1)) by lra. cbn [odd_file r_xx r_yy r_Ex r_Ey length Z.of_nat fold_left Pos.of_succ_nat Pos.succ].
  rewrite (Rmin_left 0 2), (Rmin_left 0 3), (Rmin_left 0 4), (Rmin_left 0 1), (Rmin_left 0 2) by lra.
  assert (C : cell_i 3 0 (2 - 0) = 2%Z /\ cell_h 3 0 (2 - 0) = 1 / 2). { assert (E : cell_i 3 0 (2 - 0) = 2%Z). { unfold cell_i. replace (1 + (3 - 0) / (2 - 0)) with (5 / 2) by field. rewrite rtrunc_nonneg by lra. apply rfloor_unique; lra. } split; [exact E|]. unfold cell_h. rewrite E. cbn. field. }
  assert (D : cell_i 0 0 (1 - 0) = 1%Z /\ cell_h 0 0 (1 - 0) = 0). { assert (E : cell_i 0 0 (1 - 0) = 1%Z). { unfold cell_i. replace (1 + (0 - 0) / (1 - 0)) with 1 by field. apply rtrunc_IZR. } split; [exact E|]. unfold cell_h. rewrite E. cbn. field. }
  destruct C as [C1 C2]. destruct D as [D1 D2]. unfold interp_one. rewrite C1, C2, D1, D2. cbn. apply f_equal2; field.
Qed.

(** A node that is not a number. *)
Lemma raw_none acosh a b sx sy Nx Ny n i j : (i < Nx)%nat -> (j < Ny)%nat ->
  be_node acosh a b sx sy (linspace_sym (a * (102 / 100)) Nx i) (linspace_sym (b * (102 / 100)) Ny j) n = None -> be_raw acosh a b sx sy Nx Ny n = None.
Proof.
  intros I J E. unfold be_raw. destruct (_ || _)%bool; [reflexivity|]. destruct (node_nums _) eqn:N; [|reflexivity]. exfalso. unfold node_nums in N. rewrite forallb_forall in N.
  specialize (N None). enough (K : false = true) by discriminate. apply N. apply in_flat_map. exists i. split; [apply in_seq; lia|]. apply in_map_iff. exists j. split; [exact E|apply in_seq; lia].
Qed.
Lemma raw_round acosh a b s Nx Ny n : be_raw acosh a b s s Nx Ny n = None.
Proof.
  destruct Nx as [|Nx]; [reflexivity|]. destruct Ny as [|Ny]; [unfold be_raw; destruct (S Nx <=? 1)%nat; reflexivity|].
  apply (raw_none _ _ _ _ _ _ _ _ 0 0); [lia|lia|]. unfold be_node. destruct (ImageTerms _ _ _ _ _ _ _ _); [|reflexivity]. cbn [bind]. rewrite free_round. reflexivity.
Qed.
Lemma raw_tall acosh a b sx sy Nx Ny n : 0 < a -> 1 / 1000 < (b - a) / a -> be_raw acosh a b sx sy Nx Ny n = None.
Proof.
  intros A H. destruct Nx as [|Nx]; [reflexivity|]. destruct Ny as [|Ny]; [unfold be_raw; destruct (S Nx <=? 1)%nat; reflexivity|].
  apply (raw_none _ _ _ _ _ _ _ _ 0 0); [lia|lia|]. unfold be_node. rewrite images_tall by assumption. reflexivity.
Qed.
Lemma raw_focus acosh a b sx sy Nx Ny n i j x : inverse_cosh acosh -> 0 < b < a -> 1 / 1000 < (a - b) / a -> (2 <= Nx)%nat -> (2 <= Ny)%nat ->
  node_of (a * (102 / 100)) Nx i x -> node_of (b * (102 / 100)) Ny j 0 -> x ^ 2 = a ^ 2 - b ^ 2 -> be_raw acosh a b sx sy Nx Ny (S n) = None.
Proof.
  intros AC AB EC NX NY [I X] [J Y] F. apply (raw_none _ _ _ _ _ _ _ _ i j); [exact I|exact J|].
  assert (P : forall N, (2 <= N)%nat -> 0 < INR N - 1) by (intros N H; assert (2 <= INR N) by (replace 2 with (INR 2) by (cbn; lra); apply le_INR; lia); lra).
  pose proof (P Nx NX). pose proof (P Ny NY).
  replace (linspace_sym (a * (102 / 100)) Nx i) with x by (unfold linspace_sym; apply Rmult_eq_reg_r with (INR Nx - 1); [|lra]; rewrite X; field; lra).
  replace (linspace_sym (b * (102 / 100)) Ny j) with 0 by (unfold linspace_sym; apply Rmult_eq_reg_r with (INR Ny - 1); [|lra]; rewrite Y; field; lra).
  unfold be_node. rewrite images_focus by assumption. reflexivity.
Qed.

Lemma free_is_eps w sx sy x y : (forall z, errf (fst z) (snd z) = Some (w z)) -> 0 < sx -> 0 < sy -> sx <> sy ->
  BassErsk x y sx sy =
  Some (if Rlt_dec sy sx then let v := wide_field w vacuum_eps sx sy (Rabs x) (Rabs y) in (Rabs (snd v) * np_sign x, Rabs (fst v) * np_sign y)
        else let v := wide_field w vacuum_eps sy sx (Rabs y) (Rabs x) in (Rabs (fst v) * np_sign x, Rabs (snd v) * np_sign y)).
Proof. rewrite <- eps0_is. apply free_is. Qed.
Lemma images_is_eps acosh a b x y x0 y0 n : inverse_cosh acosh -> 0 < b < a -> 1 / 1000 < (a - b) / a -> y <> 0 \/ x ^ 2 <> a ^ 2 - b ^ 2 ->
  ImageTerms acosh x y a b x0 y0 n = Some (image_field vacuum_eps a b (x0, y0) (x, y) n).
Proof. rewrite <- eps0_is. apply images_is. Qed.
