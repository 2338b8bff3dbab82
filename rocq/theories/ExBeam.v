(** Concrete cases for the beam. *)
From Verif Require Import Num NumFacts Fort FortFacts Beam SpecBeam BeamFacts BeamFacts2.

(** Four steps, two of them per passage. *)
Definition beam5 : beam := mkBeam [0; 1; 2; 3; 4] [7; 8; 9; 8; 7] 2 5 1 true 2 (-1) (-1) None.
(** A time axis that starts before zero. *)
Definition early : beam := mkBeam [-2; -1; 0; 1] [1; 1; 1; 1] 1 4 1 true 1 (-1) (-1) None.

Lemma beam5_fresh : fresh beam5.
Proof. repeat split. Qed.
Lemma early_fresh : fresh early.
Proof. repeat split. Qed.
Lemma five i : (i < 5)%nat -> (i = 0 \/ i = 1 \/ i = 2 \/ i = 3 \/ i = 4)%nat.
Proof. lia. Qed.
Lemma beam5_asc : ascending (b_t beam5).
Proof.
  intros i j H. cbn [beam5 b_t length] in *.
  destruct (five i ltac:(lia)) as [->|[->|[->|[->| ->]]]]; destruct (five j ltac:(lia)) as [->|[->|[->|[->| ->]]]]; cbn; try lra; lia.
Qed.
Lemma early_asc : ascending (b_t early).
Proof.
  intros i j H. cbn [early b_t length] in *.
  destruct (five i ltac:(lia)) as [->|[->|[->|[->| ->]]]]; destruct (five j ltac:(lia)) as [->|[->|[->|[->| ->]]]]; cbn; try lra; lia.
Qed.

Lemma floor_is x n : IZR n <= x < IZR n + 1 -> rfloor x = n.
Proof.
  intros H. unfold rfloor. destruct (base_Int_part x). assert (A : (Int_part x < n + 1)%Z) by (apply lt_IZR; rewrite plus_IZR; lra).
  assert (B : (n - 1 < Int_part x)%Z) by (apply lt_IZR; rewrite minus_IZR; lra). lia.
Qed.

(** The passages of [beam5]: 0 0 1 1. *)
Lemma beam5_passages : map (passage beam5) (seq 0 4) = [0; 0; 1; 1]%Z.
Proof. cbn [map seq]. unfold passage, beam5. cbn [b_t b_spac nth]. repeat f_equal; apply floor_is; lra. Qed.

(** The early passages are not signalled. *)
Lemma early_silent : exists r sigs, run record_signals None 4 early [] [] = Some (r, sigs) /\
  length sigs = 3%nat /\ nth 0 sigs false = false /\ nth 1 sigs false = false /\ passage early 0 <> passage early 1.
Proof.
  destruct (run_signals early [] 4 early_fresh (Forall_nil _) (le_n 4)) as (r & sigs & E & L & V). exists r, sigs.
  assert (P0 : passage early 0 = (-2)%Z) by (apply floor_is; cbn; lra).
  assert (P1 : passage early 1 = (-1)%Z) by (apply floor_is; cbn; lra).
  cbn [early b_t length Nat.sub] in L. split; auto. split; auto. rewrite P0, P1. split; [|split; [|lia]].
  - destruct (nth 0 sigs false) eqn:S; auto. apply V in S; [|lia]. lia.
  - destruct (nth 1 sigs false) eqn:S; auto. apply V in S; [|lia]. lia.
Qed.

(** A stop in the middle: three of four steps. *)
Lemma beam5_stop : n_steps (Some 2) (b_t beam5) 3.
Proof.
  split; [cbn; lia|]. split; [|intros _; split; [lia|cbn; lra]].
  intros i H. destruct (five i ltac:(lia)) as [->|[->|[->|[->| ->]]]]; cbn; try lra; lia.
Qed.

(** One slot filled out of three. *)
Lemma ex_train : train_density 1 0 [0; 5; 0] [1; 1; 1] 1 = 5 / sqrt (2 * PI).
Proof.
  unfold train_density. cbn [length seq map nth]. unfold rsum. cbn [fold_right]. rewrite !slot_density_0. unfold slot_density. cbv zeta.
  rewrite (proj2 (Rgtb_true 1 0)) by lra.
  replace (c_light * 1 - c_light * (0 + INR 1 * 1)) with 0 by (cbn; ring).
  rewrite Rabs_R0, (proj2 (Rltb_true 0 (10 * 1))) by lra. replace (- 0 * 0 / (2 * 1 * 1)) with 0 by field.
  rewrite exp_0, Rmult_1_l. lra.
Qed.

(** A field map with constant field 3 along x and 4 along y. *)
Definition map34 (lam : R) : bfield := mkBfield 1 lam 1 0 0 1 1 4 4 (fun _ _ => 3) (fun _ _ => 4).
Lemma ex_field : beam_at (map34 2) (1/2, 1/2) = (6, 8) /\ beam_at (map34 1) (1/2, 1/2) = (0, 0).
Proof.
  unfold beam_at, map34. cbn [f_lam f_th f_q f_x0 f_y0 f_dx f_dy f_nx f_ny f_Ex f_Ey fst snd].
  rewrite (proj2 (Rgtb_true 2 1)), (proj2 (Rgtb_false 1 1)) by lra. split; auto.
  assert (FL : cell_i (1 / 2) 0 1 = 1%Z) by (unfold cell_i; rewrite rtrunc_nonneg by lra; apply floor_is; lra).
  unfold interp_one. rewrite !FL. cbv zeta. unfold in_grid. cbn [Z.ltb Z.leb Z.compare andb Pos.compare Pos.compare_cont].
  f_equal; ring.
Qed.

(** Stop at time 2 after three steps, then the fourth. *)
Lemma run_one {S : Type} (sim : beam -> list beam -> S -> option S) te fu b b' s s' :
  end_simulation b = false -> reached te b = false -> next_time_step b = Some b' -> sim b' [] s = Some s' ->
  run sim te (Datatypes.S fu) b [] s = run sim te fu b' [] s'.
Proof. intros A B C D. cbn [run]. rewrite A, B, C. cbn [bind next_all]. rewrite D. auto. Qed.
Lemma run_end {S : Type} (sim : beam -> list beam -> S -> option S) te fu b s :
  end_simulation b || reached te b = true -> run sim te fu b [] s = Some (b, [], s).
Proof. intros A. destruct fu; cbn [run]; destruct (end_simulation b); auto; cbn in A; rewrite A; auto. Qed.

Lemma stop_case : exists b1 s1 r, run record_steps (Some 2) 5 beam5 [] [] = Some (b1, [], s1) /\ length s1 = 3%nat /\
  run record_steps None 5 b1 [] s1 = Some r /\ length (snd r) = 4%nat.
Proof.
  assert (G0 : Rgeb 0 2 = false) by (apply Rgeb_false; lra). assert (G1 : Rgeb 1 2 = false) by (apply Rgeb_false; lra).
  assert (G2 : Rgeb 2 2 = true) by (apply Rleb_true; lra).
  do 3 eexists. split; [|split; [|split]].
  - erewrite run_one; [|reflexivity|reflexivity|reflexivity|reflexivity].
    erewrite run_one; [|reflexivity|exact G0|reflexivity|reflexivity].
    erewrite run_one; [|reflexivity|exact G1|reflexivity|reflexivity].
    rewrite run_end; [reflexivity|exact G2].
  - reflexivity.
  - erewrite run_one; [|reflexivity|reflexivity|reflexivity|reflexivity]. rewrite run_end; reflexivity.
  - reflexivity.
Qed.
