(** C17 and C18: histogram accumulation, grid deposition, interpolation. *)
From Verif Require Import Num NumFacts Fort SpecFort FortFacts.

(** C17.  Every sample at or above the start of the range is deposited with
    all its weight, linearly shared between the two neighbouring bins (all in
    the last bin above the range); no write falls outside the histogram. *)
Theorem C17_hist_conserves_weight :
  forall (bias Dx : R) (samples : list (R * R)) (hist : list R),
  0 < Dx -> hist <> [] -> (forall xw, In xw samples -> bias <= fst xw) ->
  exists r, compute_hist samples bias Dx hist = Some r /\
    length r = length hist /\
    rsum r = rsum hist + rsum (map snd samples) /\
    forall k, (k < length hist)%nat ->
      nth k r 0 = nth k hist 0 + rsum (map (bin_share bias Dx (length hist) k) samples).
Proof. exact compute_hist_main. Qed.
Print Assumptions C17_hist_conserves_weight.

Example C17_hyps_met :
  0 < 1/2 /\ [1; 2; 3] <> [] /\
  (forall xw, In xw [(-1, 5); (0, 2); (100, 7)] -> -1 <= fst xw).
Proof.
  split; [lra|]. split; [discriminate|].
  intros xw [<-|[<-|[<-|[]]]]; simpl; lra.
Qed.

(** C17, converse.  The full wording (any sample) is false: a sample below
    the start of the range is written outside the array. *)
Theorem C17_below_range_refuted :
  exists bias Dx hist x w, 0 < Dx /\ hist <> [] /\
    compute_hist [(x, w)] bias Dx hist = None.
Proof.
  exists 0, 1, [0], (-1), 1. split; [lra|]. split; [discriminate|].
  unfold compute_hist. rewrite hist_one_below; [reflexivity|lra|lra|simpl; lia].
Qed.
Print Assumptions C17_below_range_refuted.

(** C18, deposition.  The value at each node is the sum of the particle
    charges weighted with the product of two hat functions centred on the
    node; the node values add up to the total charge. *)
Theorem C18_rho_is_hat_weighted :
  forall (bx by_ Dh : R) (n m : nat) (ps : list part),
  0 < Dh -> (forall p, In p ps -> in_range bx by_ Dh n m p) ->
  (forall i j, compute_rho bx by_ Dh (Z.of_nat n) (Z.of_nat m) ps i j
     = rsum (map (node_share bx by_ Dh i j) ps)) /\
  node_sum n m (compute_rho bx by_ Dh (Z.of_nat n) (Z.of_nat m) ps)
     = rsum (map p_w ps).
Proof.
  exact (fun bx by_ Dh n m ps HD Hin =>
    conj (fun i j => compute_rho_nodes bx by_ Dh n m ps i j HD Hin)
         (compute_rho_total bx by_ Dh n m ps HD Hin)).
Qed.
Print Assumptions C18_rho_is_hat_weighted.

(** C18: particles outside the grid change nothing. *)
Theorem C18_rho_ignores_outside :
  forall bx by_ Dh n m ps1 p ps2 i j,
  0 < Dh -> ~ in_range bx by_ Dh n m p ->
  compute_rho bx by_ Dh (Z.of_nat n) (Z.of_nat m) (ps1 ++ p :: ps2) i j
  = compute_rho bx by_ Dh (Z.of_nat n) (Z.of_nat m) (ps1 ++ ps2) i j.
Proof. exact compute_rho_outside. Qed.
Print Assumptions C18_rho_ignores_outside.

(** C18, adjointness: deposition and interpolation use the same weights. *)
Theorem C18_adjoint :
  forall (bx by_ Dh : R) (n m : nat) (ps : list part) (ef : grid),
  0 < Dh ->
  node_sum n m (fun i j =>
      compute_rho bx by_ Dh (Z.of_nat n) (Z.of_nat m) ps i j * ef i j)
  = rsum (map (fun p => p_w p *
      interp_one bx by_ Dh Dh (Z.of_nat n) (Z.of_nat m) ef (p_x p) (p_y p)) ps).
Proof. exact rho_interp_adjoint. Qed.
Print Assumptions C18_adjoint.

(** C18: interpolation reproduces bilinear fields exactly. *)
Theorem C18_interp_bilinear_exact :
  forall bx by_ dx dy n m c0 c1 c2 c3 x y,
  0 < dx -> 0 < dy -> covered x bx dx n -> covered y by_ dy m ->
  interp_one bx by_ dx dy (Z.of_nat n) (Z.of_nat m)
    (fun i j => let X := bx + (IZR i - 1) * dx in
                let Y := by_ + (IZR j - 1) * dy in
                c0 + c1 * X + c2 * Y + c3 * X * Y) x y
  = c0 + c1 * x + c2 * y + c3 * x * y.
Proof. exact interp_bilinear. Qed.
Print Assumptions C18_interp_bilinear_exact.

(** C18: the interpolated value stays within the range of the node values. *)
Theorem C18_interp_within_node_range :
  forall bx by_ dx dy n m (ef : grid) x y lo hi,
  0 < dx -> 0 < dy -> covered x bx dx n -> covered y by_ dy m ->
  (forall i j, (1 <= i <= Z.of_nat n)%Z -> (1 <= j <= Z.of_nat m)%Z ->
     lo <= ef i j <= hi) ->
  lo <= interp_one bx by_ dx dy (Z.of_nat n) (Z.of_nat m) ef x y <= hi.
Proof. exact interp_one_in_grid. Qed.
Print Assumptions C18_interp_within_node_range.

(** C18: the two components returned by [int_field] for particle [k] are the
    interpolations of the two field maps at the position of particle [k]. *)
Theorem C18_int_field_componentwise :
  forall bx by_ dx dy Nx Ny efx efy pos k x y,
  nth_error pos k = Some (x, y) ->
  nth_error (int_field bx by_ dx dy Nx Ny efx efy pos) k
  = Some (interp_one bx by_ dx dy Nx Ny efx x y,
          interp_one bx by_ dx dy Nx Ny efy x y).
Proof. exact int_field_components. Qed.
Print Assumptions C18_int_field_componentwise.

Example C18_hyps_met :
  0 < 1 /\ forall p, In p [mkPart 0 0 3; mkPart (1/2) (3/2) 4] ->
    in_range (-1) (-1) 1 5 5 p.
Proof.
  split; [lra|]. intros p [<-|[<-|[]]]; unfold in_range, covered; simpl; lra.
Qed.
