(** C85: the analytic beam field. C86: the sources of the beam field map. *)
From Coq Require Import Lra Lia Psatz.
From Verif Require Import Num NumFacts Fort SpecFort Erf SpecErf ErfFacts BE SpecBE BEFacts BEFacts2 BEFacts3 BEFacts4.
From Verif Require Beam SpecBeam.
Local Open Scope R_scope.

(** In free space: the formula of Bassetti and Erskine for distances counted
    positive, with the signs of the place. *)
Theorem C85_free : forall w sx sy x y, (forall z, errf (fst z) (snd z) = Some (w z)) -> 0 < sx -> 0 < sy -> sx <> sy ->
  BassErsk x y sx sy =
  Some (if Rlt_dec sy sx then let v := wide_field w vacuum_eps sx sy (Rabs x) (Rabs y) in (Rabs (snd v) * np_sign x, Rabs (fst v) * np_sign y)
        else let v := wide_field w vacuum_eps sy sx (Rabs y) (Rabs x) in (Rabs (fst v) * np_sign x, Rabs (snd v) * np_sign y)).
Proof. exact free_is_eps. Qed.
Print Assumptions C85_free.

(** It has the symmetries of the beam, points away from it and is zero at its
    centre. *)
Theorem C85_symmetric : forall sx sy, mirrored (fun x y => BassErsk x y sx sy).
Proof. exact free_mirrored. Qed.
Print Assumptions C85_symmetric.
Theorem C85_turned : forall sx sy x y ex ey, sx <> sy -> BassErsk x y sx sy = Some (ex, ey) -> BassErsk y x sy sx = Some (ey, ex).
Proof. exact free_turned. Qed.
Print Assumptions C85_turned.
Theorem C85_outwards : forall sx sy x y ex ey, BassErsk x y sx sy = Some (ex, ey) -> 0 <= ex * x /\ 0 <= ey * y /\ (x = 0 -> ex = 0) /\ (y = 0 -> ey = 0).
Proof. exact free_outwards. Qed.
Print Assumptions C85_outwards.

(** The images: a polynomial in the place, the same for every branch of the
    inverse hyperbolic cosine; none in a chamber that is nearly round, for a
    beam at its centre (no value for another one). *)
Theorem C85_images : forall acosh a b x y x0 y0 n, inverse_cosh acosh -> 0 < b < a -> 1 / 1000 < (a - b) / a -> y <> 0 \/ x ^ 2 <> a ^ 2 - b ^ 2 ->
  ImageTerms acosh x y a b x0 y0 n = Some (image_field vacuum_eps a b (x0, y0) (x, y) n).
Proof. exact images_is_eps. Qed.
Print Assumptions C85_images.
Theorem C85_nearly_round : forall acosh x y a b x0 y0 n, 0 < a -> Rabs ((a - b) / a) <= 1 / 1000 ->
  (ImageTerms acosh x y a b x0 y0 n = Some (0, 0) /\ x0 = 0 /\ y0 = 0) \/ (ImageTerms acosh x y a b x0 y0 n = None /\ (x0 <> 0 \/ y0 <> 0)).
Proof. exact images_round_all. Qed.
Print Assumptions C85_nearly_round.

(** A map results unless beam, chamber or nodes are of the kinds below. *)
Theorem C85_exists : forall acosh a b sx sy Nx Ny n, inverse_cosh acosh -> 0 < sx -> 0 < sy -> sx <> sy -> 0 < a -> 0 < b -> (b - a) / a <= 1 / 1000 -> (2 <= Nx)%nat -> (2 <= Ny)%nat ->
  (forall i j x y, node_of (a * (102 / 100)) Nx i x -> node_of (b * (102 / 100)) Ny j y -> y <> 0 \/ x ^ 2 <> a ^ 2 - b ^ 2) ->
  exists r u, be_raw acosh a b sx sy Nx Ny n = Some r /\ use_map r = Some u.
Proof. exact raw_exists. Qed.
Print Assumptions C85_exists.

(** At the nodes (the last row and column apart) the field used is the sum of
    both parts, scaled with the charge density of the beam. *)
Theorem C85_nodes : forall acosh a b sx sy Nx Ny n r u q lam th i j x y, 0 < a -> 0 < b -> be_raw acosh a b sx sy Nx Ny n = Some r -> use_map r = Some u ->
  node_of (a * (102 / 100)) Nx i x -> node_of (b * (102 / 100)) Ny j y -> (i < Nx - 1)%nat -> (j < Ny - 1)%nat -> th < lam ->
  exists free im, BassErsk x y sx sy = Some free /\ ImageTerms acosh x y a b 0 0 n = Some im /\
    SpecBeam.beam_at (with_map q lam th u) (x, y) = (q * lam * (fst free + fst im), q * lam * (snd free + snd im)).
Proof. exact map_nodes. Qed.
Print Assumptions C85_nodes.

(** Everywhere in the chamber the field used is mirrored in both planes. *)
Theorem C85_map : forall acosh a b sx sy Nx Ny n r u q lam th x y, inverse_cosh acosh -> 0 < a -> 0 < b ->
  be_raw acosh a b sx sy Nx Ny n = Some r -> use_map r = Some u -> Rabs x < a * (102 / 100) -> Rabs y < b * (102 / 100) ->
  let e := SpecBeam.beam_at (with_map q lam th u) in
  e (- x, y) = (- fst (e (x, y)), snd (e (x, y))) /\ e (x, - y) = (fst (e (x, y)), - snd (e (x, y))).
Proof. exact map_mirrored. Qed.
Print Assumptions C85_map.

(** No map for a round beam. *)
Theorem C85_round_refuted : exists s, 0 < s /\ (forall x y, BassErsk x y s s = None) /\ forall acosh a b Nx Ny n, be_raw acosh a b s s Nx Ny n = None.
Proof. exists 1. split; [lra|]. split; [exact (fun x y => free_round x y 1)|exact (fun acosh a b Nx Ny n => raw_round acosh a b 1 Nx Ny n)]. Qed.
Print Assumptions C85_round_refuted.
(** No map for a chamber that is taller than wide. *)
Theorem C85_tall_refuted : exists a b, 0 < a /\ 0 < b /\ forall acosh sx sy Nx Ny n, be_raw acosh a b sx sy Nx Ny n = None.
Proof. exists 1, 2. split; [lra|]. split; [lra|]. intros. apply raw_tall; lra. Qed.
Print Assumptions C85_tall_refuted.
(** No map if a node is a focus of the chamber. *)
Theorem C85_focus_refuted : exists a b Nx Ny, 0 < b < a /\ (2 <= Nx)%nat /\ (2 <= Ny)%nat /\
  forall acosh sx sy n, inverse_cosh acosh -> be_raw acosh a b sx sy Nx Ny (S n) = None.
Proof.
  set (b := sqrt (1 - (34 / 100) ^ 2)). assert (B2 : b * b = 1 - (34 / 100) ^ 2) by (apply sqrt_sqrt; lra). assert (B0 : 0 <= b) by apply sqrt_pos. assert (B : 0 < b < 95 / 100) by nra.
  exists 1, b, 4%nat, 3%nat. split; [lra|]. split; [lia|]. split; [lia|]. intros acosh sx sy n AC.
  apply (raw_focus acosh 1 b sx sy 4 3 n 2 1 (34 / 100)); auto; try lia; try lra.
  - split; [lia|cbn; lra].
  - split; [lia|cbn; lra].
Qed.
Print Assumptions C85_focus_refuted.

(** An inverse of the hyperbolic cosine, and a map from it. *)
Example C85_case : inverse_cosh an_acosh /\ exists r u, be_raw an_acosh 2 1 (1 / 10) (2 / 10) 8 6 3 = Some r /\ use_map r = Some u.
Proof.
  split; [exact an_acosh_ok|]. apply raw_exists; try lra; try lia; [exact an_acosh_ok|]. intros i j x y _ [J Y]. left. intros ->. assert (K : 2 * INR j = 5) by (cbn in Y; lra).
  assert (Z : (2 * Z.of_nat j = 5)%Z) by (apply eq_IZR; rewrite mult_IZR, <- INR_IZR_INZ; exact K). lia.
Qed.

(** The density given to the field solvers is that of a Gaussian beam of unit
    charge: on each cell, the charge of the beam in the cell. *)
Theorem C86_density : forall e Dh xb yb sx sy x y, 0 < Dh -> 0 < sx -> 0 < sy ->
  fd_rho e Dh xb yb sx sy x y * Dh ^ 2 = gauss_part e sx xb (x - Dh / 2) (x + Dh / 2) * gauss_part e sy yb (y - Dh / 2) (y + Dh / 2).
Proof. exact rho_cell. Qed.
Print Assumptions C86_density.
(** Over a whole grid: the charge of the beam within the grid, at most one. *)
Theorem C86_total : forall e Dh xb yb sx sy x0 y0 n m, is_erf e -> 0 < Dh -> 0 < sx -> 0 < sy ->
  let px := gauss_part e sx xb (x0 - Dh / 2) (x0 + INR n * Dh - Dh / 2) in
  let py := gauss_part e sy yb (y0 - Dh / 2) (y0 + INR m * Dh - Dh / 2) in
  rsum (map (fun i => rsum (map (fun j => fd_rho e Dh xb yb sx sy (x0 + INR i * Dh) (y0 + INR j * Dh) * Dh ^ 2) (seq 0 m))) (seq 0 n)) = px * py /\
  0 <= px <= 1 /\ 0 <= py <= 1.
Proof.
  intros e Dh xb yb sx sy x0 y0 n m E D SX SY px py. split; [exact (rho_total e Dh xb yb sx sy x0 y0 n m D SX SY)|].
  pose proof (pos_INR n). pose proof (pos_INR m). split; apply gauss_range; auto; nra.
Qed.
Print Assumptions C86_total.

(** The analytic field needs an elliptic chamber, a centred beam and its three
    settings; its map is the one of C85 for the chamber and beam given. *)
Theorem C86_analytic : forall o g res, a_src g = UseBE -> beam_field o g = Some res ->
  a_ellip g = true /\ a_x g = 0 /\ a_y g = 0 /\ exists Nx Ny n r u s, a_Nx g = Some Nx /\ a_Ny g = Some Ny /\ a_nimag g = Some n /\
    be_raw (o_acosh o) (a_xa g) (a_ya g) (a_sx g) (a_sy g) Nx Ny n = Some r /\ use_map r = Some u /\ res = BMap u s /\ s = (if a_save g then Some r else None).
Proof. exact source_BE. Qed.
Print Assumptions C86_analytic.
(** The other sources: the solver gets the grid size of the beam and the density
    above; with several grids all settings are needed and nothing can be saved;
    a file gives its own map. *)
Theorem C86_sources : forall o g res, beam_field o g = Some res ->
  match a_src g with
  | UseFD => exists Dh u s, a_Dh g = Some Dh /\ res = BMap u s /\
      use_map (o_fd o Dh (fd_rho (o_erf o) Dh (a_x g) (a_y g) (a_sx g) (a_sy g))) = Some u
  | UseMG => exists Dh f, a_Dh g = Some Dh /\ Forall (fun b => b = true) (a_mg g) /\ a_save g = false /\ res = BState f /\
      f = o_mg o Dh (fun dh => fd_rho (o_erf o) dh (a_x g) (a_y g) (a_sx g) (a_sy g))
  | UseFile name => exists r u s, o_load o name = Some r /\ use_map r = Some u /\ res = BMap u s
  | UseBE => True
  end.
Proof. exact source_others. Qed.
Print Assumptions C86_sources.
(** A saved map, given as a file, is used as it was when it was saved. *)
Theorem C86_saved : forall o g g' m s r f, beam_field o g = Some (BMap m s) -> s = Some r -> a_src g' = UseFile f -> o_load o f = Some r ->
  exists s', beam_field o g' = Some (BMap m s').
Proof. exact saved_used. Qed.
Print Assumptions C86_saved.
(** A file with equal steps is used with its values at its nodes (the last row
    and column apart). *)
Theorem C86_file : forall r x0 y0 dx dy n m q lam th i j, 0 < dx -> 0 < dy -> (2 <= n)%nat -> (2 <= m)%nat ->
  r_xx r = equal_steps x0 dx n -> r_yy r = equal_steps y0 dy m -> (i < n - 1)%nat -> (j < m - 1)%nat -> th < lam ->
  exists u, use_map r = Some u /\
    SpecBeam.beam_at (with_map q lam th u) (x0 + INR i * dx, y0 + INR j * dy) =
      (q * lam * r_Ex r (Z.of_nat i + 1)%Z (Z.of_nat j + 1)%Z, q * lam * r_Ey r (Z.of_nat i + 1)%Z (Z.of_nat j + 1)%Z).
Proof. exact file_nodes. Qed.
Print Assumptions C86_file.
(** A file with unequal steps is accepted, and its values are used elsewhere. *)
Theorem C86_file_refuted : exists r u, use_map r = Some u /\ nth_error (r_xx r) 2 = Some 3 /\ nth_error (r_yy r) 0 = Some 0 /\ r_Ex r 3%Z 1%Z = 1 /\
  SpecBeam.beam_at (with_map 1 1 0 u) (3, 0) = (1 / 2, 0).
Proof. exact (ex_intro _ odd_file odd_used). Qed.
Print Assumptions C86_file_refuted.

(** A saved map, and a function with the properties of the error function that
    are used. *)
Example C86_case : (exists e, is_erf e /\ e 1 = 1) /\
  exists o g m r, a_src g = UseBE /\ beam_field o g = Some (BMap m (Some r)).
Proof.
  split.
  - exists (fun x => Rmax (-1) (Rmin 1 x)). split.
    + constructor; intros; unfold Rmax, Rmin; repeat destruct Rle_dec; lra.
    + rewrite Rmin_left by lra. apply Rmax_right. lra.
  - destruct C85_case as (_ & r & u & R & U).
    exists (mkBworld an_acosh (fun x => x) (fun _ _ => odd_file) (fun _ _ p => p) (fun _ => None)),
      (mkBargs UseBE None (Some 8%nat) (Some 6%nat) (Some 3%nat) [] true 2 1 (1 / 10) (2 / 10) 0 0 true), u, r.
    split; [reflexivity|]. unfold beam_field. cbn [a_src a_ellip a_Nx a_Ny a_nimag a_x a_y a_xa a_ya a_sx a_sy a_save negb bind o_acosh]. rewrite (proj2 (Reqb_true 0 0)) by reflexivity. cbn [negb orb].
    rewrite R. cbn [bind]. rewrite U. reflexivity.
Qed.
