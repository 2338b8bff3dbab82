(** The map of the analytic beam field, the density given to the solvers. *)
From Coq Require Import Lra Lia Psatz.
From Verif Require Import Num NumFacts Fort SpecFort FortFacts Erf SpecErf ErfFacts BE SpecBE BEFacts BEFacts2.
From Verif Require Beam SpecBeam.
Local Open Scope R_scope.

(** Interpolation in a mirrored map. *)
Lemma mirror_cell m n x : 0 < m -> (2 <= n)%nat -> Rabs x < m -> let d := 2 * m / (INR n - 1) in
  let i := cell_i x (- m) d in let i' := cell_i (- x) (- m) d in
  (0 < i < Z.of_nat n)%Z /\ (0 < i' < Z.of_nat n)%Z /\
  ((i' = (Z.of_nat n + 1 - i)%Z /\ cell_h x (- m) d = 0 /\ cell_h (- x) (- m) d = 0) \/
   (i' = (Z.of_nat n - i)%Z /\ cell_h (- x) (- m) d = 1 - cell_h x (- m) d)).
Proof.
  intros M N X d i i'. assert (N1 : 0 < INR n - 1) by (assert (2 <= INR n) by (replace 2 with (INR 2) by (cbn; lra); apply le_INR; lia); lra).
  assert (D : 0 < d) by (unfold d; apply Rdiv_lt_0_compat; lra). assert (DM : (INR n - 1) * d = 2 * m) by (unfold d; field; lra).
  assert (X1 : - m < x < m). { unfold Rabs in X. destruct (Rcase_abs x); lra. }
  destruct (cell_covered x (- m) d n D) as (A1 & A2 & A3 & A4); [split; lra|]. destruct (cell_covered (- x) (- m) d n D) as (B1 & B2 & B3 & B4); [split; lra|].
  fold i in A2, A3, A4. fold i' in B2, B3, B4. split; [exact A3|]. split; [exact B3|].
  assert (S : 1 + (- x - - m) / d = IZR (Z.of_nat n) + 1 - (1 + (x - - m) / d)).
  { rewrite <- INR_IZR_INZ. replace (INR n) with (2 * m / d + 1) by (apply Rmult_eq_reg_r with d; [|lra]; field_simplify; lra). field. lra. }
  unfold cell_h. fold i i'. rewrite S in *. set (u := 1 + (x - - m) / d) in *.
  assert (C : (i + i' = Z.of_nat n + 1 \/ i + i' = Z.of_nat n)%Z).
  { assert ((i + i' <= Z.of_nat n + 1)%Z) by (apply le_IZR; rewrite !plus_IZR; lra).
    assert ((Z.of_nat n + 1 < i + i' + 2)%Z) by (apply lt_IZR; rewrite !plus_IZR; lra). lia. }
  destruct C as [C|C].
  - left. assert (E : i' = (Z.of_nat n + 1 - i)%Z) by lia. split; [exact E|]. rewrite E in *. rewrite minus_IZR, plus_IZR in *. split; lra.
  - right. assert (E : i' = (Z.of_nat n - i)%Z) by lia. split; [exact E|]. rewrite E in *. rewrite minus_IZR in *. lra.
Qed.

Lemma interp_mirror_x m n by_ dy M (ef : grid) s x y : 0 < m -> (2 <= n)%nat -> Rabs x < m ->
  (forall i j, (1 <= i <= Z.of_nat n)%Z -> ef (Z.of_nat n + 1 - i)%Z j = s * ef i j) -> let d := 2 * m / (INR n - 1) in
  interp_one (- m) by_ d dy (Z.of_nat n) M ef (- x) y = s * interp_one (- m) by_ d dy (Z.of_nat n) M ef x y.
Proof.
  intros Mp N X S d. destruct (mirror_cell m n x Mp N X) as (A & B & C). fold d in A, B, C. unfold interp_one.
  set (i := cell_i x (- m) d) in *. set (i' := cell_i (- x) (- m) d) in *. set (j := cell_i y by_ dy). set (h := cell_h x (- m) d) in *. set (h' := cell_h (- x) (- m) d) in *. set (k := cell_h y by_ dy).
  assert (G : in_grid (Z.of_nat n) M i' j = in_grid (Z.of_nat n) M i j).
  { unfold in_grid. rewrite (proj2 (Z.ltb_lt 0 i')), (proj2 (Z.ltb_lt 0 i)), (proj2 (Z.ltb_lt i' (Z.of_nat n))), (proj2 (Z.ltb_lt i (Z.of_nat n))) by lia. reflexivity. }
  rewrite G. destruct (in_grid (Z.of_nat n) M i j); [|ring].
  destruct C as [(C1 & C2 & C3)|(C1 & C2)].
  - rewrite C2, C3, C1. rewrite !S by lia. ring.
  - rewrite C2. assert (E1 : i' = (Z.of_nat n + 1 - (i + 1))%Z) by lia. assert (E2 : (i' + 1 = Z.of_nat n + 1 - i)%Z) by lia. rewrite E2. rewrite E1 at 1 2. rewrite !S by lia. ring.
Qed.

Lemma interp_swap bx by_ dx dy n m (ef : grid) x y :
  interp_one bx by_ dx dy n m ef x y = interp_one by_ bx dy dx m n (fun j i => ef i j) y x.
Proof.
  unfold interp_one, in_grid. set (i := cell_i x bx dx). set (j := cell_i y by_ dy).
  destruct (0 <? i)%Z, (0 <? j)%Z, (i <? n)%Z, (j <? m)%Z; cbn [andb]; ring.
Qed.

Lemma interp_mirror_y m n bx dx M (ef : grid) s x y : 0 < m -> (2 <= n)%nat -> Rabs y < m ->
  (forall i j, (1 <= j <= Z.of_nat n)%Z -> ef i (Z.of_nat n + 1 - j)%Z = s * ef i j) -> let d := 2 * m / (INR n - 1) in
  interp_one bx (- m) dx d M (Z.of_nat n) ef x (- y) = s * interp_one bx (- m) dx d M (Z.of_nat n) ef x y.
Proof.
  intros Mp N X S d. rewrite !(interp_swap bx). apply interp_mirror_x; auto.
Qed.

(** At a node the interpolation gives the value of the node. *)
Lemma interp_node bx by_ dx dy n m (ef : grid) i j : 0 < dx -> 0 < dy -> (1 <= i < n)%Z -> (1 <= j < m)%Z ->
  interp_one bx by_ dx dy n m ef (bx + (IZR i - 1) * dx) (by_ + (IZR j - 1) * dy) = ef i j.
Proof.
  intros DX DY I J. assert (C : forall b d k, 0 < d -> (1 <= k)%Z -> cell_i (b + (IZR k - 1) * d) b d = k /\ cell_h (b + (IZR k - 1) * d) b d = 0).
  { intros b d k D K. unfold cell_h, cell_i. replace (1 + (b + (IZR k - 1) * d - b) / d) with (IZR k) by (field; lra). rewrite rtrunc_IZR. split; [reflexivity|lra]. }
  destruct (C bx dx i DX ltac:(lia)) as [A1 A2]. destruct (C by_ dy j DY ltac:(lia)) as [B1 B2]. unfold interp_one. rewrite A1, A2, B1, B2. unfold in_grid.
  rewrite !(proj2 (Z.ltb_lt _ _)) by lia. cbn [andb]. ring.
Qed.

(** The map. *)
Lemma linspace_mirror m n i : (2 <= n)%nat -> (i < n)%nat -> linspace_sym m n (n - 1 - i) = - linspace_sym m n i.
Proof.
  intros N I. assert (N1 : 0 < INR n - 1) by (assert (2 <= INR n) by (replace 2 with (INR 2) by (cbn; lra); apply le_INR; lia); lra).
  unfold linspace_sym. rewrite !minus_INR by lia. change (INR 1) with 1. field. lra.
Qed.
Lemma fold_min_first l x : (forall y, In y l -> x <= y) -> fold_left Rmin l x = x.
Proof.
  induction l as [|y l IH]; intros H; [reflexivity|]. cbn. rewrite Rmin_left by (apply H; left; reflexivity). apply IH. intros z Z. apply H. right. exact Z.
Qed.
Lemma linspace_up m n i : 0 < m -> (2 <= n)%nat -> linspace_sym m n 0 <= linspace_sym m n i.
Proof.
  intros M N. assert (N1 : 0 < INR n - 1) by (assert (2 <= INR n) by (replace 2 with (INR 2) by (cbn; lra); apply le_INR; lia); lra).
  unfold linspace_sym. change (INR 0) with 0. assert (0 <= INR i * ((m - - m) / (INR n - 1))); [|lra]. apply Rmult_le_pos; [apply pos_INR|]. left. apply Rdiv_lt_0_compat; lra.
Qed.
Lemma linspace_first m n : linspace_sym m n 0 = - m.
Proof. unfold linspace_sym. change (INR 0) with 0. ring. Qed.
Lemma linspace_step m n : (2 <= n)%nat -> linspace_sym m n 1 - linspace_sym m n 0 = 2 * m / (INR n - 1).
Proof.
  intros N. assert (N1 : 0 < INR n - 1) by (assert (2 <= INR n) by (replace 2 with (INR 2) by (cbn; lra); apply le_INR; lia); lra).
  unfold linspace_sym. change (INR 0) with 0. change (INR 1) with 1. field. lra.
Qed.
Lemma linspace_list m n : 0 < m -> (2 <= n)%nat -> list_min (map (linspace_sym m n) (seq 0 n)) = Some (- m) /\
  nth_error (map (linspace_sym m n) (seq 0 n)) 1 = Some (linspace_sym m n 1) /\ nth_error (map (linspace_sym m n) (seq 0 n)) 0 = Some (linspace_sym m n 0).
Proof.
  intros M N. destruct n as [|[|n]]; [lia|lia|]. split; [|split; reflexivity]. cbn [seq map list_min]. rewrite <- (linspace_first m (S (S n))). apply f_equal. apply fold_min_first.
  intros y Y. change (In y (map (linspace_sym m (S (S n))) (seq 1 (S n)))) in Y. apply in_map_iff in Y. destruct Y as (i & <- & _). apply linspace_up; auto.
Qed.

Lemma raw_used acosh a b sx sy Nx Ny n r : 0 < a -> 0 < b -> be_raw acosh a b sx sy Nx Ny n = Some r ->
  (2 <= Nx)%nat /\ (2 <= Ny)%nat /\
  exists v : nat -> nat -> R * R, (forall i j, (i < Nx)%nat -> (j < Ny)%nat ->
      be_node acosh a b sx sy (linspace_sym (a * (102 / 100)) Nx i) (linspace_sym (b * (102 / 100)) Ny j) n = Some (v i j)) /\
    use_map r = Some (mkMap (- (a * (102 / 100))) (- (b * (102 / 100))) (2 * (a * (102 / 100)) / (INR Nx - 1)) (2 * (b * (102 / 100)) / (INR Ny - 1)) (Z.of_nat Nx) (Z.of_nat Ny)
      (fun i j => fst (match be_node acosh a b sx sy (linspace_sym (a * (102 / 100)) Nx (Z.to_nat (i - 1))) (linspace_sym (b * (102 / 100)) Ny (Z.to_nat (j - 1))) n with Some e => e | None => (0, 0) end))
      (fun i j => snd (match be_node acosh a b sx sy (linspace_sym (a * (102 / 100)) Nx (Z.to_nat (i - 1))) (linspace_sym (b * (102 / 100)) Ny (Z.to_nat (j - 1))) n with Some e => e | None => (0, 0) end))).
Proof.
  intros A B. unfold be_raw. destruct (Nx <=? 1)%nat eqn:X; [discriminate|]. destruct (Ny <=? 1)%nat eqn:Y; [discriminate|]. cbn [orb]. apply Nat.leb_gt in X, Y.
  destruct (node_nums _) eqn:NN; [|discriminate]. intros E. injection E as <-. split; [lia|]. split; [lia|].
  set (node := fun i j => be_node acosh a b sx sy (linspace_sym (a * (102 / 100)) Nx i) (linspace_sym (b * (102 / 100)) Ny j) n) in *.
  exists (fun i j => match node i j with Some e => e | None => (0, 0) end). split.
  - intros i j I J. unfold node_nums in NN. rewrite forallb_forall in NN. assert (K : In (node i j) (flat_map (fun i => map (fun j => node i j) (seq 0 Ny)) (seq 0 Nx))).
    { apply in_flat_map. exists i. split; [apply in_seq; lia|]. apply in_map_iff. exists j. split; [reflexivity|apply in_seq; lia]. }
    specialize (NN _ K). fold (node i j). destruct (node i j); [reflexivity|discriminate].
  - unfold use_map. cbn [r_xx r_yy r_Ex r_Ey]. destruct (linspace_list (a * (102 / 100)) Nx) as (L1 & L2 & L3); [lra|lia|]. destruct (linspace_list (b * (102 / 100)) Ny) as (M1 & M2 & M3); [lra|lia|].
    rewrite L1, M1. cbn [bind]. rewrite L2, L3, M2, M3. cbn [bind]. rewrite !linspace_step by lia. rewrite !map_length, !seq_length. reflexivity.
Qed.

Lemma mirrored_val E x y : mirrored E -> let v := fun x y => match E x y with Some e => e | None => (0, 0) end in
  v (- x) y = (- fst (v x y), snd (v x y)) /\ v x (- y) = (fst (v x y), - snd (v x y)).
Proof.
  intros M v. unfold v. split.
  - destruct (E x y) as [[ex ey]|] eqn:A; [destruct (M _ _ _ _ A) as [B _]; rewrite B; reflexivity|].
    destruct (E (- x) y) as [[ex ey]|] eqn:B; [apply M in B; destruct B as [B _]; rewrite Ropp_involutive in B; congruence|]. cbn. rewrite Ropp_0. reflexivity.
  - destruct (E x y) as [[ex ey]|] eqn:A; [destruct (M _ _ _ _ A) as [_ B]; rewrite B; reflexivity|].
    destruct (E x (- y)) as [[ex ey]|] eqn:B; [apply M in B; destruct B as [_ B]; rewrite Ropp_involutive in B; congruence|]. cbn. rewrite Ropp_0. reflexivity.
Qed.

Lemma map_mirrored acosh a b sx sy Nx Ny n r u q lam th x y : inverse_cosh acosh -> 0 < a -> 0 < b ->
  be_raw acosh a b sx sy Nx Ny n = Some r -> use_map r = Some u -> Rabs x < a * (102 / 100) -> Rabs y < b * (102 / 100) ->
  let e := SpecBeam.beam_at (with_map q lam th u) in
  e (- x, y) = (- fst (e (x, y)), snd (e (x, y))) /\ e (x, - y) = (fst (e (x, y)), - snd (e (x, y))).
Proof.
  intros AC A B R U X Y e. destruct (raw_used _ _ _ _ _ _ _ _ _ A B R) as (NX & NY & v & _ & W). rewrite W in U. injection U as <-.
  unfold e, SpecBeam.beam_at, with_map. cbn [Beam.f_lam Beam.f_th Beam.f_q Beam.f_x0 Beam.f_y0 Beam.f_dx Beam.f_dy Beam.f_nx Beam.f_ny Beam.f_Ex Beam.f_Ey u_x0 u_y0 u_dx u_dy u_nx u_ny u_Ex u_Ey fst snd].
  destruct (Rgtb lam th); [|cbn [fst snd]; rewrite Ropp_0; split; reflexivity]. cbn [fst snd].
  set (am := a * (102 / 100)) in *. set (bm := b * (102 / 100)) in *. assert (AM : 0 < am) by (unfold am; lra). assert (BM : 0 < bm) by (unfold bm; lra).
  pose proof (node_mirrored acosh a b sx sy n AC A B) as M.
  assert (IX : forall i, (1 <= i <= Z.of_nat Nx)%Z -> linspace_sym am Nx (Z.to_nat (Z.of_nat Nx + 1 - i - 1)) = - linspace_sym am Nx (Z.to_nat (i - 1))).
  { intros i I. rewrite <- linspace_mirror by lia. f_equal. lia. }
  assert (IY : forall i, (1 <= i <= Z.of_nat Ny)%Z -> linspace_sym bm Ny (Z.to_nat (Z.of_nat Ny + 1 - i - 1)) = - linspace_sym bm Ny (Z.to_nat (i - 1))).
  { intros i I. rewrite <- linspace_mirror by lia. f_equal. lia. }
  assert (V := fun x y => mirrored_val _ x y M). cbv zeta in V. cbv beta in V.
  rewrite (interp_mirror_x am Nx _ _ _ _ (-1)) by (auto; intros i j I; rewrite IX by exact I; rewrite (proj1 (V _ _)); cbn [fst]; ring).
  rewrite (interp_mirror_x am Nx _ _ _ _ 1) by (auto; intros i j I; rewrite IX by exact I; rewrite (proj1 (V _ _)); cbn [snd]; ring).
  rewrite (interp_mirror_y bm Ny _ _ _ _ 1) by (auto; intros i j I; rewrite IY by exact I; rewrite (proj2 (V _ _)); cbn [fst]; ring).
  rewrite (interp_mirror_y bm Ny _ _ _ _ (-1)) by (auto; intros i j I; rewrite IY by exact I; rewrite (proj2 (V _ _)); cbn [snd]; ring).
  split; apply f_equal2; ring.
Qed.

Lemma map_nodes acosh a b sx sy Nx Ny n r u q lam th i j x y : 0 < a -> 0 < b -> be_raw acosh a b sx sy Nx Ny n = Some r -> use_map r = Some u ->
  node_of (a * (102 / 100)) Nx i x -> node_of (b * (102 / 100)) Ny j y -> (i < Nx - 1)%nat -> (j < Ny - 1)%nat -> th < lam ->
  exists free im, BassErsk x y sx sy = Some free /\ ImageTerms acosh x y a b 0 0 n = Some im /\
    SpecBeam.beam_at (with_map q lam th u) (x, y) = (q * lam * (fst free + fst im), q * lam * (snd free + snd im)).
Proof.
  intros A B R U [X1 X2] [Y1 Y2] I J L. destruct (raw_used _ _ _ _ _ _ _ _ _ A B R) as (NX & NY & v & V & W). rewrite W in U. injection U as <-.
  set (am := a * (102 / 100)) in *. set (bm := b * (102 / 100)) in *.
  assert (P : forall N, (2 <= N)%nat -> 0 < INR N - 1) by (intros N H; assert (2 <= INR N) by (replace 2 with (INR 2) by (cbn; lra); apply le_INR; lia); lra).
  pose proof (P Nx NX) as PX. pose proof (P Ny NY) as PY.
  assert (EX : x = linspace_sym am Nx i) by (unfold linspace_sym; apply Rmult_eq_reg_r with (INR Nx - 1); [|lra]; rewrite X2; field; lra).
  assert (EY : y = linspace_sym bm Ny j) by (unfold linspace_sym; apply Rmult_eq_reg_r with (INR Ny - 1); [|lra]; rewrite Y2; field; lra).
  pose proof (V i j X1 Y1) as N. rewrite <- EX, <- EY in N. pose proof N as N'. unfold be_node in N'.
  destruct (ImageTerms acosh x y a b 0 0 n) as [im|]; cbn [bind] in N'; [|discriminate]. destruct (BassErsk x y sx sy) as [free|]; cbn [bind] in N'; [|discriminate].
  exists free, im. split; [reflexivity|]. split; [reflexivity|]. unfold SpecBeam.beam_at, with_map, Rgtb.
  cbn [Beam.f_lam Beam.f_th Beam.f_q Beam.f_x0 Beam.f_y0 Beam.f_dx Beam.f_dy Beam.f_nx Beam.f_ny Beam.f_Ex Beam.f_Ey u_x0 u_y0 u_dx u_dy u_nx u_ny u_Ex u_Ey fst snd].
  rewrite (proj2 (Rltb_true th lam)) by exact L.
  assert (KX : x = - am + (IZR (Z.of_nat i + 1) - 1) * (2 * am / (INR Nx - 1))) by (rewrite EX; unfold linspace_sym; rewrite plus_IZR, <- INR_IZR_INZ; field; lra).
  assert (KY : y = - bm + (IZR (Z.of_nat j + 1) - 1) * (2 * bm / (INR Ny - 1))) by (rewrite EY; unfold linspace_sym; rewrite plus_IZR, <- INR_IZR_INZ; field; lra).
  assert (AM : 0 < am) by (unfold am; lra). assert (BM : 0 < bm) by (unfold bm; lra).
  rewrite KX, KY at 1. rewrite (interp_node (- am)) by (try lia; apply Rdiv_lt_0_compat; lra).
  rewrite KX, KY at 1. rewrite (interp_node (- am)) by (try lia; apply Rdiv_lt_0_compat; lra).
  replace (Z.to_nat (Z.of_nat i + 1 - 1)) with i by lia. replace (Z.to_nat (Z.of_nat j + 1 - 1)) with j by lia. rewrite <- EX, <- EY, N.
  injection N' as <-. reflexivity.
Qed.

(** Density for the solvers. *)
Lemma rho_cell e Dh xb yb sx sy x y : 0 < Dh -> 0 < sx -> 0 < sy ->
  fd_rho e Dh xb yb sx sy x y * Dh ^ 2 = gauss_part e sx xb (x - Dh / 2) (x + Dh / 2) * gauss_part e sy yb (y - Dh / 2) (y + Dh / 2).
Proof.
  intros D SX SY. unfold fd_rho, gauss_part. assert (Q : 0 < sqrt 2) by (apply sqrt_lt_R0; lra).
  assert (P : forall z c s, 0 < s -> (z - c) / (sqrt 2 * s) + Dh / (2 * sqrt 2 * s) = (z + Dh / 2 - c) / (sqrt 2 * s)) by (intros; field; lra).
  assert (M : forall z c s, 0 < s -> (z - c) / (sqrt 2 * s) - Dh / (2 * sqrt 2 * s) = (z - Dh / 2 - c) / (sqrt 2 * s)) by (intros; field; lra).
  rewrite !P, !M by assumption. field. lra.
Qed.
Lemma gauss_join e s c lo mid hi : gauss_part e s c lo mid + gauss_part e s c mid hi = gauss_part e s c lo hi.
Proof. unfold gauss_part. field. Qed.
Lemma gauss_range e s c lo hi : is_erf e -> 0 < s -> lo <= hi -> 0 <= gauss_part e s c lo hi <= 1.
Proof.
  intros E S H. unfold gauss_part. assert (Q : 0 < sqrt 2 * s) by (apply Rmult_lt_0_compat; [apply sqrt_lt_R0; lra|exact S]).
  assert ((lo - c) / (sqrt 2 * s) <= (hi - c) / (sqrt 2 * s)) by (apply Rmult_le_compat_r; [left; apply Rinv_0_lt_compat; exact Q|lra]).
  pose proof (erf_up e E _ _ H0). pose proof (erf_range e E ((lo - c) / (sqrt 2 * s))). pose proof (erf_range e E ((hi - c) / (sqrt 2 * s))). lra.
Qed.
Lemma gauss_row e s c x0 Dh n : rsum (map (fun i => gauss_part e s c (x0 + INR i * Dh - Dh / 2) (x0 + INR i * Dh + Dh / 2)) (seq 0 n)) =
  gauss_part e s c (x0 - Dh / 2) (x0 + INR n * Dh - Dh / 2).
Proof.
  induction n as [|n IH]; [cbn; unfold gauss_part; replace (x0 + 0 * Dh - Dh / 2 - c) with (x0 - Dh / 2 - c) by ring; unfold rsum; cbn; field|].
  rewrite seq_S, map_app, rsum_app, IH. cbn [plus map]. unfold rsum at 1. cbn [fold_right]. rewrite Rplus_0_r.
  replace (x0 + INR n * Dh + Dh / 2) with (x0 + INR (S n) * Dh - Dh / 2) by (rewrite S_INR; field). apply gauss_join.
Qed.
Lemma rho_total e Dh xb yb sx sy x0 y0 n m : 0 < Dh -> 0 < sx -> 0 < sy ->
  rsum (map (fun i => rsum (map (fun j => fd_rho e Dh xb yb sx sy (x0 + INR i * Dh) (y0 + INR j * Dh) * Dh ^ 2) (seq 0 m))) (seq 0 n)) =
  gauss_part e sx xb (x0 - Dh / 2) (x0 + INR n * Dh - Dh / 2) * gauss_part e sy yb (y0 - Dh / 2) (y0 + INR m * Dh - Dh / 2).
Proof.
  intros D SX SY. rewrite <- !gauss_row. set (g := fun j => gauss_part e sy yb _ _).
  assert (K : forall k l, rsum (map (fun j => k * g j) l) = k * rsum (map g l)).
  { intros k l. induction l as [|z l IH]; [unfold rsum; cbn; ring|]. cbn [map]. change (k * g z + rsum (map (fun j => k * g j) l) = k * (g z + rsum (map g l))). rewrite IH. ring. }
  generalize (seq 0 n) as l. induction l as [|i l IH]; [unfold rsum; cbn; ring|]. cbn [map].
  match goal with |- rsum (?a :: ?r) = rsum (?b :: ?t) * ?c => change (a + rsum r = (b + rsum t) * c) end. rewrite IH.
  rewrite (map_ext _ (fun j => gauss_part e sx xb (x0 + INR i * Dh - Dh / 2) (x0 + INR i * Dh + Dh / 2) * g j)) by (intros j; apply rho_cell; assumption). rewrite K. ring.
Qed.

(** The map exists unless a node is a focus of the chamber. *)
Lemma raw_exists acosh a b sx sy Nx Ny n : inverse_cosh acosh -> 0 < sx -> 0 < sy -> sx <> sy -> 0 < a -> 0 < b -> (b - a) / a <= 1 / 1000 -> (2 <= Nx)%nat -> (2 <= Ny)%nat ->
  (forall i j x y, node_of (a * (102 / 100)) Nx i x -> node_of (b * (102 / 100)) Ny j y -> y <> 0 \/ x ^ 2 <> a ^ 2 - b ^ 2) ->
  exists r u, be_raw acosh a b sx sy Nx Ny n = Some r /\ use_map r = Some u.
Proof.
  intros AC SX SY SN A B H NX NY F.
  assert (N : forall i j, (i < Nx)%nat -> (j < Ny)%nat -> exists e, be_node acosh a b sx sy (linspace_sym (a * (102 / 100)) Nx i) (linspace_sym (b * (102 / 100)) Ny j) n = Some e).
  { intros i j I J. set (x := linspace_sym (a * (102 / 100)) Nx i). set (y := linspace_sym (b * (102 / 100)) Ny j).
    assert (P : forall N, (2 <= N)%nat -> 0 < INR N - 1) by (intros N K; assert (2 <= INR N) by (replace 2 with (INR 2) by (cbn; lra); apply le_INR; lia); lra).
    pose proof (P Nx NX) as PX. pose proof (P Ny NY) as PY.
    assert (FX : node_of (a * (102 / 100)) Nx i x) by (split; [exact I|unfold x, linspace_sym; field; lra]).
    assert (FY : node_of (b * (102 / 100)) Ny j y) by (split; [exact J|unfold y, linspace_sym; field; lra]).
    specialize (F i j x y FX FY). unfold be_node.
    assert (W : exists w : cpx -> cpx, forall z, errf (fst z) (snd z) = Some (w z)).
    { exists (fun z => match errf (fst z) (snd z) with Some v => v | None => (0, 0) end). intros z. destruct (errf_returns (fst z) (snd z)) as [v E]. rewrite E. reflexivity. }
    destruct W as [w W]. rewrite (free_is w) by assumption.
    assert (IM : exists im, ImageTerms acosh x y a b 0 0 n = Some im).
    { destruct (Rle_dec (Rabs ((a - b) / a)) (1 / 1000)) as [Rd|Rd]; [eexists; apply images_round; assumption|].
      assert (IA : 0 < / a) by (apply Rinv_0_lt_compat; lra). assert (NEG : (a - b) / a = - ((b - a) / a)) by (field; lra).
      assert (E1 : 1 / 1000 < (a - b) / a). { unfold Rabs in Rd. destruct (Rcase_abs ((a - b) / a)); lra. }
      assert (E2 : b < a). { assert (0 < (a - b) * / a) by (unfold Rdiv in E1; lra). nra. }
      eexists. apply images_is; auto. }
    destruct IM as [im ->]. cbn [bind]. eexists. reflexivity. }
  assert (X : exists r, be_raw acosh a b sx sy Nx Ny n = Some r).
  { unfold be_raw. rewrite (proj2 (Nat.leb_gt Nx 1)), (proj2 (Nat.leb_gt Ny 1)) by lia. cbn [orb].
    match goal with |- exists r, (if ?c then _ else _) = _ => assert (C : c = true) end.
    { unfold node_nums. apply forallb_forall. intros o O. apply in_flat_map in O. destruct O as (i & I & O). apply in_map_iff in O. destruct O as (j & <- & J).
      apply in_seq in I. apply in_seq in J. destruct (N i j) as [e E]; [lia|lia|]. rewrite E. reflexivity. }
    rewrite C. eexists. reflexivity. }
  destruct X as [r X]. destruct (raw_used _ _ _ _ _ _ _ _ _ A B X) as (_ & _ & _ & _ & U). eexists r, _. split; [exact X|exact U].
Qed.

(** The constructor. *)
Lemma saved_used o g g' m s r f : beam_field o g = Some (BMap m s) -> s = Some r -> a_src g' = UseFile f -> o_load o f = Some r ->
  exists s', beam_field o g' = Some (BMap m s').
Proof.
  intros E S G L. subst s. unfold beam_field at 1. rewrite G, L. cbn [bind]. enough (U : use_map r = Some m) by (rewrite U; eexists; reflexivity).
  assert (D : forall r0, (do m <- use_map r0; Some (BMap m (if a_save g then Some r0 else None))) = Some (BMap m (Some r)) -> use_map r = Some m).
  { intros r0. destruct (use_map r0) as [m0|] eqn:U0; cbn [bind]; [|discriminate]. intros K. injection K as K1 K2. destruct (a_save g); [|discriminate]. injection K2 as K2. subst. exact U0. }
  unfold beam_field in E. destruct (a_src g).
  - destruct (a_Dh g); cbn [bind] in E; [|discriminate]. eapply D. exact E.
  - destruct (negb (a_ellip g)); [discriminate|]. destruct (a_Nx g); cbn [bind] in E; [|discriminate]. destruct (a_Ny g); cbn [bind] in E; [|discriminate]. destruct (a_nimag g); cbn [bind] in E; [|discriminate].
    destruct (_ || _); [discriminate|]. destruct (be_raw _ _ _ _ _ _ _ _); cbn [bind] in E; [|discriminate]. eapply D. exact E.
  - destruct (a_Dh g); cbn [bind] in E; [|discriminate]. destruct (negb _); [discriminate|]. destruct (a_save g); discriminate.
  - destruct (o_load o name); cbn [bind] in E; [|discriminate]. eapply D. exact E.
Qed.

Lemma source_BE o g res : a_src g = UseBE -> beam_field o g = Some res ->
  a_ellip g = true /\ a_x g = 0 /\ a_y g = 0 /\ exists Nx Ny n r u s, a_Nx g = Some Nx /\ a_Ny g = Some Ny /\ a_nimag g = Some n /\
    be_raw (o_acosh o) (a_xa g) (a_ya g) (a_sx g) (a_sy g) Nx Ny n = Some r /\ use_map r = Some u /\ res = BMap u s /\ s = (if a_save g then Some r else None).
Proof.
  intros G. unfold beam_field. rewrite G. destruct (a_ellip g); cbn [negb]; [|discriminate]. destruct (a_Nx g) as [Nx|]; cbn [bind]; [|discriminate]. destruct (a_Ny g) as [Ny|]; cbn [bind]; [|discriminate]. destruct (a_nimag g) as [n|]; cbn [bind]; [|discriminate].
  destruct (Reqb (a_x g) 0) eqn:X; cbn [negb orb]; [|discriminate]. destruct (Reqb (a_y g) 0) eqn:Y; cbn [negb]; [|discriminate]. apply Reqb_true in X, Y.
  destruct (be_raw _ _ _ _ _ _ _ _) as [r|] eqn:R; cbn [bind]; [|discriminate]. destruct (use_map r) as [u|] eqn:U; cbn [bind]; [|discriminate]. intros E. injection E as <-.
  split; [reflexivity|]. split; [exact X|]. split; [exact Y|]. exists Nx, Ny, n, r, u, (if a_save g then Some r else None). auto 10.
Qed.

Lemma source_others o g res : beam_field o g = Some res ->
  match a_src g with
  | UseFD => exists Dh u s, a_Dh g = Some Dh /\ res = BMap u s /\
      use_map (o_fd o Dh (fd_rho (o_erf o) Dh (a_x g) (a_y g) (a_sx g) (a_sy g))) = Some u
  | UseMG => exists Dh f, a_Dh g = Some Dh /\ Forall (fun b => b = true) (a_mg g) /\ a_save g = false /\ res = BState f /\
      f = o_mg o Dh (fun dh => fd_rho (o_erf o) dh (a_x g) (a_y g) (a_sx g) (a_sy g))
  | UseFile name => exists r u s, o_load o name = Some r /\ use_map r = Some u /\ res = BMap u s
  | UseBE => True
  end.
Proof.
  unfold beam_field. destruct (a_src g) as [| | |name].
  - destruct (a_Dh g) as [Dh|]; cbn [bind]; [|discriminate]. destruct (use_map _) as [u|] eqn:U; cbn [bind]; [|discriminate]. intros E. injection E as <-. eexists _, _, _. split; [reflexivity|]. split; [reflexivity|]. exact U.
  - intros _. exact I.
  - destruct (a_Dh g) as [Dh|]; cbn [bind]; [|discriminate]. destruct (forallb (fun b => b) (a_mg g)) eqn:A; cbn [negb]; [|discriminate]. destruct (a_save g); [discriminate|]. intros E. injection E as <-.
    eexists _, _. split; [reflexivity|]. split; [apply Forall_forall; rewrite forallb_forall in A; exact A|]. split; [reflexivity|]. split; reflexivity.
  - destruct (o_load o name) as [r|]; cbn [bind]; [|discriminate]. destruct (use_map r) as [u|] eqn:U; cbn [bind]; [|discriminate]. intros E. injection E as <-. eexists _, _, _. split; [reflexivity|]. split; [exact U|reflexivity].
Qed.
