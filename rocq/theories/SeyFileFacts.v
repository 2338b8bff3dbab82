(** Facts about finding and loading yield tables, for C103. *)
From Coq Require Import String Lia Lra.
From Verif Require Init Config ConfigVal.
From Verif Require Import Num NumFacts Sey SeyFile SpecSeyFile SpecSey SeyFacts3.
Local Open Scope string_scope.
Local Open Scope list_scope.
Local Open Scope R_scope.

Lemma from_mat_ok m e t l gt ct ge ce sc sh : holds m e t l gt ct ge ce -> from_mat m sc sh = tab_ctor e t l gt ct ge ce sc sh.
Proof. intros (A & B & C & D & E & F & G). unfold from_mat, scalar_of. rewrite A, B, C, D, E, F, G. reflexivity. Qed.
Lemma as_float_inv v x : as_float v = Some x -> v = [x].
Proof. destruct v as [|a [|]]; cbn; congruence. Qed.
Lemma from_mat_inv m sc sh r : from_mat m sc sh = Some r -> exists e t l gt ct ge ce, holds m e t l gt ct ge ce /\ tab_ctor e t l gt ct ge ce sc sh = Some r.
Proof.
  unfold from_mat, scalar_of, holds.
  destruct (m "energy_eV") as [e|]; cbn [bind]; [|discriminate].
  destruct (m "sey_true") as [t|]; cbn [bind]; [|discriminate].
  destruct (m "sey_elast") as [l|]; cbn [bind]; [|discriminate].
  destruct (m "extrapolate_grad_true") as [v1|]; cbn [bind]; [|discriminate]. destruct (as_float v1) as [gt|] eqn:E1; cbn [bind]; [|discriminate].
  destruct (m "extrapolate_const_true") as [v2|]; cbn [bind]; [|discriminate]. destruct (as_float v2) as [ct|] eqn:E2; cbn [bind]; [|discriminate].
  destruct (m "extrapolate_grad_elast") as [v3|]; cbn [bind]; [|discriminate]. destruct (as_float v3) as [ge|] eqn:E3; cbn [bind]; [|discriminate].
  destruct (m "extrapolate_const_elast") as [v4|]; cbn [bind]; [|discriminate]. destruct (as_float v4) as [ce|] eqn:E4; cbn [bind]; [|discriminate].
  apply as_float_inv in E1, E2, E3, E4. subst. intros H. exists e, t, l, gt, ct, ge, ce. repeat split; auto.
Qed.

Section F.
Variable files : string -> option mat.
Variables home pkg : string.

Lemma expand_plain n : plain n -> expanduser home n = n.
Proof. intros (A & B). unfold expanduser. rewrite (proj2 (String.eqb_neq _ _) A), B. reflexivity. Qed.
Lemma path_ok n m sc sh : plain n -> files n = Some m -> file_ctor files home pkg (Named n) sc sh = from_mat m sc sh /\ intended files home pkg n = Some m.
Proof.
  intros P F. unfold intended. rewrite (expand_plain n P), F. split; [|reflexivity]. unfold file_ctor, candidates, isfile. cbn [filter].
  rewrite (expand_plain n P), F. unfold loadmat. rewrite F. reflexivity.
Qed.
Lemma nowhere_raises n sc sh : intended files home pkg n = None -> file_ctor files home pkg (Named n) sc sh = None.
Proof.
  unfold intended, file_ctor, candidates, isfile. cbn [filter]. destruct (files (expanduser home n)); [discriminate|].
  intros ->. reflexivity.
Qed.
(** What is not a file under its own name, nor with ".mat", is never read. *)
Lemma folder_raises n sc sh : files n = None -> files (n ++ ".mat")%string = None -> file_ctor files home pkg (Named n) sc sh = None.
Proof.
  intros A B. unfold file_ctor, loadmat. rewrite A, B. destruct (filter _ _); [reflexivity|]. destruct (ends_in_mat n); reflexivity.
Qed.
Lemma init_folder folder n m sc sh : plain (folder ++ "/" ++ n) -> files (folder ++ "/" ++ n)%string = Some m ->
  init_table files home pkg folder n sc sh = from_mat m sc sh.
Proof. intros P F. unfold init_table, init_path, isfile. rewrite F. apply path_ok; assumption. Qed.
Lemma init_folder_mat folder n m sc sh : plain (folder ++ "/" ++ n ++ ".mat") -> files (folder ++ "/" ++ n)%string = None -> files (folder ++ "/" ++ n ++ ".mat")%string = Some m ->
  init_table files home pkg folder n sc sh = from_mat m sc sh.
Proof. intros P F G. unfold init_table, init_path, isfile. rewrite F, G. apply path_ok; assumption. Qed.
Lemma init_other folder n m sc sh : plain n -> files (folder ++ "/" ++ n)%string = None -> files (folder ++ "/" ++ n ++ ".mat")%string = None -> files n = Some m ->
  init_table files home pkg folder n sc sh = from_mat m sc sh.
Proof. intros P F G H. unfold init_table, init_path, isfile. rewrite F, G. apply path_ok; assumption. Qed.
End F.

(** The rule is the one of [Init.v]. *)
Lemma same_rule files folder n : Init.find_file folder (isfile files) (ConfigVal.PStr n) = Some (ConfigVal.PStr (init_path files folder n)).
Proof. unfold Init.find_file, init_path, Init.in_folder. cbn [Config.as_name bind]. destruct (isfile files (folder ++ "/" ++ n)); [reflexivity|]. destruct (isfile files (folder ++ "/" ++ n ++ ".mat")); reflexivity. Qed.

(** A table of two energies. *)
Definition two (c : R) : mat := fun k =>
  if String.eqb k "energy_eV" then Some [0; 1] else if String.eqb k "sey_true" then Some [c; c] else if String.eqb k "sey_elast" then Some [0; 0]
  else if String.eqb k "extrapolate_grad_true" then Some [0] else if String.eqb k "extrapolate_const_true" then Some [c]
  else if String.eqb k "extrapolate_grad_elast" then Some [0] else if String.eqb k "extrapolate_const_elast" then Some [0] else None.
Lemma two_holds c : holds (two c) [0; 1] [c; c] [0; 0] 0 c 0 0.
Proof. repeat split. Qed.
Lemma round3_1 : round3 (1 - 0) = 1.
Proof. unfold round3. replace ((1 - 0) * 1000) with (IZR 1000) by lra. rewrite raround_IZR. lra. Qed.
Lemma two_ctor c : exists t, from_mat (two c) false false = Some t /\ st_true t = [c; c].
Proof.
  rewrite (from_mat_ok _ _ _ _ _ _ _ _ _ _ (two_holds c)). unfold tab_ctor. cbn [diffs map existsb]. eexists. split; reflexivity.
Qed.
(** Only in the folder of the package. *)
Definition in_package : string -> option mat := fun p => if String.eqb p "pk/sey_files/t" then Some (two 1) else None.
Lemma only_folder : intended in_package "h" "pk" "t" = Some (two 1) /\ (exists t, from_mat (two 1) false false = Some t) /\ file_ctor in_package "h" "pk" (Named "t") false false = None.
Proof. split; [reflexivity|]. split; [|reflexivity]. destruct (two_ctor 1) as (t & E & _). exists t. exact E. Qed.
Lemma in_home : let fs := fun p => if String.eqb p "h/t" then Some (two 1) else None in
  intended fs "h" "pk" "~/t" = Some (two 1) /\ (exists t, from_mat (two 1) false false = Some t) /\ file_ctor fs "h" "pk" (Named "~/t") false false = None.
Proof. cbv zeta. split; [reflexivity|]. split; [|reflexivity]. destruct (two_ctor 1) as (t & E & _). exists t. exact E. Qed.
(** In the folder, and another one with ".mat" where the run is started. *)
Lemma wrong_file : let fs := fun p => if String.eqb p "pk/sey_files/t" then Some (two 1) else if String.eqb p "t.mat" then Some (two 2) else None in
  intended fs "h" "pk" "t" = Some (two 1) /\
  exists a b, from_mat (two 1) false false = Some a /\ file_ctor fs "h" "pk" (Named "t") false false = Some b /\ st_true a = [1; 1] /\ st_true b = [2; 2].
Proof.
  cbv zeta. split; [reflexivity|]. destruct (two_ctor 1) as (a & A & A'), (two_ctor 2) as (b & B & B'). exists a, b.
  split; [exact A|]. split; [|split; assumption].
  change (file_ctor (fun p => if String.eqb p "pk/sey_files/t" then Some (two 1) else if String.eqb p "t.mat" then Some (two 2) else None) "h" "pk" (Named "t") false false) with (from_mat (two 2) false false). exact B.
Qed.

(** Fewer yields than energies: accepted, and an energy of the table raises. *)
Lemma short_accepted : exists t, tab_ctor [0; 1; 2] [1; 1] [0; 0] 0 0 0 0 false false = Some t /\ tab_values t 2 1 = None.
Proof.
  unfold tab_ctor. cbn [diffs map existsb]. rewrite round3_1. replace (2 - 1) with (1 - 0) by lra. rewrite round3_1. rewrite (proj2 (Reqb_true 1 1)) by reflexivity. cbn [negb orb].
  eexists. split; [reflexivity|]. unfold tab_values, tab_curve, tab_interp. cbn [st_min st_max st_de st_true st_elast st_true_diff st_elast_diff].
  assert (A : list_min 0 [1; 2] = 0) by (unfold list_min; cbn [fold_left]; unfold Rmin; repeat destruct (Rle_dec _ _); lra).
  assert (B : list_max 0 [1; 2] = 2) by (unfold list_max; cbn [fold_left]; unfold Rmax; repeat destruct (Rle_dec _ _); lra).
  rewrite A, B. rewrite (proj2 (Rgtb_false 2 2)) by lra. rewrite (proj2 (Reqb_false 1 0)) by lra.
  replace ((2 - 0) / 1) with (IZR 2) by field. rewrite rtrunc_IZR. reflexivity.
Qed.
(** Energies from high to low: accepted, and the yield at 1 eV is that of 0 eV. *)
Lemma descending_accepted : exists t, tab_ctor [2; 1; 0] [3; 2; 1] [0; 0; 0] 0 0 0 0 false false = Some t /\ tab_interp t 1 = Some (1, 0).
Proof.
  unfold tab_ctor. cbn [diffs map existsb]. assert (Q : round3 (-1) = -1).
  { unfold round3. replace (-1 * 1000) with (IZR (-1000)) by lra. rewrite raround_IZR. lra. }
  replace (1 - 2) with (-1) by lra. replace (0 - 1) with (-1) by lra. rewrite Q. rewrite (proj2 (Reqb_true (-1) (-1))) by reflexivity. cbn [negb orb].
  eexists. split; [reflexivity|]. unfold tab_interp. cbn [st_min st_max st_de st_true st_elast st_true_diff st_elast_diff].
  assert (A : list_min 2 [1; 0] = 0) by (unfold list_min; cbn [fold_left]; unfold Rmin; repeat destruct (Rle_dec _ _); lra).
  rewrite A. rewrite (proj2 (Reqb_false (-1) 0)) by lra. replace ((1 - 0) / -1) with (IZR (-1)) by field. rewrite rtrunc_IZR.
  cbn [diffs app]. assert (L : forall a b c : R, py_nth [a; b; c] (-1) = Some c) by reflexivity. rewrite !L.
  cbn [bind]. apply f_equal, f_equal2; lra.
Qed.
