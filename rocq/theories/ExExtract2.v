(** A concrete extraction of spectra of the Furman-Pivi model. *)
From Coq Require Import Lra Lia Reals Psatz String.
From Verif Require Import Num Sey SpecSey Furman SpecFurman FurmanFacts5 Extract SpecExtract ExtractFacts ExtractFacts4 ExFurman.
Local Open Scope list_scope.
Local Open Scope R_scope.

Lemma fp_spectra_case : exists H st', extract_energy_distributions (fp_em 0 exSp (exF false 1) (exRng 3 (1/2))) types_furman_pivi
  (c_qe (f_e (exF false 1))) (c_mass (f_e (exF false 1))) 2 1 [1] 5 2 (0%nat, []) = Some (H, st').
Proof.
  set (p := test_imp (c_qe (f_e (exF false 1))) (c_mass (f_e (exF false 1))) 1 1).
  assert (I : exists e k1, fp_impacts 0 exSp (exF false 1) (exRng 3 (1/2)) 1 true (repeat p 2) 0 = Some (e, k1)).
  { apply (fp_returns exSp (exF false 1) (exRng 3 (1/2)) NormalEmission); try reflexivity; try (cbn; lia).
    - apply exF_ysane. lra.
    - apply test_all. split; [apply test_unit|]. cbn. lra.
    - intros q _. unfold de_of. rewrite ex_de, ex_dr. lra. }
  destruct I as (e & k1 & I).
  destruct (fp_spectra_return 0 exSp (exF false 1) (exRng 3 (1/2)) exSp_ok (exF_sane _ _) (exRng_ok 3 (1/2) ltac:(lra)) 2 1 1 5 2 (0%nat, []) e k1) as (H & Q); try lra; try lia; [exact I|].
  eauto.
Qed.
