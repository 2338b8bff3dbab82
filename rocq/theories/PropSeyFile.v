(** C103: which yield table is used. *)
From Coq Require Import String Lia Lra.
From Verif Require Import Num Sey SeyFile SpecSeyFile SeyFileFacts.
Local Open Scope string_scope.
Local Open Scope list_scope.
Local Open Scope R_scope.

(** A table is accepted only if all seven entries are there, the gradients and
    constants being single numbers; it is then the table of these entries. *)
Theorem C103_entries : forall m sc sh r, from_mat m sc sh = Some r ->
  exists e t l gt ct ge ce, holds m e t l gt ct ge ce /\ tab_ctor e t l gt ct ge ce sc sh = Some r.
Proof. exact from_mat_inv. Qed.
Print Assumptions C103_entries.
Theorem C103_given : forall files home pkg m e t l gt ct ge ce sc sh, holds m e t l gt ct ge ce ->
  file_ctor files home pkg (Given m) sc sh = tab_ctor e t l gt ct ge ce sc sh.
Proof. exact (fun files home pkg m e t l gt ct ge ce sc sh => from_mat_ok m e t l gt ct ge ce sc sh). Qed.
Print Assumptions C103_given.
Example C103_given_meets : holds (two 1) [0; 1] [1; 1] [0; 0] 0 1 0 0. Proof. exact (two_holds 1). Qed.

(** A path is read as it is, and is what is intended. *)
Theorem C103_path : forall files home pkg n m sc sh, plain n -> files n = Some m ->
  file_ctor files home pkg (Named n) sc sh = from_mat m sc sh /\ intended files home pkg n = Some m.
Proof. exact path_ok. Qed.
Print Assumptions C103_path.
Example C103_path_meets : plain "folder/t". Proof. split; [discriminate|reflexivity]. Qed.

(** A name that is found nowhere raises. *)
Theorem C103_nowhere : forall files home pkg n sc sh, intended files home pkg n = None -> file_ctor files home pkg (Named n) sc sh = None.
Proof. exact nowhere_raises. Qed.
Print Assumptions C103_nowhere.
Example C103_nowhere_meets : intended (fun _ => None) "h" "pk" "t" = None. Proof. reflexivity. Qed.

(** Started from a folder of input files: the table in the folder, else the one
    with ".mat" in the folder, else the path. *)
Theorem C103_input_folder : forall files home pkg folder n m sc sh,
  plain (folder ++ "/" ++ n) -> files (folder ++ "/" ++ n)%string = Some m ->
  init_table files home pkg folder n sc sh = from_mat m sc sh.
Proof. exact init_folder. Qed.
Print Assumptions C103_input_folder.
Theorem C103_input_folder_mat : forall files home pkg folder n m sc sh,
  plain (folder ++ "/" ++ n ++ ".mat") -> files (folder ++ "/" ++ n)%string = None -> files (folder ++ "/" ++ n ++ ".mat")%string = Some m ->
  init_table files home pkg folder n sc sh = from_mat m sc sh.
Proof. exact init_folder_mat. Qed.
Print Assumptions C103_input_folder_mat.
Theorem C103_other_path : forall files home pkg folder n m sc sh,
  plain n -> files (folder ++ "/" ++ n)%string = None -> files (folder ++ "/" ++ n ++ ".mat")%string = None -> files n = Some m ->
  init_table files home pkg folder n sc sh = from_mat m sc sh.
Proof. exact init_other. Qed.
Print Assumptions C103_other_path.
Example C103_input_folder_meets : plain ("in" ++ "/" ++ "t") /\ plain ("in" ++ "/" ++ "t" ++ ".mat"). Proof. split; split; first [discriminate|reflexivity]. Qed.

(** Not so for the dedicated folder: what is neither a file under its own name
    nor with ".mat" always raises, also if it is in that folder. *)
Theorem C103_folder_never : forall files home pkg n sc sh, files n = None -> files (n ++ ".mat")%string = None ->
  file_ctor files home pkg (Named n) sc sh = None.
Proof. exact folder_raises. Qed.
Print Assumptions C103_folder_never.
Theorem C103_folder_refuted : exists files home pkg n m, intended files home pkg n = Some m /\
  (exists t, from_mat m false false = Some t) /\ file_ctor files home pkg (Named n) false false = None.
Proof. exists in_package, "h", "pk", "t", (two 1). exact only_folder. Qed.
Print Assumptions C103_folder_refuted.
(** Nor for a name in the home directory. *)
Theorem C103_home_refuted : exists files home pkg m, intended files home pkg "~/t" = Some m /\
  (exists t, from_mat m false false = Some t) /\ file_ctor files home pkg (Named "~/t") false false = None.
Proof. exists (fun p => if String.eqb p "h/t" then Some (two 1) else None), "h", "pk", (two 1). exact in_home. Qed.
Print Assumptions C103_home_refuted.
(** And the table of another file can be used instead of the one found. *)
Theorem C103_other_table_refuted : exists files home pkg n m, intended files home pkg n = Some m /\
  exists a b, from_mat m false false = Some a /\ file_ctor files home pkg (Named n) false false = Some b /\ st_true a = [1; 1] /\ st_true b = [2; 2].
Proof. exists (fun p => if String.eqb p "pk/sey_files/t" then Some (two 1) else if String.eqb p "t.mat" then Some (two 2) else None), "h", "pk", "t", (two 1). exact wrong_file. Qed.
Print Assumptions C103_other_table_refuted.

(** Tables that should be rejected are accepted: with fewer yields than
    energies, an energy of the table raises in the run; with energies from high
    to low, the yield at 1 eV is the one given for 0 eV. *)
Theorem C103_short_refuted : exists t, tab_ctor [0; 1; 2] [1; 1] [0; 0] 0 0 0 0 false false = Some t /\ tab_values t 2 1 = None.
Proof. exact short_accepted. Qed.
Print Assumptions C103_short_refuted.
Theorem C103_descending_refuted : exists t, tab_ctor [2; 1; 0] [3; 2; 1] [0; 0; 0] 0 0 0 0 false false = Some t /\ tab_interp t 1 = Some (1, 0).
Proof. exact descending_accepted. Qed.
Print Assumptions C103_descending_refuted.
