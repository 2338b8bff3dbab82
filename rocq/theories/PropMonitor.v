(** C104: joining of monitor files. *)
From Coq Require Import String Bool Arith Reals List Lia.
From Verif Require Import Monitor SpecMonitor MonitorFacts.
Import ListNotations.
Local Open Scope string_scope.
Local Open Scope list_scope.

(** Vectors are put one after the other, in the order of the files, for any
    number of files and with or without transposition; files that all have
    vectors under the names of the first are always joined. *)
Theorem C104_vectors : forall key tr n fs ls r, Forall2 (fun f l => stores key n f (Vec l)) fs ls ->
  monitorh5list_to_dict key tr false fs = Ok r -> get n r = Some (Vec (concat ls)).
Proof. exact vec_joined. Qed.
Print Assumptions C104_vectors.
Theorem C104_vectors_accepted : forall key tr g d fs, group key g = Some d -> Forall (fun p => exists l, snd p = Vec l) d ->
  Forall (vectors key (map fst d)) fs -> exists r, monitorh5list_to_dict key tr false (Some g :: fs) = Ok r.
Proof. exact vec_succeeds. Qed.
Print Assumptions C104_vectors_accepted.
Definition one (n : string) (a : arr) : h5 := Some [("Bunch", [(n, a)])].
Example C104_vectors_meets :
  Forall2 (fun f l => stores "Bunch" "x" f (Vec l)) [one "x" (Vec [1%R; 2%R]); one "x" (Vec []); one "x" (Vec [3%R])] [[1%R; 2%R]; []; [3%R]] /\
  exists r, monitorh5list_to_dict "Bunch" true false [one "x" (Vec [1%R; 2%R]); one "x" (Vec []); one "x" (Vec [3%R])] = Ok r.
Proof. split; [repeat constructor; do 2 eexists; repeat split; reflexivity|eexists; reflexivity]. Qed.
Example C104_accepted_meets : Forall (vectors "Bunch" ["x"]) [one "x" (Vec [1%R]); one "x" (Vec [])].
Proof. repeat constructor; do 2 eexists; repeat split; intros n [<-|[]]; eexists; reflexivity. Qed.

(** Matrices are joined along the rows ... *)
Theorem C104_rows : forall key w n f fs l ls r, l <> [] -> stores key n f (Mat w l) -> rect w l ->
  Forall2 (fun f l => stores key n f (Mat w l) /\ rect w l) fs ls ->
  monitorh5list_to_dict key false false (f :: fs) = Ok r -> get n r = Some (Mat w (concat (l :: ls))).
Proof. exact rows_joined. Qed.
Print Assumptions C104_rows.
Example C104_rows_meets : rect 2 [[1%R; 2%R]] /\
  exists r, monitorh5list_to_dict "Bunch" false false [one "x" (Mat 2 [[1%R; 2%R]]); one "x" (Mat 2 [[3%R; 4%R]; [5%R; 6%R]])] = Ok r.
Proof. split; [repeat constructor|eexists; reflexivity]. Qed.
(** ... or, with transposition, each row continues the row of the file before. *)
Theorem C104_columns : forall key m n f fs w l ps r, (0 < w)%nat -> stores key n f (Mat w l) -> rect w l -> length l = m ->
  Forall2 (fun f p => stores key n f (Mat (fst p) (snd p)) /\ rect (fst p) (snd p) /\ length (snd p) = m) fs ps ->
  monitorh5list_to_dict key true false (f :: fs) = Ok r ->
  exists W c, get n r = Some (Mat W c) /\ length c = m /\
    forall i, (i < m)%nat -> nth i c [] = nth i l [] ++ concat (map (fun p => nth i (snd p) []) ps).
Proof. exact columns_joined. Qed.
Print Assumptions C104_columns.
Example C104_columns_meets : rect 1 [[1%R]; [2%R]] /\ rect 2 [[3%R; 4%R]; [5%R; 6%R]] /\
  exists r, monitorh5list_to_dict "Bunch" true false [one "x" (Mat 1 [[1%R]; [2%R]]); one "x" (Mat 2 [[3%R; 4%R]; [5%R; 6%R]])] = Ok r.
Proof. split; [repeat constructor|split; [repeat constructor|eexists; reflexivity]]. Qed.

(** Without permission, a result means that every file was read. *)
Theorem C104_strict : forall key tr fs r, monitorh5list_to_dict key tr false fs = Ok r -> Forall (fun f => readable f = true) fs.
Proof. exact strict_all. Qed.
Print Assumptions C104_strict.

(** With permission, files that cannot be read count as not given, if the first
    one can be read. *)
Theorem C104_permissive_partial : forall key tr f fs, readable f = true ->
  monitorh5list_to_dict key tr true (f :: fs) = monitorh5list_to_dict key tr false (filter readable (f :: fs)).
Proof. exact permissive_first. Qed.
Print Assumptions C104_permissive_partial.
Example C104_permissive_meets : readable (one "x" (Vec [1%R])) = true. Proof. reflexivity. Qed.
(** The first file is not skipped: one that cannot be read ends the call even
    though the other files would give a result. *)
Theorem C104_first_skipped_refuted : exists key tr f fs r,
  monitorh5list_to_dict key tr true (f :: fs) = IOErr /\ monitorh5list_to_dict key tr false (filter readable (f :: fs)) = Ok r.
Proof. exists "Bunch", false, None, [one "x" (Vec [1%R])]. eexists. split; reflexivity. Qed.
Print Assumptions C104_first_skipped_refuted.

(** The names are those of the first file; a later file without one of them
    ends the call, also with permission. *)
Theorem C104_names : forall key tr pm f fs r, monitorh5list_to_dict key tr pm (f :: fs) = Ok r ->
  exists g d, f = Some g /\ group key g = Some d /\ map fst r = map fst d.
Proof. exact list_names. Qed.
Print Assumptions C104_names.
Theorem C104_missing_name : forall key tr pm f1 f fs1 fs2 n a r, stores key n f1 a ->
  (exists g d, f = Some g /\ group key g = Some d /\ get n d = None) ->
  monitorh5list_to_dict key tr pm (f1 :: fs1 ++ f :: fs2) <> Ok r.
Proof. exact missing_name. Qed.
Print Assumptions C104_missing_name.
(** What only a later file has is lost without notice. *)
Theorem C104_nothing_lost_refuted : exists key tr f1 f2 n a r, stores key n f2 a /\
  monitorh5list_to_dict key tr false [f1; f2] = Ok r /\ get n r = None.
Proof.
  exists "Bunch", false, (one "x" (Vec [1%R])), (Some [("Bunch", [("x", Vec [2%R]); ("y", Vec [3%R])])]), "y", (Vec [3%R]). eexists.
  split; [do 2 eexists; repeat split; reflexivity|]. split; reflexivity.
Qed.
Print Assumptions C104_nothing_lost_refuted.
