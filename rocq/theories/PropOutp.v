(** C97: the entries of the output file. *)
From Coq Require Import String Lia Lra.
From Verif Require Import Num NumFacts MP SpecMP Impact Saver SpecSaver SpecOutp OutpFacts ExMP ExImpact ExSaver ExOutp.
Local Open Scope string_scope.
Local Open Scope list_scope.
Local Open Scope R_scope.

(** C97.  At any time of any run the complete output has the entries asked for
    and no others. *)
Theorem C97_names : forall c w n l, cfg_any c -> widths_ok c w -> (0 < n)%nat -> Forall (step_ok c w) l ->
  exists s g file d, started c w n l = Some (s, g, file) /\ build_outp_dict c s = Some d /\ forall k, get d k <> None <-> known c k.
Proof. exact run_names. Qed.
Print Assumptions C97_names.

(** C97.  With a list of names the run is the same as without it, the files are
    written at the same steps, and each holds these entries of the complete
    output and no others. *)
Theorem C97_only : forall c w n ks, cfg_any c -> widths_ok c w -> (0 < n)%nat -> (forall k, In k ks -> known c k) ->
  forall l, Forall (step_ok c w) l -> exists s g f f', started c w n l = Some (s, g, f) /\ started (only c (Some ks)) w n l = Some (s, g, f') /\
    match f, f' with None, None => True | Some d, Some d' => part_of ks d d' | _, _ => False end.
Proof. exact run_only. Qed.
Print Assumptions C97_only.

Example C97_only_case : cfg_any (uC ["a"] ["b"] [("c", VNum 1)]) /\ widths_ok (uC ["a"] ["b"] [("c", VNum 1)]) exG /\
  Forall (step_ok (uC ["a"] ["b"] [("c", VNum 1)]) exG) vL /\ (forall k, In k ["t"; "a"; "c"] -> known (uC ["a"] ["b"] [("c", VNum 1)]) k) /\
  ~ known (uC ["a"] ["b"] [("c", VNum 1)]) "Nel_cross_ion" /\ Exists (fun q => writes_out (uC ["a"] ["b"] [("c", VNum 1)]) q = true) vL.
Proof.
  split; [apply uC_ok; (constructor; [intros []|constructor])|]. split; [apply uW|]. split; [apply uL_ok|].
  split; [intros k [<-|[<-|[<-|[]]]]; [left; apply own_out_iff; cbn; tauto|right; right; left; left; reflexivity|right; right; right; right; left; reflexivity]|].
  split; [intros [X|X]; [apply own_out_iff in X|]; cbn in X; intuition discriminate|].
  apply Exists_exists. exists (vQ 2 2 true). split; [cbn; tauto|reflexivity].
Qed.

(** C97.  If a name is not one of the entries, the run stops at the first file
    it should write; until then it is the same. *)
Theorem C97_unknown : forall c w n ks k, cfg_any c -> widths_ok c w -> (0 < n)%nat -> In k ks -> ~ known c k ->
  forall l, Forall (step_ok c w) l -> (started (only c (Some ks)) w n l = None <-> Exists (fun q => writes_out c q = true) l) /\
    (Forall (fun q => writes_out c q = false) l -> started (only c (Some ks)) w n l = started c w n l).
Proof. exact run_unknown. Qed.
Print Assumptions C97_unknown.

(** C97.  Whatever the custom observables are called, the output holds the value
    of each of them at each passage, or at each sample; a value saved once goes
    before one of the passages with the same name, which goes before one of the
    samples; and every entry that is not a custom observable is what it would
    be without them. *)
Theorem C97_custom : forall c w n l, cfg_any c -> widths_ok c w -> (0 < n)%nat -> Forall (step_ok c w) l ->
  exists s g file d gs rest ps prest hs hrest, started c w n l = Some (s, g, file) /\ build_outp_dict c s = Some d /\
    (l = concat gs ++ rest /\ groups (sample_due c) (-1) gs rest) /\ (l = concat ps ++ prest /\ groups pass_ends (-1) ps prest) /\
    (l = concat hs ++ hrest /\ groups (hist_due (c_DtEn c)) (-1) hs hrest) /\
    ((forall k v, get (c_once c) k = Some v -> get d k = Some v) /\
     (forall k, In k (c_pcustom c) -> ~ In k (map fst (c_once c)) -> get d k = Some (VArr (map (now (fun ob => ob_custom ob k)) ps))) /\
     (forall k, In k (c_custom c) -> ~ In k (c_pcustom c) -> ~ In k (map fst (c_once c)) -> get d k = Some (VArr (map (now (fun ob => ob_custom ob k)) gs)))) /\
    (forall k, ~ chosen c k ->
      (forall f, In (k, f) (columns c) -> get d k = Some (VArr (map f gs))) /\
      (forall f, In (k, f) (pass_rows c w) -> get d k = Some (VMat (map f ps))) /\
      (forall f, In (k, f) pass_nums -> get d k = Some (VArr (map f ps))) /\
      (forall f, In (k, f) (hist_rows c w) -> get d k = Some (VMat (map f hs))) /\
      (k = "t_En_hist" -> get d k = Some (VArr (map (now ob_t) hs))) /\
      (k = "t_sc_video" -> get d k = Some (VArr (sc_times l))) /\ (k = "U_sc_eV" -> get d k = Some (VArr (sc_energies l))) /\
      (forall v, get (c_const c) k = Some v -> get d k = Some v)).
Proof. exact run_custom. Qed.
Print Assumptions C97_custom.

(** C97.  A custom observable with the name of a standard entry takes its
    place: here the number of electrons is lost. *)
Theorem C97_replaced_refuted : exists c c0 w n l s g f d s0 g0 f0 d0 a a0,
  cfg_any c /\ cfg_any c0 /\ c_pcustom c = ["Nel_timep"] /\ c_pcustom c0 = [] /\ Forall (step_ok c w) l /\
  started c w n l = Some (s, g, f) /\ build_outp_dict c s = Some d /\ started c0 w n l = Some (s0, g0, f0) /\ build_outp_dict c0 s0 = Some d0 /\
  get d "Nel_timep" = Some (VArr a) /\ get d0 "Nel_timep" = Some (VArr a0) /\ List.length a0 = 3%nat /\ a = [7; 7].
Proof.
  destruct uReplaced as (s & g & f & d & s0 & g0 & f0 & d0 & a & a0 & E & B & E0 & B0 & G & G0 & A & A0).
  exists (uC [] ["Nel_timep"] []), (uC [] [] []), exG, 8%nat, vL, s, g, f, d, s0, g0, f0, d0, a, a0.
  split; [apply uC_ok; [constructor|constructor; [intros []|constructor]|constructor]|]. split; [apply uC_ok; constructor|].
  split; [reflexivity|]. split; [reflexivity|]. split; [apply uL_ok|]. do 7 (split; [assumption|]). assumption.
Qed.
Print Assumptions C97_replaced_refuted.

(** C97.  A run whose file does not hold the four entries that are read back
    cannot be continued. *)
Theorem C97_continue : forall c d n t tE k, In k needed -> get d k = None -> resumed c n d t tE = None.
Proof. intros c d n t tE k. exact (reload_needs c d t tE n k). Qed.
Print Assumptions C97_continue.

(** C97.  Not every run with a list of names that are all entries can be
    continued from its file. *)
Theorem C97_continue_refuted : exists c w n ks l s g d, cfg_any c /\ widths_ok c w /\ Forall (step_ok c w) l /\ (forall k, In k ks -> known c k) /\
  started (only c (Some ks)) w n l = Some (s, g, Some d) /\ forall n' t tE, resumed (only c (Some ks)) n' d t tE = None.
Proof.
  destruct uStuck as (s & g & d & E & _ & R). exists (uC [] [] []), exG, 8%nat, ["Nel_timep"], vL, s, g, d.
  split; [apply uC_ok; constructor|]. split; [apply uW|]. split; [apply uL_ok|]. split; [|split; [exact E|exact R]].
  intros k [<-|[]]. left. apply own_out_iff. cbn. tauto.
Qed.
Print Assumptions C97_continue_refuted.
