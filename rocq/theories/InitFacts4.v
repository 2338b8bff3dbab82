(** What a simulation consists of. *)
From Coq Require Import String Lia Bool Lra.
From Verif Require Import Num NumFacts ConfigVal ConfigTable Ckpt CkptFacts CkptFacts3 Config SpecConfig ConfigFacts Init SpecInit SpecInitParts InitFacts InitFacts2.
Local Open Scope string_scope.
Local Open Scope list_scope.

Lemma call_name cc t b f pos kw o : call cc t b f pos kw = Some o -> ob_name o = f_name f.
Proof.
  unfold call. destruct (bind_args f pos kw) as [l|]; [|discriminate]. cbn [bind].
  destruct (mapM (fun q : string * arg => do v <- eval cc t b (snd q) ; Some (fst q, v)) l) as [r|]; [|discriminate]. cbn [bind].
  intros H. injection H as <-. reflexivity.
Qed.
Lemma call_par cc t b f pos kw o l k : call cc t b f pos kw = Some o -> bind_args f pos kw = Some l -> par o k = do a <- aget l k ; eval cc t b a.
Proof. intros H B. exact (proj2 (call_arg _ _ _ _ _ _ _ _ k H B)). Qed.

Ltac bindof H B := match type of H with call _ _ _ ?f ?pos ?kw = Some _ => eassert (B : bind_args f pos kw = Some _) by (vm_compute; reflexivity) end.
Ltac owned H B := first [eapply call_owns; [exact H|exact B|vm_compute; reflexivity]].
Ltac mained H B := eapply call_mains; [exact H|exact B|vm_compute; reflexivity].
Ltac val H B := rewrite (call_par _ _ _ _ _ _ _ _ _ H B); cbn [aget String.eqb Ascii.eqb Bool.eqb bind eval].

Section Parts.
Variables m_e qe c : R.
Variable folder : string.
Variable isfile : string -> bool.
Variable subset : pval -> bool.
Variables cc t : attrs.

Lemma mp_part o : build_mp m_e qe cc t = Some o -> uses (par o) (dget t) mp_uses.
Proof. intros H. unfold build_mp in H. bindof H B. owned H B. Qed.

Lemma find_file_name v w : find_file folder isfile v = Some w -> exists n p, v = PStr n /\ w = PStr p /\ file_for folder isfile n p.
Proof. exact (find_file_str folder isfile v w). Qed.

Lemma or_default_some v d : is_none v = false -> or_default (Some v) d = Some v.
Proof. destruct v; [discriminate|reflexivity..]. Qed.

Lemma sey_part o : build_sey folder isfile cc t = Some o -> emission_part (file_for folder isfile) (dget t) o.
Proof.
  intros H. unfold build_sey in H. destruct (dget t "switch_model") as [m|] eqn:Gm; [|discriminate]. cbn [bind] in H.
  assert (Str : forall n, py_eqb m (PStr n) = true -> model_is (dget t) n).
  { intros n E. apply py_eqb_str in E. subst m. left. exact Gm. }
  unfold emission_part.
  destruct (py_eqb m (PStr "perfect_absorber")) eqn:E0.
  { pose proof (call_name _ _ _ _ _ _ _ H) as N. cbn in N. rewrite N. split; [apply Str; exact E0|]. split; [intros a p []|].
    repeat split; try discriminate. intros [X|[X|[X|[X|[]]]]]; discriminate. }
  destruct (dget t "E0") as [e0|] eqn:G0; [|discriminate]. cbn [bind] in H.
  destruct (dget t "s_param") as [s|] eqn:Gs; [|discriminate]. cbn [bind] in H.
  destruct (is_none s) eqn:Ns; cbn [bind] in H.
  - apply is_none_spec in Ns. subst s. change (or_default (Some PNone) (PNum (27 / 20))) with (Some (PNum (27 / 20))).
    destruct (is_ecloud m) eqn:E1.
    { pose proof (call_name _ _ _ _ _ _ _ H) as N. cbn in N. rewrite N. split; [apply (model_ecloud t m Gm); exact E1|].
      destruct (is_none e0) eqn:N0; cbn [app] in H; bindof H B; (split; [owned H B|]); (split; [intros _|]).
      all: try (apply is_none_spec in N0; subst e0; cbn [or_default]).
      all: try (repeat rewrite (or_default_some e0 _ N0)); try rewrite <- G0.
      all: try (rewrite (call_par _ _ _ _ _ _ _ _ _ H B); reflexivity).
      all: repeat split; try discriminate.
      all: intros _; rewrite (call_par _ _ _ _ _ _ _ _ _ H B); reflexivity. }
    destruct (py_in m [PNum 1; PStr "ACC_LOW"]) eqn:E2.
    { pose proof (call_name _ _ _ _ _ _ _ H) as N. cbn in N. rewrite N. split; [apply (model_acc t m Gm); exact E2|].
      destruct (is_none e0) eqn:N0; cbn [app] in H; bindof H B; (split; [owned H B|]); (split; [intros _|]).
      all: try (apply is_none_spec in N0; subst e0; cbn [or_default]).
      all: try (repeat rewrite (or_default_some e0 _ N0)); try rewrite <- G0.
      all: try (rewrite (call_par _ _ _ _ _ _ _ _ _ H B); reflexivity).
      all: repeat split; try discriminate. }
    destruct (py_eqb m (PStr "ECLOUD_nunif")) eqn:E3.
    { pose proof (call_name _ _ _ _ _ _ _ H) as N. cbn in N. rewrite N. split; [apply Str; exact E3|].
      destruct (is_none e0) eqn:N0; cbn [app] in H; bindof H B; (split; [owned H B|]); (split; [intros _|]).
      all: try (apply is_none_spec in N0; subst e0; cbn [or_default]).
      all: try (repeat rewrite (or_default_some e0 _ N0)); try rewrite <- G0.
      all: try (rewrite (call_par _ _ _ _ _ _ _ _ _ H B); reflexivity).
      all: repeat split; try discriminate. }
    destruct (py_eqb m (PStr "ECLOUD_nunif_charging")) eqn:E4.
    { pose proof (call_name _ _ _ _ _ _ _ H) as N. cbn in N. rewrite N. split; [apply Str; exact E4|].
      destruct (is_none e0) eqn:N0; cbn [app] in H; bindof H B; (split; [owned H B|]); (split; [intros _|]).
      all: try (apply is_none_spec in N0; subst e0; cbn [or_default]).
      all: try (repeat rewrite (or_default_some e0 _ N0)); try rewrite <- G0.
      all: try (rewrite (call_par _ _ _ _ _ _ _ _ _ H B); reflexivity).
      all: repeat split; try discriminate. }
    destruct (py_eqb m (PStr "cos_low_ene")) eqn:E5.
    { pose proof (call_name _ _ _ _ _ _ _ H) as N. cbn in N. rewrite N. split; [apply Str; exact E5|].
      destruct (is_none e0) eqn:N0; cbn [app] in H; bindof H B; (split; [owned H B|]).
      all: try (apply is_none_spec in N0; subst e0; cbn [or_default]).
      all: try (repeat rewrite (or_default_some e0 _ N0)); try rewrite <- G0.
      all: repeat split; try discriminate.
      all: try (intros [X|[X|[X|[X|[]]]]]; discriminate).
      all: intros _; rewrite (call_par _ _ _ _ _ _ _ _ _ H B); reflexivity. }
    destruct (py_eqb m (PStr "flat_low_ene")) eqn:E6.
    { pose proof (call_name _ _ _ _ _ _ _ H) as N. cbn in N. rewrite N. split; [apply Str; exact E6|].
      destruct (is_none e0) eqn:N0; cbn [app] in H; [|rewrite call_bad in H by (vm_compute; reflexivity); discriminate]. bindof H B. split; [owned H B|].
      repeat split; try discriminate. intros [X|[X|[X|[X|[]]]]]; discriminate. }
    destruct (py_eqb m (PStr "from_file")) eqn:E7.
    { destruct (dget t "sey_file") as [f|]; [|discriminate]. cbn [bind] in H. destruct (find_file folder isfile f) as [w|] eqn:Ff; [|discriminate]. cbn [bind] in H.
      destruct (find_file_name _ _ Ff) as (n & p & -> & -> & P).
      pose proof (call_name _ _ _ _ _ _ _ H) as N. cbn in N. rewrite N. split; [apply Str; exact E7|].
      destruct (is_none e0) eqn:N0; cbn [app] in H; [|rewrite call_bad in H by (vm_compute; reflexivity); discriminate]. bindof H B. split; [owned H B|].
      repeat split; try discriminate. { intros [X|[X|[X|[X|[]]]]]; discriminate. }
      intros _. exists n, p. split; [reflexivity|]. split; [exact P|]. rewrite (call_par _ _ _ _ _ _ _ _ _ H B). reflexivity. }
    destruct (py_eqb m (PStr "furman_pivi")) eqn:E8; [|discriminate].
    pose proof (call_name _ _ _ _ _ _ _ H) as N. cbn in N. rewrite N. split; [apply Str; exact E8|].
    destruct (is_none e0) eqn:N0; cbn [app] in H; [|rewrite call_bad in H by (vm_compute; reflexivity); discriminate]. bindof H B. split; [owned H B|].
    repeat split; try discriminate. intros [X|[X|[X|[X|[]]]]]; discriminate.
  - destruct (is_ecloud m) eqn:E1; [|discriminate]. cbn [bind] in H.
    pose proof (call_name _ _ _ _ _ _ _ H) as N. cbn in N. rewrite N. split; [apply (model_ecloud t m Gm); exact E1|].
    rewrite (or_default_some _ _ Ns), <- Gs.
    destruct (is_none e0) eqn:N0; cbn [app] in H; bindof H B; (split; [owned H B|]); (split; [intros _|]).
    all: try (apply is_none_spec in N0; subst e0; cbn [or_default]).
    all: try (repeat rewrite (or_default_some e0 _ N0)); try rewrite <- G0.
    all: try (rewrite (call_par _ _ _ _ _ _ _ _ _ H B); reflexivity).
    all: repeat split; try discriminate.
    all: intros _; rewrite (call_par _ _ _ _ _ _ _ _ _ H B); reflexivity.
Qed.

Lemma flag1 v x : Some v = Some x -> py_eqb v (PNum 1) = true -> equals x 1.
Proof. intros E. injection E as ->. apply py_eqb_num. Qed.

Lemma equal_iff k v x : dget t k = Some v -> (py_eqb v (PNum x) = true <-> exists w, dget t k = Some w /\ equals w x).
Proof.
  intros G. rewrite py_eqb_num, G. split; [intros E; exists v; auto|]. intros (w & W & E). injection W as <-. exact E.
Qed.

Lemma impact_is o : build_impact cc t = Some o -> impact_part (dget cc) (dget t) o.
Proof.
  intros H. unfold build_impact in H.
  destruct (dget t "flag_hist_impact_seg") as [sg|] eqn:G1; [|discriminate]. cbn [bind] in H.
  destruct (dget cc "chamb_type") as [ty|] eqn:G2; [|discriminate]. cbn [bind] in H.
  destruct (dget cc "flag_lifetime_hist") as [lt|]; [|discriminate]. cbn [bind] in H.
  destruct (dget cc "Nbin_lifetime_hist") as [n|]; [|discriminate]. cbn [bind] in H.
  destruct (dget cc "lifetime_hist_max") as [m|]; [|discriminate]. cbn [bind] in H.
  destruct (dget cc "Dt_lifetime_hist") as [d|]; [|discriminate]. cbn [bind] in H.
  destruct (truthy lt && (is_none n || is_none m || is_none d)); [discriminate|].
  set (flag := py_eqb sg (PNum 1) && negb (py_eqb ty (PStr "ellip"))) in H. bindof H B.
  split; [owned H B|]. split; [mained H B|]. split; [|rewrite (call_par _ _ _ _ _ _ _ _ _ H B); reflexivity].
  exists flag. split; [rewrite (call_par _ _ _ _ _ _ _ _ _ H B); reflexivity|].
  unfold flag. rewrite andb_true_iff, negb_true_iff, (equal_iff _ _ _ G1), G2. split; (intros [A E]; split; [exact A|]).
  - intros X. injection X as ->. discriminate E.
  - destruct (py_eqb ty (PStr "ellip")) eqn:Y; [|reflexivity]. apply py_eqb_str in Y. subst. congruence.
Qed.

Lemma gas_is g : build_gas cc t = Some g -> gas_part (dget t) g.
Proof.
  intros H. unfold build_gas in H. destruct (dget t "gas_ion_flag") as [v|] eqn:G; [|discriminate]. cbn [bind] in H.
  unfold gas_part. destruct (py_eqb v (PNum 1)) eqn:E.
  - destruct (call cc t None gas_fn _ _) as [o|] eqn:C in H; [|discriminate]. cbn [bind] in H. injection H as <-. split.
    + split; [intros _; apply (equal_iff _ _ _ G); exact E|discriminate].
    + intros o' X. injection X as <-. bindof C B. owned C B.
  - injection H as <-. split; [|discriminate]. split; [contradiction|]. intros X. apply (equal_iff _ _ _ G) in X. congruence.
Qed.

Lemma photo_kind v x n : dget t "photoem_flag" = Some v -> (py_in v [PNum x; PStr n] = true <-> photo_is (dget t) x n).
Proof.
  intros G. rewrite py_in2, orb_true_iff, py_eqb_num, py_eqb_str. unfold photo_is. rewrite G. split.
  - intros E. exists v. auto.
  - intros (w & W & E). injection W as <-. exact E.
Qed.

Lemma photo_part_is (beamed : bool) g : build_photo folder isfile subset (if beamed then the_beam else Val PNone) cc t = Some g -> photo_part (dget t) beamed g.
Proof.
  intros H. unfold build_photo in H. destruct (dget t "photoem_flag") as [v|] eqn:G; [|discriminate]. cbn [bind] in H.
  unfold photo_part.
  destruct (py_eqb v (PNum 1)) eqn:E1.
  { pose proof (proj1 (equal_iff _ _ _ G) E1) as K.
    destruct (call cc t None photo1_fn _ _) as [o|] eqn:C in H; [|discriminate]. cbn [bind] in H. injection H as <-. split.
    - intros o' X. injection X as <-. pose proof (call_name _ _ _ _ _ _ _ C) as N. cbn in N. rewrite N.
      destruct beamed; bindof C B; (split; [owned C B|]); (split; [rewrite (call_par _ _ _ _ _ _ _ _ _ C B); cbn; split; (reflexivity || discriminate)|]); left; split; [exact K|reflexivity|exact K|reflexivity].
    - split; [discriminate|]. intros X. destruct X. left. exact K. }
  destruct (py_in v [PNum 2; PStr "from_file"]) eqn:E2.
  { pose proof (proj1 (photo_kind v 2 "from_file" G) E2) as K.
    destruct (call cc t None photo2_fn _ _) as [o|] eqn:C in H; [|discriminate]. cbn [bind] in H. injection H as <-. split.
    - intros o' X. injection X as <-. pose proof (call_name _ _ _ _ _ _ _ C) as N. cbn in N. rewrite N.
      destruct beamed; bindof C B; (split; [owned C B|]); (split; [rewrite (call_par _ _ _ _ _ _ _ _ _ C B); cbn; split; (reflexivity || discriminate)|]); right; left; split; [exact K|reflexivity|exact K|reflexivity].
    - split; [discriminate|]. intros X. destruct X. right. left. exact K. }
  destruct (py_in v [PNum 3; PStr "per_segment"]) eqn:E3.
  { pose proof (proj1 (photo_kind v 3 "per_segment" G) E3) as K.
    destruct (dget t "filename_chm_photoem") as [n|]; [|discriminate]. cbn [bind] in H.
    destruct (find_file folder isfile n) as [w|]; [|discriminate]. cbn [bind] in H. destruct (subset w); [|discriminate].
    destruct (call cc t None photo3_fn _ _) as [o|] eqn:C in H; [|discriminate]. cbn [bind] in H. injection H as <-. split.
    - intros o' X. injection X as <-. pose proof (call_name _ _ _ _ _ _ _ C) as N. cbn in N. rewrite N.
      destruct beamed; bindof C B; (split; [owned C B|]); (split; [rewrite (call_par _ _ _ _ _ _ _ _ _ C B); cbn; split; (reflexivity || discriminate)|]); right; right; split; [exact K|reflexivity|exact K|reflexivity].
    - split; [discriminate|]. intros X. destruct X. right. right. exact K. }
  injection H as <-. split; [discriminate|]. split; [|reflexivity]. intros _ [K|[K|K]].
  - apply (equal_iff _ _ _ G) in K. congruence.
  - apply (photo_kind v _ _ G) in K. congruence.
  - apply (photo_kind v _ _ G) in K. congruence.
Qed.

Lemma saver_is (beamed last multiple sec cross : bool) o : build_saver (if beamed then the_beam else Val PNone) last multiple sec cross cc t = Some o ->
  saver_part (dget cc) (dget t) beamed false last multiple sec cross (Some o).
Proof.
  intros H. split; [split; discriminate|]. intros o' X. injection X as <-.
  unfold build_saver in H. destruct (dget cc "Dh_electric_energy") as [d|] eqn:G; [|discriminate]. cbn [bind] in H.
  assert (D : Some (PBool (negb (is_none d))) = Some (PBool false) <-> Some d = Some PNone).
  { destruct d; cbn; split; congruence. }
  rewrite <- D. clear D. generalize (negb (is_none d)) as en, H. clear H d G. intros en H.
  destruct beamed; bindof H B; (split; [owned H B|]); (split; [mained H B|]);
    (split; [rewrite (call_par _ _ _ _ _ _ _ _ _ H B); cbn; split; (reflexivity || discriminate)|]);
    repeat (split; [rewrite (call_par _ _ _ _ _ _ _ _ _ H B); reflexivity|]);
    rewrite (call_par _ _ _ _ _ _ _ _ _ H B); reflexivity.
Qed.

Lemma init_is l : build_init cc t = Some l -> initial_part (dget t) l.
Proof.
  intros H. unfold build_init in H.
  destruct (dget t "init_unif_flag") as [u|] eqn:G1; [|discriminate]. cbn [bind] in H.
  match type of H with bind ?x _ = _ => destruct x as [a|] eqn:A; [|discriminate] end. cbn [bind] in H.
  destruct (dget t "init_unif_edens_flag") as [d|] eqn:G2; [|discriminate]. cbn [bind] in H.
  match type of H with bind ?x _ = _ => destruct x as [b|] eqn:Eb; [|discriminate] end. cbn [bind] in H.
  destruct (dget t "filename_init_MP_state") as [f|] eqn:G3; [|discriminate]. cbn [bind] in H.
  match type of H with bind ?x _ = _ => destruct x as [e|] eqn:Ee; [|discriminate] end. cbn [bind] in H. injection H as <-.
  assert (Ha : (forall o, In o a -> uses (par o) (dget t) (fill_uses (ob_name o))) /\
    (((exists v, dget t "init_unif_flag" = Some v /\ equals v 1) /\ map ob_name a = ["add_uniform_MP_distrib"]) \/
     (~ (exists v, dget t "init_unif_flag" = Some v /\ equals v 1) /\ map ob_name a = []))).
  { rewrite <- (equal_iff _ _ _ G1). destruct (py_eqb u (PNum 1)).
    - destruct (call cc t None fill_fn _ _) as [o|] eqn:C in A; [|discriminate]. cbn [bind] in A. injection A as <-.
      pose proof (call_name _ _ _ _ _ _ _ C) as N. cbn in N. bindof C B. split.
      + intros o' [<-|[]]. rewrite N. owned C B.
      + left. cbn [map]. rewrite N. auto.
    - injection A as <-. split; [intros o []|]. right. split; [discriminate|reflexivity]. }
  assert (Hb : (forall o, In o b -> uses (par o) (dget t) (fill_uses (ob_name o))) /\
    (((exists v, dget t "init_unif_edens_flag" = Some v /\ equals v 1) /\ map ob_name b = ["add_uniform_ele_density"]) \/
     (~ (exists v, dget t "init_unif_edens_flag" = Some v /\ equals v 1) /\ map ob_name b = []))).
  { rewrite <- (equal_iff _ _ _ G2). destruct (py_eqb d (PNum 1)).
    - destruct (call cc t None density_fn _ _) as [o|] eqn:C in Eb; [|discriminate]. cbn [bind] in Eb. injection Eb as <-.
      pose proof (call_name _ _ _ _ _ _ _ C) as N. cbn in N. bindof C B. split.
      + intros o' [<-|[]]. rewrite N. owned C B.
      + left. cbn [map]. rewrite N. auto.
    - injection Eb as <-. split; [intros o []|]. right. split; [discriminate|reflexivity]. }
  assert (Hc : (forall o, In o e -> uses (par o) (dget t) (fill_uses (ob_name o))) /\
    (((exists v, dget t "filename_init_MP_state" = Some v /\ v <> PNone /\ ~ equals v (-1)) /\ map ob_name e = ["add_from_file"]) \/
     ((exists v, dget t "filename_init_MP_state" = Some v /\ (v = PNone \/ equals v (-1))) /\ map ob_name e = []))).
  { destruct (negb (py_eqb f (PNum (-1))) && negb (is_none f)) eqn:F.
    - apply andb_true_iff in F as [F1 F2]. rewrite negb_true_iff in F1, F2.
      destruct (call cc t None load_fn _ _) as [o|] eqn:C in Ee; [|discriminate]. cbn [bind] in Ee. injection Ee as <-.
      pose proof (call_name _ _ _ _ _ _ _ C) as N. cbn in N. bindof C B. split.
      + intros o' [<-|[]]. rewrite N. owned C B.
      + left. cbn [map]. rewrite N. split; [|reflexivity]. exists f. split; [exact G3|]. split; [intros ->; discriminate|].
        intros E. apply py_eqb_num in E. congruence.
    - injection Ee as <-. split; [intros o []|]. right. split; [|reflexivity]. exists f. split; [exact G3|].
      apply andb_false_iff in F as [F|F]; rewrite negb_false_iff in F; [right; apply py_eqb_num; exact F|left; apply is_none_spec; exact F]. }
  destruct Ha as [A1 A2], Hb as [B1 B2], Hc as [C1 C2]. split.
  - intros o I. rewrite !in_app_iff in I. destruct I as [I|[I|I]]; auto.
  - exists (map ob_name a), (map ob_name b), (map ob_name e). rewrite !map_app. auto.
Qed.

Lemma or_zero_val v : or_zero v = Val (match v with PNone => PNum 0 | _ => v end).
Proof. destruct v; reflexivity. Qed.

Lemma dyn_is b o : build_dyn m_e qe c cc t b = Some o -> dynamics_part qe c (dget cc) (dget t) (option_map dget b) o.
Proof.
  intros H. unfold build_dyn in H.
  destruct (dget cc "track_method") as [m|] eqn:Gm; [|discriminate]. cbn [bind] in H.
  destruct (dget cc "flag_em_tracking") as [em|]; [|discriminate]. cbn [bind] in H. unfold dynamics_part, tracker_is. rewrite Gm.
  destruct (py_eqb m (PStr "Boris")) eqn:E1.
  { apply py_eqb_str in E1. subst m. destruct (py_eqb em (PBool true)); [discriminate|].
    destruct (dget cc "B0x") as [x|] eqn:Gx; [|discriminate]. destruct (dget cc "B0y") as [y|] eqn:Gy; [|discriminate]. destruct (dget cc "B0z") as [z|] eqn:Gz; [|discriminate].
    cbn [bind] in H. rewrite !or_zero_val in H. pose proof (call_name _ _ _ _ _ _ _ H) as N. cbn in N. rewrite N. bindof H B.
    split; [reflexivity|]. split; [rewrite (call_par _ _ _ _ _ _ _ _ _ H B); reflexivity|]. split; [|repeat split; discriminate].
    intros _. split; [rewrite (call_par _ _ _ _ _ _ _ _ _ H B); reflexivity|]. split; [mained H B|].
    intros a [<-|[<-|[<-|[]]]]; rewrite (call_par _ _ _ _ _ _ _ _ _ H B); [rewrite Gx; destruct x; reflexivity|rewrite Gy; destruct y; reflexivity|rewrite Gz; destruct z; reflexivity]. }
  destruct (py_eqb m (PStr "StrongBdip")) eqn:E2.
  { apply py_eqb_str in E2. subst m. destruct (py_eqb em (PBool true)); [discriminate|].
    destruct (is_electron m_e qe t) as [el|]; [|discriminate]. cbn [bind] in H. destruct el; [|discriminate]. cbn [negb] in H.
    destruct (dget cc "B") as [B|] eqn:GB; [|discriminate]. cbn [bind] in H. destruct (py_eqb B (PNum (-1))) eqn:EB.
    - apply py_eqb_num in EB. destruct b as [d|]; [|discriminate]. cbn [bind] in H. unfold nget in H.
      destruct (dget d "beta_rel") as [v1|] eqn:G1; [|discriminate]. destruct v1 as [| |beta| | | | |]; try discriminate. cbn [bind as_num] in H.
      destruct (dget d "energy_J") as [v2|] eqn:G2; [|discriminate]. destruct v2 as [| |en| | | | |]; try discriminate. cbn [bind as_num] in H.
      destruct (dget cc "bm_totlen") as [v3|] eqn:G3; [|discriminate]. destruct v3 as [| |l| | | | |]; try discriminate. cbn [bind as_num] in H.
      destruct (Reqb (c * qe * l) 0); [discriminate|].
      pose proof (call_name _ _ _ _ _ _ _ H) as N. cbn in N. rewrite N. bindof H Bd.
      split; [reflexivity|]. split; [rewrite (call_par _ _ _ _ _ _ _ _ _ H Bd); reflexivity|]. repeat split; try discriminate.
      intros _. right. exists B, (dget d), beta, en, l. repeat split; auto. rewrite (call_par _ _ _ _ _ _ _ _ _ H Bd). reflexivity.
    - pose proof (call_name _ _ _ _ _ _ _ H) as N. cbn in N. rewrite N. bindof H Bd.
      split; [reflexivity|]. split; [rewrite (call_par _ _ _ _ _ _ _ _ _ H Bd); reflexivity|]. repeat split; try discriminate.
      intros _. left. exists B. split; [reflexivity|]. split; [intros X; apply py_eqb_num in X; congruence|]. rewrite (call_par _ _ _ _ _ _ _ _ _ H Bd). exact GB. }
  destruct (py_eqb m (PStr "StrongBgen")) eqn:E3.
  { apply py_eqb_str in E3. subst m. destruct (py_eqb em (PBool true)); [discriminate|].
    destruct (is_electron m_e qe t) as [el|]; [|discriminate]. cbn [bind] in H. destruct el; [|discriminate]. cbn [negb] in H.
    pose proof (call_name _ _ _ _ _ _ _ H) as N. cbn in N. rewrite N. bindof H Bd.
    split; [reflexivity|]. split; [rewrite (call_par _ _ _ _ _ _ _ _ _ H Bd); reflexivity|].
    split; [discriminate|]. split; [discriminate|]. split; [intros _; mained H Bd|discriminate]. }
  destruct (py_eqb m (PStr "BorisMultipole")) eqn:E4; [|discriminate].
  apply py_eqb_str in E4. subst m. pose proof (call_name _ _ _ _ _ _ _ H) as N. cbn in N. rewrite N. bindof H Bd.
  split; [reflexivity|]. split; [rewrite (call_par _ _ _ _ _ _ _ _ _ H Bd); reflexivity|].
  split; [discriminate|]. split; [intros _; mained H Bd|]. split; discriminate.
Qed.

Lemma cloud_is (beamed skip last multiple sec cross : bool) b q :
  build_cloud m_e qe c folder isfile subset skip (if beamed then the_beam else Val PNone) last multiple sec cross cc b t = Some q ->
  cloud_parts qe c (file_for folder isfile) (dget cc) (dget t) beamed skip last multiple sec cross (option_map dget b) q.
Proof.
  intros H. unfold build_cloud in H.
  destruct (build_mp m_e qe cc t) as [mp|] eqn:E1; [|discriminate]. cbn [bind] in H.
  destruct (build_sey folder isfile cc t) as [sey|] eqn:E2; [|discriminate]. cbn [bind] in H.
  destruct (build_impact cc t) as [im|] eqn:E3; [|discriminate]. cbn [bind] in H.
  destruct (build_gas cc t) as [g|] eqn:E4; [|discriminate]. cbn [bind] in H.
  destruct (build_photo folder isfile subset (if beamed then the_beam else Val PNone) cc t) as [ph|] eqn:E5; [|discriminate]. cbn [bind] in H.
  match type of H with bind ?x _ = _ => destruct x as [sv|] eqn:E6; [|discriminate] end. cbn [bind] in H.
  destruct (build_dyn m_e qe c cc t b) as [dy|] eqn:E7; [|discriminate]. cbn [bind] in H.
  destruct (build_init cc t) as [ini|] eqn:E8; [|discriminate]. cbn [bind] in H.
  match type of H with bind ?x _ = _ => destruct x as [cl|] eqn:E9; [|discriminate] end. cbn [bind] in H. injection H as <-.
  unfold cloud_parts. cbn [cp_mp cp_sey cp_impact cp_gas cp_photo cp_saver cp_dyn cp_init cp_cloud].
  split; [exact (mp_part _ E1)|]. split; [exact (sey_part _ E2)|]. split; [exact (impact_is _ E3)|]. split; [exact (gas_is _ E4)|].
  split; [exact (photo_part_is beamed _ E5)|]. split.
  { destruct skip; [injection E6 as <-; split; [split; reflexivity|discriminate]|].
    destruct (build_saver (if beamed then the_beam else Val PNone) last multiple sec cross cc t) as [o|] eqn:S; [|discriminate]. injection E6 as <-.
    exact (saver_is beamed last multiple sec cross o S). }
  split; [exact (dyn_is b _ E7)|]. split; [exact (init_is _ E8)|].
  clear -E9. destruct g, ph, skip; bindof E9 B;
   (split; [owned E9 B|]; split; rewrite (call_par _ _ _ _ _ _ _ _ _ E9 B); cbn; split; (reflexivity || discriminate)).
Qed.
End Parts.
