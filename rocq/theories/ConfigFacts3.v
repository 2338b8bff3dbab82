(** Reading the main input and the overrides. *)
From Coq Require Import String Ascii Lia Bool.
From Verif Require Import Num NumFacts ConfigVal ConfigTable Ckpt CkptFacts Config SpecConfig ConfigFacts ConfigFacts2.
Local Open Scope string_scope.
Local Open Scope list_scope.

Lemma given_iff m p v : NoDup (map fst m) -> (given m p v <-> dget m p = Some v /\ ~ private p /\ v <> PModule).
Proof. intros N. unfold given. rewrite (in_dget_iff m p v N). tauto. Qed.

(** * Importing *)
Definition with_pi (f : defs) : defs := if dhas f "pi" then f else ("pi", PNum PI) :: f.
Lemma with_pi_ok f : def_ok f -> def_ok (with_pi f).
Proof.
  intros N. unfold with_pi. destruct (dhas f "pi") eqn:E; auto. constructor; auto. intros H. change (In "pi" (map fst f)) in H. apply dhas_in in H. congruence.
Qed.
Lemma with_pi_given f p v : p <> "pi" -> (given (with_pi f) p v <-> given f p v).
Proof.
  intros N. unfold with_pi. destruct (dhas f "pi"); [tauto|]. unfold given. cbn. split.
  - intros [[H|H] G]; [injection H; congruence|auto].
  - intros [H G]. auto.
Qed.
Lemma with_pi_in f p v : p <> "pi" -> (In (p, v) (with_pi f) <-> In (p, v) f).
Proof. intros N. unfold with_pi. destruct (dhas f "pi"); [tauto|]. cbn. split; auto. intros [H|H]; auto. injection H; congruence. Qed.
Lemma wp_g1 f p v : p <> "pi" -> given (with_pi f) p v -> given f p v.
Proof. intros N. apply with_pi_given. auto. Qed.
Lemma wp_g2 f p v : p <> "pi" -> given f p v -> given (with_pi f) p v.
Proof. intros N. apply with_pi_given. auto. Qed.
Lemma wp_i1 f p v : p <> "pi" -> In (p, v) (with_pi f) -> In (p, v) f.
Proof. intros N. apply with_pi_in. auto. Qed.
Lemma import_spec files name m : import_module_from_file files name = Some m <-> exists f, files name = Some f /\ m = with_pi f.
Proof.
  unfold import_module_from_file. destruct (files name) as [f|]; cbn [bind].
  - split; [intros H; injection H as <-; exists f; auto|]. intros (f' & H & ->). injection H as <-. auto.
  - split; [discriminate|]. intros (f & H & _). discriminate.
Qed.

(** * Merging *)
Lemma merged_given m new m' : NoDup (map fst m) -> NoDup (map fst new) -> update_module m new = Some m' ->
  NoDup (map fst m') /\ (forall p v, given m' p v <-> given m p v \/ (given new p v /\ p <> "pi")) /\
  (forall p, p <> "pi" -> (exists v, given new p v) -> dget m p = None).
Proof.
  intros Nm Nn H. pose proof (merge_spec new m Nn) as M. rewrite H in M. destruct M as (M1 & M2 & M3). specialize (M3 Nm).
  split; auto. split.
  - intros p v. rewrite (given_iff m' p v M3), (given_iff m p v Nm), (given_iff new p v Nn), M2. split.
    + intros (E & P & V). destruct (dget m p) as [w|] eqn:D; [auto|]. destruct (dget new p) as [w|] eqn:Dn; [|discriminate].
      destruct (String.eqb_spec p "pi"); [discriminate|]. cbn in E. destruct (hidden p || is_module w); [discriminate|]. auto.
    + intros [(E & P & V)|((E & P & V) & Np)]; [rewrite E; auto|].
      assert (G : given new p v) by (apply given_iff; auto). rewrite (M1 p v G Np), E. split; auto.
      apply String.eqb_neq in Np. rewrite Np. cbn [orb].
      assert (X : negb (hidden p) && negb (is_module v) = true) by (apply shown; auto). destruct (hidden p), (is_module v); try discriminate. auto.
  - intros p Np [v G]. apply (M1 p v G Np).
Qed.
Lemma merged_dget m new m' p : NoDup (map fst new) -> update_module m new = Some m' ->
  dget m' p = None -> dget m p = None /\ forall v, given new p v -> p = "pi".
Proof.
  intros Nn H E. pose proof (merge_spec new m Nn) as M. rewrite H in M. destruct M as (M1 & M2 & _). rewrite M2 in E.
  destruct (dget m p); [discriminate|]. split; auto. intros v G. pose proof (proj1 (given_iff new p v Nn) G) as (D & P & V). rewrite D in E.
  destruct (String.eqb_spec p "pi"); auto. cbn [orb] in E.
  assert (X : negb (hidden p) && negb (is_module v) = true) by (apply shown; auto). destruct (hidden p), (is_module v); discriminate.
Qed.
Lemma merged_in m new m' p : NoDup (map fst new) -> update_module m new = Some m' -> dget m' p = Some PModule -> dget m p = Some PModule.
Proof.
  intros Nn H E. pose proof (merge_spec new m Nn) as M. rewrite H in M. destruct M as (M1 & M2 & _). rewrite M2 in E.
  destruct (dget m p); auto. destruct (dget new p) as [v|]; [|discriminate]. destruct v; cbn in E; rewrite ?orb_true_r in E; try discriminate;
  destruct (_ || _); discriminate.
Qed.

Local Opaque simulation_parameters_optional machine_parameters_optional secondary_emission_parameters_optional beam_beam_optional.

Section Main.
Variables m_e m_p qe : R.
Variable files : string -> option defs.
Hypothesis files_ok : forall name f, files name = Some f -> def_ok f.
Notation mparam := (main_param m_e m_p qe).
Notation mdefault := (main_default m_e m_p qe).
Notation combined := (combined_sec m_e m_p qe).

(** The three modules of the main input. *)
Lemma three_spec sim mac emi : def_ok sim -> def_ok mac -> def_ok emi ->
  (exists u, (do x <- update_module (with_pi sim) (with_pi mac) ; update_module x (with_pi emi)) = Some u /\ assert_module_has_parameters combined u = Some tt) ->
  valid main_mandatory mparam [sim; mac; emi].
Proof.
  intros Ns Nm Ne (u & H & A). destruct (update_module (with_pi sim) (with_pi mac)) as [x|] eqn:E; [|discriminate]. cbn [bind] in H.
  destruct (merged_given _ _ _ (with_pi_ok _ Ns) (with_pi_ok _ Nm) E) as (Nx & Gx & Cx).
  destruct (merged_given _ _ _ Nx (with_pi_ok _ Ne) H) as (Nu & Gu & Cu).
  apply assert_spec in A. destruct A as [A1 A2].
  assert (G : forall p v, p <> "pi" -> (given u p v <-> given sim p v \/ given mac p v \/ given emi p v)).
  { intros p v Np. rewrite Gu, Gx, !with_pi_given by auto. tauto. }
  split; [|split].
  - intros p Hp. assert (Np : p <> "pi") by (apply (main_not_pi m_e m_p qe); left; auto).
    destruct (A1 p) as [v Hv]; [apply combined_mandatory; auto|]. apply (G p v Np) in Hv.
    destruct Hv as [Hv|[Hv|Hv]]; [exists sim, v|exists mac, v|exists emi, v]; cbn; auto.
  - intros f p v Hf Hg. destruct (String.eqb_spec p "pi"); auto. left.
    assert (Hu : given u p v) by (apply G; auto; cbn in Hf; intuition subst; auto).
    apply A2 in Hu. destruct Hu as [Hu|[Hu|Hu]]; [left; apply (combined_mandatory m_e m_p qe); auto|right; apply combined_keys; auto|contradiction].
  - assert (D1 : forall p v w, p <> "pi" -> given sim p v -> given mac p w -> False).
    { intros p v w Np Hs Hm. apply (wp_g2 sim) in Hs; auto. apply (wp_g2 mac) in Hm; auto.
      pose proof (Cx p Np (ex_intro _ w Hm)) as D. apply given_iff in Hs; [|apply with_pi_ok; auto]. destruct Hs as [Hs _]. congruence. }
    assert (D2 : forall p v w, p <> "pi" -> given sim p v \/ given mac p v -> given emi p w -> False).
    { intros p v w Np Hs Hm. apply (wp_g2 emi) in Hm; auto.
      assert (Hx : given x p v) by (apply Gx; rewrite !with_pi_given by auto; intuition).
      pose proof (Cu p Np (ex_intro _ w Hm)) as D. apply given_iff in Hx; auto. destruct Hx as [Hx _]. congruence. }
    intros i j f g p v w Hi Hj Gf Gg. destruct (String.eqb_spec p "pi") as [|Np]; auto. left.
    destruct i as [|[|[|i]]]; [| | |destruct i; discriminate]; destruct j as [|[|[|j]]]; auto; try (destruct j; discriminate);
      cbn in Hi, Hj; injection Hi as <-; injection Hj as <-; exfalso; eauto.
Qed.

Lemma three_conv sim mac emi : def_ok sim -> def_ok mac -> def_ok emi ->
  valid main_mandatory mparam [sim; mac; emi] -> clear_names mparam [sim; mac; emi] ->
  exists u, (do x <- update_module (with_pi sim) (with_pi mac) ; update_module x (with_pi emi)) = Some u /\ assert_module_has_parameters combined u = Some tt.
Proof.
  intros Ns Nm Ne (V1 & V2 & V3) Cl.
  assert (D1 : forall p v w, p <> "pi" -> given sim p v -> given mac p w -> False).
  { intros p v w Np Hs Hm. destruct (V3 0 1 sim mac p v w)%nat; auto; discriminate. }
  assert (D2 : forall p v w, p <> "pi" -> given sim p v -> given emi p w -> False).
  { intros p v w Np Hs Hm. destruct (V3 0 2 sim emi p v w)%nat; auto; discriminate. }
  assert (D3 : forall p v w, p <> "pi" -> given mac p v -> given emi p w -> False).
  { intros p v w Np Hs Hm. destruct (V3 1 2 mac emi p v w)%nat; auto; discriminate. }
  assert (Has : forall m p, def_ok m -> In m [sim; mac; emi] -> mparam p -> dget (with_pi m) p <> None -> exists v, given m p v).
  { intros m p Nmm Hm Hp D. pose proof (main_not_pi _ _ _ _ Hp) as Np. destruct (dget (with_pi m) p) as [v|] eqn:E; [|congruence]. exists v.
    apply dget_in in E. apply (proj1 (with_pi_in m p v Np)) in E. split; [exact E|]. split; [apply (main_not_private m_e m_p qe); auto|]. intros ->. apply (Cl m p Hm Hp E). }
  pose proof (merge_spec (with_pi mac) (with_pi sim) (with_pi_ok _ Nm)) as M.
  destruct (update_module (with_pi sim) (with_pi mac)) as [x|] eqn:E; cbn [bind].
  2:{ exfalso. destruct M as (p & v & G & Np & H). apply wp_g1 in G; auto.
      assert (Hp : mparam p) by (destruct (V2 mac p v (or_intror (or_introl eq_refl)) G) as [?|?]; [auto|contradiction]).
      assert (Hw : exists w, given sim p w).
      { apply Has; [auto|left; auto|auto|]. unfold dhas in H. destruct (dget (with_pi sim) p); discriminate. }
      destruct Hw as [w Hw]. eauto. }
  destruct (merged_given _ _ _ (with_pi_ok _ Ns) (with_pi_ok _ Nm) E) as (Nx & Gx & Cx). clear M.
  pose proof (merge_spec (with_pi emi) x (with_pi_ok _ Ne)) as M.
  destruct (update_module x (with_pi emi)) as [u|] eqn:E2.
  2:{ exfalso. destruct M as (p & v & G & Np & H). apply wp_g1 in G; auto.
      assert (Hp : mparam p) by (destruct (V2 emi p v (or_intror (or_intror (or_introl eq_refl))) G) as [?|?]; [auto|contradiction]).
      unfold dhas in H. destruct (dget x p) as [w|] eqn:Dx; [|discriminate].
      assert (Hx : given x p w).
      { apply given_iff; auto. split; auto. split; [apply (main_not_private m_e m_p qe); auto|]. intros ->.
        apply (merged_in _ _ _ _ (with_pi_ok _ Nm) E) in Dx. apply dget_in, wp_i1 in Dx; auto. apply (Cl sim p); cbn; auto. }
      apply Gx in Hx. rewrite !with_pi_given in Hx by auto. destruct Hx as [Hx|[Hx _]]; eauto. }
  exists u. split; auto. destruct (merged_given _ _ _ Nx (with_pi_ok _ Ne) E2) as (Nu & Gu & Cu).
  assert (G : forall p v, p <> "pi" -> (given u p v <-> given sim p v \/ given mac p v \/ given emi p v)).
  { intros p v Np. rewrite Gu, Gx, !with_pi_given by auto. tauto. }
  apply assert_spec. split.
  - intros p Hp. apply combined_mandatory in Hp. assert (Np : p <> "pi") by (apply (main_not_pi m_e m_p qe); left; auto).
    destruct (V1 p Hp) as (f & v & Hf & Hg). exists v. apply G; auto. cbn in Hf. intuition subst; auto.
  - intros p v Hg. destruct (String.eqb_spec p "pi") as [|Np]; auto. apply G in Hg; auto.
    assert (mparam p) as [Hp|Hp].
    { destruct Hg as [Hg|[Hg|Hg]]; [destruct (V2 sim p v (or_introl eq_refl) Hg)|destruct (V2 mac p v (or_intror (or_introl eq_refl)) Hg)|destruct (V2 emi p v (or_intror (or_intror (or_introl eq_refl))) Hg)]; auto; contradiction. }
    + left. apply (combined_mandatory m_e m_p qe). auto.
    + right. left. apply combined_keys. auto.
Qed.

Lemma three_value sim mac emi u cfg : def_ok sim -> def_ok mac -> def_ok emi ->
  (do x <- update_module (with_pi sim) (with_pi mac) ; update_module x (with_pi emi)) = Some u ->
  update_config_dict [] u combined None = Some cfg -> clear_names mparam [sim; mac; emi] ->
  NoDup (map fst cfg) /\ forall p v, dget cfg p = Some v <-> mparam p /\ value [sim; mac; emi] mdefault p v.
Proof.
  intros Ns Nm Ne H C Cl. destruct (update_module (with_pi sim) (with_pi mac)) as [x|] eqn:E; [|discriminate]. cbn [bind] in H.
  destruct (merged_given _ _ _ (with_pi_ok _ Ns) (with_pi_ok _ Nm) E) as (Nx & Gx & Cx).
  destruct (merged_given _ _ _ Nx (with_pi_ok _ Ne) H) as (Nu & Gu & Cu).
  assert (G : forall p v, p <> "pi" -> (given u p v <-> given sim p v \/ given mac p v \/ given emi p v)).
  { intros p v Np. rewrite Gu, Gx, !with_pi_given by auto. tauto. }
  assert (Du : forall p v, mparam p -> (dget u p = Some v <-> exists f, In f [sim; mac; emi] /\ given f p v)).
  { intros p v Hp. pose proof (main_not_pi _ _ _ _ Hp) as Np. split.
    - intros D. assert (Hg : given u p v).
      { apply given_iff; auto. split; auto. split; [apply (main_not_private m_e m_p qe); auto|]. intros ->.
        apply (merged_in _ _ _ _ (with_pi_ok _ Ne) H), (merged_in _ _ _ _ (with_pi_ok _ Nm) E) in D. apply dget_in, wp_i1 in D; auto.
        apply (Cl sim p); cbn; auto. }
      apply G in Hg; auto. destruct Hg as [Hg|[Hg|Hg]]; [exists sim|exists mac|exists emi]; cbn; auto.
    - intros (f & Hf & Hg). apply (given_iff u p v Nu). apply G; auto. cbn in Hf. intuition subst; auto. }
  pose proof (config_spec u combined None (combined_ok m_e m_p qe)) as Q. rewrite C in Q. destruct Q as (Q1 & Q2 & Q3). split; auto.
  intros p v. rewrite Q3. unfold value. destruct (dget (s_opt combined) p) as [d|] eqn:Do.
  - pose proof (proj1 (combined_default m_e m_p qe p d) Do) as Hd. assert (Hp : mparam p) by (right; eauto).
    assert (Uq : forall w, mdefault p w -> w = d) by (intros w Hw; apply combined_default in Hw; congruence).
    unfold choose. destruct (dget u p) as [w|] eqn:Dp.
    + apply (Du p w Hp) in Dp. split.
      * intros X. injection X as <-. auto.
      * intros (_ & [X|(X & _)]); [|exfalso; apply X; destruct Dp as (f & F1 & F2); eauto].
        apply (Du p v Hp) in X. apply (Du p w Hp) in Dp. congruence.
    + split.
      * intros X. injection X as <-. split; auto. right. split; auto. intros (f & w & F1 & F2).
        assert (dget u p = Some w) by (apply Du; eauto). congruence.
      * intros (_ & [X|(_ & X)]); [apply (Du p v Hp) in X; congruence|]. rewrite (Uq v X). auto.
  - destruct (mem p (s_mand combined)) eqn:Mm.
    + apply mem_in, combined_mandatory in Mm. assert (Hp : mparam p) by (left; auto). rewrite (Du p v Hp). split; auto.
      intros (_ & [X|(_ & X)]); auto. apply combined_default in X. congruence.
    + split; [discriminate|]. intros ([Hp|[w Hp]] & _).
      * apply (combined_mandatory m_e m_p qe), mem_in in Hp. congruence.
      * apply combined_default in Hp. congruence.
Qed.

(** The main input as a whole. *)
Lemma beam_valid b : def_ok b -> (assert_module_has_parameters (beam_sec m_e m_p qe) (with_pi b) = Some tt <-> valid beam_mandatory (beam_param m_e m_p qe) [b]).
Proof.
  intros Nb. rewrite assert_spec. 
  assert (Pi : ~ beam_mandatory "pi").
  { unfold beam_mandatory. intros H. apply mem_in in H. vm_compute in H. discriminate. }
  split.
  - intros [A1 A2]. split; [|split].
    + intros p Hp. destruct (A1 p Hp) as [v Hv]. exists b, v. split; [left; auto|]. apply wp_g1 in Hv; auto. intros ->. contradiction.
    + intros f p v [<-|[]] Hg. destruct (String.eqb_spec p "pi"); auto. left. apply (wp_g2 b p v n) in Hg. apply A2 in Hg.
      destruct Hg as [H|[H|H]]; [left; auto|right; apply beam_keys; auto|contradiction].
    + intros i j f g p v w Hi Hj. destruct i as [|i]; [|destruct i; discriminate]. destruct j as [|j]; [|destruct j; discriminate]. auto.
  - intros (V1 & V2 & _). split.
    + intros p Hp. destruct (V1 p Hp) as (f & v & [<-|[]] & Hg). exists v. apply with_pi_given; auto. intros ->. contradiction.
    + intros p v Hg. destruct (String.eqb_spec p "pi"); auto. apply wp_g1 in Hg; auto.
      destruct (V2 b p v) as [[H|H]|H]; [left; auto|exact Hg|left; auto|right; left; apply beam_keys; auto|auto].
Qed.

Lemma get_pi sim k v : def_ok sim -> k <> "pi" -> (dget (with_pi sim) k = Some v <-> In (k, v) sim).
Proof. intros N K. rewrite in_dget_iff by (apply with_pi_ok; auto). apply with_pi_in; auto. Qed.

Theorem read_sound skip cfg : read_parameter_files m_e m_p qe files skip = Some cfg ->
  exists sim mac emi, input_files files sim mac emi /\ valid main_mandatory mparam [sim; mac; emi] /\
    (skip = false -> exists bea, beam_file files sim bea /\ valid beam_mandatory (beam_param m_e m_p qe) [bea]) /\
    (clear_names mparam [sim; mac; emi] -> forall p v, dget cfg p = Some v <-> mparam p /\ value [sim; mac; emi] mdefault p v).
Proof.
  unfold read_parameter_files. intros H.
  destruct (import_module_from_file files "simulation_parameters.input") as [s0|] eqn:E0; [|discriminate]. cbn [bind] in H.
  apply import_spec in E0. destruct E0 as (sim & F0 & ->). pose proof (files_ok _ _ F0) as Ns.
  destruct (dget (with_pi sim) "machine_param_file") as [mf|] eqn:D1; [|discriminate]. cbn [bind] in H.
  destruct (dget (with_pi sim) "secondary_emission_parameters_file") as [ef|] eqn:D2; [|discriminate]. cbn [bind] in H.
  destruct (dget (with_pi sim) "beam_parameters_file") as [bf|] eqn:D3; [|discriminate]. cbn [bind] in H.
  apply get_pi in D1; [|auto|discriminate]. apply get_pi in D2; [|auto|discriminate]. apply get_pi in D3; [|auto|discriminate].
  destruct mf as [| | | |mf| | |]; try discriminate. cbn [bind as_name] in H.
  destruct (import_module_from_file files mf) as [mm|] eqn:E1; [|discriminate]. cbn [bind] in H. apply import_spec in E1. destruct E1 as (mac & F1 & ->).
  destruct ef as [| | | |ef| | |]; try discriminate. cbn [bind as_name] in H.
  destruct (import_module_from_file files ef) as [em|] eqn:E2; [|discriminate]. cbn [bind] in H. apply import_spec in E2. destruct E2 as (emi & F2 & ->).
  pose proof (files_ok _ _ F1) as Nm. pose proof (files_ok _ _ F2) as Ne.
  destruct (update_module (with_pi sim) (with_pi mac)) as [x|] eqn:U1; [|discriminate]. cbn [bind] in H.
  destruct (update_module x (with_pi emi)) as [u|] eqn:U2; [|discriminate]. cbn [bind] in H.
  destruct (assert_module_has_parameters (combined_sec m_e m_p qe) u) as [[]|] eqn:A; [|discriminate]. cbn [bind] in H.
  destruct (update_config_dict [] u (combined_sec m_e m_p qe) None) as [c0|] eqn:C; [|discriminate]. cbn [bind] in H.
  assert (U : (do x <- update_module (with_pi sim) (with_pi mac) ; update_module x (with_pi emi)) = Some u) by (rewrite U1; exact U2).
  assert (Ec : cfg = c0 /\ (skip = false -> exists bea, beam_file files sim bea /\ valid beam_mandatory (beam_param m_e m_p qe) [bea])).
  { destruct skip; [split; [congruence|discriminate]|]. destruct bf as [| | | |bf| | |]; try discriminate. cbn [bind as_name] in H.
    destruct (import_module_from_file files bf) as [bm|] eqn:E3; [|discriminate]. cbn [bind] in H. apply import_spec in E3. destruct E3 as (bea & F3 & ->).
    destruct (assert_module_has_parameters (beam_sec m_e m_p qe) (with_pi bea)) as [[]|] eqn:B; [|discriminate]. split; [cbn in H; congruence|].
    intros _. exists bea. split; [exists bf; auto|]. apply beam_valid; auto. eapply files_ok; eauto. }
  destruct Ec as [-> Hb]. exists sim, mac, emi. split; [|split; [|split]]; auto.
  - split; [auto|]. split; [exists mf; auto|]. split; [exists ef; auto|]. exists bf. auto.
  - apply three_spec; auto. exists u. auto.
  - intros Cl. apply (three_value sim mac emi u c0 Ns Nm Ne U C Cl).
Qed.

Theorem read_complete skip sim mac emi : input_files files sim mac emi -> valid main_mandatory mparam [sim; mac; emi] ->
  clear_names mparam [sim; mac; emi] ->
  (skip = false -> exists bea, beam_file files sim bea /\ valid beam_mandatory (beam_param m_e m_p qe) [bea]) ->
  exists cfg, read_parameter_files m_e m_p qe files skip = Some cfg.
Proof.
  intros (F0 & (mf & D1 & F1) & (ef & D2 & F2) & (bv & D3)) V Cl B.
  pose proof (files_ok _ _ F0) as Ns. pose proof (files_ok _ _ F1) as Nm. pose proof (files_ok _ _ F2) as Ne.
  destruct (three_conv sim mac emi Ns Nm Ne V Cl) as (u & U & A).
  assert (L : forall n f, files n = Some f -> import_module_from_file files n = Some (with_pi f)) by (intros n f Hf; apply import_spec; eauto).
  unfold read_parameter_files. rewrite (L _ _ F0). cbn [bind].
  apply (get_pi sim) in D1; [|auto|discriminate]. apply (get_pi sim) in D2; [|auto|discriminate]. pose proof D3 as D3'. apply (get_pi sim) in D3'; [|auto|discriminate].
  rewrite D1. cbn [bind]. rewrite D2. cbn [bind]. rewrite D3'. cbn [bind as_name]. rewrite (L _ _ F1). cbn [bind]. rewrite (L _ _ F2). cbn [bind].
  destruct (update_module (with_pi sim) (with_pi mac)) as [x|]; [|discriminate]. cbn [bind] in *. rewrite U. cbn [bind]. rewrite A. cbn [bind].
  pose proof (config_spec u (combined_sec m_e m_p qe) None (combined_ok m_e m_p qe)) as Q.
  destruct (update_config_dict [] u (combined_sec m_e m_p qe) None) as [c0|].
  - cbn [bind]. destruct skip; [eauto|]. destruct (B eq_refl) as (bea & (bf & I & Fb) & Vb).
    assert (bv = PStr bf).
    { apply (get_pi sim) in I; [|auto|discriminate]. congruence. }
    subst bv. cbn [as_name bind]. rewrite (L _ _ Fb). cbn [bind]. apply beam_valid in Vb; [|eapply files_ok; eauto]. rewrite Vb. cbn [bind]. eauto.
  - exfalso. destruct Q as (p & Q1 & Q2). apply assert_spec in A. destruct A as [A1 _]. destruct (A1 p Q1) as [v (G & _)].
    apply dget_none in Q2. apply Q2. eapply in_key; eauto.
Qed.
End Main.
