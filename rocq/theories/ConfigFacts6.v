(** Beams. *)
From Coq Require Import String Ascii Lia Bool Lra.
From Verif Require Import Num NumFacts ConfigVal ConfigTable Ckpt CkptFacts Config SpecConfig ConfigFacts ConfigFacts2 ConfigFacts3 ConfigFacts4.
Local Open Scope string_scope.
Local Open Scope list_scope.

Lemma beam_opt m_e m_p qe p v : dget (s_opt (beam_sec m_e m_p qe)) p = Some v <-> beam_default m_e m_p qe p v.
Proof.
  rewrite (in_dget_iff _ p v (beam_nodup m_e m_p qe)). exact (beam_dict m_e m_p qe (p, v)).
Qed.
Section Beam.
Variables m_e m_p qe : R.
Notation beam := (beam_sec m_e m_p qe).
Notation bparam := (beam_param m_e m_p qe).
Notation bdefault := (beam_default m_e m_p qe).
Lemma beam_all p : bparam p -> In p (beam_beam_mandatory ++ map fst (beam_beam_optional m_e m_p qe)).
Proof. rewrite in_app_iff. intros [H|(v & H)]; auto. right. exact (in_key _ _ _ H). Qed.
Lemma beam_priv p : bparam p -> ~ private p.
Proof.
  intros H P. apply beam_all in H.
  assert (S : forallb (fun p => negb (hidden p)) (beam_beam_mandatory ++ map fst (beam_beam_optional m_e m_p qe)) = true) by (vm_compute; reflexivity).
  rewrite forallb_forall in S. apply S in H. apply hidden_spec in P. rewrite P in H. discriminate.
Qed.
Lemma beam_pi p : bparam p -> p <> "pi".
Proof.
  intros H ->. apply beam_all in H.
  assert (S : mem "pi" (beam_beam_mandatory ++ map fst (beam_beam_optional m_e m_p qe)) = false) by (vm_compute; reflexivity).
  apply mem_in in H. congruence.
Qed.
Lemma beam_mand p : In p (s_mand beam) <-> beam_mandatory p.
Proof. apply iff_refl. Qed.
Lemma optics_param p : optics p -> bparam p.
Proof.
  intros H. right. apply (beam_keys m_e m_p qe). 
  assert (S : forallb (fun p => mem p (map fst (s_opt beam))) ["Dx"; "Dy"; "betafx"; "betafy"] = true) by (vm_compute; reflexivity).
  rewrite forallb_forall in S. apply S in H. apply mem_in. auto.
Qed.
Local Opaque beam_beam_optional.

Variable files : string -> option defs.
Hypothesis files_ok : forall name f, files name = Some f -> def_ok f.

Lemma fallback_spec cc mach p : dget cc p <> None -> dget mach p <> None ->
  exists cc', fallback cc mach p = Some cc' /\
    forall q v, dget cc' q = Some v <-> (if String.eqb q p then (dget cc p = Some v /\ v <> PNone) \/ (dget cc p = Some PNone /\ dget mach p = Some v) else dget cc q = Some v).
Proof.
  intros H1 H2. unfold fallback. destruct (dget cc p) as [v|] eqn:E; [|congruence]. cbn [bind]. destruct (is_none v) eqn:Nv.
  - destruct v; try discriminate. destruct (dget mach p) as [w|] eqn:F; [|congruence]. cbn [bind]. eexists. split; [reflexivity|].
    intros q u. rewrite dget_dset. rewrite String.eqb_sym. destruct (String.eqb_spec q p) as [->|]; [|tauto].
    split; [intros X; right; auto|]. intros [[X Y]|[_ X]]; congruence.
  - eexists. split; [reflexivity|]. intros q u. destruct (String.eqb_spec q p) as [->|]; [|tauto]. rewrite E.
    split; [intros X; left; split; auto; intros ->; injection X as ->; discriminate|]. intros [[X Y]|[X _]]; [auto|injection X as ->; discriminate].
Qed.

(** The four optics parameters one after the other. *)
Lemma optics_spec cc mach : (forall p, optics p -> dget cc p <> None /\ dget mach p <> None) ->
  exists cc', (do c <- fallback cc mach "Dx" ; do c <- fallback c mach "Dy" ; do c <- fallback c mach "betafx" ; fallback c mach "betafy") = Some cc' /\
    forall q v, dget cc' q = Some v <-> exists w, dget cc q = Some w /\ ((~ (optics q /\ w = PNone) /\ v = w) \/ (optics q /\ w = PNone /\ dget mach q = Some v)).
Proof.
  intros H.
  assert (Hx : dget cc "Dx" <> None /\ dget mach "Dx" <> None) by (apply H; cbn; auto).
  assert (Hy : dget cc "Dy" <> None /\ dget mach "Dy" <> None) by (apply H; cbn; auto).
  assert (Hbx : dget cc "betafx" <> None /\ dget mach "betafx" <> None) by (apply H; cbn; auto).
  assert (Hby : dget cc "betafy" <> None /\ dget mach "betafy" <> None) by (apply H; cbn; auto).
  assert (Keep : forall a b p, (forall q v, dget b q = Some v <-> (if String.eqb q p then (dget a p = Some v /\ v <> PNone) \/ (dget a p = Some PNone /\ dget mach p = Some v) else dget a q = Some v)) ->
    forall q, String.eqb q p = false -> dget b q = dget a q).
  { intros a b p G q E. specialize (G q). rewrite E in G. destruct (dget b q) as [u|] eqn:D.
    - symmetry. apply G. auto.
    - destruct (dget a q) as [u|] eqn:D'; auto. destruct (G u) as [_ X]. rewrite X in *; auto. }
  destruct (fallback_spec cc mach "Dx") as (c1 & E1 & G1); try tauto. rewrite E1. cbn [bind]. pose proof (Keep _ _ _ G1) as K1.
  destruct (fallback_spec c1 mach "Dy") as (c2 & E2 & G2); [rewrite K1 by reflexivity; tauto|tauto|]. rewrite E2. cbn [bind]. pose proof (Keep _ _ _ G2) as K2.
  destruct (fallback_spec c2 mach "betafx") as (c3 & E3 & G3); [rewrite K2, K1 by reflexivity; tauto|tauto|]. rewrite E3. cbn [bind]. pose proof (Keep _ _ _ G3) as K3.
  destruct (fallback_spec c3 mach "betafy") as (c4 & E4 & G4); [rewrite K3, K2, K1 by reflexivity; tauto|tauto|]. rewrite E4. pose proof (Keep _ _ _ G4) as K4.
  exists c4. split; [reflexivity|]. intros q v.
  assert (Fin : forall p, optics p -> forall a, ((a = Some v /\ v <> PNone) \/ (a = Some PNone /\ dget mach p = Some v)) <->
     exists w, a = Some w /\ ((~ (optics p /\ w = PNone) /\ v = w) \/ (optics p /\ w = PNone /\ dget mach p = Some v))).
  { intros p Hp a. split.
    - intros [[X Y]|[X Y]]; [exists v; split; auto; left; split; auto; tauto|exists PNone; auto].
    - intros (w & X & [[Y ->]|(_ & -> & Y)]); [left; split; auto; intros ->; tauto|auto]. }
  destruct (String.eqb_spec q "betafy") as [->|N4].
  { rewrite G4. cbn [String.eqb Ascii.eqb Bool.eqb]. rewrite K3, K2, K1 by reflexivity. apply Fin. cbn; auto. }
  rewrite (K4 q (proj2 (String.eqb_neq _ _) N4)).
  destruct (String.eqb_spec q "betafx") as [->|N3].
  { rewrite G3. cbn [String.eqb Ascii.eqb Bool.eqb]. rewrite K2, K1 by reflexivity. apply Fin. cbn; auto. }
  rewrite (K3 q (proj2 (String.eqb_neq _ _) N3)).
  destruct (String.eqb_spec q "Dy") as [->|N2].
  { rewrite G2. cbn [String.eqb Ascii.eqb Bool.eqb]. rewrite K1 by reflexivity. apply Fin. cbn; auto. }
  rewrite (K2 q (proj2 (String.eqb_neq _ _) N2)).
  destruct (String.eqb_spec q "Dx") as [->|N1].
  { rewrite G1. cbn [String.eqb Ascii.eqb Bool.eqb]. apply Fin. cbn; auto. }
  rewrite (K1 q (proj2 (String.eqb_neq _ _) N1)).
  assert (No : ~ optics q) by (cbn; intuition congruence).
  split; [intros X; exists v; split; auto; left; split; auto; tauto|]. intros (w & X & [[_ ->]|(Y & _)]); [auto|contradiction].
Qed.

(** The sizes. *)
Lemma minus1 v : is_minus1 v = true <-> v = PNum (-1).
Proof.
  destruct v; cbn; try (split; discriminate). rewrite Reqb_true. split; [intros ->; auto|congruence].
Qed.
Lemma nsqrt_some x : 0 <= x -> exists s, nsqrt x = PNum s /\ 0 <= s /\ s * s = x.
Proof.
  intros H. exists (sqrt x). unfold nsqrt. rewrite (proj2 (Rltb_false x 0)) by lra. split; [auto|]. split; [apply sqrt_pos|apply sqrt_sqrt; auto].
Qed.
Section Size.
Variable cc : attrs.
Variables sigma betaf nemitt disp : string.
Notation bv := (fun p v => dget cc p = Some v).
Lemma size_sound g b out : 1 < g -> 0 < b ->
  (forall f, bv betaf (PNum f) -> 0 <= f) -> (forall e, bv nemitt (PNum e) -> 0 <= e) ->
  beam_size cc sigma betaf nemitt disp (PNum (b * g)) = Some out -> size_ok bv sigma betaf nemitt disp g b out.
Proof.
  intros Hg Hb Hf He H. unfold beam_size in H. destruct (dget cc sigma) as [s|] eqn:Es; [|discriminate]. cbn [bind] in H.
  destruct (is_minus1 s) eqn:M.
  - apply minus1 in M. subst s. destruct (dget cc betaf) as [f|] eqn:Ef; [|discriminate]. cbn [bind] in H. destruct (dget cc nemitt) as [e|] eqn:Ee; [|discriminate]. cbn [bind] in H.
    destruct (is_none f || is_none e); [discriminate|]. destruct f; try discriminate. destruct e; try discriminate. cbn [bind as_num] in H.
    unfold nget in H. destruct (dget cc disp) as [d|] eqn:Ed; [|discriminate]. cbn [bind] in H. destruct d; try discriminate. cbn [bind as_num] in H.
    destruct (dget cc "Dp_p") as [dp|] eqn:Ep; [|discriminate]. cbn [bind] in H. destruct dp; try discriminate. cbn [bind as_num] in H.
    assert (P : 0 < b * g) by (apply Rmult_lt_0_compat; lra). rewrite (proj2 (Reqb_false (b * g) 0)) in H by lra. injection H as <-.
    pose proof (Hf _ Ef) as Hf'. pose proof (He _ Ee) as He'.
    assert (Q : 0 <= x0 / (b * g)) by (unfold Rdiv; apply Rmult_le_pos; [auto|apply Rlt_le, Rinv_0_lt_compat; auto]).
    pose proof (Rmult_le_pos _ _ Hf' Q) as Q1. pose proof (Rle_0_sqr (x1 * x2)) as Q2. unfold Rsqr in Q2.
    destruct (nsqrt_some (x * (x0 / (b * g)) + x1 ^ 2 * x2 ^ 2)) as (s & S1 & S2 & S3).
    { replace (x1 ^ 2 * x2 ^ 2) with (x1 * x2 * (x1 * x2)) by ring. lra. }
    right. split; auto. exists x, x0, x1, x2, s. repeat split; auto. rewrite S3. ring.
  - injection H as <-. left. split; auto. intros ->. rewrite (proj2 (minus1 _) eq_refl) in M. discriminate.
Qed.
Lemma size_raises bg : bv sigma (PNum (-1)) -> bv betaf PNone \/ bv nemitt PNone -> beam_size cc sigma betaf nemitt disp bg = None.
Proof.
  intros H1 H2. unfold beam_size. rewrite H1. cbn [bind]. rewrite (proj2 (minus1 _) eq_refl).
  destruct H2 as [->| ->]; cbn [bind]; [|destruct (dget cc betaf); [|reflexivity]; cbn [bind is_none]; rewrite orb_true_r; reflexivity].
  destruct (dget cc nemitt); reflexivity.
Qed.
Lemma size_gives g b : 1 < g -> 0 < b -> (exists v, bv sigma v) ->
  (bv sigma (PNum (-1)) -> exists f e d dp, bv betaf (PNum f) /\ bv nemitt (PNum e) /\ bv disp (PNum d) /\ bv "Dp_p" (PNum dp)) ->
  exists out, beam_size cc sigma betaf nemitt disp (PNum (b * g)) = Some out.
Proof.
  intros Hg Hb [v Hv] H. unfold beam_size. rewrite Hv. cbn [bind]. destruct (is_minus1 v) eqn:M; [|eauto].
  apply minus1 in M. subst v. destruct (H Hv) as (f & e & d & dp & -> & -> & Hd & Hp). cbn [bind is_none orb as_num]. unfold nget. rewrite Hd, Hp. cbn [bind as_num].
  rewrite (proj2 (Reqb_false (b * g) 0)) by nra. eauto.
Qed.
End Size.

Lemma beta_spec g : 1 < g -> exists b, nsqrt (1 - 1 / (g * g)) = PNum b /\ 0 < b < 1 /\ g * g * (1 - b * b) = 1.
Proof.
  intros Hg. assert (P : 1 < g * g) by nra. assert (Q : 0 < / (g * g) < 1).
  { split; [apply Rinv_0_lt_compat; lra|]. rewrite <- Rinv_1. apply Rinv_lt_contravar; lra. }
  assert (E : 1 - 1 / (g * g) = 1 - / (g * g)) by (unfold Rdiv; ring). rewrite E.
  exists (sqrt (1 - / (g * g))). unfold nsqrt. rewrite (proj2 (Rltb_false _ _)) by lra. split; auto.
  assert (S : sqrt (1 - / (g * g)) * sqrt (1 - / (g * g)) = 1 - / (g * g)) by (apply sqrt_sqrt; lra).
  pose proof (sqrt_lt_R0 (1 - / (g * g))) as Sp. split; [split; [lra|]|].
  - set (s := sqrt _) in *. nra.
  - rewrite S. field. lra.
Qed.

Notation bdescr_of := (beam_descr_from_fil m_e m_p qe files).
Notation bval bea mach := (beam_value m_e m_p qe bea mach).

Lemma one_value_value bea p v : (given bea p v \/ (~ (exists w, given bea p w) /\ bdefault p v)) <-> value [bea] bdefault p v.
Proof.
  unfold value. split.
  - intros [H|[H D]]; [left; exists bea; cbn; auto|right; split; auto]. intros (f & w & [<-|[]] & G). eauto.
  - intros [(f & [<-|[]] & G)|[H D]]; auto. right. split; auto. intros [w G]. apply H. exists bea, w. cbn. auto.
Qed.

(** Everything up to the numbers. *)
Lemma beam_head c file bea mach : files file = Some bea -> valid beam_mandatory bparam [bea] -> clear_names bparam [bea] ->
  (forall p, optics p -> dget mach p <> None) ->
  exists cc, (forall p v, dget cc p = Some v <-> bparam p /\ bval bea (dget mach) p v) /\
    bdescr_of c file mach =
      (do energy <- nget cc "energy_eV" ;
       do m0 <- nget cc "m0_part" ;
       if Reqb (m0 * c ^ 2) 0 then None
       else
         let gamma := energy * qe / (m0 * c ^ 2) in
         if Reqb gamma 0 then None
         else
           let beta := nsqrt (1 - 1 / (gamma * gamma)) in
           let bg := match beta with PNum b => PNum (b * gamma) | _ => PNan end in
           do sx <- beam_size cc "sigmax" "betafx" "nemittx" "Dx" bg ;
           do sy <- beam_size cc "sigmay" "betafy" "nemitty" "Dy" bg ;
           Some (mkBdescr (energy * qe) gamma beta sx sy cc)).
Proof.
  intros F V Cl Hm. pose proof (files_ok _ _ F) as Nb. unfold beam_descr_from_fil.
  rewrite (proj2 (import_spec files file _) (ex_intro _ bea (conj F eq_refl))). cbn [bind].
  rewrite (proj2 (one_valid beam beam_mandatory bdefault beam_mand (beam_opt m_e m_p qe) beam_pi bea Nb) V). cbn [bind].
  destruct (one_value beam beam_mandatory bdefault beam_mand (beam_opt m_e m_p qe) (beam_ok m_e m_p qe) beam_priv beam_pi bea None Nb V Cl) as (cfg & C & N & G).
  rewrite C. cbn [bind].
  destruct (optics_spec cfg mach) as (cc & O & Go).
  { intros p Hp. split; auto. pose proof (optics_param p Hp) as Pp. intros E.
    assert (X : ~ exists w, given bea p w).
    { intros [w Hg]. assert (dget cfg p = Some w) by (apply G; auto). congruence. }
    destruct Pp as [Pp|(w & Pp)].
    - destruct V as (V1 & _). destruct (V1 p Pp) as (f & w & [<-|[]] & Hg). eauto.
    - assert (dget cfg p = Some w) by (apply G; split; [right; eauto|right; split; auto]). congruence. }
  exists cc. split.
  - intros p v. rewrite Go. unfold beam_value. split.
    + intros (w & D & X). apply G in D. destruct D as [D1 D2]. split; auto. exists w. split; auto. apply one_value_value. exact D2.
    + intros (Pp & w & D & X). exists w. split; auto. apply G. split; auto. apply one_value_value in D. exact D.
  - destruct (fallback cfg mach "Dx") as [c1|]; [|discriminate]. cbn [bind] in *. destruct (fallback c1 mach "Dy") as [c2|]; [|discriminate]. cbn [bind] in *.
    destruct (fallback c2 mach "betafx") as [c3|]; [|discriminate]. cbn [bind] in *. rewrite O. cbn [bind]. reflexivity.
Qed.

Lemma beam_param_of : forall p, In p ["energy_eV"; "m0_part"; "sigmax"; "sigmay"; "betafx"; "betafy"; "nemittx"; "nemitty"; "Dx"; "Dy"; "Dp_p"] -> bparam p.
Proof.
  intros p H.
  assert (S : forallb (fun p => mem p (beam_beam_mandatory ++ map fst (s_opt beam))) ["energy_eV"; "m0_part"; "sigmax"; "sigmay"; "betafx"; "betafy"; "nemittx"; "nemitty"; "Dx"; "Dy"; "Dp_p"] = true) by (vm_compute; reflexivity).
  rewrite forallb_forall in S. apply S in H. apply mem_in, in_app_iff in H. destruct H as [H|H]; [left; exact H|right]. apply (beam_keys m_e m_p qe). auto.
Qed.

Section Whole.
Variables (c : R) (file : string) (bea : defs) (mach : attrs).
Hypothesis F : files file = Some bea.
Hypothesis V : valid beam_mandatory bparam [bea].
Hypothesis Cl : clear_names bparam [bea].
Hypothesis Hm : forall p, optics p -> dget mach p <> None.
Notation bv := (bval bea (dget mach)).

Lemma to_bv cc : (forall p v, dget cc p = Some v <-> bparam p /\ bv p v) ->
  forall p v, In p ["energy_eV"; "m0_part"; "sigmax"; "sigmay"; "betafx"; "betafy"; "nemittx"; "nemitty"; "Dx"; "Dy"; "Dp_p"] -> (dget cc p = Some v <-> bv p v).
Proof. intros G p v H. rewrite G. pose proof (beam_param_of p H). tauto. Qed.

Ltac known := cbn; tauto.
Lemma size_bv cc : (forall p v, dget cc p = Some v <-> bparam p /\ bv p v) -> forall g b out,
  (size_ok (fun p v => dget cc p = Some v) "sigmax" "betafx" "nemittx" "Dx" g b out -> size_ok bv "sigmax" "betafx" "nemittx" "Dx" g b out) /\
  (size_ok (fun p v => dget cc p = Some v) "sigmay" "betafy" "nemitty" "Dy" g b out -> size_ok bv "sigmay" "betafy" "nemitty" "Dy" g b out).
Proof.
  intros G g b out. pose proof (to_bv cc G) as T. unfold size_ok. split.
  - intros [[H1 H2]|(H1 & f & e & d & dp & s & A & B & C & D & X)].
    + left. split; auto. apply T; [known|auto].
    + right. split; [apply T; [known|auto]|]. exists f, e, d, dp, s. split; [apply T; [known|auto]|]. split; [apply T; [known|auto]|].
      split; [apply T; [known|auto]|]. split; [apply T; [known|auto]|]. exact X.
  - intros [[H1 H2]|(H1 & f & e & d & dp & s & A & B & C & D & X)].
    + left. split; auto. apply T; [known|auto].
    + right. split; [apply T; [known|auto]|]. exists f, e, d, dp, s. split; [apply T; [known|auto]|]. split; [apply T; [known|auto]|].
      split; [apply T; [known|auto]|]. split; [apply T; [known|auto]|]. exact X.
Qed.

Theorem beam_sound b : bdescr_of c file mach = Some b ->
  exists E m0, bv "energy_eV" (PNum E) /\ bv "m0_part" (PNum m0) /\ m0 * c ^ 2 <> 0 /\
    bd_energy_J b = E * qe /\ bd_gamma b * (m0 * c ^ 2) = E * qe /\
    (forall p v, dget (bd_cfg b) p = Some v <-> bparam p /\ bv p v) /\
    (1 < bd_gamma b ->
       (forall f, bv "betafx" (PNum f) \/ bv "betafy" (PNum f) -> 0 <= f) -> (forall e, bv "nemittx" (PNum e) \/ bv "nemitty" (PNum e) -> 0 <= e) ->
       exists beta, bd_beta b = PNum beta /\ 0 < beta < 1 /\ bd_gamma b * bd_gamma b * (1 - beta * beta) = 1 /\
         size_ok bv "sigmax" "betafx" "nemittx" "Dx" (bd_gamma b) beta (bd_sigmax b) /\
         size_ok bv "sigmay" "betafy" "nemitty" "Dy" (bd_gamma b) beta (bd_sigmay b)).
Proof.
  destruct (beam_head c file bea mach F V Cl Hm) as (cc & G & E). rewrite E. clear E. intros H. pose proof (to_bv cc G) as T.
  unfold nget in H. destruct (dget cc "energy_eV") as [en|] eqn:De; [|discriminate]. cbn [bind] in H. destruct en; try discriminate. cbn [bind as_num] in H.
  destruct (dget cc "m0_part") as [m0|] eqn:Dm; [|discriminate]. cbn [bind] in H. destruct m0; try discriminate. cbn [bind as_num] in H.
  destruct (Reqb (x0 * c ^ 2) 0) eqn:Z; [discriminate|]. apply Reqb_false in Z. cbv zeta in H. set (gam := x * qe / (x0 * c ^ 2)) in *.
  destruct (Reqb gam 0); [discriminate|].
  destruct (beam_size cc "sigmax" _ _ _ _) as [sx|] eqn:Sx; [|discriminate]. cbn [bind] in H.
  destruct (beam_size cc "sigmay" _ _ _ _) as [sy|] eqn:Sy; [|discriminate]. cbn [bind] in H. injection H as <-. cbn [bd_energy_J bd_gamma bd_beta bd_sigmax bd_sigmay bd_cfg].
  exists x, x0. split; [apply T; [known|auto]|]. split; [apply T; [known|auto]|]. split; auto. split; auto. split; [unfold gam, Rdiv; rewrite Rmult_assoc, Rinv_l by auto; ring|].
  split; [exact G|]. intros Hg Hf He. destruct (beta_spec gam Hg) as (be & B1 & B2 & B3). exists be. rewrite B1 in *. split; auto. split; auto. split; auto.
  destruct (size_bv cc G gam be sx) as [S1 _]. destruct (size_bv cc G gam be sy) as [_ S2]. split.
  - apply S1. eapply size_sound; [exact Hg|tauto| | |exact Sx].
    + intros f Hd. apply Hf. left. apply T; [known|auto].
    + intros f Hd. apply He. left. apply T; [known|auto].
  - apply S2. eapply size_sound; [exact Hg|tauto| | |exact Sy].
    + intros f Hd. apply Hf. right. apply T; [known|auto].
    + intros f Hd. apply He. right. apply T; [known|auto].
Qed.

Theorem beam_raises : (bv "sigmax" (PNum (-1)) /\ (bv "betafx" PNone \/ bv "nemittx" PNone)) \/
  (bv "sigmay" (PNum (-1)) /\ (bv "betafy" PNone \/ bv "nemitty" PNone)) -> bdescr_of c file mach = None.
Proof.
  destruct (beam_head c file bea mach F V Cl Hm) as (cc & G & E). rewrite E. clear E. intros H. pose proof (to_bv cc G) as T.
  destruct (nget cc "energy_eV") as [x|]; [|reflexivity]. cbn [bind]. destruct (nget cc "m0_part") as [y|]; [|reflexivity]. cbn [bind].
  destruct (Reqb _ 0); [reflexivity|]. cbv zeta. destruct (Reqb _ 0); [reflexivity|]. destruct H as [[H1 H2]|[H1 H2]].
  - rewrite size_raises; [reflexivity|apply T; [known|auto]|]. destruct H2; [left|right]; (apply T; [known|auto]).
  - destruct (beam_size cc "sigmax" _ _ _ _); [|reflexivity]. cbn [bind]. 
    rewrite size_raises; [reflexivity|apply T; [known|auto]|]. destruct H2; [left|right]; (apply T; [known|auto]).
Qed.

Theorem beam_complete E m0 : bv "energy_eV" (PNum E) -> bv "m0_part" (PNum m0) -> 0 < m0 * c ^ 2 -> m0 * c ^ 2 < E * qe ->
  plane_given bv "sigmax" "betafx" "nemittx" "Dx" -> plane_given bv "sigmay" "betafy" "nemitty" "Dy" ->
  exists b, bdescr_of c file mach = Some b /\ 1 < bd_gamma b.
Proof.
  intros He Hm0 P Q Px Py. destruct (beam_head c file bea mach F V Cl Hm) as (cc & G & X). rewrite X. clear X. pose proof (to_bv cc G) as T.
  unfold nget. apply T in He; [|known]. apply T in Hm0; [|known]. rewrite He, Hm0. cbn [bind as_num]. rewrite (proj2 (Reqb_false _ _)) by lra. cbv zeta.
  assert (Hg : 1 < E * qe / (m0 * c ^ 2)).
  { apply (Rmult_lt_reg_r (m0 * c ^ 2)); auto. unfold Rdiv. rewrite Rmult_assoc, Rinv_l by lra. lra. }
  set (gam := E * qe / (m0 * c ^ 2)) in *. rewrite (proj2 (Reqb_false _ _)) by lra. destruct (beta_spec gam Hg) as (be & B1 & B2 & B3). rewrite B1.
  assert (Ex : forall p, In p ["sigmax"; "sigmay"] -> exists v, dget cc p = Some v).
  { intros p Hp. assert (Pp : bparam p) by (apply beam_param_of; cbn in *; tauto). assert (No : ~ optics p) by (cbn in *; intuition congruence).
    assert (exists w, value [bea] bdefault p w) as [w Hw].
    { destruct (dget (with_pi bea) p) as [w|] eqn:D.
      - exists w. left. exists bea. split; [left; auto|].
        apply (one_dget beam_mandatory bdefault beam_priv beam_pi bea p w (files_ok _ _ F) Cl Pp). auto.
      - destruct Pp as [Pp|(w & Pp)].
        + destruct V as (V1 & _). destruct (V1 p Pp) as (f & w & I & Hg'). exists w. left. eauto.
        + exists w. right. split; auto. intros (f & u & [<-|[]] & Hg').
          apply (one_dget beam_mandatory bdefault beam_priv beam_pi bea p u (files_ok _ _ F) Cl (or_intror (ex_intro _ w Pp))) in Hg'. congruence. }
    exists w. apply G. split; auto. exists w. split; auto. left. split; auto. tauto. }
  destruct (size_gives cc "sigmax" "betafx" "nemittx" "Dx" gam be Hg) as [sx ->]; [tauto|apply Ex; cbn; auto| |].
  { intros H. apply T in H; [|known]. destruct (Px H) as (f & e & d & dp & A1 & A2 & A3 & A4). exists f, e, d, dp. repeat split; (apply T; [known|auto]). }
  cbn [bind].
  destruct (size_gives cc "sigmay" "betafy" "nemitty" "Dy" gam be Hg) as [sy ->]; [tauto|apply Ex; cbn; auto| |].
  { intros H. apply T in H; [|known]. destruct (Py H) as (f & e & d & dp & A1 & A2 & A3 & A4). exists f, e, d, dp. repeat split; (apply T; [known|auto]). }
  cbn [bind]. eexists. split; [reflexivity|]. exact Hg.
Qed.
End Whole.
End Beam.
