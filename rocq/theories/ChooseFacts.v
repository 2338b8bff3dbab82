From Coq Require Import String Lia Bool Lra.
From Verif Require Import Num NumFacts ConfigVal ConfigTable Ckpt Config SpecConfig ConfigFacts ConfigFacts7 Init SpecInit SpecInitParts InitFacts InitFacts2 InitFacts4 InitFacts5 InitFacts6 InitFacts7
  Sey Source Choose SpecChoose.
Local Open Scope string_scope.
Local Open Scope list_scope.

Ltac named := repeat match goal with
  | |- context [if py_eqb ?v (PStr ?s) then _ else _] => let E := fresh "E" in destruct (py_eqb v (PStr s)) eqn:E;
      [apply py_eqb_str in E; subst v; split; [intros X; injection X as <-; constructor|intros X; inversion X; reflexivity]|]
  end.
Ltac refused := split; [discriminate|intros X; inversion X; subst; match goal with E : py_eqb _ _ = false |- _ => cbn in E end; try discriminate].

Lemma same_str s : py_eqb (PStr s) (PStr s) = true.
Proof. apply py_eqb_str. reflexivity. Qed.
Lemma angle_iff v d : get_angle_dist_func v = Some d <-> angle_named v d.
Proof.
  unfold get_angle_dist_func. named.
  split; [discriminate|]. intros X. inversion X; subst; rewrite same_str in *; discriminate.
Qed.
Lemma energy_iff v s m g : get_energy_distribution_func v s m = Some g <-> energy_named v (ge_dist g) /\ ge_sigma g = s /\ ge_max g = m.
Proof.
  unfold get_energy_distribution_func.
  match goal with |- context [bind ?x _] => set (c := x) end.
  assert (K : forall d, c = Some d <-> energy_named v d).
  { intros d. subst c. named. split; [discriminate|]. intros X. inversion X; subst; rewrite same_str in *; discriminate. }
  destruct c as [d|]; cbn [bind].
  - split.
    + intros X. injection X as <-. cbn. split; [apply K; reflexivity|auto].
    + intros (N & S & M). apply K in N. injection N as ->. destruct g; cbn in *. subst. reflexivity.
  - split; [discriminate|]. intros (N & _). apply K in N. discriminate.
Qed.

(** The emission model has one name. *)
Lemma model_one t n m : model_is t n -> model_is t m -> n = m.
Proof.
  unfold model_is. intros [A|(v & A & B)] [C|(w & C & D)]; rewrite A in C; injection C as C; subst; auto.
  - destruct D as [[_ [D|[[D _]|[D _]]]]|[_ [D|[[D _]|[D _]]]]]; discriminate.
  - destruct B as [[_ [D|[[D _]|[D _]]]]|[_ [D|[[D _]|[D _]]]]]; discriminate.
  - assert (U : forall x y, equals w x -> equals w y -> x = y).
    { unfold equals. intros x y [E|[[E F]|[E F]]] [G|[[G H]|[G H]]]; subst w; try discriminate; try (injection G as ->); congruence. }
    destruct B as [[-> B]|[-> B]], D as [[-> D]|[-> D]]; auto; exfalso; [assert (0 = 1) by (apply U; auto)|assert (1 = 0) by (apply U; auto)]; lra.
Qed.

Section Parts.
Variables cc t : config.
Variable ch : obj.
Hypothesis Polyg : ob_name ch = "polyg" <-> cc "chamb_type" = Some (PStr "polyg") \/ cc "chamb_type" = Some (PStr "polyg_cython").
Hypothesis Rect : ob_name ch = "rect" <-> cc "chamb_type" = Some (PStr "rect").

Lemma sey_choice found o a : emission_part found t o -> (sey_ctor ch o = Some a <-> surface_fits cc t /\ secondary_angle t a).
Proof.
  intros (M & U & _). unfold sey_ctor, chamb_type.
  assert (Q : forall n, model_is t n <-> ob_name o = n) by (intros n; split; [intros X; exact (model_one _ _ _ M X)|intros <-; exact M]).
  unfold surface_fits, secondary_angle. rewrite !Q.
  destruct (String.eqb (ob_name o) "perfect_absorber") eqn:E0.
  { apply String.eqb_eq in E0. rewrite E0. split.
    - intros X. injection X as <-. split; [intros [Y|Y]; discriminate|left; auto].
    - intros (_ & [[_ ->]|[X _]]); [reflexivity|congruence]. }
  apply String.eqb_neq in E0.
  assert (A : par o "secondary_angle_distribution" = t "secondary_angle_distribution").
  { apply U. unfold sey_uses. apply String.eqb_neq in E0. rewrite E0. apply in_or_app. left. cbn. tauto. }
  unfold par in A. rewrite A.
  set (nu := String.eqb (ob_name o) "ECLOUD_nunif" || String.eqb (ob_name o) "ECLOUD_nunif_charging").
  assert (Nu : nu = true <-> ob_name o = "ECLOUD_nunif" \/ ob_name o = "ECLOUD_nunif_charging").
  { unfold nu. rewrite orb_true_iff, !String.eqb_eq. tauto. }
  rewrite <- Nu, <- Polyg. rewrite <- String.eqb_eq.
  destruct nu, (String.eqb (ob_name ch) "polyg") eqn:E1; cbn [andb negb]; try (split; [discriminate|intros (X & _); specialize (X eq_refl); congruence]).
  all: transitivity (exists v, t "secondary_angle_distribution" = Some v /\ (v = PNone /\ a = None \/ (exists d, angle_named v d /\ a = Some d)));
    [|split; [intros X; split; [auto; discriminate|right; split; [exact E0|exact X]]|intros (_ & [[X _]|[_ X]]); [contradiction|exact X]]].
  all: destruct (t "secondary_angle_distribution") as [v|]; cbn [bind]; [|split; [discriminate|intros (v & X & _); discriminate]].
  all: destruct (is_none v) eqn:E2; [apply is_none_spec in E2; subst v; split;
       [intros X; injection X as <-; exists PNone; split; [reflexivity|left; auto]
       |intros (v & X & [[_ Y]|(d & Y & _)]); [subst; reflexivity|injection X as <-; inversion Y]]|].
  all: destruct (get_angle_dist_func v) as [d|] eqn:E3; cbn [bind]; split;
    [intros X; injection X as <-; exists v; split; [reflexivity|right; exists d; split; [apply angle_iff; exact E3|reflexivity]]
    |intros (w & X & [[Y _]|(d' & Y & ->)]); injection X as <-; [subst v; discriminate|apply angle_iff in Y; congruence]
    |discriminate
    |intros (w & X & [[Y _]|(d' & Y & ->)]); injection X as <-; [subst v; discriminate|apply angle_iff in Y; congruence]].
Qed.

Lemma photo_choice beamed g x : photo_part t beamed g -> (opt_ctor photo_ctor g = Some x <-> photo_electrons t x).
Proof.
  intros (P1 & P2). unfold photo_electrons. fold (photo_on t) in P2. destruct g as [o|]; cbn [opt_ctor].
  - specialize (P1 o eq_refl) as (U & _ & _).
    assert (On : photo_on t).
    { unfold photo_on. destruct P2 as [_ P2]. destruct (Classical_Prop.classic (photo_on t)) as [X|X]; [exact X|]. apply P2 in X. discriminate. }
    assert (G : forall a, In (a, a) photo_common -> dget (ob_args o) a = t a).
    { intros a I. apply U. unfold photo_uses. apply in_or_app. left. exact I. }
    assert (K : forall e d, photo_ctor o = Some (e, d) <-> photo_models t e d).
    { intros e d. unfold photo_ctor. rewrite !G by (cbn; tauto). unfold photo_models.
      destruct (t "energy_distribution") as [ve|]; cbn [bind]; [|split; [discriminate|intros (? & ? & X & _); discriminate]].
      destruct (t "e_pe_sigma") as [vs|]; cbn [bind]; [|split; [discriminate|intros (? & ? & _ & _ & X & _); discriminate]].
      destruct (t "e_pe_max") as [vm|]; cbn [bind]; [|split; [discriminate|intros (? & ? & _ & _ & _ & X & _); discriminate]].
      destruct (t "photoelectron_angle_distribution") as [va|]; cbn [bind]; [|split; [discriminate|intros (? & ? & _ & _ & _ & _ & X & _); discriminate]].
      split.
      - destruct (get_energy_distribution_func ve vs vm) as [ge|] eqn:E; [|discriminate]. cbn [bind].
        destruct (get_angle_dist_func va) as [d'|] eqn:A; [|discriminate]. cbn [bind]. intros X. injection X as <- <-.
        apply energy_iff in E as (E1 & <- & <-). apply angle_iff in A. exists ve, va. auto 10.
      - intros (v & w & X1 & E1 & X2 & X3 & X4 & A). injection X1 as <-. injection X4 as <-. injection X2 as X2. injection X3 as X3.
        assert (E : get_energy_distribution_func ve vs vm = Some e) by (apply energy_iff; auto). rewrite E. cbn [bind].
        apply angle_iff in A. rewrite A. reflexivity. }
    destruct (photo_ctor o) as [[e d]|]; cbn [bind]; split.
    + intros X. injection X as <-. right. split; [exact On|]. exists e, d. split; [reflexivity|]. apply K. reflexivity.
    + intros [[X _]|(_ & e' & d' & -> & Y)]; [contradiction|]. apply K in Y. congruence.
    + discriminate.
    + intros [[X _]|(_ & e' & d' & -> & Y)]; [contradiction|]. apply K in Y. discriminate.
  - assert (Off : ~ photo_on t) by (apply P2; reflexivity). split.
    + intros X. injection X as <-. left. auto.
    + intros [[_ ->]|(X & _)]; [reflexivity|contradiction].
Qed.

Lemma cloud_choice_iff qe c found beamed skip last multiple sec cross b q x : cloud_parts qe c found cc t beamed skip last multiple sec cross b q ->
  (cloud_ctor ch q = Some x <-> cloud_chosen cc t x).
Proof.
  intros (_ & E & _ & _ & P & _). unfold cloud_ctor, cloud_chosen.
  pose proof (fun a => sey_choice found (cp_sey q) a E) as HS. pose proof (fun g => photo_choice beamed (cp_photo q) g P) as HP.
  destruct (sey_ctor ch (cp_sey q)) as [a|]; cbn [bind].
  - destruct (opt_ctor photo_ctor (cp_photo q)) as [g|]; cbn [bind].
    + split.
      * intros X. injection X as <-. cbn. destruct (proj1 (HS a) eq_refl) as [H1 H2]. split; [exact H1|]. split; [exact H2|]. apply HP. reflexivity.
      * intros (H1 & H2 & H3). apply HP in H3. pose proof (proj2 (HS _) (conj H1 H2)) as H4. injection H3 as ->. injection H4 as ->. destruct x; reflexivity.
    + split; [discriminate|]. intros (_ & _ & H3). apply HP in H3. discriminate.
  - split; [discriminate|]. intros (H1 & H2 & _). pose proof (proj2 (HS _) (conj H1 H2)). discriminate.
Qed.

Lemma not_none v : negb (is_none v) = true <-> v <> PNone.
Proof. rewrite negb_true_iff, <- not_true_iff_false, is_none_spec. tauto. Qed.
Lemma same_flag (a b : bool) (P : Prop) : (a = true <-> P) -> (b = true <-> P) -> a = b.
Proof. intros H1 H2. destruct a, b; auto; exfalso; intuition discriminate. Qed.
Lemma field_choice o x : uses (par o) cc sc_main -> (sc_ctor ch o = Some x <-> field_chosen cc x).
Proof.
  intros U. unfold sc_ctor, field_chosen, chamb_type. pose proof (U "PyPICmode" "PyPICmode") as U1. pose proof (U "Dt_sc" "Dt_sc") as U2.
  pose proof (U "Dh_U_eV" "Dh_electric_energy") as U3. unfold par in U1, U2, U3. rewrite U1, U2, U3 by (cbn; tauto). clear U U1 U2 U3.
  destruct (cc "PyPICmode") as [m|]; cbn [bind]; [|split; [discriminate|intros (? & ? & ? & X & _); discriminate]].
  destruct (cc "Dt_sc") as [dt|]; cbn [bind]; [|split; [discriminate|intros (? & ? & ? & _ & _ & _ & X & _); discriminate]].
  destruct (cc "Dh_electric_energy") as [du|]; cbn [bind]; [|split; [discriminate|intros (? & ? & ? & _ & _ & _ & _ & _ & X & _); discriminate]].
  match goal with |- context [bind ?x _] => set (c := x) end.
  assert (K : forall s, c = Some s <-> solver_named m s /\ (s = FFT_PEC \/ s = FFT_Open -> cc "chamb_type" = Some (PStr "rect"))).
  { intros s. subst c. rewrite <- Rect, <- String.eqb_eq.
    destruct (py_eqb m (PStr "FiniteDifferences_ShortleyWeller")) eqn:E1.
    { apply py_eqb_str in E1. subst m. split; [intros X; injection X as <-; split; [constructor|intros [?|?]; discriminate]|intros (X & _); inversion X; reflexivity]. }
    destruct (py_eqb m (PStr "ShortleyWeller_WithTelescopicGrids")) eqn:E2.
    { apply py_eqb_str in E2. subst m. split; [intros X; injection X as <-; split; [constructor|intros [?|?]; discriminate]|intros (X & _); inversion X; reflexivity]. }
    destruct (py_eqb m (PStr "FiniteDifferences_Staircase")) eqn:E3.
    { apply py_eqb_str in E3. subst m. split; [intros X; injection X as <-; split; [constructor|intros [?|?]; discriminate]|intros (X & _); inversion X; reflexivity]. }
    destruct (py_eqb m (PStr "FFT_PEC_Boundary")) eqn:E4.
    { apply py_eqb_str in E4. subst m. destruct (String.eqb (ob_name ch) "rect").
      - split; [intros X; injection X as <-; split; [exact fft_pec|auto]|intros (X & Y); inversion X; reflexivity].
      - split; [discriminate|]. intros (X & Y). inversion X; subst. specialize (Y (or_introl eq_refl)). discriminate. }
    destruct (py_eqb m (PStr "FFT_OpenBoundary")) eqn:E5.
    { apply py_eqb_str in E5. subst m. destruct (String.eqb (ob_name ch) "rect").
      - split; [intros X; injection X as <-; split; [exact fft_open|auto]|intros (X & Y); inversion X; reflexivity].
      - split; [discriminate|]. intros (X & Y). inversion X; subst. specialize (Y (or_intror eq_refl)). discriminate. }
    split; [discriminate|]. intros (X & _). inversion X; subst; rewrite same_str in *; discriminate. }
  destruct c as [s|]; cbn [bind]; split.
  - intros X. injection X as <-. cbn. exists m, dt, du. destruct (proj1 (K s) eq_refl) as [K1 K2]. rewrite !not_none. intuition.
  - intros (m' & dt' & du' & X1 & N & F & X2 & D1 & X3 & D2). injection X1 as <-. injection X2 as <-. injection X3 as <-.
    pose proof (proj2 (K _) (conj N F)) as Es. injection Es as ->. destruct x as [xs xd xe]; cbn in *.
    rewrite (same_flag xd _ _ D1 (not_none dt)), (same_flag xe _ _ D2 (not_none du)). reflexivity.
  - discriminate.
  - intros (m' & dt' & du' & X1 & N & F & _). injection X1 as <-. pose proof (proj2 (K _) (conj N F)). discriminate.
Qed.
End Parts.

Lemma chamber_name folder isfile cc cl o : build_chamber folder isfile cc cl = Some o ->
  (ob_name o = "polyg" <-> dget cc "chamb_type" = Some (PStr "polyg") \/ dget cc "chamb_type" = Some (PStr "polyg_cython")) /\
  (ob_name o = "rect" <-> dget cc "chamb_type" = Some (PStr "rect")).
Proof.
  intros H. unfold build_chamber in H. destruct (Ckpt.mapM non_unif cl) as [nu|] eqn:Nu; [|discriminate]. cbn [bind] in H.
  destruct (dget cc "chamb_type") as [ty|] eqn:Gt; [|discriminate]. cbn [bind] in H.
  destruct (py_eqb ty (PStr "ellip")) eqn:E1.
  { apply py_eqb_str in E1. subst ty. pose proof (call_name _ _ _ _ _ _ _ H) as N. cbn in N. rewrite N. intuition discriminate. }
  destruct (py_in ty [PStr "polyg"; PStr "polyg_cython"]) eqn:E2.
  { rewrite py_in2, orb_true_iff, !py_eqb_str in E2. destruct (dget cc "filename_chm") as [f|] eqn:Gf; [|discriminate]. cbn [bind] in H.
    destruct (find_file folder isfile f) as [w|] eqn:F; [|discriminate]. cbn [bind] in H.
    pose proof (call_name _ _ _ _ _ _ _ H) as N. cbn in N. rewrite N. destruct E2 as [->| ->]; intuition discriminate. }
  destruct (py_eqb ty (PStr "rect")) eqn:E3; [|discriminate].
  apply py_eqb_str in E3. subst ty. pose proof (call_name _ _ _ _ _ _ _ H) as N. cbn in N. rewrite N. intuition discriminate.
Qed.

Lemma mapM_iff (A B : Type) (f : A -> option B) (l : list A) : forall r, Ckpt.mapM f l = Some r <-> Forall2 (fun a b => f a = Some b) l r.
Proof.
  induction l as [|a l IH]; intros r; cbn [Ckpt.mapM].
  - split; [intros X; injection X as <-; constructor|intros X; inversion X; reflexivity].
  - destruct (f a) as [b|] eqn:E; cbn [bind].
    + destruct (Ckpt.mapM f l) as [r'|]; cbn [bind]; split.
      * intros X. injection X as <-. constructor; [exact E|]. apply IH. reflexivity.
      * intros X. inversion X as [|? b' ? r'' E' F]; subst. apply IH in F. congruence.
      * discriminate.
      * intros X. inversion X as [|? b' ? r'' E' F]; subst. apply IH in F. discriminate.
    + split; [discriminate|]. intros X. inversion X. congruence.
Qed.

Section Start.
Variables m_e m_p qe c : R.
Variable files : string -> option attrs.
Variable folder : string.
Variable isfile : string -> bool.
Variable npass : R.
Variable subset : pval -> bool.
Variable sec_name : nat -> string.
Variables skip_beam skip_saver skip_sc given_sc : bool.
Variable ignore : list string.
Variable kw : attrs.
Notation go := (start m_e m_p qe c files folder isfile npass subset sec_name skip_beam skip_saver skip_sc given_sc ignore kw).
Notation reads := (read_all m_e m_p qe c files skip_beam ignore kw).

Lemma chosen cc b sbs cl p x : reads cc b sbs cl -> go = Some p ->
  (construct p = Some x <-> all_chosen (dget cc) (map dget cl) (skip_sc || given_sc) x).
Proof.
  intros Ra H. pose proof (start_build _ _ _ _ _ _ _ _ _ _ _ _ _ _ _ _ _ _ _ _ _ Ra H) as Bu.
  assert (Ch : (ob_name (pl_chamb p) = "polyg" <-> dget cc "chamb_type" = Some (PStr "polyg") \/ dget cc "chamb_type" = Some (PStr "polyg_cython")) /\
    (ob_name (pl_chamb p) = "rect" <-> dget cc "chamb_type" = Some (PStr "rect"))).
  { unfold build in Bu. destruct (build_chamber folder isfile cc cl) as [o|] eqn:E; [|discriminate]. cbn [bind] in Bu. apply chamber_name in E.
    match type of Bu with bind ?y _ = _ => destruct y as [[bo so]|]; [|discriminate] end. cbn [bind] in Bu.
    destruct (build_sc skip_sc given_sc cc b); [|discriminate]. cbn [bind] in Bu. destruct (dget cc "cross_ion_definitions"); [|discriminate]. cbn [bind] in Bu.
    match type of Bu with bind ?y _ = _ => destruct y; [|discriminate] end. cbn [bind] in Bu. injection Bu as <-. exact E. }
  clear Bu. destruct Ch as [Pg Re].
  pose proof (machine_is _ _ _ _ _ _ _ _ _ _ _ _ _ _ _ _ _ _ _ _ _ Ra H) as (_ & _ & _ & S1 & S2 & _).
  pose proof (parts_are _ _ _ _ _ _ _ _ _ _ _ _ _ _ _ _ _ _ _ _ _ Ra H) as (L & Pa).
  unfold construct, all_chosen.
  assert (HS : forall s, opt_ctor (sc_ctor (pl_chamb p)) (pl_sc p) = Some s <->
    (skip_sc || given_sc = true /\ s = None \/ skip_sc || given_sc = false /\ (exists s0, s = Some s0 /\ field_chosen (dget cc) s0))).
  { intros s. destruct (pl_sc p) as [o|]; cbn [opt_ctor].
    - assert (N : skip_sc || given_sc = false) by (destruct (skip_sc || given_sc); [destruct S1 as [_ S1]; specialize (S1 eq_refl); discriminate|reflexivity]).
      rewrite N. destruct (S2 o eq_refl) as (U & _). pose proof (fun y => field_choice (dget cc) (pl_chamb p) Pg Re o y U) as K.
      destruct (sc_ctor (pl_chamb p) o) as [y|]; cbn [bind]; split.
      + intros X. injection X as <-. right. split; [reflexivity|]. exists y. split; [reflexivity|]. apply K. reflexivity.
      + intros [[X _]|(_ & s0 & -> & F)]; [discriminate|]. apply K in F. congruence.
      + discriminate.
      + intros [[X _]|(_ & s0 & -> & F)]; [discriminate|]. apply K in F. discriminate.
    - assert (N : skip_sc || given_sc = true) by (apply S1; reflexivity). rewrite N. split.
      + intros X. injection X as <-. left. auto.
      + intros [[_ ->]|[X _]]; [reflexivity|discriminate]. }
  assert (HC : forall l, Ckpt.mapM (cloud_ctor (pl_chamb p)) (pl_clouds p) = Some l <-> Forall2 (cloud_chosen (dget cc)) (map dget cl) l).
  { intros l. rewrite mapM_iff.
    assert (Q : Forall2 (fun t q => forall x, cloud_ctor (pl_chamb p) q = Some x <-> cloud_chosen (dget cc) (dget t) x) cl (pl_clouds p)).
    { clear - L Pa Pg Re. set (n := pl_clouds p) in *. clearbody n.
      assert (Pa' : forall i t, nth_error cl i = Some t -> exists q, nth_error n i = Some q /\ forall x, cloud_ctor (pl_chamb p) q = Some x <-> cloud_chosen (dget cc) (dget t) x).
      { intros i t E. destruct (Pa i t E) as (q & Q & P). exists q. split; [exact Q|]. intros y. eapply cloud_choice_iff; eassumption. }
      clear Pa. revert n L Pa'. induction cl as [|t cl' IH]; intros [|q n] L Pa'; try discriminate; constructor.
      - destruct (Pa' 0%nat t eq_refl) as (q' & X & Y). injection X as <-. exact Y.
      - apply IH; [cbn in L; congruence|]. intros i t' E. exact (Pa' (Datatypes.S i) t' E). }
    clear - Q. revert l. induction Q as [|t q ts qs Q1 Q2 IH]; intros l; cbn [map].
    - split; intros X; inversion X; constructor.
    - split; intros X; inversion X; subst; constructor; try (apply Q1; assumption); apply IH; assumption. }
  destruct (opt_ctor (sc_ctor (pl_chamb p)) (pl_sc p)) as [s|]; cbn [bind].
  - destruct (Ckpt.mapM (cloud_ctor (pl_chamb p)) (pl_clouds p)) as [l|]; cbn [bind]; split.
    + intros X. injection X as <-. cbn. split; [apply HS; reflexivity|apply HC; reflexivity].
    + intros (X1 & X2). apply HS in X1. apply HC in X2. injection X1 as ->. injection X2 as ->. destruct x; reflexivity.
    + discriminate.
    + intros (_ & X2). apply HC in X2. discriminate.
  - split; [discriminate|]. intros (X1 & _). apply HS in X1. discriminate.
Qed.
End Start.

(** A name that must be given. *)
Section Required.
Variables m_e m_p qe c : R.
Variable files : string -> option attrs.
Hypothesis files_ok : forall name f, files name = Some f -> def_ok f.
Variable folder : string.
Variable isfile : string -> bool.
Variable npass : R.
Variable subset : pval -> bool.
Variable sec_name : nat -> string.
Variables skip_beam skip_saver skip_sc given_sc : bool.
Variable ignore : list string.
Variable kw : attrs.
Notation go := (start m_e m_p qe c files folder isfile npass subset sec_name skip_beam skip_saver skip_sc given_sc ignore kw).
Notation reads := (read_all m_e m_p qe c files skip_beam ignore kw).

Lemma first_cloud cc b sbs cl : reads cc b sbs cl -> exists t ts, cl = t :: ts /\ forall k, cloud_param m_e m_p qe k -> dget t k = dget cc k.
Proof.
  intros (Rc & _ & v & fl & _ & _ & Cl). pose proof (read_full _ _ _ _ _ _ _ _ Rc) as Fu. destruct (ConfigFacts5.copy_spec m_e m_p qe cc Fu) as (cfg & C & G).
  unfold cloud_par_list in Cl. destruct (cloud_descr_from_file m_e m_p qe files None cc) as [t|] eqn:D; [|discriminate]. cbn [bind] in Cl.
  match type of Cl with bind ?y _ = _ => destruct y as [ts|]; [|discriminate] end. cbn [bind] in Cl. injection Cl as <-. exists t, ts. split; [reflexivity|].
  intros k Hk. unfold cloud_descr_from_file in D. destruct (dget cc "filen_main_outp"); [|discriminate]. cbn [bind] in D. destruct (dget cc "cloud_name"); [|discriminate]. cbn [bind] in D.
  match type of D with bind ?y _ = _ => destruct y as [[nm out]|]; [|discriminate] end. cbn [bind] in D. rewrite C in D. cbn [bind] in D. injection D as <-.
  rewrite ConfigFacts5.set2_other by (eapply ConfigFacts5.cloud_not; eauto). apply G. exact Hk.
Qed.

Lemma must_give k cc b sbs cl sim mac emi : input_files files sim mac emi -> clear_names (main_param m_e m_p qe) [sim; mac; emi] -> NoDup (map fst kw) -> reads cc b sbs cl ->
  (exists f v, In f [sim; mac; emi] /\ given f k v) \/ In k (map fst kw) \/ (forall v, dget cc k = Some v -> main_default m_e m_p qe k v).
Proof.
  intros I Cn Nd (Rc & _). apply override_values in Rc as (cfg & Rd & _ & Ot); [|exact Nd].
  destruct (in_dec String.string_dec k (map fst kw)) as [Y|Y]; [auto|].
  destruct (Classical_Prop.classic (exists f v, In f [sim; mac; emi] /\ given f k v)) as [Z|Z]; [auto|]. right. right.
  intros v E. rewrite Ot in E by auto. apply (read_values m_e m_p qe files files_ok skip_beam sim mac emi cfg I Cn Rd) in E as (_ & [(f & F1 & F2)|(_ & D)]); [|exact D].
  exfalso. apply Z. eauto.
Qed.

Lemma angle_default k v : k = "secondary_angle_distribution" \/ k = "photoelectron_angle_distribution" -> main_default m_e m_p qe k v -> v = PStr "undefined".
Proof.
  intros K D. assert (F : forall l : list (string * pval), forallb (fun q => negb (String.eqb (fst q) k) || match snd q with PStr s => String.eqb s "undefined" | _ => false end) l = true -> In (k, v) l -> v = PStr "undefined").
  { intros l H X. rewrite forallb_forall in H. apply H in X. cbn in X. rewrite String.eqb_refl in X. cbn in X. destruct v; try discriminate. apply String.eqb_eq in X. congruence. }
  destruct D as [D|[D|D]]; (apply F in D; [exact D|]); destruct K as [->| ->]; vm_compute; reflexivity.
Qed.

Lemma named_required cc b sbs cl sim mac emi p x : input_files files sim mac emi -> clear_names (main_param m_e m_p qe) [sim; mac; emi] -> NoDup (map fst kw) ->
  reads cc b sbs cl -> go = Some p -> construct p = Some x ->
  (model_is (dget cc) "perfect_absorber" \/ In "secondary_angle_distribution" (map fst kw) \/ exists f v, In f [sim; mac; emi] /\ given f "secondary_angle_distribution" v) /\
  (~ photo_on (dget cc) \/ In "photoelectron_angle_distribution" (map fst kw) \/ exists f v, In f [sim; mac; emi] /\ given f "photoelectron_angle_distribution" v).
Proof.
  intros I Cn Nd Ra H Co. apply (chosen _ _ _ _ _ _ _ _ _ _ _ _ _ _ _ _ _ _ _ _ _ x Ra H) in Co as (_ & Co).
  destruct (first_cloud _ _ _ _ Ra) as (t & ts & -> & G). cbn [map] in Co. inversion Co as [|? y ? ? C _]; subst. destruct C as (_ & C1 & C2).
  assert (Pk : forall k, In k ["switch_model"; "secondary_angle_distribution"; "photoem_flag"; "photoelectron_angle_distribution"] -> dget t k = dget cc k).
  { intros k Hk. apply G. cbn in Hk. destruct Hk as [<-|[<-|[<-|[<-|[]]]]]; (left; unfold cloud_mandatory; apply InitFacts.mem_In; vm_compute; reflexivity) || (right; eexists; unfold cloud_default; cbn; tauto). }
  assert (U : forall v d, v = PStr "undefined" -> ~ angle_named v d) by (intros v d -> X; inversion X).
  split.
  - destruct (must_give "secondary_angle_distribution" _ _ _ _ _ _ _ I Cn Nd Ra) as [X|[X|X]]; auto.
    destruct C1 as [(M & _)|(_ & v & V & Y)]; [left; unfold model_is in *; rewrite Pk in M by (cbn; tauto); exact M|]. exfalso.
    rewrite Pk in V by (cbn; tauto). apply X, (angle_default _ _ (or_introl eq_refl)) in V. destruct Y as [[Y _]|(d & Y & _)]; [congruence|exact (U v d V Y)].
  - destruct (must_give "photoelectron_angle_distribution" _ _ _ _ _ _ _ I Cn Nd Ra) as [X|[X|X]]; auto.
    destruct C2 as [(M & _)|(_ & e & a & _ & v1 & v & _ & _ & _ & _ & V & Y)].
    + left. unfold photo_on, photo_is in *. rewrite Pk in M by (cbn; tauto). exact M.
    + exfalso. rewrite Pk in V by (cbn; tauto). apply X, (angle_default _ _ (or_intror eq_refl)) in V. exact (U v a V Y).
Qed.
End Required.
