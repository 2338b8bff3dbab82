(** Proofs about saving and loading states of a simulation. *)
From Coq Require Import String Ascii Lia.
From Verif Require Import Num NumFacts Ckpt SaveState SpecSaveState.
Local Open Scope string_scope.
Local Open Scope list_scope.
Local Open Scope R_scope.

Lemma put_back {Cl Re} (l : list (ocloud Cl Re)) :
  map2 with_saver (map (fun c => with_saver c Removed) l) (map oc_saver l) = l.
Proof. induction l as [|[v c] l IH]; [reflexivity|]. cbn [map map2]. rewrite IH. reflexivity. Qed.
Lemma rests {Cl Re} (l : list (ocloud Cl Re)) : map oc_rest (map (fun c => with_saver c Removed) l) = map oc_rest l.
Proof. rewrite map_map. reflexivity. Qed.
Lemma removed {Cl Re} (l : list (ocloud Cl Re)) : Forall (fun c => oc_saver c = Removed) (map (fun c => with_saver c Removed) l).
Proof. apply Forall_forall. intros c H. apply in_map_iff in H. destruct H as (x & <- & _). reflexivity. Qed.

Section S.
Context {Lu St Pic Be Cl Re : Type}.
Implicit Types (s : spc Lu St Pic) (o : objs Lu St Pic Be Cl Re) (f : pfile Lu St Pic Be Cl Re).

Lemma save_not_last multi tEn tlife dumps o : sim_state_single_save false multi tEn tlife dumps o = (o, Nothing).
Proof. reflexivity. Qed.

Lemma save_ok multi tEn tlife o : savable (ob_sc o) ->
  exists o' f, sim_state_single_save true multi tEn tlife true o = (o', Written f) /\ same_simulation o o' /\ file_of o multi tEn tlife f.
Proof.
  intros (L & E). destruct o as [b [pl ol em ax ay as_ axo ayo p] t pr sb mu cl]. cbn in L, E. unfold there in L, E.
  destruct pl as [pl|]; [|congruence].
  destruct em.
  - destruct (E eq_refl) as (A1 & A2 & A3 & A4 & A5).
    destruct ax as [ax|]; [|congruence]. destruct ay as [ay|]; [|congruence]. destruct as_ as [as_|]; [|congruence].
    destruct axo as [axo|]; [|congruence]. destruct ayo as [ayo|]; [|congruence].
    unfold sim_state_single_save.
    cbn [negb ob_sc sp_pic_lu set_lus sp_em sp_Ax sp_Ay sp_As sp_Axo sp_Ayo bind set_states set_sc set_clouds ob_beam ob_tsc ob_pres ob_secs ob_multi ob_clouds sp_lu sp_rest].
    rewrite put_back. do 2 eexists. split; [reflexivity|]. unfold same_simulation, file_of.
    cbn [fi_objs fi_tEn fi_tlife ob_sc sp_pic_lu sp_em sp_Ax sp_Ay sp_As sp_Axo sp_Ayo ob_beam ob_tsc ob_pres ob_secs ob_multi ob_clouds sp_lu sp_rest].
    rewrite rests. intuition (try congruence). apply removed.
  - unfold sim_state_single_save.
    cbn [negb ob_sc sp_pic_lu set_lus sp_em sp_Ax sp_Ay sp_As sp_Axo sp_Ayo bind set_states set_sc set_clouds ob_beam ob_tsc ob_pres ob_secs ob_multi ob_clouds sp_lu sp_rest].
    rewrite put_back. do 2 eexists. split; [reflexivity|]. unfold same_simulation, file_of.
    cbn [fi_objs fi_tEn fi_tlife ob_sc sp_pic_lu sp_em sp_Ax sp_Ay sp_As sp_Axo sp_Ayo ob_beam ob_tsc ob_pres ob_secs ob_multi ob_clouds sp_lu sp_rest].
    rewrite rests. intuition (try congruence). apply removed.
Qed.

Lemma save_written last multi tEn tlife dumps o o' f : sim_state_single_save last multi tEn tlife dumps o = (o', Written f) ->
  last = true /\ dumps = true /\ savable (ob_sc o).
Proof.
  unfold sim_state_single_save. destruct last; cbn [negb]; [|discriminate].
  destruct o as [b [pl ol em ax ay as_ axo ayo p] t pr sb mu cl]. cbn [ob_sc sp_pic_lu set_lus sp_em sp_Ax sp_Ay sp_As sp_Axo sp_Ayo].
  unfold savable, there. cbn [sp_pic_lu sp_em sp_Ax sp_Ay sp_As sp_Axo sp_Ayo].
  destruct pl as [pl|]; [|discriminate]. intros H.
  destruct em; [destruct ax as [ax|]; [|discriminate H]; destruct ay as [ay|]; [|discriminate H]; destruct as_ as [as_|]; [|discriminate H];
    destruct axo as [axo|]; [|discriminate H]; destruct ayo as [ayo|]; [|discriminate H]|]; destruct dumps; try discriminate H; repeat split; congruence.
Qed.

Lemma save_last_nothing multi tEn tlife dumps o o' r : sim_state_single_save true multi tEn tlife dumps o = (o', r) -> r <> Nothing.
Proof.
  unfold sim_state_single_save. cbn [negb]. destruct (sp_pic_lu (ob_sc o)); [|intros [= _ <-]; discriminate].
  match goal with |- context [match ?m with None => _ | Some _ => _ end] => destruct m as [[? ?]|] end; [destruct dumps|]; intros [= _ <-]; discriminate.
Qed.

Lemma save_raised multi tEn tlife dumps o : ~ (savable (ob_sc o) /\ dumps = true) ->
  exists o', sim_state_single_save true multi tEn tlife dumps o = (o', Raised).
Proof.
  intros N. destruct (sim_state_single_save true multi tEn tlife dumps o) as [o' r] eqn:E. exists o'.
  destruct r as [|f|]; [destruct (save_last_nothing _ _ _ _ _ _ _ E eq_refl)| |reflexivity].
  exfalso. apply N. destruct (save_written _ _ _ _ _ _ _ _ E) as (_ & D & S). auto.
Qed.

(** Loading. *)
Lemma restarted_goes force name r : exists r', restarted (Re:=Re) force name (Saver r) = Some (Saver r') /\ goes_on force r r' /\
  r_file r' = match name with None => r_file r | Some n => (before ".mat" (r_file r) ++ split_last "Pyecltest" n ++ ".mat")%string end.
Proof.
  destruct r as [a b c d e g]. eexists. split; [reflexivity|]. destruct force, name; cbn; repeat split.
Qed.

Lemma take_over_spec force name (new old : list (ocloud Cl Re)) : (length new <= length old)%nat ->
  forall vs, Forall2 (fun c v => restarted force name (oc_saver c) = Some v) new vs ->
  exists r, take_over force name new old = Some r /\ map oc_rest r = firstn (length new) (map oc_rest old) /\ map oc_saver r = vs.
Proof.
  revert old. induction new as [|n new IH]; intros old L vs F.
  - inversion F; subst. exists []. repeat split.
  - destruct old as [|c old]; [cbn in L; lia|]. inversion F as [|x v l l' E F' q1 q2]; subst.
    destruct (IH old ltac:(cbn in L; lia) _ F') as (r & R1 & R2 & R3).
    exists (with_saver c v :: r). cbn [take_over]. rewrite E. cbn [bind]. rewrite R1. cbn [bind].
    split; [reflexivity|]. cbn [map length firstn]. rewrite R2, R3. split; reflexivity.
Qed.
Lemma take_over_short force name (new old : list (ocloud Cl Re)) : (length old < length new)%nat -> take_over force name new old = None.
Proof.
  revert old. induction new as [|n new IH]; intros old L; [cbn in L; lia|]. destruct old as [|c old]; [reflexivity|].
  cbn [take_over]. destruct (restarted force name (oc_saver n)); [|reflexivity]. cbn [bind]. rewrite IH; [reflexivity|cbn in L; lia].
Qed.

Context (factor : Pic -> Lu) (new_state : Pic -> St).

Lemma restore_spec s : sp_pic_lu s = Some None -> exists s', restore_sc factor new_state s = Some s' /\
  sp_rest s' = sp_rest s /\ sp_em s' = sp_em s /\ sp_pic_lu s' = Some (Some (factor (sp_rest s))) /\
  sp_Axo s' = sp_Axo s /\ sp_Ayo s' = sp_Ayo s /\
  (sp_em s = false -> sp_Ax s' = sp_Ax s /\ sp_Ay s' = sp_Ay s /\ sp_As s' = sp_As s) /\
  (sp_em s = true -> let z := Some (Some (new_state (sp_rest s))) in sp_Ax s' = z /\ sp_Ay s' = z /\ sp_As s' = z).
Proof.
  destruct s as [pl ol em ax ay as_ axo ayo p]. cbn [sp_pic_lu]. intros ->. unfold restore_sc. cbn [sp_pic_lu].
  eexists. split; [reflexivity|]. destruct em; cbn; repeat split; try discriminate; auto.
Qed.

(** The recorders of a list of clouds that all have one. *)
Definition recd_of (v : saver Re) (d : recd Re) : recd Re := match v with Saver r => r | _ => d end.

Lemma load_spec force name f o :
  sp_pic_lu (ob_sc (fi_objs f)) = Some None -> (length (ob_clouds o) <= length (ob_clouds (fi_objs f)))%nat ->
  forall rs, map oc_saver (ob_clouds o) = map Saver rs ->
  exists o' rs', load_state factor new_state force name f o = Some o' /\
    taken_over factor new_state f (fun i => nth i (map Saver rs') NoSaver) (length (ob_clouds o)) o' /\
    Forall2 (fun r r' => goes_on force r r' /\
      r_file r' = match name with None => r_file r | Some n => (before ".mat" (r_file r) ++ split_last "Pyecltest" n ++ ".mat")%string end) rs rs'.
Proof.
  intros P L rs E.
  assert (X : exists rs', Forall2 (fun c v => restarted force name (oc_saver c) = Some v) (ob_clouds o) (map Saver rs') /\
    Forall2 (fun r r' => goes_on force r r' /\
      r_file r' = match name with None => r_file r | Some n => (before ".mat" (r_file r) ++ split_last "Pyecltest" n ++ ".mat")%string end) rs rs').
  { revert rs E. clear L. induction (ob_clouds o) as [|c l IH]; intros rs E.
    - destruct rs; [|discriminate E]. exists []. split; constructor.
    - destruct rs as [|r rs]; [discriminate E|]. injection E as E1 E2. destruct (IH rs E2) as (rs' & A & B).
      destruct (restarted_goes force name r) as (r' & C & D1 & D2). exists (r' :: rs'). split.
      + cbn [map]. constructor; [rewrite E1; exact C|exact A].
      + constructor; [split; assumption|exact B]. }
  destruct X as (rs' & A & B). destruct (take_over_spec force name _ _ L _ A) as (r & R1 & R2 & R3).
  destruct (restore_spec _ P) as (s' & S1 & S2 & S3 & S4 & S5 & S6 & S7 & S8).
  unfold load_state. cbn zeta. rewrite R1. cbn [bind]. rewrite S1. cbn [bind]. do 2 eexists. split; [reflexivity|]. split; [|exact B].
  unfold taken_over. cbn [ob_beam ob_sc ob_tsc ob_pres ob_secs ob_multi ob_clouds]. cbn zeta.
  repeat (split; [first [reflexivity | assumption]|]). split; [|split; [assumption|split; [assumption|split; [assumption|split; [assumption|split; [assumption|split; assumption]]]]]].
  rewrite R3.
  assert (Ln : length (ob_clouds o) = length rs') by (rewrite <- (map_length Saver rs'); eapply Forall2_length; exact A).
  rewrite Ln. clear.
  induction rs' as [|r rs' IH]; [reflexivity|]. cbn [map length seq nth]. rewrite <- seq_shift, map_map. cbn [nth]. rewrite <- IH. reflexivity.
Qed.


Lemma load_short force name f o : (length (ob_clouds (fi_objs f)) < length (ob_clouds o))%nat -> load_state factor new_state force name f o = None.
Proof. intros L. unfold load_state. cbn zeta. rewrite (take_over_short _ _ _ _ L). reflexivity. Qed.

(** Simulations that were not loaded. *)
Definition use_inv (lu em : bool) s : Prop :=
  sp_em s = em /\ sp_pic_lu s = (if lu then Some (Some (factor (sp_rest s))) else None) /\ sp_As s = None.

Lemma use_ok lu em s : in_use (Be:=Be) (Cl:=Cl) (Re:=Re) factor new_state lu em s -> use_inv lu em s.
Proof.
  intros U. induction U as [p|s ax ay p s' U IH F R|o last multi tEn tlife dumps o' r U IH V N].
  - destruct em; repeat split.
  - destruct IH as (I1 & I2 & I3). unfold recomputed in R. destruct (sp_em s).
    + destruct (sp_Ax s) as [[?|]|]; try discriminate R. destruct (sp_Ay s) as [[?|]|]; try discriminate R.
      injection R as <-. unfold use_inv. cbn. rewrite F. auto.
    + injection R as <-. unfold use_inv. cbn. rewrite F. auto.
  - destruct last; [|rewrite save_not_last in V; injection V as <- _; exact IH].
    destruct r as [|f|]; [destruct (save_last_nothing _ _ _ _ _ _ _ V eq_refl)| |congruence].
    destruct (save_written _ _ _ _ _ _ _ _ V) as (_ & -> & SV).
    destruct (save_ok multi tEn tlife o SV) as (o2 & f2 & V2 & SM & _). rewrite V2 in V. injection V as <- _.
    destruct SM as (_ & _ & _ & _ & _ & _ & M1 & M2 & M3 & _ & _ & M4 & _).
    destruct IH as (I1 & I2 & I3). unfold use_inv. rewrite M1, M2, M3, M4. auto.
Qed.

Lemma use_savable lu em s : in_use (Be:=Be) (Cl:=Cl) (Re:=Re) factor new_state lu em s -> (savable s <-> lu = true /\ em = false).
Proof.
  intros U. destruct (use_ok _ _ _ U) as (I1 & I2 & I3). unfold savable, there. rewrite I1, I2, I3. split.
  - intros (A & B). destruct lu; [|congruence]. split; [reflexivity|]. destruct em; [|reflexivity]. destruct (B eq_refl) as (_ & _ & C & _). congruence.
  - intros (-> & ->). split; congruence.
Qed.

(** Saved and loaded again. *)
Lemma clouds_eq (l : list (ocloud Cl Re)) (cl : list (ocloud Cl Re)) vs : length vs = length cl ->
  map oc_rest l = map oc_rest cl -> map oc_saver l = vs -> l = map2 with_saver cl vs.
Proof.
  revert cl vs. induction l as [|[v c] l IH]; intros cl vs L A B.
  - destruct cl; [|discriminate A]. reflexivity.
  - destruct cl as [|c2 cl]; [discriminate A|]. destruct vs as [|v2 vs]; [discriminate B|]. cbn [map] in A, B.
    injection A as A1 A2. injection B as B1 B2. subst v2. cbn [map2]. rewrite (IH cl vs); [|cbn in L; lia|exact A2|exact B2].
    unfold with_saver. cbn in A1. rewrite A1. reflexivity.
Qed.

Lemma round_trip force name multi tEn tlife o f o' : sim_state_single_save true multi tEn tlife true o = (o', Written f) ->
  in_use (Be:=Be) (Cl:=Cl) (Re:=Re) factor new_state true false (ob_sc o) ->
  forall o0 rs, length (ob_clouds o0) = length (ob_clouds o) -> map oc_saver (ob_clouds o0) = map Saver rs ->
  exists o1 rs', load_state factor new_state force name f o0 = Some o1 /\
    Forall2 (goes_on force) rs rs' /\
    same_simulation (mkObjs (ob_beam o) (ob_sc o) (ob_tsc o) (ob_pres o) (ob_secs o) multi (map2 with_saver (ob_clouds o) (map Saver rs'))) o1.
Proof.
  intros V U o0 rs L E. destruct (use_ok _ _ _ U) as (I1 & I2 & I3).
  destruct (save_written _ _ _ _ _ _ _ _ V) as (_ & _ & SV).
  destruct (save_ok multi tEn tlife o SV) as (o2 & f2 & V2 & _ & FO). rewrite V2 in V. injection V as _ <-. clear V2 SV.
  destruct FO as (F1 & F2 & F3 & F4 & F5 & F6 & F7 & F8 & F9 & F10 & F11 & F12 & F13 & _). specialize (F13 I1). destruct F13 as (G1 & G2 & G3 & G4 & G5).
  assert (L2 : length (ob_clouds o) = length (ob_clouds (fi_objs f2))) by (rewrite <- (map_length oc_rest), <- F8, map_length; reflexivity).
  destruct (load_spec force name f2 o0 F12 ltac:(lia) rs E) as (o1 & rs' & A & B & C).
  exists o1, rs'. split; [exact A|]. split; [clear - C; induction C as [|x y l l' (H & _) C IH]; constructor; assumption|].
  destruct B as (B1 & B2 & B3 & B4 & B5 & B6 & B7 & B8 & B9 & B10 & B11 & B12 & B13 & _). rewrite F11 in B13. specialize (B13 I1). destruct B13 as (H1 & H2 & H3).
  assert (Lr : length rs' = length (ob_clouds o)).
  { rewrite <- (Forall2_length C), <- (map_length (@Saver Re) rs), <- E, map_length. exact L. }
  unfold same_simulation. cbn [ob_beam ob_sc ob_tsc ob_pres ob_secs ob_multi ob_clouds].
  do 5 (split; [congruence|]). split.
  { apply clouds_eq; [rewrite map_length; exact Lr| |].
    - rewrite B6, F8, L, <- (map_length oc_rest (ob_clouds o)). apply firstn_all.
    - rewrite B7, L, <- Lr, <- (map_length (@Saver Re) rs'). generalize (map (@Saver Re) rs'). clear.
      intros l. induction l as [|v l IH]; [reflexivity|]. cbn [length seq map nth]. rewrite <- seq_shift, map_map. cbn [nth]. f_equal. exact IH. }
  rewrite B10, I2, F10, B9, F11, B8, F10, H1, H2, H3, G1, G2, G3, B11, B12, G4, G5. repeat split.
Qed.
End S.

(** * Names *)

Lemma strip_app a s : strip a (a ++ s)%string = Some s.
Proof. induction a as [|c a IH]; [reflexivity|]. cbn. rewrite Ascii.eqb_refl. exact IH. Qed.
Lemma strip_some a s r : strip a s = Some r -> s = (a ++ r)%string.
Proof.
  revert s. induction a as [|c a IH]; intros s H; [injection H as ->; reflexivity|].
  destruct s as [|d s]; [discriminate H|]. cbn in H. destruct (Ascii.eqb c d) eqn:E; [|discriminate H].
  apply Ascii.eqb_eq in E. subst d. cbn. rewrite (IH s H). reflexivity.
Qed.
Lemma app_nil s : (s ++ "")%string = s.
Proof. induction s as [|c s IH]; [reflexivity|]. cbn. rewrite IH. reflexivity. Qed.
Lemma app_as a b c : ((a ++ b) ++ c)%string = (a ++ b ++ c)%string.
Proof. induction a as [|x a IH]; [reflexivity|]. cbn. rewrite IH. reflexivity. Qed.

Lemma occurs_cons sub c s : occurs sub s -> occurs sub (String c s).
Proof. intros (a & b & ->). exists (String c a), b. reflexivity. Qed.

Lemma last_part_none n sub acc s : ~ occurs sub s -> (String.length s <= n)%nat -> last_part n sub acc s = (acc ++ s)%string.
Proof.
  revert acc s. induction n as [|n IH]; intros acc s N L; [reflexivity|]. cbn [last_part].
  destruct (strip sub s) as [r|] eqn:E; [exfalso; apply N; exists ""%string, r; exact (strip_some _ _ _ E)|].
  destruct s as [|c s]; [rewrite app_nil; reflexivity|]. rewrite IH; [rewrite app_as; reflexivity|intros X; apply N, occurs_cons, X|cbn in L; lia].
Qed.
Lemma split_last_none sub s : ~ occurs sub s -> split_last sub s = s.
Proof. intros N. apply (last_part_none _ sub ""%string s N). apply le_n. Qed.
Lemma split_last_after c sub s : ~ occurs (String c sub) s -> split_last (String c sub) (String c sub ++ s)%string = s.
Proof.
  intros N. unfold split_last. cbn [String.length append]. cbn [last_part].
  change (String c (sub ++ s))%string with (String c sub ++ s)%string. rewrite strip_app. apply (last_part_none _ _ ""%string s N).
  clear N. induction sub as [|d sub IH]; cbn [append String.length]; lia.
Qed.

Lemma before_mat root : ~ occurs ".mat" root -> before ".mat" (root ++ ".mat") = root.
Proof.
  induction root as [|c root IH]; intros N; [reflexivity|].
  change (String c root ++ ".mat")%string with (String c (root ++ ".mat")).
  cbn [before]. destruct (strip ".mat" (String c (root ++ ".mat"))) as [r|] eqn:E.
  - exfalso. apply N. clear IH N. apply strip_some in E.
    destruct root as [|c1 root]; [discriminate E|]. destruct root as [|c2 root]; [discriminate E|]. destruct root as [|c3 root]; [discriminate E|].
    injection E as -> -> -> -> _. exists ""%string, root. reflexivity.
  - rewrite IH; [reflexivity|]. intros X. apply N, occurs_cons, X.
Qed.

(** * Checkpoints *)
Section K.
Context {Lu St Pic Be Cl Re : Type}.
Context (factor : Pic -> Lu) (new_state : Pic -> St) (tt : Be -> R) (output : R -> recd Re -> option (recd Re)).
Implicit Types (o : objs Lu St Pic Be Cl Re) (f : pfile Lu St Pic Be Cl Re).

Definition at_checkpoint (i : nat) (t tEn : R) (r : recd Re) : recd Re := mkRecd (r_sim r) (r_file r) (S i) t tEn (r_rest r).

Lemma mapM_savers (i : nat) (t tEn : R) (l : list (ocloud Cl Re)) : forall rs rs2, map oc_saver l = map Saver rs -> Forall2 (fun r r2 => output t r = Some r2) rs rs2 ->
  exists l', mapM (fun c => match oc_saver c with
      | Saver r => do r <- output t r ; Some (with_saver c (Saver (mkRecd (r_sim r) (r_file r) (S i) t tEn (r_rest r))))
      | _ => None end) l = Some l' /\ map oc_rest l' = map oc_rest l /\ map oc_saver l' = map (fun r => Saver (at_checkpoint i t tEn r)) rs2.
Proof.
  induction l as [|c l IH]; intros rs rs2 E F.
  - destruct rs; [|discriminate E]. inversion F; subst. exists []. repeat split.
  - destruct rs as [|r rs]; [discriminate E|]. injection E as E1 E2. inversion F as [|a b m m' O F' q1 q2]; subst.
    destruct (IH rs _ E2 F') as (l' & A & B & C). eexists. cbn [mapM]. rewrite E1, O. cbn [bind]. rewrite A. cbn [bind].
    split; [reflexivity|]. cbn [map]. rewrite B, C. split; reflexivity.
Qed.

Lemma checkpoint_spec path i f o rs rs2 :
  ck_number path = Some i -> sp_pic_lu (ob_sc (fi_objs f)) = Some None -> (length (ob_clouds o) <= length (ob_clouds (fi_objs f)))%nat ->
  map oc_saver (ob_clouds o) = map Saver rs -> Forall2 (fun r r2 => output (tt (ob_beam (fi_objs f))) r = Some r2) rs rs2 ->
  exists o', load_checkpoint factor new_state tt output path f o = Some o' /\
    taken_over factor new_state f (fun k => nth k (map (fun r => Saver (at_checkpoint i (tt (ob_beam (fi_objs f))) (fi_tEn f) r)) rs2) NoSaver) (length (ob_clouds o)) o'.
Proof.
  intros N P L E F.
  assert (X : exists o1, load_state factor new_state false None f o = Some o1 /\ taken_over factor new_state f (fun k => nth k (map Saver rs) NoSaver) (length (ob_clouds o)) o1).
  { assert (Y : Forall2 (fun c v => restarted false None (oc_saver c) = Some v) (ob_clouds o) (map Saver rs)).
    { revert E. clear. revert rs. induction (ob_clouds o) as [|c l IH]; intros rs E; (destruct rs as [|r rs]; try discriminate E; cbn [map]; constructor).
      - injection E as E1 _. rewrite E1. destruct r; reflexivity.
      - apply IH. injection E as _ E2. exact E2. }
    destruct (take_over_spec false None _ _ L _ Y) as (r & R1 & R2 & R3).
    destruct (restore_spec factor new_state _ P) as (s' & S1 & S2 & S3 & S4 & S5 & S6 & S7 & S8).
    unfold load_state. cbn zeta. rewrite R1. cbn [bind]. rewrite S1. cbn [bind]. eexists. split; [reflexivity|].
    unfold taken_over. cbn [ob_beam ob_sc ob_tsc ob_pres ob_secs ob_multi ob_clouds]. cbn zeta. rewrite R2, R3.
    do 6 (split; [reflexivity|]). split; [|tauto].
    assert (Ln : length (ob_clouds o) = length (map Saver rs)) by (rewrite <- E, map_length; reflexivity).
    rewrite Ln. generalize (map (@Saver Re) rs). clear.
    intros l. induction l as [|v l IH]; [reflexivity|]. cbn [length seq map nth]. rewrite <- seq_shift, map_map. cbn [nth]. f_equal. exact IH. }
  destruct X as (o1 & A & B). unfold load_checkpoint. rewrite N. cbn [bind]. rewrite A. cbn [bind].
  destruct B as (B1 & B2 & B3 & B4 & B5 & B6 & B7 & B8). rewrite B1.
  assert (E1 : map oc_saver (ob_clouds o1) = map Saver rs).
  { rewrite B7. assert (Ln : length (ob_clouds o) = length (map Saver rs)) by (rewrite <- E, map_length; reflexivity).
    rewrite Ln. generalize (map (@Saver Re) rs). clear.
    intros l. induction l as [|v l IH]; [reflexivity|]. cbn [length seq map nth]. rewrite <- seq_shift, map_map. cbn [nth]. f_equal. exact IH. }
  destruct (mapM_savers i (tt (ob_beam (fi_objs f))) (fi_tEn f) _ _ _ E1 F) as (l' & M1 & M2 & M3). rewrite M1. cbn [bind].
  eexists. split; [reflexivity|]. unfold taken_over. cbn [set_clouds ob_beam ob_sc ob_tsc ob_pres ob_secs ob_multi ob_clouds]. cbn zeta. rewrite M2, M3.
  do 6 (split; [assumption|]). split; [|exact B8].
  assert (Ln : length (ob_clouds o) = length rs2).
  { rewrite <- (Forall2_length F), <- (map_length (@Saver Re) rs), <- E, map_length. reflexivity. }
  rewrite Ln, <- (map_length (fun r => Saver (at_checkpoint i (tt (ob_beam (fi_objs f))) (fi_tEn f) r)) rs2).
  generalize (map (fun r => Saver (at_checkpoint i (tt (ob_beam (fi_objs f))) (fi_tEn f) r)) rs2). clear.
  intros l. induction l as [|v l IH]; [reflexivity|]. cbn [length seq map nth]. rewrite <- seq_shift, map_map. cbn [nth]. f_equal. exact IH.
Qed.
End K.

(** * Recomputation, and clouds without recorder *)
Section More.
Context {Lu St Pic Be Cl Re : Type} (factor : Pic -> Lu) (new_state : Pic -> St).

Lemma recompute_em lu ax ay p (s : spc Lu St Pic) : in_use (Be:=Be) (Cl:=Cl) (Re:=Re) factor new_state lu true s ->
  exists oax oay, sp_Ax s = Some (Some oax) /\ sp_Ay s = Some (Some oay) /\
    recomputed ax ay p s = Some (mkSpc (sp_pic_lu s) (sp_lu s) true (Some (Some ax)) (Some (Some ay)) (sp_As s) (Some (Some oax)) (Some (Some oay)) p).
Proof.
  intros U. enough (K : sp_em s = true /\ exists oax oay, sp_Ax s = Some (Some oax) /\ sp_Ay s = Some (Some oay)).
  { destruct K as (E & oax & oay & A & B). exists oax, oay. split; [exact A|]. split; [exact B|]. unfold recomputed. rewrite E, A, B. reflexivity. }
  induction U as [p0|s1 ax1 ay1 p1 s' U IH F R|o last multi tEn tlife dumps o' r U IH V N].
  - split; [reflexivity|]. do 2 eexists. split; reflexivity.
  - destruct IH as (E & oax & oay & A & B). unfold recomputed in R. rewrite E, A, B in R. injection R as <-.
    split; [reflexivity|]. exists ax1, ay1. split; reflexivity.
  - destruct last.
    + destruct r as [|f|]; [exfalso; exact (save_last_nothing _ _ _ _ _ _ _ V eq_refl)| |exfalso; exact (N eq_refl)].
      destruct (save_written _ _ _ _ _ _ _ _ V) as (_ & D & S).
      destruct (save_ok multi tEn tlife o S) as (o2 & f2 & V2 & G & _). rewrite D in V. rewrite V2 in V. injection V as -> _.
      destruct G as (_ & _ & _ & _ & _ & _ & _ & G1 & _ & G2 & G3 & _). rewrite G1, G2, G3. exact IH.
    + rewrite save_not_last in V. injection V as <- _. exact IH.
Qed.

Lemma recompute_plain ax ay p (s : spc Lu St Pic) : sp_em s = false ->
  recomputed ax ay p s = Some (mkSpc (sp_pic_lu s) (sp_lu s) false (sp_Ax s) (sp_Ay s) (sp_As s) (sp_Axo s) (sp_Ayo s) p).
Proof. intros E. unfold recomputed. rewrite E. reflexivity. Qed.

Lemma take_over_none name (new old : list (ocloud Cl Re)) v : (forall r, v <> Saver r) -> In v (map oc_saver new) ->
  take_over true name new old = None /\ (forall x, name = Some x -> take_over false name new old = None).
Proof.
  intros V. revert old. induction new as [|n new IH]; intros old H; [destruct H|].
  destruct old as [|c old]; [split; reflexivity|]. cbn [map] in H. cbn [take_over].
  destruct H as [H|H].
  - rewrite H. destruct v as [| |r]; [| |exfalso; exact (V r eq_refl)]; (split; [reflexivity|]; intros x ->; reflexivity).
  - destruct (IH old H) as (A & B). split.
    + destruct (restarted true name (oc_saver n)); cbn [bind]; [rewrite A|]; reflexivity.
    + intros x ->. destruct (restarted false (Some x) (oc_saver n)); cbn [bind]; [rewrite (B x eq_refl)|]; reflexivity.
Qed.

Lemma take_over_as_is (new old : list (ocloud Cl Re)) : (length new <= length old)%nat ->
  exists cl, take_over false None new old = Some cl /\ map oc_saver cl = map oc_saver new /\ map oc_rest cl = firstn (length new) (map oc_rest old).
Proof.
  revert old. induction new as [|n new IH]; intros old L; [exists []; split; [reflexivity|split; reflexivity]|].
  destruct old as [|c old]; [cbn in L; lia|]. destruct (IH old ltac:(cbn in L; lia)) as (cl & A & B & C).
  exists (with_saver c (oc_saver n) :: cl). cbn [take_over].
  assert (Q : restarted false None (oc_saver n) = Some (oc_saver n)) by (destruct (oc_saver n); reflexivity).
  rewrite Q. cbn [bind]. rewrite A. cbn [bind]. split; [reflexivity|]. cbn [map firstn length]. rewrite B, C. split; reflexivity.
Qed.

Lemma load_none name f (o : objs Lu St Pic Be Cl Re) v : (forall r, v <> Saver r) -> In v (map oc_saver (ob_clouds o)) ->
  load_state factor new_state true name f o = None /\ (forall x, name = Some x -> load_state factor new_state false name f o = None).
Proof.
  intros V H. destruct (take_over_none name (ob_clouds o) (ob_clouds (fi_objs f)) v V H) as (A & B). unfold load_state.
  split; [rewrite A; reflexivity|]. intros x E. rewrite (B x E). reflexivity.
Qed.

Lemma load_as_is f (o : objs Lu St Pic Be Cl Re) : sp_pic_lu (ob_sc (fi_objs f)) = Some None ->
  (length (ob_clouds o) <= length (ob_clouds (fi_objs f)))%nat ->
  exists o1, load_state factor new_state false None f o = Some o1 /\ map oc_saver (ob_clouds o1) = map oc_saver (ob_clouds o) /\
    map oc_rest (ob_clouds o1) = firstn (length (ob_clouds o)) (map oc_rest (ob_clouds (fi_objs f))).
Proof.
  intros P L. destruct (take_over_as_is _ _ L) as (cl & A & B & C). destruct (restore_spec factor new_state _ P) as (s' & D & _).
  unfold load_state. rewrite A. cbn [bind]. rewrite D. cbn [bind]. eexists. split; [reflexivity|]. split; assumption.
Qed.
End More.
