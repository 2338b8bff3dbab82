(** Lifetime histograms of a run that continues from a checkpoint. *)
From Coq Require Import String Lia Lra.
From Verif Require Import Num MP Impact Saver SpecSaver SaverFacts SaverFacts3 SaverFacts7.
Local Open Scope string_scope.
Local Open Scope list_scope.
Local Open Scope R_scope.

Lemma append_nums_other : forall l d d' k, append_nums d l = Some d' -> ~ In k (map fst l) -> get d' k = get d k.
Proof.
  induction l as [|[n v] l IH]; intros d d' k E N; cbn [append_nums] in E; [congruence|].
  unfold append_num in E. cbn [fst snd] in E. destruct (get d n) as [[]|]; try discriminate E. cbn [bind] in E.
  rewrite (IH _ _ _ E) by (intros X; apply N; right; exact X). apply get_put_other. intros ->. apply N. left. reflexivity.
Qed.
Lemma append_nums_keys : forall l d d', append_nums d l = Some d' -> map fst d' = map fst d.
Proof.
  induction l as [|[n v] l IH]; intros d d' E; cbn [append_nums] in E; [congruence|].
  unfold append_num in E. cbn [fst snd] in E. destruct (get d n) as [[]|] eqn:G; try discriminate E. cbn [bind] in E.
  rewrite (IH _ _ E). apply put_keys. eapply get_In, G.
Qed.
Lemma append_rows_other : forall l d d' k, append_rows d l = Some d' -> ~ In k (map fst l) -> get d' k = get d k.
Proof.
  induction l as [|[n v] l IH]; intros d d' k E N; cbn [append_rows] in E; [congruence|].
  unfold append_row in E. cbn [fst snd] in E. destruct (get d n) as [[]|]; try discriminate E. cbn [bind] in E.
  rewrite (IH _ _ _ E) by (intros X; apply N; right; exact X). apply get_put_other. intros ->. apply N. left. reflexivity.
Qed.
Lemma setitems_other : forall l d i d' k, setitems d i l = Some d' -> ~ In k (map fst l) -> get d' k = get d k.
Proof.
  induction l as [|[n v] l IH]; intros d i d' k E N; cbn [setitems] in E; [congruence|].
  unfold setitem in E. cbn [fst snd] in E. destruct (get d n) as [[]|]; try discriminate E.
  destruct (py_set _ i v); [|discriminate E]. cbn [bind] in E.
  rewrite (IH _ _ _ _ E) by (intros X; apply N; right; exact X). apply get_put_other. intros ->. apply N. left. reflexivity.
Qed.
Lemma double_all_other : forall l d d' k, double_all d l = Some d' -> ~ In k l -> get d' k = get d k.
Proof.
  induction l as [|n l IH]; intros d d' k E N; cbn [double_all] in E; [congruence|].
  unfold double_at in E. destruct (get d n) as [[]|]; try discriminate E. cbn [bind] in E.
  rewrite (IH _ _ _ E) by (intros X; apply N; right; exact X). apply get_put_other. intros ->. apply N. left. reflexivity.
Qed.
Lemma update_other : forall e d k, ~ In k (map fst e) -> get (update d e) k = get d k.
Proof.
  unfold update. induction e as [|[n v] e IH]; intros d k N; cbn [fold_left]; [reflexivity|].
  rewrite IH by (intros X; apply N; right; exact X). apply get_put_other. intros ->. apply N. left. reflexivity.
Qed.

Ltac away := match goal with H : In ?k lnames |- ~ In ?k _ => apply (apartb_ok lnames); [reflexivity|exact H] end.

Lemma sc_life ob s s' : sc_energy_save ob s = Some s' ->
  (forall k, In k lnames -> get (v_at s') k = get (v_at s) k) /\ v_tlife s' = v_tlife s /\ v_sbs s' = v_sbs s /\ v_pbp s' = v_pbp s.
Proof.
  unfold sc_energy_save. destruct (ob_check ob); [|intros [= <-]; auto].
  destruct (append_nums _ _) as [a|] eqn:A; [|discriminate]. cbn [bind]. intros [= <-]. cbn [v_at v_tlife v_sbs v_pbp]. split; [|auto].
  intros k K. apply (append_nums_other _ _ _ _ A). away.
Qed.

Lemma en_life c ob g s s' g' : energy_save c ob g s = Some (s', g') ->
  (forall k, In k lnames -> get (v_at s') k = get (v_at s) k) /\ v_tlife s' = v_tlife s /\ v_sbs s' = v_sbs s /\ v_pbp s' = v_pbp s.
Proof.
  unfold energy_save. destruct (_ || _); [|intros [= <- <-]; auto].
  destruct (ekin_hist c (ob_mp ob)) as [e|]; [|discriminate]. cbn [bind].
  destruct (append_rows _ _) as [a|] eqn:A; [|discriminate]. cbn [bind].
  destruct (append_nums a _) as [a2|] eqn:A2; [|discriminate]. cbn [bind].
  destruct (append_lines c g a2) as [a3|] eqn:A3; [|discriminate]. cbn [bind]. intros [= <- <-]. cbn [v_at v_tlife v_sbs v_pbp]. split; [|auto].
  intros k K. transitivity (get a2 k).
  - unfold append_lines in A3. destruct (_ && _); [|congruence]. destruct (get a2 "En_hist_seg") as [[]|]; try discriminate A3.
    injection A3 as <-. apply get_put_other. intros ->. destruct K as [K|[K|[]]]; discriminate K.
  - rewrite (append_nums_other _ _ _ _ A2) by away. apply (append_rows_other _ _ _ _ A). destruct (c_cos c); away.
Qed.

Lemma resize_life c s a sb : check_for_data_resize c s = Some (a, sb) -> v_sbs s = [] ->
  (forall k, In k lnames -> get a k = get (v_at s) k) /\ sb = [].
Proof.
  unfold check_for_data_resize. destruct (get (v_at s) "t") as [[]|]; try discriminate. intros E Z. rewrite Z in E.
  destruct (_ <=? _)%Z; [|injection E as <- <-; auto]. cbn [map double_all bind] in E.
  destruct (double_all (v_at s) (sbs_members c)) as [a'|] eqn:A; [|discriminate]. cbn [bind] in E.
  assert (F : forall k, In k lnames -> get a' k = get (v_at s) k).
  { intros k K. apply (double_all_other _ _ _ _ A). unfold sbs_members. destruct (c_det c), (c_cross c), (c_elec c); away. }
  destruct (c_probes c); [injection E as <- <-; auto|]. destruct (get a' "el_dens_at_probes") as [[]|]; try discriminate E.
  injection E as <- <-. split; [|auto]. intros k K. rewrite get_put_other; [auto|]. intros ->. destruct K as [K|[K|[]]]; discriminate K.
Qed.

Lemma sbs_life c ob g s s' : c_custom c = [] -> v_sbs s = [] -> stepbystep_data_save c ob g s = Some s' ->
  (forall k, In k lnames -> get (v_at s') k = get (v_at s) k) /\ v_tlife s' = v_tlife s /\ v_sbs s' = [] /\ v_pbp s' = v_pbp s.
Proof.
  intros CC Z. unfold stepbystep_data_save. destruct (Rgeb _ _); [|intros [= <-]; cbn; auto].
  destruct (check_for_data_resize c s) as [[a sb]|] eqn:RZ; [|discriminate]. cbn [bind].
  destruct (resize_life _ _ _ _ RZ Z) as (F & ->). rewrite CC. cbn [map setitems bind].
  destruct (setitems a _ _) as [a1|] eqn:A1; [|discriminate]. cbn [bind].
  destruct (probe_writes c _ _ a1) as [a2|] eqn:A2; [|discriminate]. cbn [bind]. intros [= <-]. cbn [v_at v_tlife v_sbs v_pbp]. split; [|auto].
  intros k K. transitivity (get a1 k).
  - unfold probe_writes in A2. destruct (c_probes c) as [|p ps]; [congruence|]. destruct (get a1 "el_dens_at_probes") as [[]|]; try discriminate A2.
    destruct (probe_rows _ _ _ _); [|discriminate A2]. cbn [bind] in A2. injection A2 as <-. apply get_put_other. intros ->. destruct K as [K|[K|[]]]; discriminate K.
  - rewrite (setitems_other _ _ _ _ _ A1); [auto|]. unfold sbs_writes. destruct (c_elec c), (c_det c), (c_cross c); away.
Qed.

Lemma pass_life c ob g s s' g' : pass_by_pass_data_save c ob g s = Some (s', g') ->
  (forall k, In k lnames -> get (v_at s') k = get (v_at s) k) /\ v_tlife s' = v_tlife s /\ v_sbs s' = v_sbs s /\ map fst (v_pbp s') = map fst (v_pbp s).
Proof.
  unfold pass_by_pass_data_save. destruct (position_hist c _) as [h|]; [|discriminate]. cbn [bind].
  destruct (detail_line c _ _) as [dl|]; [|discriminate]. cbn [bind].
  destruct (append_rows _ _) as [a|] eqn:A; [|discriminate]. cbn [bind].
  destruct (append_nums a _) as [a2|] eqn:A2; [|discriminate]. cbn [bind].
  destruct (append_nums (v_pbp s) _) as [p|] eqn:P; [|discriminate]. cbn [bind]. intros [= <- <-]. cbn [v_at v_tlife v_sbs v_pbp].
  split; [|split; [auto|split; [auto|apply (append_nums_keys _ _ _ P)]]].
  intros k K. rewrite (append_nums_other _ _ _ _ A2) by away. apply (append_rows_other _ _ _ _ A). destruct (k_seg (c_ic c)), (c_hdet c); away.
Qed.

(** What the recorder holds: times and number of the lifetime histograms. *)
Definition held (ts : list R) (s : sst) : Prop :=
  get (v_at s) "t_lifetime_hist" = Some (VArr ts) /\ exists m, get (v_at s) "lifetime_hist" = Some (VMat m) /\ List.length m = List.length ts.
Lemma held_frame ts s s' : held ts s -> (forall k, In k lnames -> get (v_at s') k = get (v_at s) k) -> held ts s'.
Proof. intros (A & m & B & L) F. split; [|exists m]; rewrite F by (cbn; tauto); auto. Qed.

Lemma life_due c D ob d g s s' g' ts : c_life c = Some D -> held ts s -> lifetime_save c ob g s = Some (s', g') ->
  v_sbs s' = v_sbs s /\ v_pbp s' = v_pbp s /\
  if hist_due D (v_tlife s) (ob, d) then held (ts ++ [ob_t ob]) s' /\ v_tlife s' = ob_t ob else held ts s' /\ v_tlife s' = v_tlife s.
Proof.
  intros EL (A & m & B & L). unfold lifetime_save, hist_due, s_time. fold (isclose (ob_t (fst (ob, d))) (v_tlife s + D)). rewrite EL. cbn [fst].
  destruct (Rgeb _ _ || _).
  2: { intros [= <- <-]. split; [auto|]. split; [auto|]. split; [|auto]. split; [auto|eauto]. }
  cbn [append_rows append_nums]. unfold append_row at 1. cbn [fst snd]. rewrite B. cbn [bind].
  unfold append_num at 1. cbn [fst snd]. rewrite get_put_other, A by discriminate. cbn [bind]. intros [= <- <-]. cbn [v_at v_tlife v_sbs v_pbp].
  split; [auto|]. split; [auto|]. split; [|auto]. split; cbn [v_at].
  - apply get_put_same.
  - exists (m ++ [g_life g]). rewrite get_put_other, get_put_same by discriminate. split; [auto|]. rewrite !app_length. cbn. lia.
Qed.

Lemma witness_life c D ob d g s s' g' f ts : c_life c = Some D -> c_custom c = [] -> v_sbs s = [] -> held ts s ->
  witness c ob g s = Some (s', g', f) ->
  v_sbs s' = [] /\ map fst (v_pbp s') = map fst (v_pbp s) /\
  if hist_due D (v_tlife s) (ob, d) then held (ts ++ [ob_t ob]) s' /\ v_tlife s' = ob_t ob else held ts s' /\ v_tlife s' = v_tlife s.
Proof.
  intros EL CC Z H. unfold witness, energy_hist_save.
  destruct (energy_save c ob g s) as [[s0 g0]|] eqn:E0; [|discriminate]. cbn [bind].
  destruct (en_life _ _ _ _ _ _ E0) as (F0 & T0 & S0 & P0). assert (H0 := held_frame _ _ _ H F0).
  destruct (lifetime_save c ob g0 s0) as [[s1 g1]|] eqn:E1; [|discriminate]. cbn [bind].
  destruct (life_due c D ob d g0 s0 s1 g1 ts EL H0 E1) as (S1 & P1 & Q). rewrite T0 in Q.
  destruct (sc_energy_save ob s1) as [s2|] eqn:E2; [|discriminate]. cbn [bind]. destruct (sc_life _ _ _ E2) as (F2 & T2 & S2 & P2).
  assert (Z2 : v_sbs s2 = []) by congruence.
  destruct (stepbystep_data_save c ob g1 s2) as [s3|] eqn:E3; [|discriminate]. cbn [bind]. destruct (sbs_life _ _ _ _ _ CC Z2 E3) as (F3 & T3 & S3 & P3).
  intros W. assert (K : v_sbs s' = [] /\ map fst (v_pbp s') = map fst (v_pbp s3) /\ (forall k, In k lnames -> get (v_at s') k = get (v_at s3) k) /\ v_tlife s' = v_tlife s3).
  { destruct (ob_new ob); [|injection W as <- <- <-; auto].
    destruct (pass_by_pass_data_save c ob g1 s3) as [[s4 g4]|] eqn:E4; [|discriminate]. cbn [bind] in W.
    destruct (pass_life _ _ _ _ _ _ E4) as (F4 & T4 & S4 & P4). destruct (c_every c =? 0)%Z; [discriminate|].
    destruct (_ =? 0)%Z; [destruct (build_outp_dict c s4); [|discriminate]; cbn [bind] in W|]; injection W as <- <- <-; (split; [congruence|auto]). }
  destruct K as (K1 & K2 & K3 & K4). split; [exact K1|]. split; [congruence|].
  assert (FF : forall k, In k lnames -> get (v_at s') k = get (v_at s1) k) by (intros k Hk; rewrite K3, F3, F2 by exact Hk; reflexivity).
  assert (TT : v_tlife s' = v_tlife s1) by congruence.
  destruct (hist_due _ _ _); destruct Q as (Q1 & Q2); (split; [exact (held_frame _ _ _ Q1 FF)|congruence]).
Qed.

Lemma run_life c D : c_life c = Some D -> c_custom c = [] -> forall l g s file s' g' f ts, v_sbs s = [] -> held ts s ->
  record_run c l g s file = Some (s', g', f) ->
  v_sbs s' = [] /\ map fst (v_pbp s') = map fst (v_pbp s) /\
  exists ls rest, l = concat ls ++ rest /\ groups (hist_due D) (v_tlife s) ls rest /\ held (ts ++ map (now ob_t) ls) s'.
Proof.
  intros EL CC. induction l as [|[ob d] l IH]; intros g s file s' g' f ts Z H E; cbn [record_run] in E.
  { injection E as <- <- <-. split; [auto|]. split; [auto|]. exists [], []. split; [auto|]. split; [constructor; constructor|]. cbn. rewrite app_nil_r. exact H. }
  destruct (witness c ob (feed g d) s) as [[[s1 g1] f1]|] eqn:W; [|discriminate]. cbn [bind] in E.
  destruct (witness_life c D ob d _ _ _ _ _ ts EL CC Z H W) as (Z1 & P1 & Q).
  destruct (hist_due D (v_tlife s) (ob, d)) eqn:HD; destruct Q as (Q1 & Q2); destruct (IH _ _ _ _ _ _ _ Z1 Q1 E) as (Z2 & P2 & ls & rest & L & G & HH).
  - split; [exact Z2|]. split; [congruence|]. exists ([(ob, d)] :: ls), rest. split; [cbn; rewrite L; reflexivity|]. split.
    + apply (groups_cons (hist_due D) _ [] (ob, d)); [constructor|exact HD|]. rewrite Q2 in G. exact G.
    + rewrite <- app_assoc in HH. exact HH.
  - split; [exact Z2|]. split; [congruence|]. rewrite Q2 in G. inversion G as [? ? FR|? g2 q gs ? FG HQ G2]; subst.
    + exists [], ((ob, d) :: rest). split; [reflexivity|]. split; [constructor; constructor; auto|exact HH].
    + exists (((ob, d) :: g2 ++ [q]) :: gs), rest. split; [reflexivity|]. split.
      * apply (groups_cons (hist_due D) _ ((ob, d) :: g2) q); auto.
      * cbn [map] in *. replace (now ob_t ((ob, d) :: g2 ++ [q])) with (now ob_t (g2 ++ [q])); [exact HH|].
        change ((ob, d) :: g2 ++ [q]) with (((ob, d) :: g2) ++ [q]). rewrite !now_last. reflexivity.
Qed.

(** The state with which a run continues. *)
Lemma resumed_held c D n file t tE sL : c_life c = Some D -> resumed c n file t tE = Some sL ->
  c_custom c = [] /\ v_sbs sL = [] /\ map fst (v_pbp sL) = c_pcustom c /\ v_tlife sL = -1 /\ held [] sL.
Proof.
  intros EL. unfold resumed. destruct (load_from_output c file t (start_observing c n)) as [s|] eqn:E; [|discriminate]. cbn [bind]. intros [= <-].
  unfold load_from_output in E. destruct (c_custom c) eqn:CC; [|discriminate].
  destruct (closest _ t) as [i|]; [|discriminate]. cbn [bind] in E. destruct (closest _ t) as [j|]; [|discriminate]. cbn [bind] in E.
  destruct (closest _ t) as [m|]; [|discriminate]. cbn [bind] in E.
  set (hist := loaded file) in *. set (d1 := restore hist (cut i) timestep_list []) in *.
  set (cs := constant_list ++ _) in E.
  set (d4 := restore hist (cut (m + 1)) ["t_sc_video"] (restore hist (fun v => v) cs (restore hist (cut (j + 1)) passage_list d1))) in E.
  assert (ND : NoDup (map fst d4)) by (unfold d4, d1; repeat apply restore_nodup; constructor).
  assert (G4 : forall k, In k lnames -> get d4 k = None).
  { intros k K. unfold d4, d1. rewrite !restore_get. unfold cs. rewrite EL. destruct K as [<-|[<-|[]]]; reflexivity. }
  assert (S0 : s = mkSst (v_i s) (-1) 0 0 0 0 (update (v_at (start_observing c n)) d4) (v_sbs (start_observing c n)) (v_pbp (start_observing c n)) (-1) (-1) (v_dline s)).
  { clear G4 ND. clearbody d4. destruct (get d1 "Nel_timep") as [[]|], (get hist "t_sc_video") as [[]|]; try discriminate E; injection E as <-; reflexivity. }
  rewrite S0. cbn [v_at v_sbs v_pbp v_tlife start_observing]. rewrite CC. split; [auto|]. split; [auto|].
  split. { rewrite map_map. cbn [fst]. apply map_id. }
  split; [auto|]. split; cbn [v_at].
  - rewrite (update_get _ _ _ ND), G4 by (cbn; tauto). rewrite !get_app. unfold hist_init. rewrite EL. reflexivity.
  - exists []. split; [|reflexivity]. rewrite (update_get _ _ _ ND), G4 by (cbn; tauto). rewrite !get_app. unfold hist_init. rewrite EL. reflexivity.
Qed.

Lemma get_all_at : forall ks d r k, get_all d ks = Some r -> In k ks -> get r k = get d k.
Proof.
  induction ks as [|n ks IH]; intros d r k E H; [destruct H|]. cbn [get_all] in E.
  destruct (get d n) as [v|] eqn:G; [|discriminate]. cbn [bind] in E. destruct (get_all d ks) as [r'|] eqn:Q; [|discriminate]. cbn [bind] in E. injection E as <-.
  cbn [get]. destruct (String.eqb k n) eqn:K; [apply String.eqb_eq in K; congruence|].
  apply (IH _ _ _ Q). destruct H as [H|H]; [|exact H]. subst n. rewrite String.eqb_refl in K. discriminate K.
Qed.
Lemma cut_all_keys : forall ks d z r, cut_all d z ks = Some r -> map fst r = ks.
Proof.
  induction ks as [|n ks IH]; intros d z r E; cbn [cut_all] in E; [injection E as <-; reflexivity|].
  unfold cut_at in E. destruct (get d n) as [[]|]; try discriminate E. cbn [bind] in E. destruct (cut_all d z ks) as [r'|] eqn:Q; [|discriminate]. cbn [bind] in E.
  injection E as <-. cbn. f_equal. exact (IH _ _ _ Q).
Qed.
Lemma outp_life c D s d k : c_life c = Some D -> c_only c = None -> v_sbs s = [] -> map fst (v_pbp s) = c_pcustom c -> In k lnames ->
  ~ In k (map fst (c_const c) ++ c_pcustom c ++ map fst (c_once c)) -> build_outp_dict c s = Some d -> get d k = get (v_at s) k.
Proof.
  intros EL CO Z P K N. unfold build_outp_dict. destruct (get_all _ _) as [a|] eqn:A; [|discriminate]. cbn [bind].
  destruct (stepbystep_get_dict c s) as [b|] eqn:B; [|discriminate]. cbn [bind]. rewrite CO. intros [= <-].
  rewrite !in_app_iff in N. rewrite update_other by tauto. rewrite update_other by (rewrite P; tauto).
  assert (NB : ~ In k (map fst b)).
  { unfold stepbystep_get_dict in B. rewrite Z in B. cbn [map cut_all] in B.
    destruct (cut_all (v_at s) _ _) as [x|] eqn:X; [|discriminate]. cbn [bind] in B. apply cut_all_keys in X.
    assert (NX : ~ In k (map fst x)) by (rewrite X; unfold sbs_members; destruct (c_det c), (c_cross c), (c_elec c); away).
    destruct (c_probes c) as [|p ps].
    - cbn [bind] in B. injection B as <-. cbn. rewrite app_nil_r. exact NX.
    - destruct (get (v_at s) "el_dens_at_probes") as [[]|]; try discriminate B. cbn [bind] in B. injection B as <-. cbn [update fold_left].
      rewrite map_app, in_app_iff. intros [Q|[Q|[]]]; [exact (NX Q)|]. cbn [fst] in Q. subst k. destruct K as [K|[K|[]]]; discriminate K. }
  rewrite update_other by exact NB. rewrite update_other by tauto. apply (get_all_at _ _ _ _ A).
  unfold outp_names. rewrite EL. apply in_app_iff. right. exact K.
Qed.

Lemma resumed_lifetimes c D n file t tE sL l g s g' f d : c_life c = Some D -> c_only c = None ->
  (forall k, In k lnames -> ~ In k (map fst (c_const c) ++ c_pcustom c ++ map fst (c_once c))) ->
  resumed c n file t tE = Some sL -> record_run c l g sL None = Some (s, g', f) -> build_outp_dict c s = Some d ->
  exists ls rest, l = concat ls ++ rest /\ groups (hist_due D) (-1) ls rest /\
    get d "t_lifetime_hist" = Some (VArr (map (now ob_t) ls)) /\ exists m, get d "lifetime_hist" = Some (VMat m) /\ List.length m = List.length ls.
Proof.
  intros EL CO N E W B. destruct (resumed_held _ _ _ _ _ _ _ EL E) as (CC & Z & P & T & H).
  destruct (run_life c D EL CC _ _ _ _ _ _ _ _ Z H W) as (Z2 & P2 & ls & rest & L & G & (A & m & M1 & M2)).
  rewrite T in G. exists ls, rest. split; [exact L|]. split; [exact G|].
  assert (K1 : In "t_lifetime_hist" lnames) by (right; left; reflexivity). assert (K2 : In "lifetime_hist" lnames) by (left; reflexivity).
  assert (PP : map fst (v_pbp s) = c_pcustom c) by congruence.
  rewrite (outp_life c D s d "t_lifetime_hist" EL CO Z2 PP K1 (N _ K1) B), (outp_life c D s d "lifetime_hist" EL CO Z2 PP K2 (N _ K2) B).
  split; [exact A|]. exists m. split; [exact M1|]. cbn [app] in M2. rewrite M2, map_length. reflexivity.
Qed.
