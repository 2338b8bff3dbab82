(** Lemmas for C101. *)
From Coquelicot Require Import Coquelicot.
From Coq Require Import Reals List Lra Lia.
From Verif Require Import Num NumFacts MP SpecMP Geom Poly Sey SpecSey Impact SpecImpact Source SpecSource SourceFacts SourceFacts2 SourceFacts3 SourceFacts4 SourceFacts5 SpecMean.
Import ListNotations.
Local Open Scope R_scope.

Lemma average_const a b c g : a <= b -> (forall u, a < u < b -> g u = c) -> is_RInt g a b ((b - a) * c).
Proof.
  intros L H. apply (is_RInt_ext (fun _ => c)); [|exact (is_RInt_const (V := R_NormedModule) a b c)].
  intros x X. rewrite Rmin_left, Rmax_right in X by lra. symmetry. apply H. exact X.
Qed.
Lemma average_step g r a b : 0 <= r <= 1 -> (forall u, 0 <= u < r -> g u = a) -> (forall u, r <= u < 1 -> g u = b) ->
  average g (r * a + (1 - r) * b).
Proof.
  intros I A B. pose proof (average_const 0 r a g ltac:(lra) ltac:(intros; apply A; lra)) as P.
  pose proof (average_const r 1 b g ltac:(lra) ltac:(intros; apply B; lra)) as Q.
  pose proof (is_RInt_Chasles (V := R_NormedModule) _ _ _ _ _ _ P Q) as T. unfold average.
  replace (r * a + (1 - r) * b) with (plus ((r - 0) * a) ((1 - r) * b)); [exact T|].
  change (((r - 0) * a) + ((1 - r) * b) = r * a + (1 - r) * b). ring.
Qed.
Lemma average_ext g h m : (forall u, 0 <= u < 1 -> g u = h u) -> average g m -> average h m.
Proof.
  intros H. apply is_RInt_ext. intros x X. rewrite Rmin_left, Rmax_right in X by lra. apply H. lra.
Qed.
Lemma average_scal g m c : average g m -> average (fun u => c * g u) (c * m).
Proof. intros H. exact (is_RInt_scal (V := R_NormedModule) _ _ _ c _ H). Qed.
Lemma rounded_average q (n : R -> nat) : (forall u, 0 <= u < 1 -> rounded q u (n u)) -> average (fun u => INR (n u)) q.
Proof.
  intros H. destruct (H 0 ltac:(lra)) as (m & M & _).
  assert (U : forall u, 0 <= u < 1 -> n u = if Rlt_dec u (q - INR m) then S m else m).
  { intros u I. destruct (H u I) as (m' & M' & E). replace m with m'; [exact E|].
    assert (m' < S m)%nat by (apply INR_lt; rewrite S_INR; lra). assert (m < S m')%nat by (apply INR_lt; rewrite S_INR; lra). lia. }
  replace q with ((q - INR m) * INR (S m) + (1 - (q - INR m)) * INR m) by (rewrite S_INR; ring).
  apply average_step; [lra| |].
  - intros u I. rewrite U by lra. destruct (Rlt_dec u (q - INR m)); [reflexivity|lra].
  - intros u I. rewrite U by lra. destruct (Rlt_dec u (q - INR m)); [lra|reflexivity].
Qed.
Lemma with_at_here rng i u : with_at rng i u i = u.
Proof. unfold with_at. rewrite Nat.eqb_refl. reflexivity. Qed.
Lemma with_at_ok rng i u : (forall j, 0 <= rng j < 1) -> 0 <= u < 1 -> forall j, 0 <= with_at rng i u j < 1.
Proof. intros H I j. unfold with_at. destruct (Nat.eqb j i); [exact I|apply H]. Qed.
Lemma with_uni_ok sr i u : src_ok sr -> 0 <= u < 1 -> src_ok (with_uni sr i u).
Proof. intros H I. destruct H. constructor; cbn; try assumption. apply with_at_ok; assumption. Qed.
Lemma rsum_repeat c (l : list mp) : Forall (fun p => m_nel p = c) l -> rsum (map m_nel l) = c * INR (length l).
Proof.
  intros H. unfold rsum. induction H as [|p l P H IH]; cbn [map fold_right length]; [cbn [INR]; ring|]. rewrite IH, P, S_INR. ring.
Qed.
Lemma generated_gain out s s' new k' : generated out s s' new -> gain s (Some (s', k')) = nel_mp_ref s * INR (length new).
Proof.
  intros G. cbn [gain]. unfold charge. rewrite (ge_live _ _ _ _ G), map_app, rsum_app, (rsum_repeat _ _ (ge_size _ _ _ _ G)). ring.
Qed.
(** Any source whose number of new macroparticles is the rounded number. *)
Lemma source_average (s : mpsys) (q : R) (call : R -> option (mpsys * nat)) (out : R -> R -> bool) : 0 < nel_mp_ref s ->
  (forall u, 0 <= u < 1 -> exists s' k' new, call u = Some (s', k') /\ generated out s s' new /\ rounded (q / nel_mp_ref s) u (length new)) ->
  average (fun u => gain s (call u)) q.
Proof.
  intros P H.
  pose (n := fun u => match call u with Some (s', _) => (N_mp s' - N_mp s)%nat | None => 0%nat end).
  assert (N : forall u, 0 <= u < 1 -> rounded (q / nel_mp_ref s) u (n u) /\ gain s (call u) = nel_mp_ref s * INR (n u)).
  { intros u I. destruct (H u I) as (s' & k' & new & E & G & Q). unfold n. rewrite E.
    assert (L : length (live s') = length (live s ++ new)) by (rewrite (ge_live _ _ _ _ G); reflexivity).
    unfold live in L. rewrite app_length, !map_length, !seq_length in L.
    replace (N_mp s' - N_mp s)%nat with (length new) by lia. split; [exact Q|]. exact (generated_gain _ _ _ _ k' G). }
  replace q with (nel_mp_ref s * (q / nel_mp_ref s)) by (field; lra).
  apply (average_ext (fun u => nel_mp_ref s * INR (n u))); [intros u I; symmetry; exact (proj2 (N u I))|].
  apply average_scal, rounded_average. intros u I. exact (proj1 (N u I)).
Qed.

Lemma gas_average fuel kc g c mass lam Dt sx sy xb yb sr k s :
  wf s -> (N_mp s < capacity s)%nat -> 0 < nel_mp_ref s -> (forall j, 0 <= s_uni sr j < 1) ->
  gs_life g = flag_lifetime_hist s ->
  0 < kB kc -> 0 <= c_light kc -> 0 <= gs_P g -> 0 <= gs_sigma g -> 0 < gs_T g -> 0 <= lam -> 0 <= Dt ->
  (forall u, 0 <= u < 1 -> gas_generate fuel kc g c mass lam Dt sx sy xb yb (with_uni sr k u) k s <> None) ->
  average (fun u => gain s (gas_generate fuel kc g c mass lam Dt sx sy xb yb (with_uni sr k u) k s))
    (ionised kc (gs_P g) (gs_sigma g) (gs_T g) lam Dt).
Proof.
  intros W F P U A1 A2 A3 A4 A5 A6 A7 A8 H. apply (source_average s _ _ (outside c) P). intros u I.
  destruct (gas_generate fuel kc g c mass lam Dt sx sy xb yb (with_uni sr k u) k s) as [(s', k')|] eqn:E; [|exfalso; exact (H u I E)].
  destruct (gas_thm fuel kc g c mass lam Dt sx sy xb yb (with_uni sr k u) k s s' k' W F P (with_at_ok _ _ _ U I) A1 A2 A3 A4 A5 A6 A7 A8 E) as (new & G & _ & Q & _).
  exists s', k', new. split; [reflexivity|]. split; [exact G|]. cbn [with_uni s_uni] in Q. rewrite with_at_here in Q. exact Q.
Qed.
Lemma photo1_average fuel kc ph refl al x0 y0 cdf w p mass lam Dt sr k s :
  photo1_ctor ph refl al x0 y0 cdf w = Some p ->
  wf s -> (N_mp s < capacity s)%nat -> 0 < nel_mp_ref s -> src_ok sr -> 0 < q_e kc -> 0 < mass -> 0 < ph_sig ph ->
  wall_ok w -> w_out w 0 0 = false -> 0 <= photoemitted kc (ph_k ph) (ph_mean ph) lam Dt ->
  (forall u, 0 <= u < 1 -> photo1_generate fuel kc p w mass lam Dt (with_uni sr k u) k s <> None) ->
  average (fun u => gain s (photo1_generate fuel kc p w mass lam Dt (with_uni sr k u) k s)) (photoemitted kc (ph_k ph) (ph_mean ph) lam Dt).
Proof.
  rewrite <- photo_DNel_is. intros C W F P U A1 A2 A3 A4 A5 A6 H. apply (source_average s _ _ (w_out w) P). intros u I.
  destruct (photo1_generate fuel kc p w mass lam Dt (with_uni sr k u) k s) as [(s', k')|] eqn:E; [|exfalso; exact (H u I E)].
  destruct (photo1_main fuel kc ph refl al x0 y0 cdf w p mass lam Dt (with_uni sr k u) k s s' k' C W F P (with_uni_ok _ _ _ U I) A1 A2 A3 A4 A5 A6 E) as (new & G & _ & Q & _).
  exists s', k', new. split; [reflexivity|]. split; [exact G|]. cbn [with_uni s_uni] in Q. rewrite with_at_here in Q. exact Q.
Qed.
Lemma photo2_average fuel kc ph cdf w mass lam Dt sr k s :
  wf s -> (N_mp s < capacity s)%nat -> 0 < nel_mp_ref s -> src_ok sr -> 0 < q_e kc -> 0 < mass -> 0 < ph_sig ph ->
  wall_ok w -> w_out w 0 0 = false -> 0 <= photoemitted kc (ph_k ph) (ph_mean ph) lam Dt ->
  (forall u, 0 <= u < 1 -> photo2_generate fuel kc ph cdf w mass lam Dt (with_uni sr k u) k s <> None) ->
  average (fun u => gain s (photo2_generate fuel kc ph cdf w mass lam Dt (with_uni sr k u) k s)) (photoemitted kc (ph_k ph) (ph_mean ph) lam Dt).
Proof.
  rewrite <- photo_DNel_is. intros W F P U A1 A2 A3 A4 A5 A6 H. apply (source_average s _ _ (w_out w) P). intros u I.
  destruct (photo2_generate fuel kc ph cdf w mass lam Dt (with_uni sr k u) k s) as [(s', k')|] eqn:E; [|exfalso; exact (H u I E)].
  destruct (photo2_main fuel kc ph cdf w mass lam Dt (with_uni sr k u) k s s' k' W F P (with_uni_ok _ _ _ U I) A1 A2 A3 A4 A5 A6 E) as (new & G & _ & Q & _).
  exists s', k', new. split; [reflexivity|]. split; [exact G|]. cbn [with_uni s_uni] in Q. rewrite with_at_here in Q. exact Q.
Qed.
Lemma photo3_average vxs vys cx cy cdf pc fuel kc ph mass lam Dt sr k s :
  phcham_ctor vxs vys cx cy cdf = Some pc -> length vxs = length vys ->
  wf s -> (N_mp s < capacity s)%nat -> 0 < nel_mp_ref s -> src_ok sr -> 0 < q_e kc -> 0 < mass -> 0 < ph_sig ph ->
  0 <= photoemitted kc (ph_k ph) (ph_mean ph) lam Dt ->
  (forall u, 0 <= u < 1 -> photo3_generate fuel kc ph pc mass lam Dt (with_uni sr k u) k s <> None) ->
  average (fun u => gain s (photo3_generate fuel kc ph pc mass lam Dt (with_uni sr k u) k s)) (photoemitted kc (ph_k ph) (ph_mean ph) lam Dt).
Proof.
  rewrite <- photo_DNel_is. intros C L W F P U A1 A2 A3 A4 H. apply (source_average s _ _ (p_outside (pc_poly pc)) P). intros u I.
  destruct (photo3_generate fuel kc ph pc mass lam Dt (with_uni sr k u) k s) as [(s', k')|] eqn:E; [|exfalso; exact (H u I E)].
  destruct (photo3_main vxs vys cx cy cdf pc fuel kc ph mass lam Dt (with_uni sr k u) k s s' k' C L W F P (with_uni_ok _ _ _ U I) A1 A2 A3 A4 E) as (new & G & _ & Q & _).
  exists s', k', new. split; [reflexivity|]. split; [exact G|]. cbn [with_uni s_uni] in Q. rewrite with_at_here in Q. exact Q.
Qed.
Lemma uniform_average fuel c DNel v0 oxa oxi oya oyi rng k s :
  wf s -> (N_mp s < capacity s)%nat -> 0 < nel_mp_ref s -> (forall j, 0 <= rng j < 1) -> 0 <= DNel ->
  odef oxi (- x_aper c) <= odef oxa (x_aper c) -> odef oyi (- y_aper c) <= odef oya (y_aper c) ->
  (forall u, 0 <= u < 1 -> add_uniform_MP_distrib fuel c DNel v0 oxa oxi oya oyi (with_at rng k u) k s <> None) ->
  average (fun u => gain s (add_uniform_MP_distrib fuel c DNel v0 oxa oxi oya oyi (with_at rng k u) k s)) DNel.
Proof.
  intros W F P U A1 A2 A3 H. apply (source_average s _ _ (outside c) P). intros u I.
  destruct (add_uniform_MP_distrib fuel c DNel v0 oxa oxi oya oyi (with_at rng k u) k s) as [(s', k')|] eqn:E; [|exfalso; exact (H u I E)].
  destruct (uniform_main fuel c DNel v0 oxa oxi oya oyi (with_at rng k u) k s s' k' W F P (with_at_ok _ _ _ U I) A1 A2 A3 E) as (new & G & _ & Q & _).
  exists s', k', new. split; [reflexivity|]. split; [exact G|]. rewrite with_at_here in Q. exact Q.
Qed.
