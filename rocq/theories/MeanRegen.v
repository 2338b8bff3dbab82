(** Mean charge after a regeneration, for C101. *)
From Coquelicot Require Import Coquelicot.
From Coq Require Import Reals List Lra Lia Bool ZArith.
From Verif Require Import Num NumFacts Fort SpecFort FortFacts MP SpecMP SpecRegen MPFacts MPFacts2 RegenFacts RegenFacts2 SpecMean.
From Verif Require MeanFacts.
Import ListNotations.
Local Open Scope R_scope.

Definition in01 (u : R) : Prop := 0 <= u < 1.
Lemma averages_ext n g h m : (forall us, length us = n -> Forall in01 us -> g us = h us) -> averages n g m -> averages n h m.
Proof.
  revert g h m. induction n as [|n IH]; intros g h m E; cbn [averages]; [intros <-; symmetry; apply E; [reflexivity|constructor]|].
  intros (w & W & A). exists w. split; [|exact A]. intros u U. apply (IH (fun l => g (u :: l))); [|exact (W u U)].
  intros us L F. apply E; [cbn; lia|constructor; [exact U|exact F]].
Qed.
Lemma stoch_average q : average (fun u => IZR (stoch_round q u)) q.
Proof.
  set (r := q - IZR (rfloor q)). assert (Rr : 0 <= r < 1).
  { unfold r. pose proof (rfloor_bounds q). lra. }
  assert (Q : r * IZR (rfloor q + 1) + (1 - r) * IZR (rfloor q) = q) by (rewrite plus_IZR; unfold r; ring).
  enough (A : average (fun u => IZR (stoch_round q u)) (r * IZR (rfloor q + 1) + (1 - r) * IZR (rfloor q))) by (rewrite Q in A; exact A).
  clear Q.
  apply MeanFacts.average_step; [lra| |]; intros u U; unfold stoch_round; fold r.
  - replace (Rltb u r) with true by (symmetry; apply Rltb_true; lra). reflexivity.
  - replace (Rltb u r) with false by (symmetry; apply Rltb_false; lra). reflexivity.
Qed.
Lemma average_shift g m c : average g m -> average (fun u => g u + c) (m + c).
Proof.
  intros H. pose proof (MeanFacts.average_const 0 1 c (fun _ => c) ltac:(lra) (fun _ _ => eq_refl)) as K.
  pose proof (is_RInt_plus (V := R_NormedModule) _ _ _ _ _ _ H K) as P.
  replace (m + c) with (plus m ((1 - 0) * c)); [exact P|]. change (m + (1 - 0) * c = m + c). ring.
Qed.
Lemma averages_sum ref qs c : ref <> 0 ->
  averages (length qs) (fun us => c + rsum (map2 (fun q u => ref * IZR (stoch_round (q / ref) u)) qs us)) (c + rsum qs).
Proof.
  intros P. revert c. induction qs as [|q qs IH]; intros c; cbn [length averages].
  - reflexivity.
  - exists (fun u => ref * IZR (stoch_round (q / ref) u) + (c + rsum qs)). split.
    + intros u U. pose proof (IH (c + ref * IZR (stoch_round (q / ref) u))) as A.
      replace (ref * IZR (stoch_round (q / ref) u) + (c + rsum qs)) with (c + ref * IZR (stoch_round (q / ref) u) + rsum qs) by ring.
      apply (averages_ext _ _ _ _ ) with (2 := A). intros us L F. cbn [map2]. rewrite rsum_cons. ring.
    + rewrite rsum_cons. replace (c + (q + rsum qs)) with (q + (c + rsum qs)) by ring. apply average_shift.
      pose proof (MeanFacts.average_scal _ _ ref (stoch_average (q / ref))) as A. replace (ref * (q / ref)) with q in A by (field; exact P). exact A.
Qed.
Lemma with_list_ok rng k us : unit_rng rng -> Forall in01 us -> unit_rng (with_list rng k us).
Proof.
  intros H F j. unfold with_list. destruct (Nat.leb_spec k j); cbn [andb]; [|apply H]. destruct (Nat.ltb_spec j (k + length us)); [|apply H].
  rewrite Forall_forall in F. apply F, nth_In. lia.
Qed.
Lemma with_list_draw rng k us : draw (with_list rng k us) k (length us) = us.
Proof.
  apply (nth_ext _ _ 0 0); [unfold draw; rewrite map_length, seq_length; reflexivity|].
  intros i I. unfold draw in *. rewrite map_length, seq_length in I.
  rewrite (nth_indep _ 0 (with_list rng k us 0)) by (rewrite map_length, seq_length; exact I). rewrite map_nth, seq_nth by exact I.
  unfold with_list. rewrite (proj2 (Nat.leb_le _ _)), (proj2 (Nat.ltb_lt _ _)) by lia. cbn [andb]. f_equal. lia.
Qed.
Lemma INR_nsum num : Forall (fun z => (0 <= z)%Z) num -> INR (nsum (map Z.to_nat num)) = rsum (map IZR num).
Proof.
  intros F. induction F as [|z l Z F IH]; [reflexivity|]. cbn [map]. rewrite rsum_cons, <- IH. change (nsum (Z.to_nat z :: map Z.to_nat l)) with (Z.to_nat z + nsum (map Z.to_nat l))%nat.
  rewrite plus_INR. f_equal. rewrite INR_IZR_INZ, Z2Nat.id by exact Z. reflexivity.
Qed.

Definition kept_of (cfg : regen_cfg) (s : mpsys) (x_max : R) (qs : list R) : Prop :=
  let kept := within_cut x_max (live s) in
  rsum qs = rsum (map m_nel kept) /\ Forall (fun q => 0 <= q) qs /\ charge s - rsum (map m_nel kept) <= regen_hist_cut cfg * charge s.

Lemma regen_count fuel fuel_in cfg c s :
  wf s -> tail_zero s -> hist_cfg_ok cfg (x_aper c) -> 0 <= regen_hist_cut cfg ->
  (0 < N_mp_after_regen cfg)%nat -> 0 < nel_mp_ref_0 s ->
  Forall (fun p => Rabs (m_x p) <= x_aper c /\ 0 <= m_nel p) (live s) -> regen_needed cfg s = true ->
  let ref := Rmax (nel_mp_ref_0 s) (charge s / INR (N_mp_after_regen cfg)) in
  (forall rng k, check_for_regeneration fuel fuel_in cfg c rng k s = None) \/
  exists x_max qs, kept_of cfg s x_max qs /\
    forall rng k s' k', unit_rng rng -> check_for_regeneration fuel fuel_in cfg c rng k s = Some (s', k') ->
      N_mp s' = nsum (map Z.to_nat (map2 (fun q u => stoch_round (q / ref) u) qs (draw rng k (length qs)))).
Proof.
  intros W T HC Hcut HN Hr0 HF Hneed ref.
  assert (Eref : new_ref s (N_mp_after_regen cfg) = ref).
  { unfold new_ref. rewrite rsum_all_tail_zero by auto. unfold ref, Rmax, Rltb.
    destruct (Rlt_dec _ _), (Rle_dec _ _); lra. }
  set (s1 := set_nel_mp_ref s ref) in *.
  assert (W1 : wf s1) by (apply set_ref_wf; auto).
  destruct (regen_x_max fuel cfg s1) as [x_max|] eqn:EX.
  2: { left. intros rng k. unfold check_for_regeneration. rewrite Hneed, Eref. fold s1. rewrite EX. reflexivity. }
  right. exists x_max.
  assert (HX : charge s - rsum (map m_nel (within_cut x_max (live s))) <= regen_hist_cut cfg * charge s)
    by exact (regen_x_max_spec fuel cfg s1 x_max c W1 HC Hcut HF EX).
  destruct (regen_cut_spec x_max s1 W1) as (s2 & Ec & W2 & T2 & C2 & L2 & R2 & R2' & R2'').
  change (live s1) with (live s) in L2.
  set (kept := within_cut x_max (live s)) in *.
  set (d := regen_steps cfg x_max (y_aper c) s2) in *.
  set (idx := map (mp_cell cfg d) kept) in *.
  destruct (sorted_set_spec idx) as [ND Hin]. set (cells := sorted_set idx) in *.
  change (nel_mp_ref s1) with ref in R2.
  assert (Href : 0 < ref) by (unfold ref; eapply Rlt_le_trans; [exact Hr0|apply Rmax_l]).
  assert (Hq : forall o, 0 <= charge_in cfg d o kept).
  { intros o. apply rsum_nonneg, Forall_map, Forall_forall. intros p Hp. apply filter_In in Hp as [Hp _]. apply filter_In in Hp as [Hp _].
    rewrite Forall_forall in HF. apply HF; auto. }
  exists (map (fun c0 => charge_in cfg d c0 kept) cells). split.
  { split; [|split; [|exact HX]].
    - fold kept. symmetry. rewrite <- (rsum_cell_charge (map (mp_cell cfg d) kept) (map m_nel kept) cells ND).
      + apply rsum_ext. intros; apply cell_charge_in.
      + intros c0 Hc. apply Hin. exact Hc.
      + rewrite !map_length; auto.
    - apply Forall_forall. intros q Q. apply in_map_iff in Q. destruct Q as (o & <- & _). apply Hq. }
  intros rng k s' k' HU E. unfold check_for_regeneration in E. rewrite Hneed, Eref in E. fold s1 in E. rewrite EX in E. cbn [bind] in E. rewrite Ec in E. cbn [bind] in E.
  fold d in E. rewrite (mp_indexes_live cfg d s2 kept L2), (nel_forget s2 kept W2 L2) in E. fold idx in E. fold cells in E.
  rewrite (map_ext _ _ (cell_charge_in cfg d kept)) in E. rewrite R2 in E.
  rewrite map_length. set (num := map2 (fun q u => stoch_round (q / ref) u)
      (map (fun c0 => charge_in cfg d c0 kept) cells) (draw rng k (length cells))) in *.
  assert (Lnum : length cells = length num).
  { subst num. rewrite map2_length, map_length, draw_length. lia. }
  assert (Hnn : Forall (fun z => 0 <= z)%Z num).
  { subst num. generalize (draw rng k (length cells)). clear - Hq Href. induction cells as [|a l IH]; intros [|u us]; cbn [map map2]; constructor; auto.
    apply stoch_round_nonneg. apply Rmult_le_pos; [apply Hq|]. left. apply Rinv_0_lt_compat; auto. }
  rewrite nsum_Z in E by auto. set (Nex := nsum (map Z.to_nat num)) in *.
  fold (capacity s2) in E. rewrite (wf_nel s2 W2) in E.
  set (cap := capacity s2) in *.
  assert (Hcap : (Nex <= cap)%nat \/ Nex = 1%nat /\ cap = 0%nat).
  { destruct (Nat.le_gt_cases Nex cap); auto. right.
    destruct (Nat.eq_dec Nex 1) as [E1|E1]; [lia|]. exfalso.
    rewrite slice_set_overflow' in E by (rewrite ?repeat_length; lia). discriminate. }
  assert (Hfit : (Nex <= cap)%nat).
  { destruct Hcap as [|[HN1 Hc0]]; auto. exfalso.
    assert (Hk0 : kept = []).
    { assert (N0 : N_mp s2 = 0%nat) by (pose proof (wf_N s2 W2) as G; change (capacity s2) with cap in G; lia).
      assert (Hl : live s2 = []) by (unfold live; rewrite N0; auto). rewrite Hl in L2.
      apply (f_equal (@length mp)) in L2. rewrite !map_length in L2. simpl in L2.
      apply length_zero_iff_nil. auto. }
    assert (num = []).
    { destruct num; auto. subst cells idx. rewrite Hk0 in Lnum. discriminate. }
    subst Nex. rewrite H in HN1. discriminate. }
  clear Hcap.
  rewrite slice_set_exact in E; [|lia|rewrite repeat_length; lia|rewrite repeat_length; lia].
  cbn [bind] in E.
  destruct (fill_loop _ _ _ _ _ _ _ _) as [st|] eqn:EF; [|discriminate]. cbn [bind] in E.
  assert (I0 : fill_inv c d cap (cell_centre cfg d)
      (mkFill (repeat 0 cap) (repeat 0 cap) (repeat 0 cap) (repeat 0 cap) (repeat 0 cap) 0 (k + length cells)) []).
  { constructor; simpl; rewrite ?repeat_length; auto; try lia. intros [|i] ? ?; discriminate. }
  destruct (fill_loop_spec fuel fuel_in c d cap (cell_centre cfg d) cells rng num _ [] st HU ND Lnum I0 ltac:(simpl; lia) EF)
    as (own & [Ix Iy Ivx Ivy Ivz IN If Is] & Oin & Ocnt & Olen).
  simpl app in *. fold Nex in Olen. injection E as <- <-. cbn [N_mp]. lia.
Qed.

(** Mean charge after the regeneration. *)
Lemma regen_average fuel fuel_in cfg c rng k s :
  wf s -> tail_zero s -> unit_rng rng -> hist_cfg_ok cfg (x_aper c) -> 0 <= regen_hist_cut cfg ->
  (0 < N_mp_after_regen cfg)%nat -> 0 < nel_mp_ref_0 s ->
  Forall (fun p => Rabs (m_x p) <= x_aper c /\ 0 <= m_nel p) (live s) -> regen_due cfg s ->
  (forall us, Forall (fun u => 0 <= u < 1) us -> check_for_regeneration fuel fuel_in cfg c (with_list rng k us) k s <> None) ->
  exists x_max n, let kept := within_cut x_max (live s) in
    charge s - rsum (map m_nel kept) <= regen_hist_cut cfg * charge s /\
    averages n (fun us => match check_for_regeneration fuel fuel_in cfg c (with_list rng k us) k s with Some (s', _) => charge s' | None => 0 end)
      (rsum (map m_nel kept)).
Proof.
  intros W T HU HC Hcut HN Hr0 HF Hdue Hret. pose proof (regen_due_needed cfg s Hdue) as Hneed.
  destruct (regen_count fuel fuel_in cfg c s W T HC Hcut HN Hr0 HF Hneed) as [No|(x_max & qs & (K1 & K2 & K3) & K4)].
  { exfalso. apply (Hret []); [constructor|apply No]. }
  exists x_max, (length qs). cbv zeta. split; [exact K3|]. rewrite <- K1.
  set (ref := Rmax (nel_mp_ref_0 s) (charge s / INR (N_mp_after_regen cfg))) in *.
  assert (Href : 0 < ref) by (unfold ref; eapply Rlt_le_trans; [exact Hr0|apply Rmax_l]).
  pose proof (averages_sum ref qs 0 ltac:(lra)) as A. rewrite Rplus_0_l in A.
  refine (averages_ext _ _ _ _ _ A). intros us L F. rewrite Rplus_0_l.
  destruct (check_for_regeneration fuel fuel_in cfg c (with_list rng k us) k s) as [(s', k')|] eqn:E; [|exfalso; exact (Hret us F E)].
  pose proof (with_list_ok rng k us HU F) as HU'.
  pose proof (K4 _ _ _ _ HU' E) as N.
  destruct (regen_due_main _ _ _ _ _ _ _ _ _ W T HU' HC Hcut HN Hr0 HF Hdue E) as (xm & d & own & _ & _ & _ & _ & _ & _ & G & _). fold ref in G.
  assert (Ch : charge s' = ref * INR (N_mp s')).
  { unfold charge. replace (map m_nel (live s')) with (map m_nel (map (fun p => if flag_lifetime_hist s then p else forget_t p) (live s'))).
    2: { rewrite map_map. apply map_ext. intros p. destruct (flag_lifetime_hist s); reflexivity. }
    assert (Ln : length (map (fun p => if flag_lifetime_hist s then p else forget_t p) (live s')) = N_mp s') by (unfold live; rewrite !map_length, seq_length; reflexivity).
    rewrite <- Ln. revert G. generalize (map (fun p => if flag_lifetime_hist s then p else forget_t p) (live s')). clear. intros l G.
    induction G as [|o p own l Gp G IH]; [change (0 = ref * 0); ring|]. cbn [map length]. rewrite rsum_cons, IH, S_INR. destruct Gp as (_ & _ & -> & _). ring. }
  rewrite Ch, N. rewrite <- L, with_list_draw.
  assert (Hnn : Forall (fun z => 0 <= z)%Z (map2 (fun q u => stoch_round (q / ref) u) qs us)).
  { clear - K2 Href. revert us. induction K2 as [|q qs Q K IH]; intros [|u us]; cbn [map2]; constructor; auto.
    apply stoch_round_nonneg. apply Rmult_le_pos; [exact Q|]. left. apply Rinv_0_lt_compat; auto. }
  rewrite INR_nsum by exact Hnn. clear - ref. revert us. induction qs as [|q qs IH]; intros [|u us]; cbn [map map2]; try (change (0 = ref * 0); ring).
  rewrite !rsum_cons. rewrite (IH us). ring.
Qed.
