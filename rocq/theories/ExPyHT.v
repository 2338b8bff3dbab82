(** Concrete cases for the coupling to PyHEADTAIL. *)
From Coq Require Import String Lra Lia.
From Verif Require Import Num NumFacts MP SpecMP MPFacts Push PushFacts Geom SpecGeom GeomFacts Poly
  Sey SpecSey ExSey Impact SpecImpact ImpactFacts ExImpact Beam ExBeam Source ExSource CrossIon Sim SpecSim SimFacts ExSim PyHT SpecPyHT PyHTFacts PyHTFacts2 PyHTFacts4 PyHTFacts5 PyHTFacts6.
Local Open Scope list_scope.
Local Open Scope R_scope.

(** The solver of the example: a field that is everywhere one eighth of the
    dipole moment of the charges. *)
Definition hPic : pic := mkPic (fun q l => [q * rsum (map (fun c => fst (fst c) * snd c) l) / 8]) (fun rho _ _ => (hd 0 rho, 0)).
Definition hEnv : env := mkEnv exW exChamb true false 0 hPic exK ex_sr 0.
Definition hSet : cset :=
  mkCset "electron" 1 (-1) (boris_dyn (-1) 1 (B_none 0 0 0) 1 1) exC absorb_em (fun _ l => l) None 0 NoPhoto sRegen None None.
(** One electron at [x] with velocity [v]; one free slot. *)
Definition hMP (x v : R) : mpsys := mkSys [x; 0] [0; 0] [0; 0] [v; 0] [0; 0] [0; 0] [1; 0] [0; 0] 1 false 1 (3/2) (1/10) 1 (3/2) (1/10).
Definition hM : sim := mkSim [mkCloud hSet (hMP (1/4) 0) [0] exG []] (mkSpch None 0 true [0] (fun _ _ => (0, 0))) None 0 false.
Definition hFl (w : bool) : flags := mkFlags false w false false false.
Definition hP0 (kx sm : bool) : pset := mkPset hEnv 1 1 (Some 1) 0 0 kx true false false sm [] [].
Definition hP (kx sm : bool) : pset := mkPset hEnv 1 1 (Some 1) 0 0 kx true false false sm [] [extract_dict (hMP (1/4) 0)].
Definition hB0 : R -> R -> R * R := fun _ _ => (0, 0).
Definition hH (w : bool) : pyht := mkPyht hM 0 (-1) 0 0 false (hFl w) hB0 Missing Missing Missing Missing Missing None.
(** A beam of one particle, with or without information on the slice. *)
Definition hB (i : sinfo) : bobj := mkBobj 1 1 1 (1/2) 2 1 [mkBp 0 0 0 0] i.
Definition hSl : bobj -> slicing := fun _ => mkSlicing 1 [0; 1/2] (fun _ => [0%nat]).

Lemma hCtor kx sm w : ecloud_ctor (hP0 kx sm) hM (hFl w) hB0 = Some (hP kx sm, hH w).
Proof. reflexivity. Qed.

Lemma hBoris q m B D N : per_particle (boris_dyn q m B D N).
Proof.
  split.
  - exists (fun E h n p => boris_substeps n (q / m) h B (fst E, snd E, 0) p). reflexivity.
  - exists (fun E p => boris_substeps N (q / m) (D / INR N) B (fst E, snd E, 0) p). reflexivity.
Qed.

Lemma hTr : trackers (m_clouds hM).
Proof. constructor; [apply hBoris|constructor]. Qed.

Lemma hWf : Forall (fun c => wf (o_mp c)) (m_clouds hM).
Proof. repeat constructor; cbn; auto. Qed.

Lemma hLife : Forall life_agrees (m_clouds hM).
Proof. constructor; [|constructor]. split; [reflexivity|]. cbn. discriminate. Qed.

(** One sub-step without magnetic field. *)
Lemma boris_free qm D Ex Ey p : boris_one qm D (Ex, Ey, 0) (0, 0, 0) p =
  mkP6 (px p + (pvx p + qm * Ex * D) * D) (py p + (pvy p + qm * Ey * D) * D) (pz p + pvz p * D) (pvx p + qm * Ex * D) (pvy p + qm * Ey * D) (pvz p).
Proof. unfold boris_one. destruct p; cbn. f_equal; field. Qed.

(** A field that does not act on the electron. *)
Definition quiet_beam (tm : tim) (x : R) : Prop := exists f, ti_f tm = dummy_field f /\ (forall g, f = Some g -> g x 0 = (0, 0)).
Definition hArgs (fsc no : bool) : sargs := mkSargs (Some (1/INR 1)) (Some 1%nat) false fsc false no no.

Lemma hGather x v f tm lst ck r : quiet_beam tm x ->
  gather_field (mkSpch None lst ck r (fun _ _ => (f, 0))) false tm [] (hMP x v) = Some (fun i => (fld_at (Vec [f + 0]) i, fld_at (Vec [0 + 0]) i)).
Proof.
  intros (fo & TF & G). unfold gather_field. cbn [mp_pos hMP N_mp x_mp y_mp seq map nth fst snd sc_fld]. unfold total_field, field_from_beams. rewrite TF.
  destruct fo as [g|]; cbn [dummy_field map fst snd]; [rewrite (G g eq_refl)|]; reflexivity.
Qed.

Lemma hMotion x v f tm lst ck r fsc no : quiet_beam tm x ->
  cloud_motion hEnv (hArgs fsc no) tm [] (mkSpch None lst ck r (fun _ _ => (f, 0))) hSet (hMP x v) = Some (hMP (x + (v - f)) (v - f)).
Proof.
  intros Q. unfold cloud_motion, sub_steps. cbn [hArgs s_Nsub s_Dtsub s_kick s_force_re hEnv e_boris e_reinterp bind orb motion_loop hSet a_dyn boris_dyn d_custom].
  rewrite hGather by auto. cbn [bind]. unfold boris_stepcustomDt, push_live, hMP, B_none.
  cbn [N_mp seq map get6 nth x_mp y_mp z_mp vx_mp vy_mp vz_mp nel_mp t_last_impact boris_substeps fld_at fst snd skipn app flag_lifetime_hist nel_mp_ref nel_mp_split nel_mp_cl_th nel_mp_ref_0 fact_split fact_clean].
  rewrite boris_free. unfold get6. cbn [px py pz pvx pvy pvz x_mp y_mp z_mp vx_mp vy_mp vz_mp nth INR].
  f_equal. f_equal; f_equal; field.
Qed.

Lemma hWalls x v x' v' t k G : x' * x' < 1 ->
  backtrack_and_second_emiss exW exC absorb_em t (get_positions (hMP x v)) G (hMP x' v') (k, []) = Some (zero_last G, hMP x' v', (k, [])).
Proof.
  intros HF. unfold backtrack_and_second_emiss. cbn [get_positions hMP N_mp x_mp y_mp z_mp firstn Nat.eqb].
  assert (IN : w_out exW x' 0 = false) by (apply exW_in; lra).
  unfold impact_mask. cbn [hMP N_mp x_mp y_mp firstn map2 List.length Nat.sub repeat app Nat.eqb]. rewrite IN. reflexivity.
Qed.

Lemma hTime x v f tm lst ck k r ro G fsc no : quiet_beam tm x -> (x + (v - f)) * (x + (v - f)) < 1 -> fsc = true \/ 0 < ti_t tm -> no = true \/ ti_new tm = false ->
  let x' := x + (v - f) in
  sim_time_step hEnv (hArgs fsc no) tm [] (mkSim [mkCloud hSet (hMP x v) ro G []] (mkSpch None lst ck r (fun _ _ => (f, 0))) None k false)
    = Some (mkSim [mkCloud hSet (hMP x' (v - f)) [- (x' / 8)] (zero_last G) []] (mkSpch None (ti_t tm) true [- (x' / 8)] (fun _ _ => (- (x' / 8), 0))) None k false).
Proof.
  intros Q HF FS NO x'. unfold sim_time_step, step_main. cbn [m_sc m_clouds m_xion m_k m_full check_for_recomputation sc_Dt sc_last sc_rho sc_fld clouds_loop].
  unfold step_cloud. cbn [o_set o_mp o_iman o_Q o_rho].
  rewrite hMotion by auto. fold x' in HF |- *. cbn [bind]. cbn [hEnv e_wall hSet a_icfg a_em]. rewrite hWalls by auto. cbn [bind fst snd].
  unfold primary_generation. cbn [a_gas hSet a_photo photo_step bind fst snd a_evol]. cbn [cross_step bind].
  unfold recompute_cloud_spacecharge. cbn [s_force_sc hArgs].
  assert (RC : Rgtb (ti_t tm) (e_tsc hEnv) && true || fsc = true).
  { destruct FS as [->|FS]; [apply Bool.orb_true_r|]. rewrite (proj2 (Rgtb_true _ _)) by exact FS. reflexivity. }
  match goal with |- context[if ?b then recompute_loop _ _ _ _ else _] => replace b with true by (symmetry; exact RC) end. cbn [recompute_loop hEnv e_pic o_set o_mp].
  cbn [recompute_spchg_efield sc_rho sc_Dt sc_last sc_check sc_fld sub_earlier app o_iman o_Q m_k m_clouds m_sc m_xion m_full].
  cbn [bind m_k m_clouds m_sc m_xion m_full].
  assert (D : pi_dep hPic (a_charge hSet) (mp_points (hMP x' (v - f))) = [- (x' / 8)]).
  { unfold mp_points, hPic, rsum. cbn. f_equal. field. }
  assert (CL : forall ro, clean_loop hEnv (hArgs fsc no) (ti_new tm) k [mkCloud hSet (hMP x' (v - f)) ro (zero_last G) []] = Some ([mkCloud hSet (hMP x' (v - f)) ro (zero_last G) []], k)).
  { intros ro'. cbn [clean_loop o_set o_mp]. unfold clean_one. destruct NO as [->| ->]; [destruct (ti_new tm)|]; reflexivity. }
  unfold hSet, hEnv in *. cbn [a_charge] in *. unfold recompute_spchg_efield. cbn [sc_rho sc_Dt sc_last sc_check sc_fld]. rewrite D.
  rewrite CL. reflexivity.
Qed.

(** The object with an electron at [x], velocity [v], and a field [f] left from
    before. *)
Definition hState (w : bool) (x v f lst : R) (ck : bool) (r ro : list R) (G : iman) (t : R) (bu : Z) (ri tr : nat) (once : bool) (hb : R -> R -> R * R) (fs : recl (R -> R -> R * R)) : pyht :=
  mkPyht (mkSim [mkCloud hSet (hMP x v) ro G []] (mkSpch None lst ck r (fun _ _ => (f, 0))) None 0 false) t bu ri tr once (hFl w) hb Missing fs Missing Missing Missing None.

Lemma hReset kx sm w x v f lst ck r ro G t bu ri tr on hb fs :
  reinitialize (hP kx sm) (hState w x v f lst ck r ro G t bu ri tr on hb fs) =
    Some (hState w (1/4) 0 f lst ck r ro G t (-1) (Datatypes.S ri) tr on hb (empty_if w fs)).
Proof.
  assert (E : 3/2 * 1 = 3/2 /\ 1/10 * 1 = 1/10) by (split; field). destruct E as [E1 E2].
  cbn; unfold set_nel_mp_ref; cbn; unfold hState, hMP; rewrite E1, E2; reflexivity.
Qed.

Lemma hField kx sm i dz x y : slice_field (hP kx sm) (hB i) dz [mkBp 0 0 0 0] x y = (0, 0).
Proof. unfold slice_field. cbn. unfold rsum. cbn. f_equal. unfold Rdiv. ring. Qed.

Lemma hSub : sub_of 1 1 = Some (1 / INR 1, 1%nat).
Proof.
  unfold sub_of. rewrite (proj2 (Rleb_false 1 0)) by lra. rewrite (proj2 (Rgtb_false 1 1)) by lra. reflexivity.
Qed.

(** A step with the beam acting, and one without. *)
Lemma hStep kx sm w first new inter i dz x v f lst ck r ro G t bu ri tr on hb fs fs' : (x + (v - f)) * (x + (v - f)) < 1 ->
  inter = true \/ (new = false /\ (first = true \/ 0 < t)) ->
  let x' := x + (v - f) in
  push_rec w (fun _ _ => (- (x' / 8), 0)) fs = Some fs' ->
  cloud_step (hP kx sm) first new inter [0%nat] dz 1 (hB i) (hState w x v f lst ck r ro G t bu ri tr on hb fs) =
    Some (with_parts (hB i) [mkBp 0 (if (kx && inter)%bool then - (x' / 4) else 0) 0 0],
          hState w x' (v - f) (- (x' / 8)) t true [- (x' / 8)] [- (x' / 8)] (zero_last G) (t + 1) bu ri tr on
            (if inter then slice_field (hP kx sm) (hB i) dz [mkBp 0 0 0 0] else hb) fs').
Proof.
  intros F0 HI x' HP. unfold cloud_step. change (z_Dtref (hP kx sm)) with 1. rewrite hSub. cbn [bind]. change (pick (q_parts (hB i)) [0%nat]) with (Some [mkBp 0 0 0 0]). cbn [bind].
  set (h := hState w x v f lst ck r ro G t bu ri tr on hb fs).
  set (d := dummy_beam _ _ _ _ _ _ _ _ _).
  assert (D : quiet_beam (fst d) x /\ ti_t (fst d) = t /\ ti_new (fst d) = new /\ snd d = if inter then slice_field (hP kx sm) (hB i) dz [mkBp 0 0 0 0] else hb).
  { unfold d, dummy_beam. destruct inter; (split; [|repeat split]); cbn [List.length Nat.eqb negb orb fst].
    - exists (Some (slice_field (hP kx sm) (hB i) dz [mkBp 0 0 0 0])). split; [reflexivity|]. intros g E. injection E as <-. apply hField.
    - exists None. split; [reflexivity|discriminate]. }
  destruct d as [tm hb']. cbn [fst snd] in D. destruct D as (D1 & D2 & D3 & ->).
  assert (T : sim_time_step hEnv (hArgs (inter || first) inter) tm [] (h_sim h) =
    Some (mkSim [mkCloud hSet (hMP x' (v - f)) [- (x' / 8)] (zero_last G) []] (mkSpch None (ti_t tm) true [- (x' / 8)] (fun _ _ => (- (x' / 8), 0))) None 0 false)).
  { apply hTime; auto.
    - destruct HI as [->|[_ [->|HI]]]; [left; reflexivity|left; apply Bool.orb_true_r|right; rewrite D2; auto].
    - destruct HI as [->|[HI _]]; [left; reflexivity|right; congruence]. }
  match goal with |- context[sim_time_step ?a ?b ?c ?d ?e] => replace (sim_time_step a b c d e) with (sim_time_step hEnv (hArgs (inter || first) inter) tm [] (h_sim h)) by (destruct inter; reflexivity) end.
  rewrite T. cbn [bind]. rewrite D2.
  assert (K : (if inter then with_parts (hB i) (kick_ix kx true (kick_fact (hP kx sm) (hB i)) (fun _ _ => (- (x' / 8), 0)) 0 0 [0%nat] (q_parts (hB i))) else hB i)
     = with_parts (hB i) [mkBp 0 (if (kx && inter)%bool then - (x' / 4) else 0) 0 0]).
  { destruct inter; [|rewrite Bool.andb_false_r; reflexivity]. f_equal. unfold kick_ix, kick_fact, kick_one. cbn. rewrite Bool.andb_true_r. f_equal. destruct kx; f_equal; field. }
  cbn [m_sc sc_fld m_clouds hd_error bind]. change (z_kx (hP kx sm)) with kx. change (z_ky (hP kx sm)) with true.
  change (z_xoff (hP kx sm)) with 0. change (z_yoff (hP kx sm)) with 0. rewrite K. unfold h. cbn [h_flags hState hFl w_rho w_fld w_bfld w_mp w_probe h_rho h_fld h_bfld h_mp h_probe push_rec bind].
  fold (push_rec w (fun _ _ : R => (- (x' / 8), 0)) fs). rewrite HP. reflexivity.
Qed.

Lemma hDts inter : dt_array (hP true true) inter 1 = Some [1].
Proof.
  unfold dt_array, hP. cbn [z_Dt]. rewrite (proj2 (Rleb_false 1 0)) by lra. rewrite (proj2 (Rgtb_false 1 1)) by lra. reflexivity.
Qed.
Lemma hDts2 : dt_array (hP true true) false 2 = Some [1; 1].
Proof.
  unfold dt_array, hP. cbn [z_Dt]. rewrite (proj2 (Rleb_false 1 0)) by lra. rewrite (proj2 (Rgtb_true 2 1)) by lra.
  replace (2 / 1) with (IZR 2) by field. rewrite rceil_IZR. replace (Z.to_nat 2) with 2%nat by reflexivity. cbn [repeat INR]. replace (2 / (1 + 1)) with 1 by field. reflexivity.
Qed.

Lemma hNonzero : Reqb (1/2 - 0) 0 || Reqb (1/2) 0 || Reqb 1 0 || Reqb 1 0 || Reqb 2 0 = false /\
  Reqb (1 - 0) 0 || Reqb (1/2) 0 || Reqb 1 0 || Reqb 1 0 || Reqb 2 0 = false.
Proof. rewrite !(proj2 (Reqb_false _ _)) by lra. auto. Qed.

(** A slice that takes as long as one step. *)
Lemma hShort kx sm w inter i force new x v f lst ck r ro G t bu bu' ri tr on hb fs fs' : interacts i = Some inter ->
  passage (hP kx sm) i force (hState w x v f lst ck r ro G t bu ri tr on hb fs) = Some (new, hState w x v f lst ck r ro G t bu' ri tr on hb fs) ->
  (x + (v - f)) * (x + (v - f)) < 1 -> inter = true \/ new = false ->
  let x' := x + (v - f) in
  push_rec w (fun _ _ => (- (x' / 8), 0)) fs = Some fs' ->
  track_single_slice (hP kx sm) (hB i) [0%nat] (1/2 - 0) force (hState w x v f lst ck r ro G t bu ri tr on hb fs) =
    Some (with_parts (hB i) [mkBp 0 (if (kx && inter)%bool then - (x' / 4) else 0) 0 0],
          hState w x' (v - f) (- (x' / 8)) t true [- (x' / 8)] [- (x' / 8)] (zero_last G) (t + 1) bu' ri tr on
            (if inter then slice_field (hP kx sm) (hB i) (1/2 - 0) [mkBp 0 0 0 0] else hb) fs').
Proof.
  intros HI HPa F0 HN x' HP. unfold track_single_slice. cbn [q_beta q_mass q_gamma hB q_info hP z_env hEnv e_kc exK c_light].
  rewrite (proj1 hNonzero). rewrite HI. cbn [bind].
  replace ((1/2 - 0) / (1/2 * 1)) with 1 by field. pose proof (hDts inter) as D.
  match goal with |- context[dt_array ?p ?b ?d] => replace (dt_array p b d) with (Some [1]) by (symmetry; exact D) end. cbn [bind].
  match goal with |- context[passage ?p ?b ?d ?e] => replace (passage p b d e) with (Some (new, hState w x v f lst ck r ro G t bu' ri tr on hb fs)) by (symmetry; exact HPa) end.
  cbn [bind cloud_steps].
  match goal with |- context[cloud_step ?p ?a ?b ?c ?d ?e ?f ?g ?h] => change (cloud_step p a b c d e f g h) with (cloud_step (hP kx sm) a b c d e f (hB i) h) end.
  rewrite (hStep kx sm w true new inter i (1/2 - 0) x v f lst ck r ro G t bu' ri tr on hb fs fs' F0); auto.
  destruct HN as [->|HN]; auto.
Qed.

(** One that takes as long as two steps, without the beam acting. *)
Lemma hLong kx sm w i x v f lst ck r ro G t bu bu' ri tr on hb fs fs1 fs2 : interacts i = Some false ->
  passage (hP kx sm) i false (hState w x v f lst ck r ro G t bu ri tr on hb fs) = Some (false, hState w x v f lst ck r ro G t bu' ri tr on hb fs) ->
  let x' := x + (v - f) in let v' := v - f in let f' := - (x' / 8) in
  let x2 := x' + (v' - f') in let v2 := v' - f' in let f2 := - (x2 / 8) in
  x' * x' < 1 -> x2 * x2 < 1 -> 0 <= t -> push_rec w (fun _ _ => (f', 0)) fs = Some fs1 -> push_rec w (fun _ _ => (f2, 0)) fs1 = Some fs2 ->
  track_single_slice (hP kx sm) (hB i) [0%nat] (1 - 0) false (hState w x v f lst ck r ro G t bu ri tr on hb fs) =
    Some (hB i, hState w x2 v2 f2 (t + 1) true [f2] [f2] (zero_last (zero_last G)) (t + 1 + 1) bu' ri tr on hb fs2).
Proof.
  intros HI HPa x' v' f' x2 v2 f2 F1 F2 T0 P1 P2. unfold track_single_slice. cbn [q_beta q_mass q_gamma hB q_info hP z_env hEnv e_kc exK c_light].
  rewrite (proj2 hNonzero). rewrite HI. cbn [bind].
  replace ((1 - 0) / (1/2 * 1)) with 2 by field. pose proof hDts2 as D.
  match goal with |- context[dt_array ?p ?b ?d] => replace (dt_array p b d) with (Some [1; 1]) by (symmetry; exact D) end. cbn [bind].
  match goal with |- context[passage ?p ?b ?d ?e] => replace (passage p b d e) with (Some (false, hState w x v f lst ck r ro G t bu' ri tr on hb fs)) by (symmetry; exact HPa) end.
  cbn [bind cloud_steps].
  match goal with |- context[cloud_step ?p ?a ?b ?c ?d ?e ?f ?g ?h] => change (cloud_step p a b c d e f g h) with (cloud_step (hP kx sm) a b c d e f (hB i) h) end.
  rewrite (hStep kx sm w true false false i (1 - 0) x v f lst ck r ro G t bu' ri tr on hb fs fs1 F1); auto.
  rewrite Bool.andb_false_r. cbn [bind]. change (with_parts (hB i) [mkBp 0 0 0 0]) with (hB i).
  match goal with |- context[cloud_step ?p ?a ?b ?c ?d ?e ?f ?g ?h] => change (cloud_step p a b c d e f g h) with (cloud_step (hP kx sm) a b c d e f g h) end.
  rewrite (hStep kx sm w false false false i (1 - 0) x' v' f' _ _ _ _ _ (t + 1) bu' ri tr on hb fs1 fs2 F2); auto; [|right; split; auto; right; lra].
  rewrite Bool.andb_false_r. reflexivity.
Qed.

(** A bunch of one slice. *)
Lemma hPass kx w x v f lst ck r ro G t bu ri tr on hb fs fs' : on && Nat.ltb 0 tr = false ->
  let x' := 1/4 + (0 - f) in x' * x' < 1 -> push_rec w (fun _ _ => (- (x' / 8), 0)) (empty_if w fs) = Some fs' ->
  exists fs2, reversed w fs' = Some fs2 /\
  track_bunch (hP kx false) hSl (hB NoInfo) (hState w x v f lst ck r ro G t bu ri tr on hb fs) =
    Some (with_parts (hB NoInfo) [mkBp 0 (if kx then - (x' / 4) else 0) 0 0],
          hState w x' (0 - f) (- (x' / 8)) t true [- (x' / 8)] [- (x' / 8)] (zero_last G) (t + 1) 0 (Datatypes.S ri) (Datatypes.S tr) on
            (slice_field (hP kx false) (hB NoInfo) (1/2 - 0) [mkBp 0 0 0 0]) fs2).
Proof.
  intros ON x' F0 P. assert (RV : exists fs2, reversed w fs' = Some fs2).
  { destruct w; cbn in *; [injection P as <-|]; eauto. }
  destruct RV as [fs2 RV]. exists fs2. split; auto.
  unfold track_bunch. change (h_once (hState w x v f lst ck r ro G t bu ri tr on hb fs)) with on. change (h_tracks (hState w x v f lst ck r ro G t bu ri tr on hb fs)) with tr.
  rewrite ON. rewrite hReset. cbn [bind].
  cbn [hSl sl_n track_slices sl_bins nth_error bind sl_idx Nat.eqb].
  rewrite (hShort kx false w true NoInfo true true (1/4) 0 f lst ck r ro G t (-1) 0 (Datatypes.S ri) tr on hb (empty_if w fs) fs'); auto.
  rewrite Bool.andb_true_r. cbn [bind]. unfold finalize. cbn [h_flags hState hFl w_rho w_fld w_bfld w_mp w_probe h_rho h_fld h_bfld h_mp h_probe].
  fold (push_rec w (fun _ _ : R => (- (x' / 8), 0)) fs). cbn [reversed bind]. fold (@reversed (R -> R -> R * R) w fs'). rewrite RV. reflexivity.
Qed.

(** * The same beam twice through the re-initialised cloud *)
Lemma hTwice : exists h1 h2 k1 k2,
  track_bunch (hP true false) hSl (hB NoInfo) (hH false) = Some (with_parts (hB NoInfo) [mkBp 0 k1 0 0], h1) /\
  track_bunch (hP true false) hSl (hB NoInfo) h1 = Some (with_parts (hB NoInfo) [mkBp 0 k2 0 0], h2) /\ k1 = -1/16 /\ k2 = -9/128.
Proof.
  assert (F1 : (1/4 + (0 - 0)) * (1/4 + (0 - 0)) < 1) by lra.
  destruct (hPass true false (1/4) 0 0 0 true [0] [0] exG 0 (-1) 0 0 false hB0 Missing Missing eq_refl F1 eq_refl) as (fs1 & R1 & T1).
  injection R1 as <-.
  set (f := - ((1/4 + (0 - 0)) / 8)) in *.
  assert (F2 : (1/4 + (0 - f)) * (1/4 + (0 - f)) < 1) by (unfold f; lra).
  destruct (hPass true false (1/4 + (0 - 0)) (0 - 0) f 0 true [f] [f] (zero_last exG) (0 + 1) 0 1 1 false (slice_field (hP true false) (hB NoInfo) (1/2 - 0) [mkBp 0 0 0 0]) Missing Missing eq_refl F2 eq_refl) as (fs2 & R2 & T2).
  eexists _, _, _, _. split; [exact T1|]. split; [exact T2|]. unfold f. split; field.
Qed.

(** * A recorded passage with the kick in one plane switched off *)
Lemma hNoKick : exists b' h' j c', track_once_bunch (hP false false) hSl (hB NoInfo) (hH false) = Some (b', h') /\ h_map h' = Some j /\
  map_track (hP false false) j hSl (hB NoInfo) = Some c' /\ map bp_xp (q_parts b') = [0] /\ map bp_xp (q_parts c') = [-1/16].
Proof.
  assert (F1 : (1/4 + (0 - 0)) * (1/4 + (0 - 0)) < 1) by lra.
  destruct (hPass false true (1/4) 0 0 0 true [0] [0] exG 0 (-1) 0 0 true hB0 Missing (Lst [fun _ _ => (- ((1/4 + (0 - 0)) / 8), 0)]) eq_refl F1 eq_refl) as (fs1 & R1 & T1).
  injection R1 as <-.
  unfold track_once_bunch. change (with_flags true (with_fld true (h_flags (hH false))) (hH false)) with (hState true (1/4) 0 0 0 true [0] [0] exG 0 (-1) 0 0 true hB0 Missing).
  rewrite T1. cbn [bind]. eexists _, _, _, _. split; [reflexivity|]. split; [reflexivity|].
  unfold map_track, map_slice. cbn [hSl sl_n map_slices]. unfold map_slice. cbn [hB q_p0 q_beta hP z_env hEnv e_kc exK c_light].
  rewrite !(proj2 (Reqb_false _ _)) by lra. split; [reflexivity|]. split; [reflexivity|]. cbn. f_equal. field.
Qed.

(** * A slice without interaction that takes two steps, then one with interaction *)
Definition hB1 : bobj := hB (Info (Some false) None 1 0 1).
Definition hB2 : bobj := hB (Info (Some true) None 0 0 (1/2)).

Lemma hSubSliced : exists bs' h' j cs' j', track_once_slices (hP true true) [hB1; hB2] (hH false) = Some (bs', h') /\ h_map h' = Some j /\
  map_track_list (hP true true) j [hB1; hB2] = Some (cs', j') /\
  hd_error bs' = Some hB1 /\ map (fun b => map bp_xp (q_parts b)) bs' = [[0]; [-89/1024]] /\ map (fun b => map bp_xp (q_parts b)) cs' = [[-1/16]; [-9/128]].
Proof.
  unfold track_once_slices. change (with_flags true (with_fld true (h_flags (hH false))) (hH false)) with (hState true (1/4) 0 0 0 true [0] [0] exG 0 (-1) 0 0 true hB0 Missing).
  rewrite hReset. cbn [bind track_list track_slice hB1 hB q_info q_parts List.length seq empty_if].
  match goal with |- context[track_single_slice ?p ?b ?ix ?dz ?f ?h] => change (track_single_slice p b ix dz f h) with (track_single_slice (hP true true) (hB (Info (Some false) None 1 0 1)) ix dz f h) end.
  rewrite (hLong true true true (Info (Some false) None 1 0 1) (1/4) 0 0 0 true [0] [0] exG 0 (-1) 0 1 0 true hB0 (Lst []) _ _ eq_refl eq_refl) by (try reflexivity; lra).
  cbn [bind track_list track_slice hB2 hB q_info q_parts List.length seq].
  match goal with |- context[track_single_slice ?p ?b ?ix ?dz ?f ?h] => change (track_single_slice p b ix dz f h) with (track_single_slice (hP true true) (hB (Info (Some true) None 0 0 (1/2))) ix dz f h) end.
  erewrite (hShort true true true true) ; [|reflexivity|reflexivity|lra|left; reflexivity|reflexivity].
  cbn [bind]. eexists _, _, _, _, _. split; [reflexivity|]. split; [reflexivity|].
  unfold map_track_list, map_track_slice, map_slice. cbn [hB1 hB2 hB q_info q_p0 q_beta hP z_env hEnv e_kc exK c_light].
  rewrite !(proj2 (Reqb_false _ _)) by lra. split; [reflexivity|]. split; [reflexivity|]. split.
  - cbn. do 3 f_equal. field.
  - cbn. f_equal; [f_equal; field|]. do 2 f_equal. field.
Qed.

(** * Cases that meet the hypotheses *)
Lemma hMoving kx sm i : moving (hP kx sm) (hB i).
Proof. repeat split; cbn; try lra. unfold momentum_ok. cbn. field. Qed.

(** Two slices one after the other. *)
Lemma hSlices : exists h, acts_run (hP true true) [ASlice hB2; ASlice hB2] (hH false) = Some h /\
  exists bs' h', track_list (hP true true) [hB2; hB2] h = Some (bs', h').
Proof.
  cbn [acts_run act_run track_slice hB2 hB q_info q_parts List.length seq].
  change (hH false) with (hState false (1/4) 0 0 0 true [0] [0] exG 0 (-1) 0 0 false hB0 Missing).
  Ltac one := match goal with |- context[track_single_slice ?p ?b ?ix ?dz ?f ?h] => change (track_single_slice p b ix dz f h) with (track_single_slice (hP true true) (hB (Info (Some true) None 0 0 (1/2))) ix dz f h) end;
    erewrite (hShort true true false true) ; [|reflexivity|reflexivity|lra|left; reflexivity|reflexivity]; cbn [bind].
  do 2 one. eexists. split; [reflexivity|].
  cbn [track_list track_slice hB2 hB q_info q_parts List.length seq]. one. one. eauto.
Qed.

(** A slicing by positions: two slices, with two and one particles. *)
Definition hSl2 : slicing := mkSlicing 2 [0; 1/2; 1]
  (fun i => match py_nth [0; 2; 3]%nat i, py_nth [0; 2; 3]%nat (i + 1)%Z with Some a, Some b => firstn (b - a)%nat (skipn a [0; 1; 2]%nat) | _, _ => [] end).
Lemma hSl2_pos : by_position hSl2 /\ sl_idx hSl2 0 = [0; 1]%nat /\ sl_idx hSl2 1 = [2]%nat /\ sl_idx hSl2 (-1) = [] /\ sl_idx hSl2 (-2) = [2]%nat.
Proof. split; [exists [0; 2; 3]%nat, [0; 1; 2]%nat|]; repeat split. Qed.
Definition hB3 : bobj := mkBobj 1 1 1 (1/2) 2 1 [mkBp 0 0 0 0; mkBp 0 0 0 0; mkBp 0 0 0 0] NoInfo.
Lemma hRecorded : exists bs' h', track_once_slices (hP true true) [hB2; hB2] (hH false) = Some (bs', h').
Proof.
  unfold track_once_slices. change (with_flags true (with_fld true (h_flags (hH false))) (hH false)) with (hState true (1/4) 0 0 0 true [0] [0] exG 0 (-1) 0 0 true hB0 Missing).
  rewrite hReset. cbn [bind track_list track_slice hB2 hB q_info q_parts List.length seq empty_if].
  Ltac onew := match goal with |- context[track_single_slice ?p ?b ?ix ?dz ?f ?h] => change (track_single_slice p b ix dz f h) with (track_single_slice (hP true true) (hB (Info (Some true) None 0 0 (1/2))) ix dz f h) end;
    erewrite (hShort true true true true) ; [|reflexivity|reflexivity|lra|left; reflexivity|reflexivity]; cbn [bind].
  onew. cbn [track_list track_slice hB2 hB q_info q_parts List.length seq]. onew. cbn. eauto.
Qed.

Lemma hOnce : exists b' h', track_once_bunch (hP true false) hSl (hB NoInfo) (hH false) = Some (b', h').
Proof.
  assert (F1 : (1/4 + (0 - 0)) * (1/4 + (0 - 0)) < 1) by lra.
  destruct (hPass true true (1/4) 0 0 0 true [0] [0] exG 0 (-1) 0 0 true hB0 Missing _ eq_refl F1 eq_refl) as (fs1 & R1 & T1). injection R1 as <-.
  unfold track_once_bunch. change (with_flags true (with_fld true (h_flags (hH false))) (hH false)) with (hState true (1/4) 0 0 0 true [0] [0] exG 0 (-1) 0 0 true hB0 Missing).
  rewrite T1. cbn. eauto.
Qed.

(** * Counterexamples *)
Lemma twice_differs : exists p0 p m fl b0 h0 sl b b1 b2 h1 h2,
    Forall (fun c => wf (o_mp c)) (m_clouds m) /\ trackers (m_clouds m) /\ ecloud_ctor p0 m fl b0 = Some (p, h0) /\
    track_bunch p sl b h0 = Some (b1, h1) /\ track_bunch p sl b h1 = Some (b2, h2) /\ b1 <> b2.
Proof.
  destruct hTwice as (h1 & h2 & k1 & k2 & T1 & T2 & K1 & K2). exists (hP0 true false), (hP true false), hM, (hFl false), hB0, (hH false), hSl, (hB NoInfo). eexists _, _, h1, h2.
  split; [exact hWf|]. split; [exact hTr|]. split; [apply hCtor|]. split; [exact T1|]. split; [exact T2|]. intros E. injection E as E. lra.
Qed.

Lemma disabled_kick : exists p slices b h b' h' j c, z_kx p = false /\ interacts (q_info b) = Some true /\ h_map h = None /\ h_tracks h = 0%nat /\
    track_once_bunch p slices b h = Some (b', h') /\ h_map h' = Some j /\ map_track p j slices b = Some c /\ q_parts b' <> q_parts c.
Proof.
  destruct hNoKick as (b' & h' & j & c & T1 & T2 & T3 & K1 & K2). exists (hP false false), hSl, (hB NoInfo), (hH false), b', h', j, c.
  repeat (split; [auto|]). intros E. rewrite E, K2 in K1. injection K1 as K1. lra.
Qed.

Lemma long_slice : exists p h b1 b2 b1' b2' h' j c1 c2 j', z_kx p = true /\ z_ky p = true /\ h_map h = None /\ moving p b1 /\ moving p b2 /\
    interacts (q_info b1) = Some false /\ interacts (q_info b2) = Some true /\
    track_once_slices p [b1; b2] h = Some ([b1'; b2'], h') /\ h_map h' = Some j /\ map_track_list p j [b1; b2] = Some ([c1; c2], j') /\
    b1' = b1 /\ q_parts c1 <> q_parts b1 /\ q_parts c2 <> q_parts b2'.
Proof.
  destruct hSubSliced as (bs' & h' & j & cs' & j' & T1 & T2 & T3 & E & K1 & K2).
  destruct bs' as [|b1' [|b2' [|]]]; try discriminate. destruct cs' as [|c1 [|c2 [|]]]; try discriminate. injection E as ->. injection K1 as K3. injection K2 as K4 K5.
  exists (hP true true), (hH false), hB1, hB2, hB1, b2', h', j, c1, c2, j'. do 3 (split; [reflexivity|]). split; [apply hMoving|]. split; [apply hMoving|].
  do 2 (split; [reflexivity|]). split; [exact T1|]. split; [exact T2|]. split; [exact T3|]. split; [reflexivity|].
  split; intros E; rewrite E in *; cbn in *.
  - injection K4 as K4. lra.
  - rewrite K3 in K5. injection K5 as K5. lra.
Qed.
