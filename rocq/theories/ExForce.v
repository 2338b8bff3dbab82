(** Instances for C80. *)
From Coq Require Import String Lra Lia.
From Verif Require Import Num NumFacts MP SpecMP Push SpecPush Geom Poly Sey Impact SpecImpact Beam SpecBeam
  Source SpecSource CrossIon SpecCrossIon Sim SpecSim SimFacts9 ExPush ExSey ExImpact ExSource ExSim.
Local Open Scope list_scope.
Local Open Scope R_scope.

(** A second beam, with a vertical field. *)
Definition oBeam : tim := mkTim 1 (3/2) (1/2) false true (fun _ => (Scal 0, Scal 1)) 1 1 0 0.
Definition again_args : sargs := mkSargs None None false false true false false.
Definition fSet (d : dynmod) : cset := mkCset "electron" 1 (-1) d exC absorb_em (fun _ l => l) None 0 NoPhoto sRegen None None.

Lemma oActs : acts oBeam (fun _ => (0, 1)).
Proof. intros pos. cbn. split; apply Forall_forall; auto. Qed.
Lemma fGather s : exists E, gather_field sSc false kBeam [oBeam] s = Some E.
Proof. destruct (gather_is sSc kBeam [oBeam] _ [_] s kActs (Forall2_cons _ _ oActs (Forall2_nil _))) as (E & H & _). eauto. Qed.
Lemma fFree : exists s', cloud_motion sEnv no_args kBeam [oBeam] sSc (o_set sE) exS0 = Some s'.
Proof.
  unfold cloud_motion, sub_steps. cbn [no_args s_Nsub s_Dtsub s_kick s_force_re sEnv e_boris e_reinterp bind orb kBeam ti_unif negb o_set sE sSet a_dyn boris_dyn d_Nsub Nat.eqb d_custom d_Dt].
  cbn [motion_loop]. destruct (fGather exS0) as (E & G). rewrite G. cbn [bind]. eauto.
Qed.
Lemma fAgain : exists s', cloud_motion sEnv again_args kBeam [oBeam] sSc (o_set sE) exS0 = Some s'.
Proof.
  unfold cloud_motion, sub_steps. cbn [again_args s_Nsub s_Dtsub s_kick s_force_re sEnv e_boris e_reinterp bind orb kBeam ti_unif negb o_set sE sSet a_dyn boris_dyn d_Nsub Nat.eqb d_custom d_Dt].
  cbn [motion_loop]. destruct (fGather exS0) as (E & G). rewrite G. cbn [bind]. match goal with |- context[gather_field _ _ _ _ ?s] => destruct (fGather s) as (E' & G') end.
  rewrite G'. cbn [bind]. eauto.
Qed.
Lemma fStrong : exists s', cloud_motion sEnv no_args kBeam [oBeam] sSc (fSet (strongB_dyn 1 3 4 SrcNone (1/10))) exS0 = Some s'.
Proof.
  unfold cloud_motion, sub_steps. cbn [no_args s_Nsub s_Dtsub s_kick s_force_re sEnv e_boris e_reinterp bind orb kBeam ti_unif negb fSet a_dyn strongB_dyn d_Nsub Nat.eqb d_step d_Dt].
  cbn [motion_loop]. destruct (fGather exS0) as (E & G). rewrite G. cbn [bind]. eauto.
Qed.
Lemma fDip : exists s', cloud_motion sEnv no_args kBeam [oBeam] sSc (fSet (dipole_dyn (1 / 10 ^ 11) 1)) exS0 = Some s'.
Proof.
  unfold cloud_motion, sub_steps. cbn [no_args s_Nsub s_Dtsub s_kick s_force_re sEnv e_boris e_reinterp bind orb kBeam ti_unif negb fSet a_dyn dipole_dyn d_Nsub Nat.eqb d_step d_Dt].
  cbn [motion_loop]. destruct (fGather exS0) as (E & G). rewrite G. cbn [bind]. eauto.
Qed.
Lemma fNorm : 1/10 <= sqrt (3 * 3 + 4 * 4).
Proof. replace (3 * 3 + 4 * 4) with (5 * 5) by ring. rewrite sqrt_square by lra. lra. Qed.
Lemma fAngle : 1 / 10000 <= Rabs (1 * qm_e * (1 / 10 ^ 11)).
Proof. exact ex_angle. Qed.
