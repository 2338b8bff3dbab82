(** The files of clouds and beams. *)
From Coq Require Import String Ascii Lia Bool Lra.
From Verif Require Import Num NumFacts ConfigVal ConfigTable Ckpt CkptFacts Config SpecConfig ConfigFacts ConfigFacts2 ConfigFacts3.
Local Open Scope string_scope.
Local Open Scope list_scope.

(** * One file against one section *)
Section One.
Variable s : section.
Variable mand : string -> Prop.
Variable default : string -> pval -> Prop.
Notation param := (fun p => mand p \/ exists v, default p v).
Hypothesis Hmand : forall p, In p (s_mand s) <-> mand p.
Hypothesis Hopt : forall p v, dget (s_opt s) p = Some v <-> default p v.
Hypothesis Hok : sec_ok s.
Hypothesis Hpriv : forall p, param p -> ~ private p.
Hypothesis Hpi : forall p, param p -> p <> "pi".

Lemma one_keys p : In p (map fst (s_opt s)) <-> exists v, default p v.
Proof.
  split.
  - intros H. apply dhas_in in H. unfold dhas in H. destruct (dget _ p) as [v|] eqn:E; [|discriminate]. exists v. apply Hopt. auto.
  - intros [v H]. apply Hopt, dget_in, in_key in H. auto.
Qed.
Lemma one_valid b : def_ok b -> (assert_module_has_parameters s (with_pi b) = Some tt <-> valid mand param [b]).
Proof.
  intros Nb. rewrite assert_spec. split.
  - intros [A1 A2]. split; [|split].
    + intros p Hp. destruct (A1 p) as [v Hv]; [apply Hmand; auto|]. exists b, v. split; [left; auto|]. apply wp_g1 in Hv; auto.
    + intros f p v [<-|[]] Hg. destruct (String.eqb_spec p "pi"); auto. left. apply (wp_g2 b p v n) in Hg. apply A2 in Hg.
      destruct Hg as [H|[H|H]]; [left; apply Hmand; auto|right; apply one_keys; auto|contradiction].
    + intros i j f g p v w Hi Hj. destruct i as [|i]; [|destruct i; discriminate]. destruct j as [|j]; [|destruct j; discriminate]. auto.
  - intros (V1 & V2 & _). split.
    + intros p Hp. apply Hmand in Hp. destruct (V1 p Hp) as (f & v & [<-|[]] & Hg). exists v. apply with_pi_given; auto.
    + intros p v Hg. destruct (String.eqb_spec p "pi"); auto. apply wp_g1 in Hg; auto.
      destruct (V2 b p v) as [[H|H]|H]; [left; auto|exact Hg|left; apply Hmand; auto|right; left; apply one_keys; auto|auto].
Qed.
Lemma one_dget b p v : def_ok b -> clear_names param [b] -> param p -> (dget (with_pi b) p = Some v <-> given b p v).
Proof.
  intros Nb Cl Hp. rewrite get_pi by auto. unfold given. split; [|tauto]. intros H. split; auto. split; auto. intros ->. apply (Cl b p); cbn; auto.
Qed.
(** What stands for a parameter that the file does not give. *)
Definition otherwise (o : option attrs) (p : string) (v : pval) : Prop :=
  match o with Some cc => match dget cc p with Some w => v = w /\ exists d, default p d | None => default p v end | None => default p v end.
Lemma one_value b o : def_ok b -> valid mand param [b] -> clear_names param [b] ->
  exists cfg, update_config_dict [] (with_pi b) s o = Some cfg /\ NoDup (map fst cfg) /\
    forall p v, dget cfg p = Some v <-> param p /\ (given b p v \/ (~ (exists w, given b p w) /\ otherwise o p v)).
Proof.
  intros Nb (V1 & _) Cl. pose proof (config_spec (with_pi b) s o Hok) as Q.
  destruct (update_config_dict [] (with_pi b) s o) as [cfg|].
  2:{ exfalso. destruct Q as (p & Q1 & Q2). apply Hmand in Q1. destruct (V1 p Q1) as (f & v & [<-|[]] & Hg).
      apply (one_dget b p v Nb Cl (or_introl Q1)) in Hg. congruence. }
  destruct Q as (_ & Q2 & Q3). exists cfg. split; auto. split; auto. intros p v. rewrite Q3.
  destruct (dget (s_opt s) p) as [d|] eqn:Do.
  - pose proof (proj1 (Hopt p d) Do) as Hd. assert (Hp : param p) by (right; eauto). unfold choose.
    destruct (dget (with_pi b) p) as [w|] eqn:Dp.
    + apply (one_dget b p w Nb Cl Hp) in Dp. split.
      * intros X. injection X as <-. auto.
      * intros (_ & [X|(X & _)]); [|exfalso; eauto]. apply (one_dget b p w Nb Cl Hp) in Dp. apply (one_dget b p v Nb Cl Hp) in X. congruence.
    + assert (Ng : ~ exists w, given b p w) by (intros [w G]; apply (one_dget b p w Nb Cl Hp) in G; congruence).
      split.
      * intros X. injection X as <-. split; auto. right. split; auto. unfold otherwise. destruct o as [cc|]; auto. destruct (dget cc p); eauto.
      * intros (_ & [X|(_ & X)]); [exfalso; eauto|]. unfold otherwise in X. destruct o as [cc|].
        -- destruct (dget cc p); [destruct X as [-> _]; auto|]. apply Hopt in X. congruence.
        -- apply Hopt in X. congruence.
  - destruct (mem p (s_mand s)) eqn:Mm.
    + apply mem_in, Hmand in Mm. assert (Hp : param p) by (left; auto). rewrite (one_dget b p v Nb Cl Hp). split; auto.
      intros (_ & [X|(X & _)]); auto. exfalso. apply X. destruct (V1 p Mm) as (f & w & [<-|[]] & Hg). eauto.
    + split; [discriminate|]. intros ([Hp|[w Hp]] & _).
      * apply Hmand, mem_in in Hp. congruence.
      * apply Hopt in Hp. congruence.
Qed.
End One.

(** * Names of the outputs *)
Lemma app_inj_r_s s : forall a b, (a ++ s)%string = (b ++ s)%string -> a = b.
Proof.
  assert (L : forall a, String.length (a ++ s) = (String.length a + String.length s)%nat) by (induction a; cbn; auto).
  induction a as [|x a IH]; intros [|y b] H; cbn in H; auto.
  - exfalso. apply (f_equal String.length) in H. cbn in H. rewrite L in H. lia.
  - exfalso. apply (f_equal String.length) in H. cbn in H. rewrite L in H. lia.
  - injection H as -> H. rewrite (IH b H). auto.
Qed.
Lemma before_spec sub s : exists r, s = (before sub s ++ r)%string /\ (r = "" \/ exists t, r = (sub ++ t)%string).
Proof.
  induction s as [|a s (r & H & Hr)].
  - exists "". split; auto. cbn. destruct (strip sub ""); reflexivity.
  - cbn [before]. destruct (strip sub (String a s)) as [t|] eqn:E.
    + exists (String a s). split; auto. right. exists t. apply strip_spec. auto.
    + exists r. split; auto. cbn. rewrite <- H. reflexivity.
Qed.
Lemma output_inj m a b : cloud_output m a = cloud_output m b -> a = b.
Proof. unfold cloud_output. intros H. apply app_inj_s in H. apply app_inj_s in H. apply app_inj_r_s in H. auto. Qed.
Lemma output_not_main m a : cloud_output m a <> m.
Proof.
  unfold cloud_output. destruct (before_spec ".mat" m) as (r & H & Hr). set (B := before ".mat" m) in *. clearbody B. intros E. rewrite H in E. apply app_inj_s in E.
  destruct Hr as [->|(t & ->)]; discriminate.
Qed.
