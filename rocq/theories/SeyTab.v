(** Yields read from a table, stated without the helpers of the model. *)
From Coq Require Import Lra Lia.
From Verif Require Import Num NumFacts Sey SpecSey SeyFacts SeyFacts3.
Local Open Scope R_scope.

Lemma tab_values_law a h n tr el gt ct ge ce (sc sh : bool) E co :
  0 < h -> round3 h = h -> (2 <= n)%nat -> length tr = n -> length el = n ->
  let Es := if sh then E / (1 + (7/10) * (1 - co)) else E in
  let sx := if sc then exp ((1/2) * (1 - co)) else 1 in
  let top := a + INR (n - 1) * h in
  let cut := fun x => if Rltb x (1 / 10 ^ 10) then 0 else x in
  a <= E -> a <= Es ->
  exists t y1 y2 d f, tab_ctor (grid a h n) tr el gt ct ge ce sc sh = Some t /\
    (if Rleb Es top then interpolates a h tr Es y1 else y1 = ct + gt * Es) /\
    (if Rleb E top then interpolates a h el E y2 else y2 = ce + ge * E) /\
    tab_values t E co = Some (d, f) /\ d = cut (y1 * sx) + cut y2 /\ d * f = cut y2 /\ (d = 0 -> f = 0).
Proof.
  intros Hh Hr Hn L1 L2 Es sx top cut HE HEs.
  destruct (tab_values_grid a h n tr el gt ct ge ce sc sh E co Hh Hr Hn L1 L2 HE HEs) as (t & y1 & y2 & T & I1 & I2 & V).
  destruct (clip10_ok (y1 * sx)) as [P1 _]. destruct (clip10_ok y2) as [P2 _].
  destruct (total_frac_ok _ _ P1 P2) as (_ & _ & A & B).
  exists t, y1, y2, (fst (total_frac (clip10 (y1 * sx)) (clip10 y2))), (snd (total_frac (clip10 (y1 * sx)) (clip10 y2))).
  rewrite <- surjective_pairing. split; [exact T|]. split; [exact I1|]. split; [exact I2|]. split; [exact V|].
  split; [exact A|]. split; [rewrite Rmult_comm; exact B|].
  unfold total_frac. cbn [fst snd]. intros Z. rewrite Z. destruct (Rgtb 0 0) eqn:Q; auto. apply Rgtb_true in Q. lra.
Qed.
