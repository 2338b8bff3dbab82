(** C22-C24, C49, C56: the beam, its clock and the time loop. *)
From Verif Require Import Num NumFacts Fort FortFacts Beam SpecBeam BeamFacts BeamFacts2 ExBeam.

(** C22.  For any simulation step, any number of secondary beams on the same
    axis and any optional end time, [run] applies the step to the states of
    the beams at steps 0, 1, 2, ... in order and stops after the number of
    steps [n_steps] asks for; it never reads outside the arrays (the loop only
    fails if the step itself does).  At each step the clock shows the time,
    its distance to the next time and the density of that step. *)
Theorem C22_run :
  forall {S : Type} (sim : beam -> list beam -> S -> option S) te fuel b ss s,
  fresh b -> Forall (fun x => fresh x /\ length (b_t x) = length (b_t b)) ss -> (length (b_t b) <= fuel)%nat ->
  exists vis, run sim te fuel b ss s = (do s' <- through sim vis s ; Some (last vis (b, ss), s')) /\
    n_steps te (b_t b) (length vis) /\
    forall i d, (i < length vis)%nat -> at_step b i (fst (nth i vis d)) /\ Forall2 (fun s0 s => at_step s0 i s) ss (snd (nth i vis d)).
Proof. exact @run_fresh. Qed.
Print Assumptions C22_run.

(** C22.  Without end time: one step for each pair of consecutive times, in
    order; none for an axis with fewer than two times. *)
Theorem C22_steps :
  forall b ss fuel,
  fresh b -> Forall (fun x => fresh x /\ length (b_t x) = length (b_t b)) ss -> (length (b_t b) <= fuel)%nat ->
  exists r, run record_steps None fuel b ss [] =
    Some (r, map (fun i => (nth i (b_t b) 0, nth (S i) (b_t b) 0 - nth i (b_t b) 0)) (seq 0 (length (b_t b) - 1))).
Proof. exact run_steps. Qed.
Print Assumptions C22_steps.

Example C22_case : fresh beam5 /\ Forall (fun x => fresh x /\ length (b_t x) = length (b_t beam5)) [beam5] /\
  (length (b_t beam5) <= 5)%nat /\ n_steps (Some 2) (b_t beam5) 3.
Proof.
  split; [exact beam5_fresh|]. split; [constructor; [split; [exact beam5_fresh|auto]|auto]|]. split; [cbn; lia|exact beam5_stop].
Qed.

(** C22.  The axis built for a filling pattern of [n] slots has the step [Dt]
    everywhere (it counts as uniform), starts at 0, and its last simulated step is not before
    [n * b_spac + t_end]. *)
Theorem C22_axis :
  forall b_spac sigmaz t_offs Dt t_end fact coast ppb sv sz,
  0 < Dt -> 0 < b_spac -> 0 <= t_end -> slot_lengths sv sigmaz ppb = Some sz -> (length ppb <= length sz)%nat ->
  exists b, beam_bunched None b_spac sigmaz t_offs Dt t_end fact coast ppb sv = Some b /\ fresh b /\ ascending (b_t b) /\
    nth 0 (b_t b) 0 = 0 /\ Beam.b_spac b = b_spac /\ b_unif b = true /\
    (forall i, (i < length (b_t b))%nat -> nth i (b_t b) 0 = INR i * Dt /\
       nth i (b_lam b) 0 = fact * train_density b_spac t_offs ppb sz (INR i * Dt) + coast) /\
    (2 <= length (b_t b))%nat /\ INR (length ppb) * b_spac + t_end <= nth (length (b_t b) - 2) (b_t b) 0 /\
    nth (length (b_t b) - 1) (b_t b) 0 < INR (length ppb) * b_spac + t_end + 2 * Dt.
Proof. exact bunched_primary. Qed.
Print Assumptions C22_axis.

(** C22.  A secondary beam takes the axis of the primary one. *)
Theorem C22_secondary_axis :
  forall p b_spac sigmaz t_offs Dt t_end fact coast ppb sv sz,
  b_spac <> 0 -> 0 < Dt -> p <> [] -> slot_lengths sv sigmaz ppb = Some sz -> (length ppb <= length sz)%nat ->
  exists b, beam_bunched (Some p) b_spac sigmaz t_offs Dt t_end fact coast ppb sv = Some b /\ fresh b /\ b_t b = p /\ b_unif b = true /\
    forall i, (i < length p)%nat -> nth i (b_lam b) 0 = fact * train_density b_spac t_offs ppb sz (nth i p 0) + coast.
Proof. exact bunched_secondary. Qed.
Print Assumptions C22_secondary_axis.

Example C22_axis_case : 0 < 1 /\ 0 < 2 /\ 0 <= 0 /\ slot_lengths None 3 [1; 0] = Some [3; 0] /\ (length [1; 0] <= length [3; 0])%nat.
Proof.
  split; [lra|]. split; [lra|]. split; [lra|]. split; [|auto]. rewrite default_slot_lengths by lra. cbn [map].
  rewrite (proj2 (Rgtb_true 1 0)), (proj2 (Rgtb_false 0 0)) by lra. auto.
Qed.

(** C23.  The signal is given exactly at the steps that enter a passage that
    is later than all passages seen before (and not before time zero). *)
Theorem C23_signal :
  forall b ss fuel,
  fresh b -> Forall (fun x => fresh x /\ length (b_t x) = length (b_t b)) ss -> (length (b_t b) <= fuel)%nat ->
  exists r sigs, run record_signals None fuel b ss [] = Some (r, sigs) /\ length sigs = (length (b_t b) - 1)%nat /\
    (forall i, (i < length sigs)%nat -> nth i sigs false = true <->
       (-1 < passage b i)%Z /\ forall j, (j < i)%nat -> (passage b j < passage b i)%Z).
Proof. exact run_signals. Qed.
Print Assumptions C23_signal.

(** C23.  With times in order starting at or after zero: one signal at the
    first step and one whenever the passage changes, as many as there are
    passages visited.  Missing from the full statement: axes that start before
    time zero, see below. *)
Theorem C23_once_per_passage_partial :
  forall b ss fuel,
  fresh b -> Forall (fun x => fresh x /\ length (b_t x) = length (b_t b)) ss -> (length (b_t b) <= fuel)%nat ->
  0 < Beam.b_spac b -> ascending (b_t b) -> 0 <= nth 0 (b_t b) 0 ->
  exists r sigs, run record_signals None fuel b ss [] = Some (r, sigs) /\ length sigs = (length (b_t b) - 1)%nat /\
    (forall i, (i < length sigs)%nat -> nth i sigs false = true <-> (i = 0%nat \/ (passage b (i - 1) < passage b i)%Z)) /\
    count_true sigs = length (nodup Z.eq_dec (map (passage b) (seq 0 (length (b_t b) - 1)))).
Proof. exact run_signals_count. Qed.
Print Assumptions C23_once_per_passage_partial.

Example C23_case : fresh beam5 /\ 0 < Beam.b_spac beam5 /\ ascending (b_t beam5) /\ 0 <= nth 0 (b_t beam5) 0 /\
  map (passage beam5) (seq 0 4) = [0; 0; 1; 1]%Z.
Proof. split; [exact beam5_fresh|]. split; [cbn; lra|]. split; [exact beam5_asc|]. split; [cbn; lra|exact beam5_passages]. Qed.

(** C23 fails for a time axis that starts before zero (possible with a profile
    from file): passages before time zero are not signalled. *)
Theorem C23_before_zero_refuted :
  exists b r sigs, fresh b /\ 0 < Beam.b_spac b /\ ascending (b_t b) /\
    run record_signals None 4 b [] [] = Some (r, sigs) /\ length sigs = 3%nat /\
    passage b 0 <> passage b 1 /\ nth 0 sigs false = false /\ nth 1 sigs false = false.
Proof.
  destruct early_silent as (r & sigs & A & B & C & D & E). exists early, r, sigs.
  split; [exact early_fresh|]. split; [cbn; lra|]. split; [exact early_asc|]. auto.
Qed.
Print Assumptions C23_before_zero_refuted.

(** C24.  The profile is at each time the sum over the slots of a Gaussian
    centred at the slot, cut at ten standard deviations. *)
Theorem C24_superposition :
  forall t b_spac t_offs ppb sz, (length ppb <= length sz)%nat ->
  bunch_train4 t b_spac t_offs ppb sz = Some (map (train_density b_spac t_offs ppb sz) t).
Proof. exact train_spec. Qed.
Print Assumptions C24_superposition.

(** C24.  Additive and homogeneous in the filling pattern, zero for an empty
    pattern, never negative for a pattern without negative charges. *)
Theorem C24_linear :
  forall t b_spac t_offs p1 p2 sz a, length p1 = length p2 -> (length p1 <= length sz)%nat ->
  exists v1 v2 v, bunch_train4 t b_spac t_offs p1 sz = Some v1 /\ bunch_train4 t b_spac t_offs p2 sz = Some v2 /\
    bunch_train4 t b_spac t_offs (map2 (fun x y => a * x + y) p1 p2) sz = Some v /\
    v = map2 (fun x y => a * x + y) v1 v2.
Proof.
  intros t b_spac t_offs p1 p2 sz a L H. do 3 eexists. split; [apply train_spec; auto|]. split; [apply train_spec; lia|].
  split; [apply train_spec; rewrite map2_length; lia|]. rewrite (map2_affine t b_spac t_offs p1 p2 sz a L). auto.
Qed.
Print Assumptions C24_linear.

Theorem C24_empty :
  forall t b_spac t_offs n sz, (n <= length sz)%nat ->
  bunch_train4 t b_spac t_offs (repeat 0 n) sz = Some (map (fun _ => 0) t).
Proof.
  intros t b_spac t_offs n sz H. rewrite train_spec by (rewrite repeat_length; auto). f_equal. apply map_ext. intros x. apply train_empty.
Qed.
Print Assumptions C24_empty.

Theorem C24_nonneg :
  forall t b_spac t_offs ppb sz v, Forall (fun q => 0 <= q) ppb -> bunch_train4 t b_spac t_offs ppb sz = Some v ->
  Forall (fun x => 0 <= x) v.
Proof.
  intros t b_spac t_offs ppb sz v P H. destruct (Nat.le_gt_cases (length ppb) (length sz)) as [L|L].
  - rewrite train_spec in H by auto. injection H as <-. apply Forall_forall. intros x Hx. apply in_map_iff in Hx. destruct Hx as (y & <- & _).
    apply train_nonneg. auto.
  - unfold bunch_train4 in H. rewrite train_loop_short in H by auto. discriminate.
Qed.
Print Assumptions C24_nonneg.

(** C24.  Where the windows of the bunches do not overlap a bunch is alone. *)
Theorem C24_alone :
  forall b_spac t_offs ppb sz i t, 0 < b_spac ->
  (forall j k, (j < k < length ppb)%nat -> 10 * nth j sz 0 + 10 * nth k sz 0 <= c_light * b_spac) -> (i < length ppb)%nat ->
  slot_density b_spac t_offs i (nth i ppb 0) (nth i sz 0) t <> 0 ->
  train_density b_spac t_offs ppb sz t = slot_density b_spac t_offs i (nth i ppb 0) (nth i sz 0) t.
Proof. exact train_alone. Qed.
Print Assumptions C24_alone.

(** C24.  Giving no bunch lengths is the same as giving the nominal length to
    every slot, if no charge is negative. *)
Theorem C24_default_lengths :
  forall b_spac t_offs sigmaz ppb t, sigmaz <> -1 -> Forall (fun q => 0 <= q) ppb ->
  exists sz, slot_lengths None sigmaz ppb = Some sz /\
    train_density b_spac t_offs ppb sz t = train_density b_spac t_offs ppb (repeat sigmaz (length ppb)) t.
Proof. intros. eexists. split; [apply default_slot_lengths; auto|apply default_lengths; auto]. Qed.
Print Assumptions C24_default_lengths.

(** C24.  Too few bunch lengths are refused. *)
Theorem C24_short_lengths :
  forall tp b_spac sigmaz t_offs Dt t_end fact coast ppb sv, (length sv < length ppb)%nat ->
  beam_bunched tp b_spac sigmaz t_offs Dt t_end fact coast ppb (Some sv) = None.
Proof. exact bunched_short. Qed.
Print Assumptions C24_short_lengths.

Example C24_case : (length [0; 5; 0] <= length [1; 1; 1])%nat /\ train_density 1 0 [0; 5; 0] [1; 1; 1] 1 = 5 / sqrt (2 * PI).
Proof. split; [auto|exact ex_train]. Qed.

(** C49.  The field of a beam on each macroparticle is zero at or below the
    threshold density and the map times the charge and density of the beam
    above it; without macroparticles there is nothing to compute. *)
Theorem C49_beam_field :
  forall f pos, let '(ex, ey) := get_beam_eletric_field f pos in
  (match ex with Scal _ => True | Vec l => length l = length pos end) /\
  (match ey with Scal _ => True | Vec l => length l = length pos end) /\
  forall i d, (i < length pos)%nat -> (fat ex i, fat ey i) = beam_at f (nth i pos d).
Proof. exact beam_field_ok. Qed.
Print Assumptions C49_beam_field.

Theorem C49_zero :
  forall f pos, f_lam f <= f_th f \/ pos = [] -> get_beam_eletric_field f pos = (Scal 0, Scal 0).
Proof.
  intros f pos [H| ->]; unfold get_beam_eletric_field.
  - rewrite (proj2 (Rgtb_false _ _)) by auto. auto.
  - cbn [length Nat.eqb negb]. rewrite andb_false_r. auto.
Qed.
Print Assumptions C49_zero.

(** C49.  The force on each macroparticle uses the sum of the field of the
    clouds, of the main beam and of all secondary beams at its position. *)
Theorem C49_total_field :
  forall sc main secs pos, length sc = length pos ->
  exists ex ey, total_field sc (get_beam_eletric_field main) (map get_beam_eletric_field secs) pos = Some (Vec ex, Vec ey) /\ length ex = length pos /\ length ey = length pos /\
  forall i d d', (i < length pos)%nat ->
    nth i ex 0 = fst (nth i sc d') + rsum (map (fun f => fst (beam_at f (nth i pos d))) (main :: secs)) /\
    nth i ey 0 = snd (nth i sc d') + rsum (map (fun f => snd (beam_at f (nth i pos d))) (main :: secs)).
Proof. exact total_field_ok. Qed.
Print Assumptions C49_total_field.

Example C49_case : beam_at (map34 2) (1/2, 1/2) = (6, 8) /\ beam_at (map34 1) (1/2, 1/2) = (0, 0) /\ length [(1, 2)] = length [(1/2, 1/2)].
Proof. split; [apply ex_field|]. split; [apply ex_field|auto]. Qed.

(** C56.  Running up to a chosen time and continuing later gives the same
    result as one uninterrupted run. *)
Theorem C56_stop_and_continue :
  forall {S : Type} (sim : beam -> list beam -> S -> option S) te fuel b ss s, fresh b ->
  Forall (fun x => fresh x /\ length (b_t x) = length (b_t b)) ss -> (length (b_t b) <= fuel)%nat ->
  forall b1 ss1 s1 r, run sim te fuel b ss s = Some (b1, ss1, s1) -> run sim None fuel b1 ss1 s1 = Some r ->
  run sim None fuel b ss s = Some r.
Proof. exact @run_stop_continue. Qed.
Print Assumptions C56_stop_and_continue.

Example C56_case : exists b1 s1 r, run record_steps (Some 2) 5 beam5 [] [] = Some (b1, [], s1) /\ length s1 = 3%nat /\
  run record_steps None 5 b1 [] s1 = Some r /\ length (snd r) = 4%nat.
Proof. exact stop_case. Qed.
