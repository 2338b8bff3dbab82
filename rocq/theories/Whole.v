(** Model of the time step with its recorders, and of the saved simulation
    states: buildup_simulation.py:221-225, 429-455, 476-525 and
    pyecloud_saver.py:953-1025.  No proofs in this file. *)
From Coq Require Import String.
From Verif Require Import Num MP Impact CrossIon Sim Saver.
Local Open Scope list_scope.
Local Open Scope R_scope.

(** What a recorder reads besides its own cloud and the beam: the electric
    energy ([get_potential_electric_energy]), the attribute [U_sc_eV_stp], the
    data of [save_cross_ion_data], the custom observables (functions given by
    the user; they are taken not to change the simulation) and the counters of
    the chamber. *)
Record eyes := mkEyes {
  y_elec : spch -> R; y_U : spch -> R; y_cross : option xion -> string -> R * R * R;
  y_custom : sim -> cloud -> string -> R; y_count : sim -> R * R }.

(** A recorder with the last output file it has written. *)
Record recorder := mkRecorder { r_cfg : scfg; r_st : sst; r_file : option dict }.

(** pyecloud_saver.py:256-322: what [witness] looks at.  [pass] is
    [beamtim.pass_numb]. *)
Definition observe (y : eyes) (main : tim) (pass : Z) (m : sim) (c : cloud) : obs :=
  mkObs (ti_t main) (ti_lam main) (o_mp c) (y_elec y (m_sc m)) (y_cross y (m_xion m) (a_name (o_set c))) (y_custom y m c)
    (sc_check (m_sc m)) (y_U y (m_sc m)) (ti_new main) pass (fst (y_count y m)) (snd (y_count y m)).

Definition with_iman (c : cloud) (g : iman) : cloud := mkCloud (o_set c) (o_mp c) (o_rho c) g (o_Q c).

(** buildup_simulation.py:434-455 for one cloud; [None]: no recorder. *)
Definition save_cloud (y : eyes) (main : tim) (pass : Z) (m : sim) (r : option recorder) (c : cloud)
  : option (option recorder * cloud) :=
  match r with
  | None => Some (None, c)
  | Some r =>
      do (s, g, f) <- witness (r_cfg r) (observe y main pass m c) (o_iman c) (r_st r) ;
      Some (Some (mkRecorder (r_cfg r) s (match f with Some d => Some d | None => r_file r end)), with_iman c g)
  end.

(** buildup_simulation.py:429-455.  One recorder per cloud. *)
Fixpoint save_output (y : eyes) (main : tim) (pass : Z) (m : sim) (rs : list (option recorder)) (cl : list cloud)
  : option (list (option recorder) * list cloud) :=
  match rs, cl with
  | r :: rs', c :: cl' =>
      do (r, c) <- save_cloud y main pass m r c ;
      do (rs, cl) <- save_output y main pass m rs' cl' ;
      Some (r :: rs, c :: cl)
  | _, _ => Some (rs, cl)
  end.

(** buildup_simulation.py:162-225: the step with its output.  The middle result
    is the simulation when the output has been saved, before the cleaning. *)
Definition whole_step (e : env) (y : eyes) (a : sargs) (main : tim) (secs : list tim) (pass : Z) (m : sim)
  (rs : list (option recorder)) : option (sim * sim * list (option recorder)) :=
  do m <- step_main e a main secs m ;
  do (rs, cl) <- save_output y main pass m rs (m_clouds m) ;
  let mid := mkSim cl (m_sc m) (m_xion m) (m_k m) (m_full m) in
  do (cl, k) <- clean_loop e a (ti_new main) (m_k m) cl ;
  Some (mid, mkSim cl (m_sc m) (m_xion m) k (m_full m), rs).

(** * Saved states *)

(** pyecloud_saver.py:953-1011: the saved dictionary, without the beams (see
    Beam.v).  The state of the cross ionisation and the position in the random
    stream are not saved. *)
Record saved := mkSaved { sv_clouds : list cloud; sv_sc : spch; sv_tEn : R }.
(** A checkpoint is written by the recorder of the last cloud, when all clouds
    have been recorded (line 310, inside the loop of buildup_simulation.py:432,
    before line 225). *)
Definition checkpoint_of (mid : sim) (tEn : R) : saved := mkSaved (m_clouds mid) (m_sc mid) tEn.

(** buildup_simulation.py:489-503: the clouds of the new simulation are replaced
    one by one; [None]: IndexError. *)
Fixpoint replace_clouds (cl saved : list cloud) : option (list cloud) :=
  match cl with
  | [] => Some []
  | _ :: cl' => match saved with
                | c :: s' => do r <- replace_clouds cl' s' ; Some (c :: r)
                | [] => None
                end
  end.
(** buildup_simulation.py:476-525: [m0] is the simulation that has just been
    made. *)
Definition load_state (sv : saved) (m0 : sim) : option sim :=
  do cl <- replace_clouds (m_clouds m0) (sv_clouds sv) ;
  Some (mkSim cl (sv_sc sv) (m_xion m0) (m_k m0) (m_full m0)).
