(** Model of the objects that are saved and loaded with a simulation state:
    pyecloud_saver.py:953-1011, buildup_simulation.py:476-547 and the states of
    space_charge_class_electromagnetic.py:87-91, 102-103.  No proofs in this
    file.

    What the other files model in detail is one abstract part here ([.._rest]);
    this file is about which object holds which part before, during and after a
    save.  Pickling copies the objects as they are at that moment. *)
From Coq Require Import String Ascii.
From Verif Require Import Num Ckpt.
Local Open Scope string_scope.
Local Open Scope list_scope.
Local Open Scope R_scope.

(** An attribute: [None]: there is no such attribute (reading it raises
    AttributeError); [Some None]: it is Python's None. *)
Definition attr (T : Type) := option (option T).

(** [s.split(sub)[-1]] for a non-empty [sub]; [n]: at least the length. *)
Fixpoint last_part (n : nat) (sub acc s : string) : string :=
  match n with
  | O => acc ++ s
  | S n' =>
      match strip sub s with
      | Some r => last_part n' sub "" r
      | None => match s with EmptyString => acc | String a s' => last_part n' sub (acc ++ String a "") s' end
      end
  end%string.
Definition split_last (sub s : string) : string := last_part (String.length s) sub "" s.

Section Objects.
Context {Lu St Pic Be Cl Re : Type}.

(** A recorder: [flag_save_simulation_state], [filen_main_outp], [i_checkp],
    [t_last_checkp], [t_last_En_hist] and the rest. *)
Record recd := mkRecd { r_sim : bool; r_file : string; r_ick : nat; r_tck : R; r_tEn : R; r_rest : Re }.
(** [cloud.pyeclsaver]: None, the string 'removed', or a recorder. *)
Inductive saver := NoSaver | Removed | Saver (r : recd).
Record ocloud := mkOcloud { oc_saver : saver; oc_rest : Cl }.

(** The space charge object: [PyPICobj.luobj], its own [luobj],
    [flag_em_tracking], the five states of the vector potential, and the
    rest. *)
Record spc := mkSpc {
  sp_pic_lu : attr Lu; sp_lu : attr Lu; sp_em : bool;
  sp_Ax : attr St; sp_Ay : attr St; sp_As : attr St; sp_Axo : attr St; sp_Ayo : attr St; sp_rest : Pic }.

(** What is handed over to the recorder. *)
Record objs := mkObjs {
  ob_beam : Be; ob_sc : spc; ob_tsc : R; ob_pres : bool; ob_secs : list Be; ob_multi : bool; ob_clouds : list ocloud }.

(** The pickled dictionary.  [fi_tlife]: [t_last_lifetime_hist], if it is
    there. *)
Record pfile := mkPfile { fi_objs : objs; fi_tEn : R; fi_tlife : option R }.

Inductive outcome := Nothing | Written (f : pfile) | Raised.

Definition set_sc (o : objs) (s : spc) : objs := mkObjs (ob_beam o) s (ob_tsc o) (ob_pres o) (ob_secs o) (ob_multi o) (ob_clouds o).
Definition set_clouds (o : objs) (cl : list ocloud) : objs := mkObjs (ob_beam o) (ob_sc o) (ob_tsc o) (ob_pres o) (ob_secs o) (ob_multi o) cl.
Definition set_lus (s : spc) (pic own : attr Lu) : spc :=
  mkSpc pic own (sp_em s) (sp_Ax s) (sp_Ay s) (sp_As s) (sp_Axo s) (sp_Ayo s) (sp_rest s).
Definition set_states (s : spc) (ax ay as_ axo ayo : attr St) : spc :=
  mkSpc (sp_pic_lu s) (sp_lu s) (sp_em s) ax ay as_ axo ayo (sp_rest s).
Definition with_saver (c : ocloud) (v : saver) : ocloud := mkOcloud v (oc_rest c).

(** pyecloud_saver.py:953-1011.  [last]: [flag_last_cloud]; [multi]: the
    recorder's [flag_multiple_clouds]; [tEn], [tlife]: its times; [dumps]: whether
    opening the file and [pickle.dump] succeed.  The first component is the
    simulation afterwards, also after an exception. *)
Definition sim_state_single_save (last multi : bool) (tEn : R) (tlife : option R) (dumps : bool) (o : objs) : objs * outcome :=
  if negb last then (o, Nothing) else
  let s := ob_sc o in
  match sp_pic_lu s with
  | None => (o, Raised)
  | Some temp_lu =>
      let s1 := set_lus s (Some None) (Some None) in
      let o1 := set_sc o s1 in
      match (if sp_em s1 then
               do ax <- sp_Ax s1 ; do ay <- sp_Ay s1 ; do as_ <- sp_As s1 ; do axo <- sp_Axo s1 ; do ayo <- sp_Ayo s1 ;
               Some (set_states s1 (Some None) (Some None) (Some None) (Some None) (Some None),
                     fun s => set_states s (Some ax) (Some ay) (Some as_) (Some axo) (Some ayo))
             else Some (s1, fun s => s)) with
      | None => (o1, Raised)
      | Some (s2, back) =>
          let savers := map oc_saver (ob_clouds o) in
          let o2 := set_clouds (set_sc o s2) (map (fun c => with_saver c Removed) (ob_clouds o)) in
          let f := mkPfile (mkObjs (ob_beam o2) (ob_sc o2) (ob_tsc o2) (ob_pres o2) (ob_secs o2) multi (ob_clouds o2)) tEn tlife in
          if dumps then
            let cl := map2 with_saver (ob_clouds o2) savers in
            (set_clouds (set_sc o2 (back (set_lus s2 (Some temp_lu) (sp_lu s2)))) cl, Written f)
          else (o2, Raised)
      end
  end.

(** buildup_simulation.py:505-515 on one recorder; [None]: AttributeError
    (pyeclsaver is None or a string). *)
Definition restarted (force : bool) (name : option string) (v : saver) : option saver :=
  match v with
  | Saver r =>
      let r := if force then mkRecd false (r_file r) (r_ick r) (r_tck r) (r_tEn r) (r_rest r) else r in
      Some (Saver (match name with
                   | None => r
                   | Some n => mkRecd (r_sim r) (before ".mat" (r_file r) ++ split_last "Pyecltest" n ++ ".mat")%string (r_ick r) (r_tck r) (r_tEn r) (r_rest r)
                   end))
  | _ => if force then None else match name with None => Some v | Some _ => None end
  end.
(** Lines 495-515: the clouds of the new simulation one by one; [None] also for
    the IndexError. *)
Fixpoint take_over (force : bool) (name : option string) (new old : list ocloud) : option (list ocloud) :=
  match new with
  | [] => Some []
  | n :: new' =>
      match old with
      | [] => None
      | c :: old' => do v <- restarted force name (oc_saver n) ; do r <- take_over force name new' old' ; Some (with_saver c v :: r)
      end
  end.

(** PyPIC: what [build_sparse_solver] makes of the matrix in the object, and
    what [get_state_object] makes. *)
Context (factor : Pic -> Lu) (new_state : Pic -> St).

(** Lines 517-523.  The solvers without [luobj] have no [build_sparse_solver]
    either ([None]: AttributeError). *)
Definition restore_sc (s : spc) : option spc :=
  match sp_pic_lu s with
  | None => None
  | Some _ =>
      let s := set_lus s (Some (Some (factor (sp_rest s)))) (sp_lu s) in
      let n := Some (Some (new_state (sp_rest s))) in
      Some (if sp_em s then set_states s n n n (sp_Axo s) (sp_Ayo s) else s)
  end.

(** Lines 476-525. *)
Definition load_state (force : bool) (name : option string) (f : pfile) (o : objs) : option objs :=
  let d := fi_objs f in
  do cl <- take_over force name (ob_clouds o) (ob_clouds d) ;
  do s <- restore_sc (ob_sc d) ;
  Some (mkObjs (ob_beam d) s (ob_tsc d) (ob_pres d) (ob_secs d) (ob_multi d) cl).

(** Lines 527-547.  [tt]: [beamtim.tt_curr]; [output]: [load_from_output]
    (Saver.v), [None]: it raises. *)
Context (tt : Be -> R) (output : R -> recd -> option recd).
Definition load_checkpoint (path : string) (f : pfile) (o : objs) : option objs :=
  do i <- ck_number path ;
  do o <- load_state false None f o ;
  let t := tt (ob_beam o) in
  do cl <- mapM (fun c => match oc_saver c with
                          | Saver r => do r <- output t r ; Some (with_saver c (Saver (mkRecd (r_sim r) (r_file r) (S i) t (fi_tEn f) (r_rest r))))
                          | _ => None
                          end) (ob_clouds o) ;
  Some (set_clouds o cl).

(** space_charge_class.py:128 and space_charge_class_electromagnetic.py:80-91:
    the space charge that a simulation starts with.  [lu]: the solver has a
    sparse factorisation. *)
Definition new_sc (lu em : bool) (p : Pic) : spc :=
  let l := if lu then Some (Some (factor p)) else None in
  if em then mkSpc l None true (Some (Some (new_state p))) (Some (Some (new_state p))) None (Some None) (Some None) p
  else mkSpc l None false None None None None None p.
(** A recomputation of the field in a step: space_charge_class.py:175-200, or
    space_charge_class_electromagnetic.py:97-121 with [ax], [ay] the states
    after [solve_states]; [p]: the solver after [solve]. *)
Definition recomputed (ax ay : St) (p : Pic) (s : spc) : option spc :=
  if sp_em s then
    match sp_Ax s, sp_Ay s with
    | Some (Some oax), Some (Some oay) =>
        Some (mkSpc (sp_pic_lu s) (sp_lu s) (sp_em s) (Some (Some ax)) (Some (Some ay)) (sp_As s) (Some (Some oax)) (Some (Some oay)) p)
    | _, _ => None
    end
  else Some (mkSpc (sp_pic_lu s) (sp_lu s) (sp_em s) (sp_Ax s) (sp_Ay s) (sp_As s) (sp_Axo s) (sp_Ayo s) p).
End Objects.
Arguments recd : clear implicits. Arguments saver : clear implicits. Arguments ocloud : clear implicits.
Arguments spc : clear implicits. Arguments objs : clear implicits. Arguments pfile : clear implicits. Arguments outcome : clear implicits.
