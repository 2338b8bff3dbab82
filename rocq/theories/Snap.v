(** Model of what the recorder writes at requested times and at passages beside
    the main output: states of the macroparticles and of the simulation, videos,
    log, progress and stop file (pyecloud_saver.py).  No proofs in this file. *)
From Coq Require Import String Ascii DecimalString.
From Verif Require Import Num MP.
Local Open Scope string_scope.
Local Open Scope list_scope.
Local Open Scope R_scope.

Definition snat (i : nat) : string := NilZero.string_of_uint (Nat.to_uint i).

(** The setting with the times: a value that is not iterable ([None] or an
    integer; [minus1]: None or -1), a list, or a file (a vector [t_obs]). *)
Inductive tset := TNone (minus1 : bool) | TList (l : list R) | TFile (l : list R).

(** [t_obs], [i_obs]; [None]: nothing to be saved. *)
Record snaps := mkSnaps { s_obs : list R; s_i : nat }.

(** [len (np.squeeze (v))] of a vector: [None] is the TypeError for one
    element. *)
Definition squeezed (l : list R) : option (list R) := match l with [_] => None | _ => Some l end.

(** pyecloud_saver.py:903-918.  Outer [None]: an exception (the IndexError of an
    empty list). *)
Definition MP_state_init (v : tset) : option (option snaps) :=
  match v with
  | TNone _ => Some None
  | TList [] => None
  | TList l => Some (Some (mkSnaps l 0))
  | TFile l => match squeezed l with Some l => Some (Some (mkSnaps l 0)) | None => Some None end
  end.

(** pyecloud_saver.py:939-954. *)
Definition sim_state_init (v : tset) : option (option snaps) :=
  match v with
  | TNone true => Some None
  | TNone false => None
  | TList l => Some (Some (mkSnaps l 0))
  | TFile l => do l <- squeezed l ; Some (Some (mkSnaps l 0))
  end.

(** pyecloud_saver.py:924-928. *)
Definition mp_state_name (multiple : bool) (cloud : string) (i : nat) : string :=
  if multiple then ("MP_state_" ++ cloud ++ "_" ++ snat i)%string else ("MP_state_" ++ snat i)%string.

(** pyecloud_saver.py:930-931: the content of the file. *)
Record mpfile := mkMpfile {
  sv_t : R; sv_N : nat; sv_x : list R; sv_y : list R; sv_z : list R; sv_vx : list R; sv_vy : list R; sv_vz : list R; sv_nel : list R }.
Definition mp_content (t0 : R) (s : mpsys) : mpfile :=
  let cut := fun a => slice_get a 0 (N_mp s) in
  mkMpfile t0 (N_mp s) (cut (x_mp s)) (cut (y_mp s)) (cut (z_mp s)) (cut (vx_mp s)) (cut (vy_mp s)) (cut (vz_mp s)) (cut (nel_mp s)).

(** pyecloud_saver.py:920-934: the file written, if any ([savemat] adds the
    extension; the folder is left out). *)
Definition MP_state_save (multiple : bool) (cloud : string) (st : option snaps) (t0 : R) (s : mpsys) : option snaps * list (string * mpfile) :=
  match st with
  | None => (None, [])
  | Some sn =>
      if (0 <? N_mp s)%nat && (s_i sn <? length (s_obs sn))%nat then
        if Rgeb t0 (nth (s_i sn) (s_obs sn) 0) then
          (Some (mkSnaps (s_obs sn) (S (s_i sn))), [(mp_state_name multiple cloud (s_i sn), mp_content t0 s)])
        else (st, [])
      else (st, [])
  end.

(** The steps of a run: time and macroparticles of the cloud. *)
Fixpoint MP_state_run (multiple : bool) (cloud : string) (st : option snaps) (steps : list (R * mpsys)) : list (string * mpfile) :=
  match steps with
  | [] => []
  | (t0, s) :: rest => let '(st', out) := MP_state_save multiple cloud st t0 s in out ++ MP_state_run multiple cloud st' rest
  end.

(** pyecloud_saver.py:1010-1024 and 956-1008, with any state [D] of the
    simulation: only the recorder of the last cloud writes. *)
Definition sim_state_name (i : nat) : string := ("simulation_state_" ++ snat i ++ ".pkl")%string.
Definition sim_state_save {D} (last : bool) (st : option snaps) (t0 : R) (d : D) : option snaps * list (string * D) :=
  match st with
  | None => (None, [])
  | Some sn =>
      if (s_i sn <? length (s_obs sn))%nat then
        if Rgeb t0 (nth (s_i sn) (s_obs sn) 0) then
          (Some (mkSnaps (s_obs sn) (S (s_i sn))), if last then [(sim_state_name (s_i sn), d)] else [])
        else (st, [])
      else (st, [])
  end.
Fixpoint sim_state_run {D} (last : bool) (st : option snaps) (steps : list (R * D)) : list (string * D) :=
  match steps with
  | [] => []
  | (t0, d) :: rest => let '(st', out) := sim_state_save last st t0 d in out ++ sim_state_run last st' rest
  end.

(** * Videos *)

(** One step as the videos see it: [last_recomputation_check], time, new
    passage, number of the passage, picture. *)
Record vstep (F : Type) := mkVstep { v_check : bool; v_t : R; v_new : bool; v_pass : Z; v_pic : F }.
Arguments mkVstep {F}. Arguments v_check {F}. Arguments v_t {F}. Arguments v_new {F}. Arguments v_pass {F}. Arguments v_pic {F}.
(** A file: passage in its name, times, pictures. *)
Record vfile (F : Type) := mkVfile { w_pass : Z; w_t : list R; w_pic : list F }.
Arguments mkVfile {F}. Arguments w_pass {F}. Arguments w_t {F}. Arguments w_pic {F}.

(** pyecloud_saver.py:1042-1055 (the density of all clouds, for the recorder of
    the last cloud) and 1092-1111 (the two field components as one picture):
    [None] until the first call.  Pictures are values here: the arrays of the
    field solver are taken to be new at each recomputation. *)
Definition video_save {F} (st : option (list R * list F)) (v : vstep F) : option (list R * list F) * list (vfile F) :=
  let '(ts, ps) := match st with None => ([], []) | Some q => q end in
  let '(ts, ps) := if v_check v then (ts ++ [v_t v], ps ++ [v_pic v]) else (ts, ps) in
  if v_new v then (Some ([], []), [mkVfile (v_pass v - 1) ts ps]) else (Some (ts, ps), []).
Fixpoint video_run {F} (st : option (list R * list F)) (steps : list (vstep F)) : list (list (vfile F)) :=
  match steps with [] => [] | v :: rest => let '(st', out) := video_save st v in out :: video_run st' rest end.

(** pyecloud_saver.py:1061-1079: the density of one cloud; [None]: no density
    yet. *)
Definition cloud_video_save {F} (st : option (list R * list F)) (v : vstep (option F)) : option (list R * list F) * list (vfile F) :=
  let '(ts, ps) := match st with None => ([], []) | Some q => q end in
  let '(ts, ps) := if v_check v then (ts ++ [v_t v], match v_pic v with Some p => ps ++ [p] | None => ps end) else (ts, ps) in
  if v_new v then (Some ([], []), [mkVfile (v_pass v - 1) ts ps]) else (Some (ts, ps), []).
Fixpoint cloud_video_run {F} (st : option (list R * list F)) (steps : list (vstep (option F))) : list (list (vfile F)) :=
  match steps with [] => [] | v :: rest => let '(st', out) := cloud_video_save st v in out :: cloud_video_run st' rest end.

(** Paths are compared after repeated slashes are dropped. *)
Fixpoint collapse (s : string) : string :=
  match s with
  | String "/" (String "/" _ as s') => collapse s'
  | String c s' => String c (collapse s')
  | EmptyString => EmptyString
  end.
Definition dir_there (ds : list string) (p : string) : bool := existsb (fun d => String.eqb d (collapse p)) ds.
(** [os.makedirs]: [None] if the folder exists. *)
Definition makedirs (ds : list string) (p : string) : option (list string) :=
  if dir_there ds p then None else Some (collapse p :: ds).

(** pyecloud_saver.py:1039-1040, 1090-1091. *)
Definition video_folder (ds : list string) (folder : string) (kind : string) : option (list string) :=
  if dir_there ds (folder ++ "/" ++ kind) then Some ds else makedirs ds (folder ++ "/" ++ kind).
(** pyecloud_saver.py:1059-1060. *)
Definition cloud_video_folder (ds : list string) (folder cloud : string) : option (list string) :=
  if dir_there ds (folder ++ "/rho_video_" ++ cloud) then Some ds else makedirs ds (folder ++ "rho_video_" ++ cloud).
Fixpoint steps_folder (f : list string -> option (list string)) (n : nat) (ds : list string) : option (list string) :=
  match n with O => Some ds | S n => do ds <- f ds ; steps_folder f n ds end.

(** * Log, progress and stop file *)

(** What a recorder does at a passage after its arrays are updated: it writes
    the main output, a line of the log (cloud and passage), the progress. *)
Inductive pevent := POutput (cloud : nat) (pass : Z) | PLog (cloud : nat) (pass : Z) | PProgress (v : R).

(** What the files allow at a passage. *)
Record pworld := mkPworld { p_log : bool; p_prog : bool; p_stop : bool }.

(** pyecloud_saver.py:1113-1143: the events and whether the run goes on. *)
Definition log_progress_stop (w : pworld) (cloud : nat) (pass N_pass_tot : Z) : list pevent * bool :=
  ((if p_log w then [PLog cloud pass] else []) ++ (if p_prog w then [PProgress (IZR pass / IZR N_pass_tot)] else []), negb (p_stop w)).

(** pyecloud_saver.py:295-320: [every]: save_mat_every. *)
Definition pass_end (w : pworld) (every : Z) (cloud : nat) (pass N_pass_tot : Z) : list pevent * bool :=
  let '(ev, go) := log_progress_stop w cloud pass N_pass_tot in
  ((if ((pass + 1) mod every =? 0)%Z then [POutput cloud pass] else []) ++ ev, go).

(** buildup_simulation.py:432-437: the recorders of all clouds in a step; an
    exception ends it. *)
Fixpoint clouds_end (w : pworld) (every : Z) (clouds : list nat) (pass N_pass_tot : Z) : list pevent * bool :=
  match clouds with
  | [] => ([], true)
  | c :: rest =>
      let '(ev, go) := pass_end w every c pass N_pass_tot in
      if go then let '(ev', go') := clouds_end w every rest pass N_pass_tot in (ev ++ ev', go') else (ev, false)
  end.

(** Steps of a run: whether a passage starts, its number, and what the files
    allow.  The run ends with the exception ([false]). *)
Fixpoint passes (every N_pass_tot : Z) (clouds : list nat) (steps : list (bool * Z * pworld)) : list (list pevent) * bool :=
  match steps with
  | [] => ([], true)
  | (new, pass, w) :: rest =>
      let '(ev, go) := if (new : bool) then clouds_end w every clouds pass N_pass_tot else ([], true) in
      if go then let '(evs, go') := passes every N_pass_tot clouds rest in (ev :: evs, go') else ([ev], false)
  end.
