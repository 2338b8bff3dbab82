(** Specification of saving and loading states of a simulation, in terms of the
    objects of the simulation. *)
From Coq Require Import String.
From Verif Require Import Num SaveState.
Local Open Scope string_scope.
Local Open Scope list_scope.
Local Open Scope R_scope.

Definition occurs (sub s : string) : Prop := exists a b, s = (a ++ sub ++ b)%string.

Section S.
Context {Lu St Pic Be Cl Re : Type}.
Implicit Types (s : spc Lu St Pic) (o : objs Lu St Pic Be Cl Re) (f : pfile Lu St Pic Be Cl Re).

Definition there {T} (a : attr T) : Prop := a <> None.

(** A space charge whose parts can all be taken away before saving. *)
Definition savable s : Prop :=
  there (sp_pic_lu s) /\
  (sp_em s = true -> there (sp_Ax s) /\ there (sp_Ay s) /\ there (sp_As s) /\ there (sp_Axo s) /\ there (sp_Ayo s)).

(** The same simulation: the same beams, settings, clouds with their own
    recorders, solver and potentials.  Only the attribute [luobj] of the space
    charge object, which nothing reads, may differ. *)
Definition same_simulation o o' : Prop :=
  ob_beam o' = ob_beam o /\ ob_tsc o' = ob_tsc o /\ ob_pres o' = ob_pres o /\ ob_secs o' = ob_secs o /\ ob_multi o' = ob_multi o /\
  ob_clouds o' = ob_clouds o /\
  sp_pic_lu (ob_sc o') = sp_pic_lu (ob_sc o) /\ sp_em (ob_sc o') = sp_em (ob_sc o) /\ sp_rest (ob_sc o') = sp_rest (ob_sc o) /\
  sp_Ax (ob_sc o') = sp_Ax (ob_sc o) /\ sp_Ay (ob_sc o') = sp_Ay (ob_sc o) /\ sp_As (ob_sc o') = sp_As (ob_sc o) /\
  sp_Axo (ob_sc o') = sp_Axo (ob_sc o) /\ sp_Ayo (ob_sc o') = sp_Ayo (ob_sc o).

(** The file of a simulation: everything but the recorders, the factorisation
    and the potentials. *)
Definition file_of o (multi : bool) (tEn : R) (tlife : option R) f : Prop :=
  let d := fi_objs f in
  ob_beam d = ob_beam o /\ ob_tsc d = ob_tsc o /\ ob_pres d = ob_pres o /\ ob_secs d = ob_secs o /\ ob_multi d = multi /\
  fi_tEn f = tEn /\ fi_tlife f = tlife /\
  map oc_rest (ob_clouds d) = map oc_rest (ob_clouds o) /\ Forall (fun c => oc_saver c = Removed) (ob_clouds d) /\
  sp_rest (ob_sc d) = sp_rest (ob_sc o) /\ sp_em (ob_sc d) = sp_em (ob_sc o) /\ sp_pic_lu (ob_sc d) = Some None /\
  (sp_em (ob_sc o) = false ->
     sp_Ax (ob_sc d) = sp_Ax (ob_sc o) /\ sp_Ay (ob_sc d) = sp_Ay (ob_sc o) /\ sp_As (ob_sc d) = sp_As (ob_sc o) /\
     sp_Axo (ob_sc d) = sp_Axo (ob_sc o) /\ sp_Ayo (ob_sc d) = sp_Ayo (ob_sc o)) /\
  (sp_em (ob_sc o) = true ->
     sp_Ax (ob_sc d) = Some None /\ sp_Ay (ob_sc d) = Some None /\ sp_As (ob_sc d) = Some None /\
     sp_Axo (ob_sc d) = Some None /\ sp_Ayo (ob_sc d) = Some None).

(** The simulation [o'] that [o] becomes when it takes over the file [f]:
    [n] of its clouds, each with the recorder [rec i] that the new simulation
    has made for it. *)
Definition taken_over (factor : Pic -> Lu) (new_state : Pic -> St) f (rec : nat -> saver Re) (n : nat) o' : Prop :=
  let d := fi_objs f in
  ob_beam o' = ob_beam d /\ ob_tsc o' = ob_tsc d /\ ob_pres o' = ob_pres d /\ ob_secs o' = ob_secs d /\ ob_multi o' = ob_multi d /\
  map oc_rest (ob_clouds o') = firstn n (map oc_rest (ob_clouds d)) /\ map oc_saver (ob_clouds o') = map rec (seq 0 n) /\
  sp_rest (ob_sc o') = sp_rest (ob_sc d) /\ sp_em (ob_sc o') = sp_em (ob_sc d) /\
  sp_pic_lu (ob_sc o') = Some (Some (factor (sp_rest (ob_sc d)))) /\
  sp_Axo (ob_sc o') = sp_Axo (ob_sc d) /\ sp_Ayo (ob_sc o') = sp_Ayo (ob_sc d) /\
  (sp_em (ob_sc d) = false -> sp_Ax (ob_sc o') = sp_Ax (ob_sc d) /\ sp_Ay (ob_sc o') = sp_Ay (ob_sc d) /\ sp_As (ob_sc o') = sp_As (ob_sc d)) /\
  (sp_em (ob_sc d) = true ->
     let z := Some (Some (new_state (sp_rest (ob_sc d)))) in
     sp_Ax (ob_sc o') = z /\ sp_Ay (ob_sc o') = z /\ sp_As (ob_sc o') = z).

(** A recorder that goes on with another name for its file; [force]: it no
    longer saves states. *)
Definition goes_on (force : bool) (r r' : recd Re) : Prop :=
  r_sim r' = (if force then false else r_sim r) /\ r_ick r' = r_ick r /\ r_tck r' = r_tck r /\ r_tEn r' = r_tEn r /\ r_rest r' = r_rest r.

(** The space charge of a simulation that was not loaded: made at the start,
    then recomputed any number of times, with any number of states saved in
    between. *)
Inductive in_use (factor : Pic -> Lu) (new_state : Pic -> St) (lu em : bool) : spc Lu St Pic -> Prop :=
| use_new : forall p, in_use factor new_state lu em (new_sc factor new_state lu em p)
| use_field : forall s ax ay p s', in_use factor new_state lu em s -> factor p = factor (sp_rest s) ->
    recomputed ax ay p s = Some s' -> in_use factor new_state lu em s'
| use_saved : forall (o : objs Lu St Pic Be Cl Re) last multi tEn tlife dumps o' r, in_use factor new_state lu em (ob_sc o) ->
    sim_state_single_save last multi tEn tlife dumps o = (o', r) -> r <> Raised -> in_use factor new_state lu em (ob_sc o').
End S.
