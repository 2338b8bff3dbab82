(** What is expected of states saved at requested times and of videos. *)
From Coq Require Import String.
From Verif Require Import Num MP SpecMP Snap.
Local Open Scope list_scope.
Local Open Scope R_scope.

(** The steps at which the requests 0, 1, ..., [N]-1 are served, one at most in
    each step: each at the first step after the one before at which it can be. *)
Definition schedule {A} (ok : nat -> A -> Prop) (N : nat) (steps : list A) (ns : list nat) : Prop :=
  (length ns <= N)%nat /\
  (forall k n, nth_error ns k = Some n -> exists a, nth_error steps n = Some a /\ ok k a) /\
  (forall k m n, nth_error ns k = Some m -> nth_error ns (S k) = Some n -> (m < n)%nat) /\
  (forall k n a, (k < N)%nat -> nth_error steps n = Some a -> ok k a ->
     (k = 0%nat \/ exists j m, k = S j /\ nth_error ns j = Some m /\ (m < n)%nat) -> exists m, nth_error ns k = Some m /\ (m <= n)%nat).

(** The first step at or after a time. *)
Definition first_at {A} (t : R) (steps : list (R * A)) (n : nat) (a : R * A) : Prop :=
  nth_error steps n = Some a /\ t <= fst a /\ forall m b, (m < n)%nat -> nth_error steps m = Some b -> fst b < t.

(** No step passes over two of the requested times. *)
Definition apart {A} (obs : list R) (steps : list (R * A)) : Prop :=
  forall k n a, first_at (nth k obs 0) steps n a -> (S k < length obs)%nat -> fst a < nth (S k) obs 0.

(** The file with the macroparticles of a cloud. *)
Definition holds_cloud (f : mpfile) (t : R) (s : mpsys) : Prop :=
  sv_t f = t /\ sv_N f = length (live s) /\
  sv_x f = map m_x (live s) /\ sv_y f = map m_y (live s) /\ sv_z f = map m_z (live s) /\
  sv_vx f = map m_vx (live s) /\ sv_vy f = map m_vy (live s) /\ sv_vz f = map m_vz (live s) /\ sv_nel f = map m_nel (live s).

(** The pictures of the steps of a passage. *)
Definition taken {F} (steps : list (vstep F)) : list (vstep F) := filter (fun v => v_check v) steps.
Definition no_new {F} (steps : list (vstep F)) : Prop := forall v, In v steps -> v_new v = false.
Definition ends_new {F} (steps : list (vstep F)) : Prop := steps = [] \/ exists a b, steps = a ++ [b] /\ v_new b = true.

(** The times asked for. *)
Definition asked (v : tset) (l : list R) : Prop := v = TList l \/ v = TFile l.
(** File [k] has the name of number [k] and holds the state of the step that
    serves request [k]. *)
Definition files_of {A B} (name : nat -> string) (f : A -> B) (steps : list A) (ns : list nat) (files : list (string * B)) : Prop :=
  length files = length ns /\
  forall k n, nth_error ns k = Some n -> exists a, nth_error steps n = Some a /\ nth_error files k = Some (name k, f a).

(** What the recorder of cloud [c] saves at passage [pass] of [N]: its output
    every so many passages, a line of the log and the progress if these files
    can be written. *)
Definition saves (w : pworld) (every N pass : Z) (c : nat) : list pevent :=
  (if ((pass + 1) mod every =? 0)%Z then [POutput c pass] else []) ++
  (if p_log w then [PLog c pass] else []) ++ (if p_prog w then [PProgress (IZR pass / IZR N)] else []).
