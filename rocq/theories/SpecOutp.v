(** What is in the output file when the user names the entries to be saved or
    adds custom observables. *)
From Coq Require Import String.
From Verif Require Import Num MP Impact Saver SpecSaver.
Local Open Scope string_scope.
Local Open Scope list_scope.
Local Open Scope R_scope.

(** The same settings with another [save_only]. *)
Definition only (c : scfg) (ks : option (list string)) : scfg :=
  mkScfg (c_Dtref c) (c_dec c) (c_rc c) (c_det c) (c_cross c) (c_elec c) (c_probes c) (c_DtEn c) (c_cos c) (c_life c) (c_hdet c) (c_every c)
    (c_custom c) (c_pcustom c) (c_once c) (c_const c) ks (c_nx c) (c_nbin c) (c_ic c) (c_nvert c).

(** The entries of the complete output: what the recorder records by itself
    except what was not asked for, the constants, and the custom observables. *)
Definition known (c : scfg) (k : string) : Prop :=
  (In k (own_names c) /\ ~ In k (absent_names c)) \/ In k (map fst (c_const c)) \/ In k (c_custom c) \/ In k (c_pcustom c) \/ In k (map fst (c_once c)).

(** Names used by custom observables. *)
Definition chosen (c : scfg) (k : string) : Prop := In k (map fst (c_once c)) \/ In k (c_pcustom c) \/ In k (c_custom c).

(** [d'] is the part of [d] with the names [ks]. *)
Definition part_of (ks : list string) (d d' : dict) : Prop :=
  forall k, (In k ks -> get d' k = get d k) /\ (~ In k ks -> get d' k = None).

(** What a continued run reads from the file. *)
Definition needed : list string := ["t"; "t_hist"; "t_sc_video"; "Nel_timep"].
