(** The models that the names in the settings stand for. *)
From Coq Require Import String.
From Verif Require Import Num ConfigVal SpecConfig SpecInit Sey Source Choose.
Local Open Scope string_scope.
Local Open Scope list_scope.

Inductive angle_named : pval -> adist -> Prop :=
| cosine_3D : angle_named (PStr "cosine_3D") Cos3D
| cosine_2D : angle_named (PStr "cosine_2D") Cos2D
| normal_emission : angle_named (PStr "normal_emission") NormalEmission.
Inductive energy_named : pval -> edist -> Prop :=
| lognormal : energy_named (PStr "lognormal") Lognormal
| gaussian : energy_named (PStr "gaussian") Gaussian
| rect : energy_named (PStr "rect") Rectangular
| mono : energy_named (PStr "mono") Mono
| lorentz : energy_named (PStr "lorentz") Lorentz.
Inductive solver_named : pval -> solver -> Prop :=
| finite_differences : solver_named (PStr "FiniteDifferences_ShortleyWeller") ShortleyWeller
| telescopic_grids : solver_named (PStr "ShortleyWeller_WithTelescopicGrids") Telescopic
| staircase : solver_named (PStr "FiniteDifferences_Staircase") Staircase
| fft_pec : solver_named (PStr "FFT_PEC_Boundary") FFT_PEC
| fft_open : solver_named (PStr "FFT_OpenBoundary") FFT_Open.

Section Settings.
(** Main settings and those of a cloud. *)
Variables cc t : config.

(** What the cloud uses for its secondaries: nothing in an absorber and without a
    name (then secondaries cannot be emitted). *)
Definition secondary_angle (a : option adist) : Prop :=
  (model_is t "perfect_absorber" /\ a = None) \/
  (~ model_is t "perfect_absorber" /\ exists v, t "secondary_angle_distribution" = Some v /\
     ((v = PNone /\ a = None) \/ exists d, angle_named v d /\ a = Some d)).
(** Surfaces that are not uniform need a polygonal chamber. *)
Definition surface_fits : Prop :=
  model_is t "ECLOUD_nunif" \/ model_is t "ECLOUD_nunif_charging" -> cc "chamb_type" = Some (PStr "polyg") \/ cc "chamb_type" = Some (PStr "polyg_cython").

(** Photoemission is switched on by one of three values. *)
Definition photo_on : Prop := (exists v, t "photoem_flag" = Some v /\ equals v 1) \/ photo_is t 2 "from_file" \/ photo_is t 3 "per_segment".
Definition photo_models (g : gen_energy) (a : adist) : Prop :=
  exists e v, t "energy_distribution" = Some e /\ energy_named e (ge_dist g) /\ t "e_pe_sigma" = Some (ge_sigma g) /\ t "e_pe_max" = Some (ge_max g) /\
    t "photoelectron_angle_distribution" = Some v /\ angle_named v a.
Definition photo_electrons (g : option (gen_energy * adist)) : Prop :=
  (~ photo_on /\ g = None) \/ (photo_on /\ exists e a, g = Some (e, a) /\ photo_models e a).

Definition cloud_chosen (x : cloud_choice) : Prop := surface_fits /\ secondary_angle (cc_angle x) /\ photo_electrons (cc_photo x).

(** The solvers with fast Fourier transforms need a rectangular chamber. *)
Definition field_chosen (x : sc_choice) : Prop :=
  exists m dt du, cc "PyPICmode" = Some m /\ solver_named m (sc_solver x) /\
    (sc_solver x = FFT_PEC \/ sc_solver x = FFT_Open -> cc "chamb_type" = Some (PStr "rect")) /\
    cc "Dt_sc" = Some dt /\ (sc_decimate x = true <-> dt <> PNone) /\ cc "Dh_electric_energy" = Some du /\ (sc_energy x = true <-> du <> PNone).
End Settings.

(** The whole simulation: main settings, clouds; without space charge of its own
    if it is skipped or given. *)
Definition all_chosen (cc : config) (cl : list config) (no_field : bool) (x : choice) : Prop :=
  ((no_field = true /\ ch_sc x = None) \/ (no_field = false /\ exists s, ch_sc x = Some s /\ field_chosen cc s)) /\
  Forall2 (cloud_chosen cc) cl (ch_clouds x).
