(** The models that the constructors choose by name: angles and energies of
    emitted electrons (electron_emission.py) and the solver of the space charge
    (space_charge_class.py). *)
From Coq Require Import String.
From Verif Require Import Num ConfigVal Ckpt Config Init Sey Source.
Local Open Scope string_scope.
Local Open Scope list_scope.

(** electron_emission.py:190-223.  What is printed and the pause of three
    seconds are left out. *)
Definition get_angle_dist_func (v : pval) : option adist :=
  if py_eqb v (PStr "cosine_3D") then Some Cos3D
  else if py_eqb v (PStr "cosine_2D") then Some Cos2D
  else if py_eqb v (PStr "normal_emission") then Some NormalEmission
  else None.

(** electron_emission.py:281-296 with the attributes of lines 230-233. *)
Record gen_energy := mkGenEnergy { ge_dist : edist; ge_sigma : pval; ge_max : pval }.
Definition get_energy_distribution_func (v e_pe_sigma e_pe_max : pval) : option gen_energy :=
  do d <- (if py_eqb v (PStr "lognormal") then Some Lognormal
           else if py_eqb v (PStr "gaussian") then Some Gaussian
           else if py_eqb v (PStr "rect") then Some Rectangular
           else if py_eqb v (PStr "mono") then Some Mono
           else if py_eqb v (PStr "lorentz") then Some Lorentz
           else None) ;
  Some (mkGenEnergy d e_pe_sigma e_pe_max).

(** The attribute [chamb_type] of the chamber: geom_impact_ellip.py:71,
    geom_impact_poly_fast_impact.py:69, geom_impact_rect_fast_impact.py:68. *)
Definition chamb_type (o : obj) : string := ob_name o.

(** The constructors of the emission models, as far as the distribution of the
    angles: sec_emission_model_ECLOUD.py:104-108 and the same lines of the other
    models; sec_emission_model_perfect_absorber.py:67-71 has none;
    sec_emission_model_ECLOUD_nunif.py:86-87 (and 135-138) refuses a chamber that
    is not a polygon.  The rest of the constructors (files, surfaces, segments)
    is not modelled here. *)
Definition sey_ctor (ch o : obj) : option (option adist) :=
  if String.eqb (ob_name o) "perfect_absorber" then Some None
  else if (String.eqb (ob_name o) "ECLOUD_nunif" || String.eqb (ob_name o) "ECLOUD_nunif_charging") && negb (String.eqb (chamb_type ch) "polyg") then None
  else
    do v <- dget (ob_args o) "secondary_angle_distribution" ;
    if is_none v then Some None else do d <- get_angle_dist_func v ; Some (Some d).

(** The constructors of the photoemission models, as far as the distributions:
    gen_photoemission_class.py:126, 152, 239-240 and 271-272.  The chamber and
    the settings of the photons are in [Source.photo1_ctor]. *)
Definition photo_ctor (o : obj) : option (gen_energy * adist) :=
  do e <- dget (ob_args o) "energy_distribution" ;
  do s <- dget (ob_args o) "e_pe_sigma" ;
  do m <- dget (ob_args o) "e_pe_max" ;
  do a <- dget (ob_args o) "photoelectron_angle_distribution" ;
  do ge <- get_energy_distribution_func e s m ;
  do d <- get_angle_dist_func a ;
  Some (ge, d).

(** space_charge_class.py:63-146 (also called by
    space_charge_class_electromagnetic.py:79-80): the solver, whether the field is
    recomputed only from time to time, whether the electric energy is
    evaluated.  The solver itself (PyPIC) is not modelled. *)
Inductive solver := ShortleyWeller | Telescopic | Staircase | FFT_PEC | FFT_Open.
Record sc_choice := mkScChoice { sc_solver : solver; sc_decimate : bool; sc_energy : bool }.
Definition sc_ctor (ch o : obj) : option sc_choice :=
  do m <- dget (ob_args o) "PyPICmode" ;
  do dt <- dget (ob_args o) "Dt_sc" ;
  do du <- dget (ob_args o) "Dh_U_eV" ;
  do s <- (if py_eqb m (PStr "FiniteDifferences_ShortleyWeller") then Some ShortleyWeller
           else if py_eqb m (PStr "ShortleyWeller_WithTelescopicGrids") then Some Telescopic
           else if py_eqb m (PStr "FiniteDifferences_Staircase") then Some Staircase
           else if py_eqb m (PStr "FFT_PEC_Boundary") then if String.eqb (chamb_type ch) "rect" then Some FFT_PEC else None
           else if py_eqb m (PStr "FFT_OpenBoundary") then if String.eqb (chamb_type ch) "rect" then Some FFT_Open else None
           else None) ;
  Some (mkScChoice s (negb (is_none dt)) (negb (is_none du))).

(** All constructors of a simulation (init.py:263-450). *)
Record cloud_choice := mkCloudChoice { cc_angle : option adist; cc_photo : option (gen_energy * adist) }.
Definition opt_ctor {A B} (f : A -> option B) (o : option A) : option (option B) :=
  match o with None => Some None | Some a => do b <- f a ; Some (Some b) end.
Definition cloud_ctor (ch : obj) (q : cloud_plan) : option cloud_choice :=
  do a <- sey_ctor ch (cp_sey q) ;
  do p <- opt_ctor photo_ctor (cp_photo q) ;
  Some (mkCloudChoice a p).
Record choice := mkChoice { ch_sc : option sc_choice; ch_clouds : list cloud_choice }.
Definition construct (p : plan) : option choice :=
  do s <- opt_ctor (sc_ctor (pl_chamb p)) (pl_sc p) ;
  do l <- Ckpt.mapM (cloud_ctor (pl_chamb p)) (pl_clouds p) ;
  Some (mkChoice s l).
