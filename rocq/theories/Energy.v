(** Model of the electric energy of the space-charge field:
    space_charge_class.py:123, 129-139, 209-216 and pyecloud_saver.py:285, 845-846.
    No proofs in this file. *)
From Verif Require Import Num MP Sim.
Local Open Scope list_scope.
Local Open Scope R_scope.

(** [np.arange(a, b, h)]. *)
Definition arange (a b h : R) : list R :=
  map (fun i => a + INR i * h) (seq 0 (Z.to_nat (rceil ((b - a) / h)))).

(** The attributes [Dh_U_eV], [xn_U_eV] and [yn_U_eV]. *)
Record sampling := mkSampling { u_h : R; u_x : list R; u_y : list R }.

(** space_charge_class.py:129-139.  [meshgrid] gives two arrays with one row
    per y; [.T.flatten()] lists them by columns.  [None]: no points
    ([evaluate_U_eV] is False); the inner [None] of a spacing 0 is the exception
    of [np.arange]. *)
Definition sampling_ctor (c : chamber) (Dh : option R) : option (option sampling) :=
  match Dh with
  | None => Some None
  | Some h =>
      if Reqb h 0 then None else
      let xs := arange (- x_aper c * (101/100)) (x_aper c * (101/100)) h in
      let ys := arange (- y_aper c * (101/100)) (y_aper c * (101/100)) h in
      Some (Some (mkSampling h (flat_map (fun x => map (fun _ => x) ys) xs) (flat_map (fun _ => ys) xs)))
  end.

(** space_charge_class.py:209-216; [None] is the ValueError.  [eps0] and [qe]
    are the constants of scipy. *)
Definition get_potential_electric_energy (eps0 qe : R) (u : option sampling) (sc : spch) : option R :=
  match u with
  | None => None
  | Some u =>
      let ef := map2 (sc_fld sc) (u_x u) (u_y u) in
      Some (1/2 * rsum (map (fun p => fst p ^ 2 + snd p ^ 2) ef) * u_h u ^ 2 * eps0 / qe)
  end.

(** space_charge_class.py:123: the attribute that pyecloud_saver.py:285 stores.
    It is set here and nowhere else in the code. *)
Definition U_sc_eV_stp (sc : spch) : R := 0.
