(** Model of the Fortran routine for the complex error function
    (errfff.f), used by the Bassetti-Erskine formula. *)
From Verif Require Import Num.
Local Open Scope R_scope.

(** errfff.f:42 [DIMENSION RX(33), RY(33)]: arrays with 1-based indices whose
    elements have no value before they are written.  [None] from [ard] or [awr]: an access outside
    the bounds, or the use of an element that was never written (undefined
    behaviour in Fortran). *)
Definition arr := list (option R).
Definition arr_new : arr := repeat None 33.
Definition in_bounds (a : arr) (n : Z) : bool := ((1 <=? n) && (n <=? Z.of_nat (length a)))%Z.
Definition ard (a : arr) (n : Z) : option R :=
  if in_bounds a n then nth (Z.to_nat (n - 1)) a None else None.
Definition awr (a : arr) (n : Z) (v : R) : option arr :=
  if in_bounds a n then Some (firstn (Z.to_nat (n - 1)) a ++ Some v :: skipn (Z.to_nat n) a) else None.

(** Division and square root that fail (instead of giving Inf or NaN). *)
Definition fdiv (a b : R) : option R := if Reqb b 0 then None else Some (a / b).
Definition fsqrt (a : R) : option R := if Rltb a 0 then None else Some (sqrt a).

(** errfff.f:36-40: the constants. *)
Definition erf_CC : R := 112837916709551 / 10 ^ 14.
Definition erf_XLIM : R := 533 / 100.
Definition erf_YLIM : R := 429 / 100.

(** errfff.f:58-64 (and 86-92): the body of the loops over the levels of the
    continued fraction, from the values [rx], [ry] of the level before. *)
Definition erf_level (XH YH : R) (N : Z) (rx ry : R) : option (R * R) :=
  let TX := XH + IZR N * rx in
  let TY := YH - IZR N * ry in
  let TN := TX * TX + TY * TY in
  do a <- fdiv (1/2 * TX) TN ;
  do b <- fdiv (1/2 * TY) TN ;
  Some (a, b).

(** errfff.f:58-64: [DO 10 N = NU, 1, -1] ([n]: iterations left; the loop
    counts down to 1, so [N] is [n]). *)
Fixpoint erf_loop10 (XH YH : R) (n : nat) (RX RY : arr) : option (arr * arr) :=
  match n with
  | O => Some (RX, RY)
  | S m =>
      let N := Z.of_nat n in
      do rx <- ard RX (N + 1) ;
      do ry <- ard RY (N + 1) ;
      do (a, b) <- erf_level XH YH N rx ry ;
      do RX <- awr RX N a ;
      do RY <- awr RY N b ;
      erf_loop10 XH YH m RX RY
  end.

(** errfff.f:69-74: [DO 20 N = NC, 1, -1]. *)
Fixpoint erf_loop20 (RX RY : arr) (H : R) (n : nat) (XL SX SY : R) : option (R * R) :=
  match n with
  | O => Some (SX, SY)
  | S m =>
      let N := Z.of_nat n in
      do rx <- ard RX N ;
      do ry <- ard RY N ;
      let SAUX := SX + XL in
      let SX' := rx * SAUX - ry * SY in
      let SY' := rx * SY + ry * SAUX in
      erf_loop20 RX RY H m (H * XL) SX' SY'
  end.

(** errfff.f:86-92: [DO 30 N = 9, 1, -1] (only [RX(1)] and [RY(1)] are
    used, so they are plain variables here). *)
Fixpoint erf_loop30 (XH YH : R) (n : nat) (rx ry : R) : option (R * R) :=
  match n with
  | O => Some (rx, ry)
  | S m =>
      do (a, b) <- erf_level XH YH (Z.of_nat n) rx ry ;
      erf_loop30 XH YH m a b
  end.

(** errfff.f:47-77: close to the origin. *)
Definition erf_near (X Y : R) : option (R * R) :=
  do s <- fsqrt (1 - (X / erf_XLIM) ^ 2) ;
  let Q := (1 - Y / erf_YLIM) * s in
  do H <- fdiv 1 (32 / 10 * Q) ;
  let NC := (7 + rtrunc (23 * Q))%Z in
  do XL <- fdiv 1 (H ^ Z.to_nat (NC - 1)) ;
  do d <- fdiv (1/2) H ;
  let XH := Y + d in
  let YH := X in
  let NU := (10 + rtrunc (21 * Q))%Z in
  do RX <- awr arr_new (NU + 1) 0 ;
  do RY <- awr arr_new (NU + 1) 0 ;
  do (RX, RY) <- erf_loop10 XH YH (Z.to_nat NU) RX RY ;
  do (SX, SY) <- erf_loop20 RX RY H (Z.to_nat NC) XL 0 0 ;
  Some (erf_CC * SX, erf_CC * SY).

(** errfff.f:78-95: further out. *)
Definition erf_far (X Y : R) : option (R * R) :=
  do (rx, ry) <- erf_loop30 Y X 9 0 0 ;
  Some (erf_CC * rx, erf_CC * ry).

(** errfff.f:14-106. *)
Definition errf (XX YY : R) : option (R * R) :=
  let X := Rabs XX in
  let Y := Rabs YY in
  do (WX, WY) <- (if Rltb Y erf_YLIM && Rltb X erf_XLIM then erf_near X Y else erf_far X Y) ;
  let WX := if Reqb Y 0 then exp (- X ^ 2) else WX in
  if Rltb YY 0 then
    let WX := 2 * exp (Y * Y - X * X) * cos (2 * X * Y) - WX in
    let WY := - 2 * exp (Y * Y - X * X) * sin (2 * X * Y) - WY in
    Some (WX, if Rgtb XX 0 then - WY else WY)
  else Some (WX, if Rltb XX 0 then - WY else WY).
