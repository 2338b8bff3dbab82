(** Number and numpy helpers shared by all models.

    Floating point numbers are modelled by the reals (no rounding).
    Arrays are lists.  Exceptions are values. *)
From Coq Require Export Reals List Bool ZArith Arith.
Export ListNotations.
Open Scope R_scope.

(** Comparisons of the code ([<], [<=], [>], [>=], [==]) as booleans. *)
Definition Rltb (x y : R) : bool := if Rlt_dec x y then true else false.
Definition Rleb (x y : R) : bool := if Rle_dec x y then true else false.
Definition Rgtb (x y : R) : bool := Rltb y x.
Definition Rgeb (x y : R) : bool := Rleb y x.
Definition Reqb (x y : R) : bool := if Req_EM_T x y then true else false.

(** [np.sum] of a float array. *)
Definition rsum (l : list R) : R := fold_right Rplus 0 l.
Arguments rsum : simpl never.

(** [np.sum] of an integer array (naturals). *)
Definition nsum (l : list nat) : nat := fold_right plus 0%nat l.

(** [np.sum] of a boolean mask: number of [True]. *)
Definition count_true (m : list bool) : nat :=
  fold_right (fun (b : bool) n => if b then S n else n) 0%nat m.

(** [np.floor] (result as an integer). *)
Definition rfloor (x : R) : Z := Int_part x.
(** [np.ceil]. *)
Definition rceil (x : R) : Z := (- Int_part (- x))%Z.
(** Conversion to integer by truncation towards zero: Fortran [int()],
    C casts and numpy [astype(int)]. *)
Definition rtrunc (x : R) : Z := if Rlt_dec x 0 then rceil x else rfloor x.
(** [np.around] / [np.round]: nearest integer, ties to even. *)
Definition raround (x : R) : Z :=
  let f := Int_part x in
  let d := x - IZR f in
  if Rlt_dec d (1/2) then f
  else if Rlt_dec (1/2) d then (f + 1)%Z
  else if Z.even f then f else (f + 1)%Z.

(** [a[m]] for a boolean mask [m] of the same length. *)
Fixpoint mask_get {A} (m : list bool) (a : list A) : list A :=
  match m, a with
  | b :: m', x :: a' => if b then x :: mask_get m' a' else mask_get m' a'
  | _, _ => []
  end.

(** Array after [a[m] = v] when [v] has as many entries as [m] has [True]. *)
Fixpoint mask_put {A} (m : list bool) (a v : list A) : list A :=
  match m, a with
  | b :: m', x :: a' =>
      if b then
        match v with
        | y :: v' => y :: mask_put m' a' v'
        | [] => x :: mask_put m' a' []
        end
      else x :: mask_put m' a' v
  | _, _ => a
  end.

(** [a[m] = c] for a scalar [c]. *)
Fixpoint mask_fill {A} (m : list bool) (a : list A) (c : A) : list A :=
  match m, a with
  | b :: m', x :: a' => (if b then c else x) :: mask_fill m' a' c
  | _, _ => a
  end.

(** [a[m] = v] in numpy: the lengths must agree, or [v] has length one and
    is broadcast; otherwise [ValueError] ([None]). *)
Definition mask_set {A} (m : list bool) (a v : list A) : option (list A) :=
  if Nat.eqb (length v) (count_true m) then Some (mask_put m a v)
  else match v with
       | [c] => Some (mask_fill m a c)
       | _ => None
       end.

(** [a[lo:hi]] with [0 <= lo <= hi]; bounds are clipped to the array. *)
Definition slice_get {A} (a : list A) (lo hi : nat) : list A :=
  firstn (hi - lo) (skipn lo a).

(** [a[lo:hi] = c] for a scalar [c]. *)
Definition slice_fill {A} (a : list A) (lo hi : nat) (c : A) : list A :=
  firstn lo a ++ repeat c (length (slice_get a lo hi)) ++ skipn (max lo hi) a.

(** [a[lo:hi] = v] in numpy: bounds are clipped to the array; [v] must have
    the length of the slice, or length one (broadcast); otherwise
    [ValueError] ([None]). *)
Definition slice_set {A} (a : list A) (lo hi : nat) (v : list A)
  : option (list A) :=
  if Nat.eqb (length v) (length (slice_get a lo hi)) then
    Some (firstn lo a ++ v ++ skipn (max lo hi) a)
  else match v with
       | [c] => Some (slice_fill a lo hi c)
       | _ => None
       end.

(** [np.repeat(a, counts)]. *)
Fixpoint repeat_each {A} (a : list A) (counts : list nat) : list A :=
  match a, counts with
  | x :: a', n :: c' => repeat x n ++ repeat_each a' c'
  | _, _ => []
  end.

(** Elementwise binary operation on two arrays of equal length. *)
Fixpoint map2 {A B C} (f : A -> B -> C) (a : list A) (b : list B) : list C :=
  match a, b with
  | x :: a', y :: b' => f x y :: map2 f a' b'
  | _, _ => []
  end.

(** Elementwise ternary operation. *)
Fixpoint map3 {A B C D} (f : A -> B -> C -> D)
  (a : list A) (b : list B) (c : list C) : list D :=
  match a, b, c with
  | x :: a', y :: b', z :: c' => f x y z :: map3 f a' b' c'
  | _, _, _ => []
  end.

(** Python indexing [a[i]] of a sequence, with negative indices counted from
    the end; [None] is [IndexError]. *)
Definition py_nth {A} (a : list A) (i : Z) : option A :=
  let n := Z.of_nat (length a) in
  if (0 <=? i)%Z then nth_error a (Z.to_nat i)
  else if (0 <=? i + n)%Z then nth_error a (Z.to_nat (i + n))
  else None.

(** Fortran [a(i)] with 1-based index, as an array update
    [a(i) = a(i) + w]; [None] is an access outside the bounds. *)
Fixpoint upd_nth {A} (a : list A) (i : nat) (f : A -> A) : list A :=
  match a, i with
  | [], _ => []
  | x :: a', O => f x :: a'
  | x :: a', S j => x :: upd_nth a' j f
  end.

Definition for_add (a : list R) (i : Z) (w : R) : option (list R) :=
  if ((1 <=? i) && (i <=? Z.of_nat (length a)))%Z
  then Some (upd_nth a (Z.to_nat (i - 1)) (fun x => x + w))
  else None.

(** Sequencing of computations that may raise. *)
Definition bind {A B} (m : option A) (f : A -> option B) : option B :=
  match m with Some a => f a | None => None end.
Notation "'do' x <- m ; k" := (bind m (fun x => k))
  (at level 200, x pattern, m at level 100, k at level 200, right associativity).

(** Random numbers: a stream [rng : nat -> R] and a position in it.
    [rand(n)] returns the next [n] numbers and advances the position. *)
Definition draw (rng : nat -> R) (k n : nat) : list R := map rng (seq k n).
