(** Values of input parameters, as far as the code that reads them looks at
    them: numbers ([int] and [float] alike), strings, booleans, [None], lists
    and tuples, not-a-number, imported modules ([types.ModuleType]) and anything
    else. *)
From Coq Require Import String.
From Verif Require Import Num.

Inductive pval :=
| PNone | PBool (b : bool) | PNum (x : R) | PNan | PStr (s : string) | PList (l : list pval)
| PModule | POther (n : nat).
