(** The numeric meaning of IEEE-754 bit patterns, for the specification of C20.  A
    finite number is an integer multiple of 2^-1074, the smallest subnormal
    double, so no real arithmetic is needed. *)

From Coq Require Import ZArith Bool.
From Verif Require Import Dec.
Open Scope Z_scope.

Inductive fval :=
| FNaN
| FInf (neg : bool)
| FFin (n : Z).      (* the number n * 2^-1074 *)

Definition sgn (s : Z) (n : Z) : Z := if s =? 0 then n else - n.

(** IEEE-754 binary64 *)
Definition denote64 (d : Z) : fval :=
  if d_exp d =? 2047 then
    (if d_man d =? 0 then FInf (negb (d_sign d =? 0)) else FNaN)
  else if d_exp d =? 0 then FFin (sgn (d_sign d) (d_man d))
  else FFin (sgn (d_sign d) ((2 ^ 52 + d_man d) * 2 ^ (d_exp d - 1))).

(** IEEE-754 binary32 *)
Definition denote32 (f : Z) : fval :=
  if f_exp f =? 255 then
    (if f_man f =? 0 then FInf (negb (f_sign f =? 0)) else FNaN)
  else if f_exp f =? 0 then FFin (sgn (f_sign f) (f_man f * 2 ^ 925))
  else FFin (sgn (f_sign f) ((2 ^ 23 + f_man f) * 2 ^ (924 + f_exp f))).
