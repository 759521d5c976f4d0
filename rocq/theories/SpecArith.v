(** What arithmetic on numbers should give: the IEEE-754 operations on doubles, said
    without computing them.  Specification only.  A finite double is an integer
    multiple of 2^-1074 (SpecDec.v); so is the exact result, as a fraction. *)

From Coq Require Import ZArith Bool.
From Verif Require Import Dec SpecDec.
Open Scope Z_scope.

Inductive aop := Add | Sub | Mul | Div.

Definition bits64 (r : Z) : Prop := 0 <= r < 2 ^ 64.
Definition negative (r : Z) : bool := d_sign r =? 1.

(** Half a step beyond the largest finite double. *)
Definition limit64 : Z := (2 ^ 54 - 1) * 2 ^ 2044.

(** [r] is the number N/D rounded to nearest: no double is closer, and when another
    one is as close, [r] is the one whose last bit is 0. *)
Definition rounded (N D : Z) (neg : bool) (r : Z) : Prop :=
  bits64 r /\ negative r = neg /\
  if Z.abs N <? limit64 * D then
    exists n, denote64 r = FFin n /\
      forall r' n', bits64 r' -> denote64 r' = FFin n' ->
        Z.abs (N - n * D) <= Z.abs (N - n' * D) /\
        (Z.abs (N - n * D) = Z.abs (N - n' * D) -> n = n' \/ Z.even r = true)
  else denote64 r = FInf neg.

Definition is_nan (r : Z) : Prop := bits64 r /\ denote64 r = FNaN.
Definition is_inf (neg : bool) (r : Z) : Prop := bits64 r /\ denote64 r = FInf neg.
Definition is_zero (neg : bool) (r : Z) : Prop := bits64 r /\ denote64 r = FFin 0 /\ negative r = neg.

Definition ieee (o : aop) (a b r : Z) : Prop :=
  let diff := xorb (negative a) (negative b) in
  match denote64 a, denote64 b with
  | FNaN, _ | _, FNaN => is_nan r
  | FInf s, FInf t =>
      match o with
      | Add => if Bool.eqb s t then is_inf s r else is_nan r
      | Sub => if Bool.eqb s t then is_nan r else is_inf s r
      | Mul => is_inf diff r
      | Div => is_nan r
      end
  | FInf s, FFin y =>
      match o with
      | Add | Sub => is_inf s r
      | Mul => if y =? 0 then is_nan r else is_inf diff r
      | Div => is_inf diff r
      end
  | FFin x, FInf t =>
      match o with
      | Add => is_inf t r
      | Sub => is_inf (negb t) r
      | Mul => if x =? 0 then is_nan r else is_inf diff r
      | Div => is_zero diff r
      end
  | FFin x, FFin y =>
      match o with
      | Add => if x + y =? 0 then is_zero (negative a && negative b) r else rounded (x + y) 1 (x + y <? 0) r
      | Sub => if x - y =? 0 then is_zero (negative a && negb (negative b)) r else rounded (x - y) 1 (x - y <? 0) r
      | Mul => rounded (x * y) (2 ^ 1074) diff r
      | Div =>
          if y =? 0 then (if x =? 0 then is_nan r else is_inf diff r)
          else rounded (x * Z.sgn y * 2 ^ 1074) (Z.abs y) diff r
      end
  end.

(** An integer as a double: rounded, zero being positive. *)
Definition of_int (z r : Z) : Prop := rounded (z * 2 ^ 1074) 1 (z <? 0) r.

(** The integer part of a finite double: what a cast to an integer gives. *)
Definition truncated (d z : Z) : Prop :=
  exists n, denote64 d = FFin n /\ Z.abs z * 2 ^ 1074 <= Z.abs n < (Z.abs z + 1) * 2 ^ 1074 /\ 0 <= n * z.

(** Rounding a double (n * 2^-1074) to single precision. *)
Definition limit32 : Z := (2 ^ 25 - 1) * 2 ^ 1177.
Definition rounded32 (n : Z) (neg : bool) (f : Z) : Prop :=
  0 <= f < 2 ^ 32 /\ (f_sign f =? 1) = neg /\
  if Z.abs n <? limit32 then
    exists k, denote32 f = FFin k /\
      forall f' k', 0 <= f' < 2 ^ 32 -> denote32 f' = FFin k' ->
        Z.abs (n - k) <= Z.abs (n - k') /\ (Z.abs (n - k) = Z.abs (n - k') -> k = k' \/ Z.even f = true)
  else denote32 f = FInf neg.
