(** IEEE-754 bit patterns.  A decimal is kept as the 64-bit pattern of its
    [double]; nothing is rounded.  Model only. *)

From Coq Require Import ZArith Bool.
Open Scope Z_scope.

Definition d_sign (d : Z) : Z := d / 2 ^ 63.
Definition d_exp (d : Z) : Z := (d / 2 ^ 52) mod 2 ^ 11.
Definition d_man (d : Z) : Z := d mod 2 ^ 52.
Definition f_sign (f : Z) : Z := f / 2 ^ 31.
Definition f_exp (f : Z) : Z := (f / 2 ^ 23) mod 2 ^ 8.
Definition f_man (f : Z) : Z := f mod 2 ^ 23.

(** common.h:1332-1337 (identify_decimal): [val != static_cast<float>(val)] is
    false exactly when the conversion to single precision is exact.  Written as
    the case analysis on the exponent field; that it coincides with "some single
    precision number denotes the same value" is theorem C20. *)
Definition fits_single (d : Z) : bool :=
  let E := d_exp d - 1023 in
  if d_exp d =? 2047 then d_man d =? 0                  (* infinities fit, NaN <> NaN *)
  else if d_exp d =? 0 then d_man d =? 0                (* zeros fit, double subnormals do not *)
  else if (-126 <=? E) && (E <=? 127) then d_man d mod 2 ^ 29 =? 0
  else if (-149 <=? E) && (E <? -126) then (2 ^ 52 + d_man d) mod 2 ^ (- 97 - E) =? 0
  else false.

(** heap/detail.tcc:178 ([static_cast<float>(decimal())]); only reached when the
    conversion is exact.  Outside that domain the model value is irrelevant. *)
Definition narrow (d : Z) : Z :=
  let E := d_exp d - 1023 in
  d_sign d * 2 ^ 31 +
  (if d_exp d =? 2047 then 255 * 2 ^ 23
   else if d_exp d =? 0 then 0
   else if -126 <=? E then (E + 127) * 2 ^ 23 + d_man d / 2 ^ 29
   else (2 ^ 52 + d_man d) / 2 ^ (- 97 - E)).

(** buffer/primitive.tcc:18-20 (decimal): a stored [float] is widened to
    [double], which is always exact. *)
Definition widen (f : Z) : Z :=
  f_sign f * 2 ^ 63 +
  (if f_exp f =? 255 then 2047 * 2 ^ 52 + f_man f * 2 ^ 29
   else if f_exp f =? 0 then
     (if f_man f =? 0 then 0
      else let k := Z.log2 (f_man f) in
           (k - 149 + 1023) * 2 ^ 52 + (f_man f - 2 ^ k) * 2 ^ (52 - k))
   else (f_exp f - 127 + 1023) * 2 ^ 52 + f_man f * 2 ^ 29).

(** IEEE [==] on bit patterns (used by heap and heap/buffer comparison):
    NaN equals nothing, both zeros are equal. *)
Definition d_is_nan (d : Z) : bool := (d_exp d =? 2047) && negb (d_man d =? 0).
Definition d_is_zero (d : Z) : bool := (d_exp d =? 0) && (d_man d =? 0).
Definition ieee_eqb (a b : Z) : bool :=
  negb (d_is_nan a) && negb (d_is_nan b) &&
  ((a =? b) || (d_is_zero a && d_is_zero b)).
