(** Conversions between bit patterns, integers and the floating point numbers of the
    standard library (Coq.Floats.SpecFloat: definitions only, no axioms).  Model only.
    Rounding is to nearest, ties to even, the default mode.  The bits of a NaN that
    comes out of an operation are not specified by IEEE-754: one pattern is used. *)

From Coq Require Import ZArith Bool Floats.SpecFloat.
From Verif Require Import Dec.
Open Scope Z_scope.

(** A double, from its bits and back. *)
Definition sf_of_bits (d : Z) : spec_float :=
  let s := negb (d_sign d =? 0) in
  if d_exp d =? 2047 then (if d_man d =? 0 then S754_infinity s else S754_nan)
  else if d_exp d =? 0 then
    (match d_man d with Zpos m => S754_finite s m (-1074) | _ => S754_zero s end)
  else match 2 ^ 52 + d_man d with Zpos m => S754_finite s m (d_exp d - 1075) | _ => S754_nan end.

Definition nan_bits : Z := 2047 * 2 ^ 52 + 2 ^ 51.
Definition bits_of_sf (x : spec_float) : Z :=
  let sign (s : bool) := if s then 2 ^ 63 else 0 in
  match x with
  | S754_nan => nan_bits
  | S754_infinity s => sign s + 2047 * 2 ^ 52
  | S754_zero s => sign s
  | S754_finite s m e =>
      if Zpos m <? 2 ^ 52 then sign s + Zpos m
      else sign s + (e + 1075) * 2 ^ 52 + (Zpos m - 2 ^ 52)
  end.

(** An integer converted to double. *)
Definition sf_of_int (z : Z) : spec_float := binary_normalize 53 1024 z 0 false.

(** static_cast<float>: exact when that is possible (Dec.v). *)
Definition bits32_of_sf (x : spec_float) : Z :=
  let sign (s : bool) := if s then 2 ^ 31 else 0 in
  match x with
  | S754_nan => 255 * 2 ^ 23 + 2 ^ 22
  | S754_infinity s => sign s + 255 * 2 ^ 23
  | S754_zero s => sign s
  | S754_finite s m e =>
      if Zpos m <? 2 ^ 23 then sign s + Zpos m
      else sign s + (e + 150) * 2 ^ 23 + (Zpos m - 2 ^ 23)
  end.
Definition to_float (d : Z) : Z :=
  if fits_single d then narrow d
  else bits32_of_sf (match sf_of_bits d with
                     | S754_finite s m e => binary_round 24 128 s m e
                     | x => x
                     end).
