(** The variadic initializers of the C interface.  Model only. *)

From Coq Require Import ZArith List Bool.
From Verif Require Import Base Keys Wire Buf HeapOps SpecJson SpecAbi Abi SpecVa.
Import Init.Byte.
Import ListNotations.
Open Scope Z_scope.

(** src/helpers.h:131-144 (parse_type) *)
Inductive parse_type := Y_object | Y_array | Y_string | Y_sized | Y_int | Y_uint | Y_long | Y_ulong | Y_decimal | Y_boolean | Y_null | Y_invalid.

(** src/helpers.h:706-739 (identify_vararg).  The string is the memory from the
    pointer on; reading past it is [Oob]. *)
Definition identify_u (r : str) : res (parse_type * str) :=
  match r with
  | [] => Oob
  | c :: r' => Ok (if byte_eqb c x69 then Y_uint else if byte_eqb c x6c then Y_ulong else Y_invalid, r')
  end.
Definition identify_vararg (f : str) : res (parse_type * str) :=
  match f with
  | [] => Oob
  | c :: r =>
      if byte_eqb c x6f then Ok (Y_object, r)
      else if byte_eqb c x61 then Ok (Y_array, r)
      else if byte_eqb c x73 then Ok (Y_string, r)
      else if byte_eqb c x53 then Ok (Y_sized, r)
      else if byte_eqb c x75 then identify_u r
      else if byte_eqb c x69 then Ok (Y_int, r)
      else if byte_eqb c x6c then Ok (Y_long, r)
      else if byte_eqb c x64 then Ok (Y_decimal, r)
      else if byte_eqb c x62 then Ok (Y_boolean, r)
      else if byte_eqb c x20 || byte_eqb c x6e then Ok (Y_null, r)
      else Ok (Y_invalid, r)
  end.

(** va_arg (C11 7.16.1.1): no argument left, or one of another type, is undefined;
    the signed and unsigned version of a type may stand for each other if the value
    has both types. *)
Definition va_ptr (a : list carg) : res (str * list carg) :=
  match a with G_ptr m :: r => Ok (m, r) | _ => Undef end.
Definition va_int (a : list carg) : res (Z * list carg) :=
  match a with
  | G_int z :: r => Ok (z, r)
  | G_uint z :: r => if z <? 2 ^ 31 then Ok (z, r) else Undef
  | _ => Undef
  end.
Definition va_uint (a : list carg) : res (Z * list carg) :=
  match a with
  | G_uint z :: r => Ok (z, r)
  | G_int z :: r => if 0 <=? z then Ok (z, r) else Undef
  | _ => Undef
  end.
Definition va_llong (a : list carg) : res (Z * list carg) :=
  match a with
  | G_llong z :: r => Ok (z, r)
  | G_ullong z :: r => if z <? 2 ^ 63 then Ok (z, r) else Undef
  | _ => Undef
  end.
Definition va_ullong (a : list carg) : res (Z * list carg) :=
  match a with
  | G_ullong z :: r => Ok (z, r)
  | G_llong z :: r => if 0 <=? z then Ok (z, r) else Undef
  | _ => Undef
  end.
Definition va_size (a : list carg) : res (Z * list carg) :=
  match a with
  | G_ulong z :: r => Ok (z, r)
  | G_long z :: r => if 0 <=? z then Ok (z, r) else Undef
  | _ => Undef
  end.
Definition va_double (a : list carg) : res (Z * list carg) :=
  match a with G_double d :: r => Ok (d, r) | _ => Undef end.

(** strlen, on the way into a string view; running off the bytes is undefined. *)
Fixpoint c_text (m : str) : res str :=
  match m with
  | [] => Undef
  | c :: r => if byte_eqb c x00 then Ok [] else s <- c_text r ;; Ok (c :: s)
  end.
(** The string of a pointer and a length. *)
Definition sized (m : str) (n : Z) : res str := if zlen m <? n then Undef else Ok (firstn (Z.to_nat n) m).

(** src/helpers.h:768-829 (parse_val, parse_vals, parse_pairs).  abi_error is a
    logic_error like invalid_argument, and stands for it here: the error code is the
    same.  The aggregate passed by reference keeps what was added before a throw. *)
Fixpoint parse_val (fuel : nat) (f : str) (a : list carg) : res (value * str * list carg) :=
  match fuel with
  | O => Fuel
  | S n =>
      '(t, f) <- identify_vararg f ;;
      match t with
      | Y_object => let '(v, r) := parse_pairs n (VObj []) f a in '(f', a') <- r ;; Ok (v, f', a')
      | Y_array => let '(v, r) := parse_vals n (VArr []) f a in '(f', a') <- r ;; Ok (v, f', a')
      | Y_string => '(m, a') <- va_ptr a ;; s <- c_text m ;; Ok (VStr s, f, a')
      | Y_sized => '(m, a1) <- va_ptr a ;; '(z, a') <- va_size a1 ;; s <- sized m z ;; Ok (VStr s, f, a')
      | Y_int => '(z, a') <- va_int a ;; Ok (VInt z, f, a')
      | Y_uint => '(z, a') <- va_uint a ;; Ok (VInt z, f, a')
      | Y_long => '(z, a') <- va_llong a ;; Ok (VInt z, f, a')
      | Y_ulong => '(z, a') <- va_ullong a ;; Ok (VInt (to_signed 64 z), f, a')
      | Y_decimal => '(d, a') <- va_double a ;; Ok (VDec d, f, a')
      | Y_boolean => '(z, a') <- va_int a ;; Ok (VBool (negb (z =? 0)), f, a')
      | Y_null => Ok (VNull, f, a)
      | Y_invalid => Throw invalid_argument
      end
  end
with parse_vals (fuel : nat) (pkt : value) (f : str) (a : list carg) : value * res (str * list carg) :=
  match fuel with
  | O => (pkt, Fuel)
  | S n =>
      match f with
      | [] => (pkt, Oob)
      | c :: r =>
          if byte_eqb c x00 then (pkt, Ok (f, a))
          else if byte_eqb c x2c then (pkt, Ok (r, a))
          else match '(v, f', a') <- parse_val n f a ;; pkt' <- h_push_back pkt v ;; Ok (pkt', f', a') with
          | Ok (pkt', f', a') => parse_vals n pkt' f' a'
          | Throw e => (pkt, Throw e)
          | Oob => (pkt, Oob)
          | Undef => (pkt, Undef)
          | Fuel => (pkt, Fuel)
          end
      end
  end
with parse_pairs (fuel : nat) (pkt : value) (f : str) (a : list carg) : value * res (str * list carg) :=
  match fuel with
  | O => (pkt, Fuel)
  | S n =>
      match f with
      | [] => (pkt, Oob)
      | c :: r =>
          if byte_eqb c x00 then (pkt, Ok (f, a))
          else if byte_eqb c x2c then (pkt, Ok (r, a))
          else match '(m, a1) <- va_ptr a ;; k <- c_text m ;;
                '(v, f', a') <- parse_val n f a1 ;;
                '(pkt', _) <- h_insert pkt (VStr k) v ;; Ok (pkt', f', a') with
          | Ok (pkt', f', a') => parse_pairs n pkt' f' a'
          | Throw e => (pkt, Throw e)
          | Oob => (pkt, Oob)
          | Undef => (pkt, Undef)
          | Fuel => (pkt, Fuel)
          end
      end
  end.

(** Enough for any string of this length. *)
Definition va_fuel (f : str) : nat := 2 * length f + 2.

(** src/generic.cc:775-790, 858-873 and src/heap.cc:655-670, 738-753 (the *_init_va_impl):
    the destination after the call, and how the call ended. *)
Definition init_va (w : whole) (f : str) (a : list carg) : value * res (str * list carg) :=
  match w with
  | As_object => parse_pairs (va_fuel f) (VObj []) f a
  | As_array => parse_vals (va_fuel f) (VArr []) f a
  end.

(** How a call ends.  [Left] is the content of the destination, if it has one. *)
Inductive vaend :=
| Returns (code : Z) (dst : option value)
| Bad.
(** The forms ending in _err (src/generic.cc:802-808, 819-826, 884-890, 901-907 and their
    like in src/heap.cc); src/helpers.h:626-646 (the typed constructors): an
    unknown counter is refused first. *)
Definition init_va_err (w : whole) (rc : Z) (f : str) (a : list carg) : vaend :=
  match counter_of rc with
  | None => Returns client_code None
  | Some _ =>
      let '(v, r) := init_va w f a in
      match r with
      | Ok _ => Returns no_error (Some v)
      | Throw e => Returns (handle e) (Some v)
      | _ => Bad
      end
  end.
(** The forms that return by value (src/generic.cc:792-800, 810-817, 875-882, 892-899
    and their like in src/heap.cc): on failure a fresh null is returned in place of
    the local handle, which nothing destroys.  The handle returned, and the object
    lost. *)
Definition init_va_plain (w : whole) (rc : Z) (f : str) (a : list carg) : res (value * option value) :=
  match init_va_err w rc f a with
  | Returns z dst =>
      if z =? no_error then match dst with Some v => Ok (v, None) | None => Undef end else Ok (VNull, dst)
  | Bad => Undef
  end.
