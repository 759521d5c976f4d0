(** support/ordered.h and ordered.tcc: integers kept in memory in a chosen byte
    order whatever the order of the host.  Model only; proofs are in
    OrderedFacts.v. *)

From Coq Require Import ZArith List Bool.
From Verif Require Import Base.
Import ListNotations.
Open Scope Z_scope.

(** ordered.h:17-27, 43-48: the host's byte order and the two tags. *)
Inductive endian := Little | Big.
Definition endian_eqb (a b : endian) : bool :=
  match a, b with Little, Little | Big, Big => true | _, _ => false end.

(** The object representation of an unsigned integer of [w] bytes on host [h],
    and the integer a host sees in such bytes. *)
Definition host_repr (h : endian) (w : nat) (z : Z) : list byte :=
  match h with Little => le_enc w z | Big => rev (le_enc w z) end.
Definition host_load (h : endian) (bs : list byte) : Z :=
  match h with Little => le_dec bs | Big => le_dec (rev bs) end.

(** Integer types: width in bytes and signedness. *)
Record ity := mk_ity { it_bytes : nat; it_signed : bool }.
Definition it_bits (t : ity) : Z := 8 * Z.of_nat (it_bytes t).

(** Conversion to a type: reduction modulo 2^bits (for signed targets this is
    what every supported compiler does, and C++20 requires). *)
Definition conv (t : ity) (z : Z) : Z :=
  if it_signed t then to_signed (it_bits t) z else z mod 2 ^ it_bits t.

Definition in_range (t : ity) (z : Z) : Prop :=
  if it_signed t then - 2 ^ (it_bits t - 1) <= z < 2 ^ (it_bits t - 1) else 0 <= z < 2 ^ it_bits t.
Definition in_rangeb (t : ity) (z : Z) : bool :=
  if it_signed t then (- 2 ^ (it_bits t - 1) <=? z) && (z <? 2 ^ (it_bits t - 1))
  else (0 <=? z) && (z <? 2 ^ it_bits t).

(** Integral promotion: types narrower than int become int. *)
Definition int_t := mk_ity 4 true.
Definition promote (t : ity) : ity := if (it_bytes t <? 4)%nat then int_t else t.

(** Arithmetic in a promoted type: unsigned wraps, signed overflow is undefined. *)
Definition arith (t : ity) (z : Z) : res Z :=
  if it_signed t then (if in_rangeb t z then Ok z else Undef) else Ok (z mod 2 ^ it_bits t).

(** ordered.tcc:18-27 (the byte swapping builtins). *)
Fixpoint bswap (w : nat) (z : Z) : Z :=
  match w with O => 0 | S w' => (z mod 256) * 256 ^ Z.of_nat w' + bswap w' (z / 256) end.

Section Ordered.
  Variables (host order : endian) (t : ity).

  (** ordered.tcc:243-246 (should_swap) *)
  Definition should_swap : bool := negb (endian_eqb order host).

  (** ordered.tcc:253-264, 279-290 (copy_in, swap_in): [val] is reinterpreted as
      the unsigned storage type of its size; one-byte types are never swapped. *)
  Definition copy_in (val : Z) : Z := val mod 2 ^ it_bits t.
  Definition swap_in (val : Z) : Z :=
    match it_bytes t with
    | 8%nat => bswap 8 (copy_in val)
    | 4%nat => bswap 4 (copy_in val)
    | 2%nat => bswap 2 (copy_in val)
    | _ => copy_in val
    end.

  (** ordered.tcc:266-277, 292-303 (copy_out, swap_out) *)
  Definition copy_out (managed : Z) : Z := conv t managed.
  Definition swap_out (managed : Z) : Z :=
    match it_bytes t with
    | 8%nat => conv t (bswap 8 managed)
    | 4%nat => conv t (bswap 4 managed)
    | 2%nat => conv t (bswap 2 managed)
    | _ => conv t managed
    end.

  (** ordered.tcc:182-192 (get, set): the member [managed] after set(val), and
      the value get() returns. *)
  Definition set (val : Z) : Z := if should_swap then swap_in val else copy_in val.
  Definition get (managed : Z) : Z := if should_swap then swap_out managed else copy_out managed.

  (** The bytes the object occupies, and the object found in given bytes. *)
  Definition store (val : Z) : list byte := host_repr host (it_bytes t) (set val).
  Definition load (bs : list byte) : Z := get (host_load host bs).

  (** ordered.tcc:194-240: the mutators; both operands have type T and are
      promoted, the result is converted back. *)
  Definition mutate (f : Z -> res Z) (managed : Z) : res Z :=
    x <- f (get managed) ;; Ok (set (conv t x)).
  Definition increment (val managed : Z) : res Z := mutate (fun v => arith (promote t) (v + val)) managed.
  Definition scale (val managed : Z) : res Z := mutate (fun v => arith (promote t) (v * val)) managed.
  Definition shrink (val managed : Z) : res Z :=
    mutate (fun v => if val =? 0 then Undef else arith (promote t) (Z.quot v val)) managed.
  Definition mask (val managed : Z) : res Z := mutate (fun v => Ok (Z.land v val)) managed.
  Definition fill_bits (val managed : Z) : res Z := mutate (fun v => Ok (Z.lor v val)) managed.
  Definition flip (val managed : Z) : res Z := mutate (fun v => Ok (Z.lxor v val)) managed.

  (** ordered.tcc:91-145: the operators; [u] is the type of the operand, which is
      converted to T on the way in (after the negation, for -=). *)
  Definition plus_assign (u : ity) (op managed : Z) : res Z := increment (conv t op) managed.
  Definition minus_assign (u : ity) (op managed : Z) : res Z :=
    n <- arith (promote u) (- op) ;; increment (conv t n) managed.
  Definition times_assign (u : ity) (op managed : Z) : res Z := scale (conv t op) managed.
  Definition divide_assign (u : ity) (op managed : Z) : res Z := shrink (conv t op) managed.
  Definition and_assign (u : ity) (op managed : Z) : res Z := mask (conv t op) managed.
  Definition or_assign (u : ity) (op managed : Z) : res Z := fill_bits (conv t op) managed.
  Definition xor_assign (u : ity) (op managed : Z) : res Z := flip (conv t op) managed.

  (** ordered.tcc:147-176 (++, --; the postfix forms return the old value). *)
  Definition pre_inc (managed : Z) : res Z := increment (conv t 1) managed.
  Definition pre_dec (managed : Z) : res Z := increment (conv t (-1)) managed.
End Ordered.
