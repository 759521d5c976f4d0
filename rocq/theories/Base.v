(** Bytes, memory and outcomes shared by every part of the model.

    Nothing here models one particular function of /repo: it fixes the
    machine-level vocabulary (bytes, byte arrays with bounds, little-endian
    integers, the alignment arithmetic of align_pointer/pad_bytes and the
    possible outcomes of a C++ call).  Proofs about it are in BaseFacts.v. *)

From Coq Require Import ZArith List Lia Bool.
From Coq Require Export Init.Byte Strings.Byte.
Import ListNotations.
Open Scope Z_scope.

(** A C++ call either returns, throws one of the library's exceptions, commits
    an out-of-bounds access, uses an indeterminate value (both undefined
    behaviour), or - only in the model - runs out of the fuel given to a loop
    whose termination is not structural.  Theorems exclude [Fuel] explicitly. *)
Inductive err : Type :=
| type_error          (* dart.h: dart::type_error *)
| state_error         (* dart::state_error *)
| parse_error         (* dart::parse_error *)
| validation_error    (* dart::validation_error *)
| out_of_range        (* std::out_of_range *)
| invalid_argument    (* std::invalid_argument *)
| length_error.       (* std::length_error *)

Inductive res (A : Type) : Type :=
| Ok (a : A)
| Throw (e : err)
| Oob                 (* access outside the allocation: undefined behaviour *)
| Undef               (* use of an indeterminate value: undefined behaviour *)
| Fuel.
Arguments Ok {A} a.
Arguments Throw {A} e.
Arguments Oob {A}.
Arguments Undef {A}.
Arguments Fuel {A}.

Definition bind {A B} (x : res A) (f : A -> res B) : res B :=
  match x with
  | Ok a => f a
  | Throw e => Throw e
  | Oob => Oob
  | Undef => Undef
  | Fuel => Fuel
  end.

Notation "x <- e ;; k" := (bind e (fun x => k))
  (at level 61, e at next level, right associativity).
Notation "' p <- e ;; k" := (bind e (fun p => k))
  (at level 61, p pattern, e at next level, right associativity).

(** ** Bytes *)

Definition b2z (b : byte) : Z := Z.of_N (Byte.to_N b).

Definition z2b (z : Z) : byte :=
  match Byte.of_N (Z.to_N (z mod 256)) with
  | Some b => b
  | None => x00
  end.

(** A plain [char] is signed on the platforms the library targets. *)
Definition schar (b : byte) : Z :=
  if b2z b <? 128 then b2z b else b2z b - 256.

Definition byte_eqb (a b : byte) : bool := Byte.eqb a b.

(** ** Little-endian integers
    support/ordered.h:little_order / support/ordered.tcc: values are kept in
    memory least significant byte first whatever the host order; the host-order
    dependent code itself is modelled in Ordered.v. *)
Fixpoint le_enc (n : nat) (z : Z) : list byte :=
  match n with
  | O => []
  | S n' => z2b z :: le_enc n' (z / 256)
  end.

Fixpoint le_dec (bs : list byte) : Z :=
  match bs with
  | [] => 0
  | b :: r => b2z b + 256 * le_dec r
  end.

(** Two's complement reading of an [n]-bit pattern. *)
Definition to_signed (bits : Z) (z : Z) : Z :=
  let m := z mod 2 ^ bits in
  if m <? 2 ^ (bits - 1) then m else m - 2 ^ bits.

(** ** Memory: one allocation, addressed by offset from its (8-aligned) start. *)
Definition mem := list byte.
Definition zlen {A} (l : list A) : Z := Z.of_nat (length l).

(** Read [n] bytes at offset [o]; anything outside the allocation is [Oob]. *)
Definition rd (m : mem) (o n : Z) : res (list byte) :=
  if (0 <=? o) && (0 <=? n) && (o + n <=? zlen m)
  then Ok (firstn (Z.to_nat n) (skipn (Z.to_nat o) m))
  else Oob.

(** Overwrite [length bs] bytes at offset [o]. *)
Definition wr (m : mem) (o : Z) (bs : list byte) : res mem :=
  if (0 <=? o) && (o + zlen bs <=? zlen m)
  then Ok (firstn (Z.to_nat o) m ++ bs ++ skipn (Z.to_nat (o + zlen bs)) m)
  else Oob.

Definition rd_le (m : mem) (o : Z) (n : nat) : res Z :=
  bs <- rd m o (Z.of_nat n) ;; Ok (le_dec bs).

Definition wr_le (m : mem) (o : Z) (n : nat) (z : Z) : res mem :=
  wr m o (le_enc n z).

Definition zeros (n : Z) : list byte := repeat x00 (Z.to_nat n).

(** common.h:1268-1284 (align_pointer / pad_bytes): round up to a multiple of
    the power of two [a].  The model keeps offsets from an 8-aligned address, for
    which rounding the address and rounding the offset are the same thing; the
    bit trick [(x + (a-1)) & ~(a-1)] is the division below for powers of two
    (proved in BaseFacts.v: [align_up_bits]). *)
Definition align_up (x a : Z) : Z := (x + (a - 1)) / a * a.
