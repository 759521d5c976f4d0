(** heap/string.tcc and the two string layouts of common.h: how a mutable string
    keeps its bytes.  Model only; proofs are in HeapStrFacts.v. *)

From Coq Require Import ZArith List Bool.
From Verif Require Import Base Keys Wire.
Import ListNotations.
Open Scope Z_scope.

(** common.h:307-333.  The inline layout is 24 bytes: the buffer of
    [sizeof(dynamic_string_layout) - 1] = 23 bytes and the byte [left] behind it.
    The dynamic layout is a separate block and a length. *)
Inductive hstring : Type :=
| Inline (layout : mem)
| Dynamic (block : mem) (len : Z).

(** The offset of [left]; sso_bytes (Wire.v) is the 23 bytes before it. *)
Definition left_at : Z := 23.

(** heap/string.tcc:48-88: [junk] is what an uninitialised layout happens to hold,
    [junk'] what a fresh block holds.  The terminator of a string of 23 bytes is
    written to the byte [left] occupies, which is then set to 0. *)
Definition make_string (junk junk' : mem) (base app : str) : res hstring :=
  let len := zlen base + zlen app in
  let type := identify_string len in
  if (type =? R_string) || (type =? R_big_string) then
    m <- wr junk' 0 base ;;
    m <- wr m (zlen base) app ;;
    m <- wr m len [x00] ;;
    Ok (Dynamic m len)
  else
    m <- wr junk 0 base ;;
    m <- wr m (zlen base) app ;;
    m <- wr m len [x00] ;;
    m <- wr m left_at [z2b (sso_bytes mod 256 - len mod 256)] ;;
    Ok (Inline m).

(** heap/string.tcc:31-41 (strv) *)
Definition h_strv (s : hstring) : res str :=
  match s with
  | Inline m => left <- rd m left_at 1 ;; rd m 0 (sso_bytes - le_dec left)
  | Dynamic m len => rd m 0 len
  end.

(** Reading a C string: up to the first NUL, outside the block if there is none. *)
Fixpoint c_string (m : mem) : res str :=
  match m with
  | [] => Oob
  | c :: r => if byte_eqb c x00 then Ok [] else s <- c_string r ;; Ok (c :: s)
  end.

(** heap/string.tcc:21-24 (str) *)
Definition h_str (s : hstring) : res str :=
  match s with Inline m => c_string m | Dynamic m _ => c_string m end.

(** strcmp over two blocks, as far as whether it returns 0. *)
Fixpoint strcmp_eq (a b : mem) : res bool :=
  match a, b with
  | x :: a', y :: b' =>
      if byte_eqb x y then (if byte_eqb x x00 then Ok true else strcmp_eq a' b') else Ok false
  | _, _ => Oob
  end.

(** common.h:308-327 (operator == of both layouts), under the variant's equality:
    different alternatives are different. *)
Definition hstring_eqb (a b : hstring) : res bool :=
  match a, b with
  | Inline m, Inline n =>
      l <- rd m left_at 1 ;; r <- rd n left_at 1 ;;
      if le_dec l =? le_dec r then strcmp_eq m n else Ok false
  | Dynamic m l, Dynamic n r => if l =? r then strcmp_eq m n else Ok false
  | _, _ => Ok false
  end.
