(** Strings, the library key order, and the key hints ("prefixes") stored in an
    object's vtable.  Model only; proofs are in KeysFacts.v and Lookup*.v. *)

From Coq Require Import ZArith List Bool.
From Verif Require Import Base.
Import ListNotations.
Open Scope Z_scope.

Definition str := list byte.

(** std::char_traits<char>::compare over the first [min (length a) (length b)]
    characters, as an unsigned comparison of bytes ([std::char_traits<char>::lt]
    compares as unsigned char).  Only the sign of the result is used anywhere. *)
Fixpoint traits_compare (a b : str) : Z :=
  match a, b with
  | x :: a', y :: b' =>
      if b2z x =? b2z y then traits_compare a' b'
      else if b2z x <? b2z y then -1 else 1
  | _, _ => 0
  end.

(** support/string_view.tcc:148-156 (basic_string_view::compare); the same
    function as std::string_view::compare, which shim.h uses in C++17 builds. *)
Definition sv_compare (a b : str) : Z :=
  let comp := traits_compare a b in
  if negb (comp =? 0) then comp
  else if zlen a <? zlen b then -1
  else if zlen b <? zlen a then 1
  else 0.

(** support/string_view.h relational operators, all defined through compare. *)
Definition sv_eqb (a b : str) : bool := sv_compare a b =? 0.
Definition sv_ltb (a b : str) : bool := sv_compare a b <? 0.

(** common.tcc:26-32 (dart_comparator::operator(); the eight other overloads at
    34-119 have the same body and differ only in how they fetch size and strv). *)
Definition dart_ltb (lhs rhs : str) : bool :=
  if negb (zlen lhs =? zlen rhs) then zlen lhs <? zlen rhs
  else sv_ltb lhs rhs.

(** What a [char const*] converted to string_view sees: everything up to the
    first NUL.  The object constructors build vtable entries from [key.str()],
    [GetString()] or [get_strv().data()] (object.tcc:283, 322, 361, 413, 462). *)
Fixpoint cstr (s : str) : str :=
  match s with
  | [] => []
  | b :: r => if byte_eqb b x00 then [] else b :: cstr r
  end.

(** common.h:352-362 (table_layout<prefix_entry>): one entry of an object
    vtable. The array entry (common.h:345-351) has only [e_off]/[e_type]. *)
Record entry : Type := mk_entry_raw {
  e_off : Z;         (* uint32_t, little-endian, bytes 0-3 *)
  e_type : Z;        (* uint8_t, byte 4 *)
  e_len : Z;         (* uint8_t, byte 5 *)
  e_pfx : list byte  (* the two raw prefix characters, bytes 6-7 *)
}.

(** common.tcc:173-192 (prefix_entry::prefix_entry): first two characters of the
    key, zero padded, and the length capped at 255.  Type translation
    (small_string becomes string, common.tcc:145-152) happens in Wire.v. *)
Definition prefix_bytes (prefix : str) : list byte :=
  match prefix with
  | [] => [x00; x00]
  | [a] => [a; x00]
  | a :: b :: _ => [a; b]
  end.

Definition prefix_len (prefix : str) : Z :=
  if zlen prefix <? 255 then zlen prefix else 255.

(** common.tcc:14-24 (prefix_compare_impl<n>): [char] differences, so the bytes
    are compared as *signed* characters.  [n] is the number of prefix bytes left. *)
Fixpoint prefix_compare_impl (pfx : list byte) (s : str) : Z :=
  match pfx, s with
  | p :: pfx', c :: s' =>
      if byte_eqb p c then prefix_compare_impl pfx' s' else schar p - schar c
  | p :: _, [] => schar p
  | [], c :: _ => - schar c
  | [], [] => 0
  end.

(** common.tcc:208-224 (prefix_entry::compare_impl). *)
Definition entry_compare_impl (e : entry) (s : str) : Z :=
  match s with
  | a :: b :: _ =>
      match e_pfx e with
      | [p; q] => if byte_eqb a p && byte_eqb b q then 0
                  else prefix_compare_impl (e_pfx e) s
      | _ => prefix_compare_impl (e_pfx e) s
      end
  | _ => prefix_compare_impl (e_pfx e) s
  end.

(** common.tcc:194-206 (prefix_entry::prefix_compare). *)
Definition prefix_compare (e : entry) (s : str) : Z :=
  if e_len e <? zlen s then (if e_len e =? 255 then 0 else -1)
  else if e_len e =? zlen s then entry_compare_impl e s
  else 1.
