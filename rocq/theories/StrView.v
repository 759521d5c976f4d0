(** support/string_view.h and string_view.tcc: the string view the library uses
    when the standard one is missing (shim.h:205-212).  A view is the list of
    bytes it shows; positions are size_t, i.e. Z taken modulo 2^64.  Model only;
    the specification is in SpecStr.v and the proofs in StrViewFacts.v.

    A [Throw] leaving a function declared noexcept is std::terminate; the model
    keeps the exception. *)

From Coq Require Import ZArith List Bool.
From Verif Require Import Base Keys.
Import ListNotations.
Open Scope Z_scope.

Definition size_max : Z := 2 ^ 64.
Definition wrap (z : Z) : Z := z mod size_max.

(** string_view.h:36 *)
Definition npos : Z := size_max - 1.

(** string_view.tcc:36-42 (operator []): no bounds check. *)
Definition sv_index (s : str) (idx : Z) : res byte :=
  match rd s idx 1 with Ok [c] => Ok c | Ok _ => Oob | Throw e => Throw e | Oob => Oob | Undef => Undef | Fuel => Fuel end.

(** string_view.tcc:56-60 *)
Definition sv_at (s : str) (idx : Z) : res byte :=
  if zlen s <=? idx then Throw out_of_range else sv_index s idx.

(** string_view.tcc:62-77 *)
Definition sv_front (s : str) : res byte := sv_index s 0.
Definition sv_back (s : str) : res byte := sv_index s (wrap (zlen s - 1)).

(** string_view.tcc:98-101 *)
Definition sv_empty (s : str) : bool := zlen s =? 0.

(** string_view.tcc:103-114: unchecked; removing more than there is moves the
    view outside the string. *)
Definition sv_remove_prefix (s : str) (num : Z) : res str :=
  if num <=? zlen s then Ok (skipn (Z.to_nat num) s) else Oob.
Definition sv_remove_suffix (s : str) (num : Z) : res str :=
  if num <=? zlen s then Ok (firstn (Z.to_nat (zlen s - num)) s) else Oob.

(** string_view.tcc:124-133 (copy): [out] is the whole destination block. *)
Definition sv_copy (s : str) (out : mem) (count offset : Z) : res (mem * Z) :=
  if zlen s <? offset then Throw out_of_range
  else
    let rcount := Z.min count (zlen s - offset) in
    src <- rd s offset rcount ;;
    out' <- wr out 0 src ;;
    Ok (out', rcount).

(** string_view.tcc:135-142 (substr) *)
Definition sv_substr (s : str) (offset count : Z) : res str :=
  if zlen s <? offset then Throw out_of_range
  else rd s offset (Z.min count (zlen s - offset)).

(** string_view.tcc:155-165 (compare with offsets) *)
Definition sv_compare_at (s : str) (offset count : Z) (other : str) : res Z :=
  a <- sv_substr s offset count ;; Ok (sv_compare a other).
Definition sv_compare_at2 (s : str) (o1 c1 : Z) (other : str) (o2 c2 : Z) : res Z :=
  a <- sv_substr s o1 c1 ;; b <- sv_substr other o2 c2 ;; Ok (sv_compare a b).

(** string_view.tcc:184-212 (starts_with, ends_with) *)
Definition sv_starts_with (s other : str) : res bool :=
  if zlen other <=? zlen s then c <- sv_compare_at s 0 (zlen other) other ;; Ok (c =? 0) else Ok false.
Definition sv_ends_with (s other : str) : res bool :=
  if zlen other <=? zlen s then c <- sv_compare_at s (zlen s - zlen other) npos other ;; Ok (c =? 0) else Ok false.
Definition sv_starts_with_char (s : str) (c : byte) : res bool :=
  if sv_empty s then Ok false else f <- sv_front s ;; Ok (byte_eqb f c).
Definition sv_ends_with_char (s : str) (c : byte) : res bool :=
  if sv_empty s then Ok false else f <- sv_back s ;; Ok (byte_eqb f c).

(** string_view.tcc:214-228 (find).  The fuel is one more than the characters. *)
Fixpoint sv_find_loop (fuel : nat) (s target : str) (offset : Z) : res Z :=
  match fuel with
  | O => Fuel
  | S fuel' =>
      if wrap (offset + zlen target) <=? zlen s then
        c <- sv_compare_at s offset (zlen target) target ;;
        if c =? 0 then Ok offset else sv_find_loop fuel' s target (wrap (offset + 1))
      else Ok npos
  end.
Definition sv_find (s target : str) (offset : Z) : res Z :=
  if zlen s <? wrap (zlen target + offset) then Ok npos
  else sv_find_loop (S (S (length s))) s target offset.

(** string_view.tcc:230-234 *)
Definition sv_find_char (s : str) (c : byte) (offset : Z) : res Z := sv_find s [c] offset.

(** string_view.tcc:250-264 (rfind): the loop tests the clamped copy, which it
    never changes, and moves the unclamped one. *)
Fixpoint sv_rfind_loop (fuel : nat) (s target : str) (safe_offset offset : Z) : res Z :=
  match fuel with
  | O => Fuel
  | S fuel' =>
      if 0 <=? safe_offset - zlen target then
        c <- sv_compare_at s offset (zlen target) target ;;
        if c =? 0 then Ok offset else sv_rfind_loop fuel' s target safe_offset (wrap (offset - 1))
      else Ok npos
  end.
Definition sv_rfind (s target : str) (offset : Z) : res Z :=
  sv_rfind_loop (S (S (length s))) s target (Z.min offset (zlen s)) offset.

(** std::find_if over [l]: the index of the first match, the length if none. *)
Fixpoint find_if (p : byte -> res bool) (l : str) : res Z :=
  match l with
  | [] => Ok 0
  | c :: r => q <- p c ;; if q : bool then Ok 0 else n <- find_if p r ;; Ok (n + 1)
  end.

Definition is_one_of (target : str) (c : byte) : res bool :=
  i <- sv_find_char target c 0 ;; Ok (negb (i =? npos)).
Definition is_none_of (target : str) (c : byte) : res bool :=
  i <- sv_find_char target c 0 ;; Ok (i =? npos).

(** string_view.tcc:287-299 (find_first_of) *)
Definition sv_find_first_of (s target : str) (offset : Z) : res Z :=
  if zlen s <=? offset then Ok npos
  else
    let rest := skipn (Z.to_nat offset) s in
    n <- find_if (is_one_of target) rest ;;
    Ok (if n =? zlen rest then npos else offset + n).

(** string_view.tcc:322-335 (find_last_of): [offset] counts from the end. *)
Definition sv_find_last_of (s target : str) (offset : Z) : res Z :=
  if zlen s <=? offset then Ok npos
  else
    let rest := skipn (Z.to_nat offset) (rev s) in
    n <- find_if (is_one_of target) rest ;;
    Ok (if n =? zlen rest then npos else zlen s - (offset + n) - 1).

(** string_view.tcc:359-371 (find_first_not_of): [begin() - found], the negated
    position. *)
Definition sv_find_first_not_of (s target : str) (offset : Z) : res Z :=
  if zlen s <=? offset then Ok npos
  else
    let rest := skipn (Z.to_nat offset) s in
    n <- find_if (is_none_of target) rest ;;
    Ok (if n =? zlen rest then npos else wrap (0 - (offset + n))).

(** string_view.tcc:396-409 (find_last_not_of): [rbegin() - found], the negated
    distance from the end. *)
Definition sv_find_last_not_of (s target : str) (offset : Z) : res Z :=
  if zlen s <=? offset then Ok npos
  else
    let rest := skipn (Z.to_nat offset) (rev s) in
    n <- find_if (is_none_of target) rest ;;
    Ok (if n =? zlen rest then npos else wrap (0 - (offset + n))).
