(** Reading, searching and validating a finalized buffer.  Model only.

    A buffer element is a (type code, offset) pair, offsets being relative to the
    first byte of the block [m].  [bs] is the address of that first byte: only
    align_pointer looks at addresses, and only their residue matters.  Buffers the
    library allocates itself, and buffers it adopts (buffer/detail.tcc:31-41
    validate_pointer), have [bs] divisible by 8; is_valid/validate may be handed
    any address. *)

From Coq Require Import ZArith List Bool.
From Verif Require Import Base Keys Dec Wire.
Import ListNotations.
Open Scope Z_scope.

(** raw_element (common.h:244-247); [None] is a null pointer. *)
Definition elem : Type := (Z * option Z)%type.

(** object.tcc:604, array.tcc:345 (size): the [elems] field after [bytes]. *)
Definition agg_count (m : mem) (o : Z) : res Z := rd_le m (o + 4) 4.

(** common.tcc:163-166, 154-161 (get_offset / get_type of vtable()[idx]). *)
Definition entry_offset (m : mem) (o idx : Z) : res Z := rd_le m (o + 8 + 8 * idx) 4.
Definition entry_rawtype (m : mem) (o idx : Z) : res Z := rd_le m (o + 8 + 8 * idx + 4) 1.

(** object.tcc:782 (vtable()[idx] of an object, all fields). *)
Definition rd_entry (m : mem) (o idx : Z) : res entry :=
  off <- entry_offset m o idx ;;
  ty <- entry_rawtype m o idx ;;
  len <- rd_le m (o + 8 + 8 * idx + 5) 1 ;;
  pfx <- rd m (o + 8 + 8 * idx + 6) 2 ;;
  Ok (mk_entry_raw off ty len pfx).

(** string.tcc:107-119 (basic_string<uint16_t>::get_strv), and with [w = 4] the
    big_string one.  Only the view is formed in C++; the model reads its
    characters, so that a view reaching outside the block counts as [Oob]. *)
Definition rd_strv (m : mem) (w : nat) (o : Z) : res str :=
  len <- rd_le m o w ;;
  rd m (o + Z.of_nat w) len.

(** object.tcc:706-712 (load_key) *)
Definition load_key (m : mem) (o idx : Z) : res (Z * Z) :=
  off <- entry_offset m o idx ;;
  Ok (R_string, o + off).

(** common.h:1268 (align_pointer) on the address of offset [p]. *)
Definition align_ptr (bs p t : Z) : Z := align_up (bs + p) (alignment_of t) - bs.

(** object.tcc:715-725 (load_value) *)
Definition load_value (bs : Z) (m : mem) (o idx : Z) : res (Z * Z) :=
  off <- entry_offset m o idx ;;
  let val_ptr := o + off in
  ty <- entry_rawtype m o idx ;;
  key_len <- find_sizeof m R_string val_ptr ;;
  Ok (ty, align_ptr bs (val_ptr + key_len) ty).

(** array.tcc:375-392 (load_elem, get_elem, get_elem_impl with
    throw_if_absent = false). *)
Definition get_elem (m : mem) (o idx : Z) : res elem :=
  n <- agg_count m o ;;
  if idx <? n then
    ty <- entry_rawtype m o idx ;;
    off <- entry_offset m o idx ;;
    Ok (ty, Some (o + off))
  else Ok (R_null, None).

(** array.tcc:370-372, 390 (at_elem) *)
Definition at_elem (m : mem) (o idx : Z) : res elem :=
  n <- agg_count m o ;;
  if idx <? n then
    ty <- entry_rawtype m o idx ;;
    off <- entry_offset m o idx ;;
    Ok (ty, Some (o + off))
  else Throw out_of_range.

(** object.tcc:635-678 (get_key): binary search; the result is the index handed
    to the callback, the type of the value and the address of the key, or [None]
    when the loop ends without a match.  [fuel] bounds the number of probes. *)
Fixpoint get_key_loop (fuel : nat) (m : mem) (o : Z) (key : str) (low high : Z)
  : res (option (Z * Z * Z)) :=
  if high <? low then Ok None
  else match fuel with
  | O => Fuel
  | S fuel' =>
      let mid := Z.quot (low + high) 2 in
      e <- rd_entry m o mid ;;
      let comparison := - prefix_compare e key in
      comparison <-
        (if negb (comparison =? 0) then Ok comparison
         else curr <- rd_strv m 2 (o + e_off e) ;;
              Ok (if zlen curr =? zlen key then sv_compare key curr
                  else zlen key - zlen curr)) ;;
      if comparison =? 0 then Ok (Some (mid, e_type e, o + e_off e))
      else if 0 <? comparison then get_key_loop fuel' m o key (mid + 1) high
      else get_key_loop fuel' m o key low (mid - 1)
  end.

(** The bounds are [int32_t]: [static_cast<int32_t>(num_keys) - 1]. *)
Definition get_key (m : mem) (o : Z) (key : str) : res (option (Z * Z * Z)) :=
  n <- agg_count m o ;;
  get_key_loop (Z.to_nat n) m o key 0 (to_signed 32 n - 1).

(** object.tcc:752-774 (get_value_impl), with the callbacks of get_value (695)
    and at_value (700).  A missing key and a key holding null both give a null
    element with a null pointer. *)
Definition get_value_impl (bs : Z) (m : mem) (o : Z) (key : str)
    (absent : res elem) : res elem :=
  r <- get_key m o key ;;
  match r with
  | None => absent
  | Some (_, ty, p) =>
      if ty =? R_null then Ok (R_null, None)
      else
        key_len <- find_sizeof m R_string p ;;
        Ok (ty, Some (align_ptr bs (p + key_len) ty))
  end.

Definition get_value (bs : Z) (m : mem) (o : Z) (key : str) : res elem :=
  get_value_impl bs m o key (Ok (R_null, None)).

Definition at_value (bs : Z) (m : mem) (o : Z) (key : str) : res elem :=
  get_value_impl bs m o key (Throw out_of_range).

(** buffer/object.tcc:200-214 (has_key): a field was found, whatever its type. *)
Definition has_key (m : mem) (o : Z) (key : str) : res bool :=
  r <- get_key m o key ;; Ok (match r with Some _ => true | None => false end).

(** buffer/primitive.tcc, buffer/string.tcc and the deref functions of
    common.h:1098-1179: reading a scalar element. A [bool] whose byte is neither
    0 nor 1 is an indeterminate value. *)
Definition rd_scalar (m : mem) (t o : Z) : res value :=
  if (t =? R_small_string) || (t =? R_string) then
    s <- rd_strv m 2 o ;; Ok (VStr s)
  else if t =? R_big_string then
    s <- rd_strv m 4 o ;; Ok (VStr s)
  else if t =? R_short_integer then
    z <- rd_le m o 2 ;; Ok (VInt (to_signed 16 z))
  else if t =? R_integer then
    z <- rd_le m o 4 ;; Ok (VInt (to_signed 32 z))
  else if t =? R_long_integer then
    z <- rd_le m o 8 ;; Ok (VInt (to_signed 64 z))
  else if t =? R_decimal then
    z <- rd_le m o 4 ;; Ok (VDec (widen z))
  else if t =? R_long_decimal then
    z <- rd_le m o 8 ;; Ok (VDec z)
  else if t =? R_boolean then
    z <- rd_le m o 1 ;;
    if z =? 0 then Ok (VBool false) else if z =? 1 then Ok (VBool true) else Undef
  else Ok VNull.

(** A counted loop [for (i = i0; n iterations; ++i)] collecting results. *)
Fixpoint for_each {A} (f : Z -> res A) (i : Z) (n : nat) : res (list A) :=
  match n with
  | O => Ok []
  | S n' =>
      a <- f i ;;
      r <- for_each f (i + 1) n' ;;
      Ok (a :: r)
  end.

(** The complete contents of the element at [o], in iteration order: what a user
    sees who walks the buffer with kvbegin()/begin() (iterator.tcc:27-57,
    buffer/iterator.tcc:66-68) and reads every scalar.  This is also the order in
    which conversion_traits.h:84-115 visits it. *)
Fixpoint read_value (fuel : nat) (bs : Z) (m : mem) (t o : Z) : res value :=
  match fuel with
  | O => Fuel
  | S fuel' =>
      if t =? R_object then
        n <- agg_count m o ;;
        fs <- for_each (fun i =>
                '(_, kp) <- load_key m o i ;;
                k <- rd_strv m 2 kp ;;
                '(ty, vp) <- load_value bs m o i ;;
                v <- read_value fuel' bs m ty vp ;;
                Ok (k, v)) 0 (Z.to_nat n) ;;
        Ok (VObj fs)
      else if t =? R_array then
        n <- agg_count m o ;;
        vs <- for_each (fun i =>
                '(ty, p) <- get_elem m o i ;;
                match p with
                | Some vp => read_value fuel' bs m ty vp
                | None => Ok VNull
                end) 0 (Z.to_nat n) ;;
        Ok (VArr vs)
      else rd_scalar m t o
  end.

(** ** Validation *)

Definition vfail (silent : bool) : res bool :=
  if silent then Ok false else Throw validation_error.

(** string.tcc:73-98 (basic_string::is_valid); header_len is the width. *)
Definition valid_string (silent : bool) (m : mem) (w : nat) (o bytes : Z) : res bool :=
  if bytes <? Z.of_nat w then vfail silent
  else
    len <- rd_le m o w ;;
    if bytes <? Z.of_nat w + len + 1 then vfail silent
    else
      c <- rd m (o + Z.of_nat w + len) 1 ;;
      match c with
      | [x00] => Ok true
      | _ => vfail silent
      end.

(** primitive.tcc:121-131 (primitive::is_valid) *)
Definition valid_primitive (silent : bool) (w bytes : Z) : res bool :=
  if bytes <? w then vfail silent else Ok true.

(** object.tcc:534-539, array.tcc:305-310: every vtable entry has a known type. *)
Fixpoint valid_types (silent : bool) (m : mem) (o i : Z) (n : nat) : res bool :=
  match n with
  | O => Ok true
  | S n' =>
      ty <- entry_rawtype m o i ;;
      if valid_type ty then valid_types silent m o (i + 1) n' else vfail silent
  end.

(** The checks made on each key, value and element before recursing
    (object.tcc:550-562, 574-585; array.tcc:317-328): in bounds, beyond the
    previous one, aligned. *)
Definition valid_child (silent : bool) (bs t p o total prev : Z) : res bool :=
  if total <? p - o then vfail silent
  else if p <=? prev then vfail silent
  else if negb (align_ptr bs p t =? p) then vfail silent
  else Ok true.

(** object.tcc:543-594: the loop over key/value pairs; [vb] is valid_buffer. *)
Fixpoint valid_pairs (vb : Z -> Z -> Z -> res bool) (silent : bool) (bs : Z) (m : mem)
    (o total prev i : Z) (n : nat) : res bool :=
  match n with
  | O => Ok true
  | S n' =>
      '(kt, kp) <- load_key m o i ;;
      ok <- valid_child silent bs kt kp o total prev ;;
      if negb ok then Ok false else
      ok <- vb kt kp (total - (kp - o)) ;;
      if negb ok then Ok false else
      '(vt, vp) <- load_value bs m o i ;;
      ok <- valid_child silent bs vt vp o total kp ;;
      if negb ok then Ok false else
      ok <- vb vt vp (total - (vp - o)) ;;
      if negb ok then Ok false else
      valid_pairs vb silent bs m o total vp (i + 1) n'
  end.

(** array.tcc:314-335: the loop over elements. *)
Fixpoint valid_elems (vb : Z -> Z -> Z -> res bool) (silent : bool) (bs : Z) (m : mem)
    (o total prev i : Z) (n : nat) : res bool :=
  match n with
  | O => Ok true
  | S n' =>
      '(vt, vp) <- get_elem m o i ;;
      match vp with
      | None => vfail silent
      | Some vp =>
          ok <- valid_child silent bs vt vp o total prev ;;
          if negb ok then Ok false else
          ok <- vb vt vp (total - (vp - o)) ;;
          if negb ok then Ok false else
          valid_elems vb silent bs m o total vp (i + 1) n'
      end
  end.

(** object.tcc:504-595, array.tcc:275-336 (is_valid), which differ only in the
    child loop passed as [children total n]. *)
Definition valid_aggregate (silent : bool) (m : mem) (o bytes : Z)
    (children : Z -> nat -> res bool) : res bool :=
  if bytes <? 8 then vfail silent
  else
    total <- rd_le m o 4 ;;
    if bytes <? total then vfail silent
    else
      n <- agg_count m o ;;
      if total <? 8 + 8 * n then vfail silent
      else
        ok <- valid_types silent m o 0 (Z.to_nat n) ;;
        if negb ok then Ok false else children total (Z.to_nat n).

(** common.h:1295-1305 (valid_buffer) *)
Fixpoint valid_buffer (fuel : nat) (silent : bool) (bs : Z) (m : mem) (t o bytes : Z)
  : res bool :=
  match fuel with
  | O => Fuel
  | S fuel' =>
      if t =? R_null then Ok true
      else if negb (valid_type t) then Ok false
      else
        let vb t o bytes := valid_buffer fuel' silent bs m t o bytes in
        if t =? R_object then
          valid_aggregate silent m o bytes (fun total n =>
            valid_pairs vb silent bs m o total o 0 n)
        else if t =? R_array then
          valid_aggregate silent m o bytes (fun total n =>
            valid_elems vb silent bs m o total o 0 n)
        else if (t =? R_small_string) || (t =? R_string) then valid_string silent m 2 o bytes
        else if t =? R_big_string then valid_string silent m 4 o bytes
        else if t =? R_short_integer then valid_primitive silent 2 bytes
        else if t =? R_integer then valid_primitive silent 4 bytes
        else if t =? R_long_integer then valid_primitive silent 8 bytes
        else if t =? R_decimal then valid_primitive silent 4 bytes
        else if t =? R_long_decimal then valid_primitive silent 8 bytes
        else valid_primitive silent 1 bytes
  end.

(** dart.h:13697-13721 (is_valid) and 13848-13872 (validate): [m] is exactly the
    span handed in, so reading outside it is [Oob].  The recursion goes at most
    one level deeper per byte. *)
Definition is_valid (bs : Z) (m : mem) : res bool :=
  valid_buffer (S (length m)) true bs m R_object 0 (zlen m).

Definition validate (bs : Z) (m : mem) : res unit :=
  _ <- valid_buffer (S (length m)) false bs m R_object 0 (zlen m) ;; Ok tt.

(** Walking a whole buffer from its root, as a user of dart::buffer would. *)
Definition walk (bs : Z) (m : mem) : res value :=
  read_value (S (length m)) bs m R_object 0.
