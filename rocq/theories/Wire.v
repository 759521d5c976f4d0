(** The value tree held by a dart::heap, its wire form, and the code that writes
    it.  Model only; proofs are in WireFacts.v. *)

From Coq Require Import ZArith List Bool.
From Verif Require Import Base Keys Dec.
Import ListNotations.
Open Scope Z_scope.

(** The contents of a dart::heap as a tree.  An object is the in-order contents
    of its std::map (heap.h packet_fields), an array that of its std::vector.
    Sharing between handles (copy-on-write) is modelled separately in Store.v;
    here only the value matters.  [VInt] holds an int64_t, [VDec] the bits of a
    double. *)
Inductive value : Type :=
| VObj (fs : list (str * value))
| VArr (vs : list value)
| VStr (s : str)
| VInt (z : Z)
| VDec (d : Z)
| VBool (b : bool)
| VNull.

(** common.h:200-213 (raw_type), numbered as in the enum. *)
Definition R_object : Z := 0.
Definition R_array : Z := 1.
Definition R_string : Z := 2.
Definition R_small_string : Z := 3.
Definition R_big_string : Z := 4.
Definition R_short_integer : Z := 5.
Definition R_integer : Z := 6.
Definition R_long_integer : Z := 7.
Definition R_decimal : Z := 8.
Definition R_long_decimal : Z := 9.
Definition R_boolean : Z := 10.
Definition R_null : Z := 11.

(** common.h:185-193 (type) *)
Inductive utype := T_object | T_array | T_string | T_integer | T_decimal | T_boolean | T_null.

Definition utype_eqb (a b : utype) : bool :=
  match a, b with
  | T_object, T_object | T_array, T_array | T_string, T_string | T_integer, T_integer
  | T_decimal, T_decimal | T_boolean, T_boolean | T_null, T_null => true
  | _, _ => false
  end.

(** common.h:970-993 (simplify_type); an unknown code falls into the default
    branch, whose assertion is compiled out in release builds. *)
Definition simplify_type (t : Z) : utype :=
  if t =? R_object then T_object
  else if t =? R_array then T_array
  else if (t =? R_small_string) || (t =? R_string) || (t =? R_big_string) then T_string
  else if (t =? R_short_integer) || (t =? R_integer) || (t =? R_long_integer) then T_integer
  else if (t =? R_decimal) || (t =? R_long_decimal) then T_decimal
  else if t =? R_boolean then T_boolean
  else T_null.

(** common.h:995-1013 (valid_type) *)
Definition valid_type (t : Z) : bool := (0 <=? t) && (t <=? 11).

(** common.h:1260-1262 (alignment_of), with the alignments declared at
    676, 753, 822, 882 and 918-957; unknown codes get null's alignment. *)
Definition alignment_of (t : Z) : Z :=
  if (t =? R_object) || (t =? R_array) then 8
  else if (t =? R_small_string) || (t =? R_string) then 2
  else if t =? R_big_string then 4
  else if t =? R_short_integer then 2
  else if t =? R_integer then 4
  else if t =? R_long_integer then 8
  else if t =? R_decimal then 4
  else if t =? R_long_decimal then 8
  else 1.

(** common.h:1313-1322 (identify_string); sso_bytes is the 23-byte inline
    capacity (dart.h:7777, common.h:328: sizeof(dynamic_string_layout) - 1 = 23
    with a 16-byte shared_ptr and an 8-byte length). *)
Definition sso_bytes : Z := 23.
Definition identify_string (total : Z) : Z :=
  if 65535 <? total then R_big_string
  else if sso_bytes <? total then R_string
  else R_small_string.

(** common.h:1324-1328 (identify_integer) *)
Definition identify_integer (z : Z) : Z :=
  if (2147483647 <? z) || (z <? -2147483648) then R_long_integer
  else if (32767 <? z) || (z <? -32768) then R_integer
  else R_short_integer.

(** common.h:1332-1337 (identify_decimal) *)
Definition identify_decimal (d : Z) : Z :=
  if fits_single d then R_decimal else R_long_decimal.

(** heap/detail.tcc:194-212 (basic_heap::get_raw_type) *)
Definition raw_type_of (v : value) : Z :=
  match v with
  | VObj _ => R_object
  | VArr _ => R_array
  | VStr s => identify_string (zlen s)
  | VInt z => identify_integer z
  | VDec d => identify_decimal d
  | VBool _ => R_boolean
  | VNull => R_null
  end.

(** string.tcc:122-124 (basic_string<SizeType>::static_sizeof): the length is
    passed as SizeType, so it is truncated to 16 or 32 bits first. *)
Definition string_static_sizeof (w : Z) (len : Z) : Z := w + len mod 2 ^ (8 * w) + 1.

(** heap/detail.tcc:116-124 (upper_bound of a string). *)
Definition str_upper_bound (s : str) : Z :=
  if identify_string (zlen s) =? R_big_string
  then string_static_sizeof 4 (zlen s)
  else string_static_sizeof 2 (zlen s).

(** dart.h:7778: max_aggregate_size = UINT32_MAX. *)
Definition max_aggregate_size : Z := 4294967295.

(** heap/detail.tcc:75-84: the loop over the fields of an object; [ub] is the
    recursive call. *)
Definition ub_fields (ub : value -> res Z) :=
  fix fields (fs : list (str * value)) (max : Z) : res Z :=
    match fs with
    | [] => Ok max
    | (k, x) :: r =>
        let key_max := str_upper_bound k in
        val_max <- ub x ;;
        fields r (max + (key_max + alignment_of (raw_type_of x) - 1)
                      + (val_max + alignment_of R_string - 1))
    end.

(** heap/detail.tcc:106-108: the loop over the elements of an array. *)
Definition ub_elems (ub : value -> res Z) :=
  fix elems (vs : list value) (max : Z) : res Z :=
    match vs with
    | [] => Ok max
    | x :: r =>
        val_max <- ub x ;;
        elems r (max + (val_max + alignment_of (raw_type_of x) - 1))
    end.

(** heap/detail.tcc:65-141 (basic_heap::upper_bound).  sizeof(object) =
    sizeof(array) = sizeof(object_entry) = sizeof(array_entry) = 8.  [size_t]
    sums are not wrapped: the structures counted exist in memory. *)
Fixpoint upper_bound (v : value) : res Z :=
  match v with
  | VObj fs =>
      max <- ub_fields upper_bound fs (8 + 8 * (zlen fs + 1)) ;;
      let max := align_up max (alignment_of R_object) in
      if max_aggregate_size <? max then Throw length_error else Ok max
  | VArr vs =>
      max <- ub_elems upper_bound vs (8 + 8 * (zlen vs + 1)) ;;
      if max_aggregate_size <? max then Throw length_error else Ok max
  | VStr s => Ok (str_upper_bound s)
  | VInt z =>
      Ok (if identify_integer z =? R_short_integer then 2
          else if identify_integer z =? R_integer then 4 else 8)
  | VDec d => Ok (if fits_single d then 4 else 8)
  | VBool _ => Ok 1
  | VNull => Ok 0
  end.

(** common.h:1287-1293 (find_sizeof), through the get_sizeof of object.tcc:609,
    array.tcc:350, string.tcc:112 and primitive.tcc:140.  Reads the size back
    from memory.  An unknown code throws type_error (generic_deref's default
    branch, common.h:1252-1254) and, find_sizeof being noexcept, terminates; it
    is only called on known codes. *)
Definition find_sizeof (m : mem) (t : Z) (o : Z) : res Z :=
  if t =? R_null then Ok 0
  else if (t =? R_object) || (t =? R_array) then rd_le m o 4
  else if (t =? R_small_string) || (t =? R_string) then
    len <- rd_le m o 2 ;; Ok (2 + len + 1)
  else if t =? R_big_string then
    len <- rd_le m o 4 ;; Ok (4 + len + 1)
  else if t =? R_short_integer then Ok 2
  else if t =? R_integer then Ok 4
  else if t =? R_long_integer then Ok 8
  else if t =? R_decimal then Ok 4
  else if t =? R_long_decimal then Ok 8
  else if t =? R_boolean then Ok 1
  else Throw type_error.

(** string.tcc:54-60 (basic_string(char const*, size_t)): the stored length is
    truncated to the width, the characters copied and the terminator are not. *)
Definition wr_string (m : mem) (w : nat) (o : Z) (s : str) : res mem :=
  m <- wr_le m o w (zlen s) ;;
  m <- wr m (o + Z.of_nat w) s ;;
  wr m (o + Z.of_nat w + zlen s) [x00].

(** heap/detail.tcc:155-167 (layout of a string) followed by find_sizeof (190). *)
Definition layout_str (m : mem) (o : Z) (s : str) : res (mem * Z) :=
  let raw := identify_string (zlen s) in
  m <- (if raw =? R_big_string then wr_string m 4 o s else wr_string m 2 o s) ;;
  sz <- find_sizeof m raw o ;;
  Ok (m, sz).

(** common.tcc:145-152 (vtable_entry constructor): small strings are recorded as
    plain strings. *)
Definition entry_type (t : Z) : Z := if t =? R_small_string then R_string else t.

(** Bytes of an object entry (common.h:352-362) and of an array entry
    (common.h:345-351, whose last three bytes are padding the constructor does
    not write).  The offset is static_cast to uint32_t. *)
Definition obj_entry (t off : Z) (key : str) : list byte :=
  le_enc 4 off ++ le_enc 1 (entry_type t) ++
  le_enc 1 (prefix_len (cstr key)) ++ prefix_bytes (cstr key).

Definition arr_entry (t off : Z) : list byte :=
  le_enc 4 off ++ le_enc 1 (entry_type t).

(** object.tcc:350-373: the loop of the object constructor.  [lay] is the
    recursive call; the block is 8-aligned, so aligning an address is aligning
    its offset.  The loop variables keep their C++ names: [offset] is relative to
    the aggregate at [o], [i] counts vtable entries. *)
Definition layout_fields (lay : mem -> Z -> value -> res (mem * Z)) (o : Z) :=
  fix fields (fs : list (str * value)) (m : mem) (offset i : Z) {struct fs} : res (mem * Z) :=
    match fs with
    | [] => Ok (m, offset)
    | (k, x) :: r =>
        let aligned := align_up (o + offset) (alignment_of R_string) in
        let offset := aligned - o in
        m <- wr m (o + 8 + 8 * i) (obj_entry (raw_type_of x) offset k) ;;
        '(m, n) <- layout_str m aligned k ;;
        let offset := offset + n in
        let aligned := align_up (o + offset) (alignment_of (raw_type_of x)) in
        let offset := aligned - o in
        '(m, n) <- lay m aligned x ;;
        fields r m (offset + n) (i + 1)
    end.

(** array.tcc:245-258: the loop of the array constructor. *)
Definition layout_elems (lay : mem -> Z -> value -> res (mem * Z)) (o : Z) :=
  fix elems (vs : list value) (m : mem) (offset i : Z) {struct vs} : res (mem * Z) :=
    match vs with
    | [] => Ok (m, offset)
    | x :: r =>
        let aligned := align_up (o + offset) (alignment_of (raw_type_of x)) in
        let offset := aligned - o in
        m <- wr m (o + 8 + 8 * i) (arr_entry (raw_type_of x) offset) ;;
        '(m, n) <- lay m aligned x ;;
        elems r m (offset + n) (i + 1)
    end.

(** heap/detail.tcc:144-191 (basic_heap::layout) with the aggregate constructors
    object.tcc:346-381 (object(packet_fields const * )) and array.tcc:241-262
    (array(packet_elements const * )).  [o] is where the value goes. *)
Fixpoint layout (m : mem) (o : Z) (v : value) {struct v} : res (mem * Z) :=
  match v with
  | VObj fs =>
      m <- wr_le m (o + 4) 4 (zlen fs) ;;
      '(m, offset) <- layout_fields layout o fs m (8 + 8 * zlen fs) 0 ;;
      let offset := align_up offset (alignment_of R_object) in
      m <- wr_le m o 4 offset ;;
      sz <- find_sizeof m R_object o ;;
      Ok (m, sz)
  | VArr vs =>
      m <- wr_le m (o + 4) 4 (zlen vs) ;;
      '(m, offset) <- layout_elems layout o vs m (8 + 8 * zlen vs) 0 ;;
      m <- wr_le m o 4 offset ;;
      sz <- find_sizeof m R_array o ;;
      Ok (m, sz)
  | VStr s => layout_str m o s
  | VInt z =>
      let raw := identify_integer z in
      m <- wr_le m o (if raw =? R_short_integer then 2%nat
                      else if raw =? R_integer then 4%nat else 8%nat) z ;;
      sz <- find_sizeof m raw o ;;
      Ok (m, sz)
  | VDec d =>
      m <- (if fits_single d then wr_le m o 4 (narrow d) else wr_le m o 8 d) ;;
      sz <- find_sizeof m (identify_decimal d) o ;;
      Ok (m, sz)
  | VBool b =>
      m <- wr_le m o 1 (if b then 1 else 0) ;;
      sz <- find_sizeof m R_boolean o ;;
      Ok (m, sz)
  | VNull => Ok (m, 0)
  end.

(** conversion_traits.h:118-140 (api_converter<heap, buffer>::convert, which is
    heap::finalize / lower and packet::finalize): the finalized block. *)
Definition finalize (v : value) : res mem :=
  match v with
  | VObj _ =>
      bytes <- upper_bound v ;;
      '(m, _) <- layout (zeros bytes) 0 v ;;
      Ok m
  | _ => Throw type_error
  end.
