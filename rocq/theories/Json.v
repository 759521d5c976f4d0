(** connector/json.tcc and the JSON half of common.h, object.tcc and array.tcc:
    documents and parser events in, values and buffers out.  Model only.

    RapidJSON is not part of /repo.  Its parsers are taken to turn a text into a
    document (SpecJson.v) or into the events of one; its writer is taken to write
    a text that reads back as the events it was given. *)

From Coq Require Import ZArith List Bool.
From Verif Require Import Base Keys Dec Wire Read Buf HeapOps Packet Compare SpecJson.
Import ListNotations.
Open Scope Z_scope.

(** ** Events: json.tcc:24-38.  The counts passed to EndObject and EndArray are
    not used. *)
Inductive event : Type :=
| EStartObject | EKey (s : str) | EEndObject | EStartArray | EEndArray
| EString (s : str) | EInt (z : Z) | EUint (z : Z) | EInt64 (z : Z) | EUint64 (z : Z)
| EDouble (d : Z) | EBool (b : bool) | ENull.

(** What rapidjson::Reader sends for an integer: the first type that holds it,
    unsigned ones for non-negative numbers. *)
Definition int_event (z : Z) : event :=
  if z <? 0 then (if - 2 ^ 31 <=? z then EInt z else EInt64 z)
  else (if z <? 2 ^ 32 then EUint z else EUint64 z).

Fixpoint events (d : jdoc) : list event :=
  match d with
  | JObj ms =>
      EStartObject :: (fix go (ms : list (str * jdoc)) : list event :=
        match ms with [] => [EEndObject] | (k, x) :: r => EKey k :: events x ++ go r end) ms
  | JArr ds =>
      EStartArray :: (fix go (ds : list jdoc) : list event :=
        match ds with [] => [EEndArray] | x :: r => events x ++ go r end) ds
  | JStr s => [EString s]
  | JInt z | JUint z => [int_event z]
  | JDec d => [EDouble d]
  | JBool b => [EBool b]
  | JNull => [ENull]
  end.

(** ** heap_parser: json.tcc:42-43 (members); the backs of the vectors are the
    heads of the lists. *)
Record parser : Type := mk_parser {
  curr_key : value; curr_obj : value; key_stack : list value; obj_stack : list value }.
Definition new_parser : parser := mk_parser VNull VNull [] [].

(** conversion_traits.h:951-960: a heap in a condition.  A moved-from heap is
    null (heap/api.tcc:13-15). *)
Definition truthy (v : value) : bool := match v with VBool b => b | VNull => false | _ => true end.

(** json.tcc:304-309, 324-329 (StartObject, StartArray) *)
Definition start (o : value) (p : parser) : parser :=
  let '(ck, ks) := if truthy (curr_key p) then (VNull, curr_key p :: key_stack p) else (curr_key p, key_stack p) in
  let os := if truthy (curr_obj p) then curr_obj p :: obj_stack p else obj_stack p in
  mk_parser ck o ks os.

(** json.tcc:356-362, 375-380, 388-393, 403-416 (String, Int64, Double, Bool,
    Null): the key is moved into the object. *)
Definition embed (x : value) (p : parser) : res parser :=
  match curr_obj p with
  | VObj _ =>
      '(o, _) <- h_insert (curr_obj p) (curr_key p) x ;;
      Ok (mk_parser VNull o (key_stack p) (obj_stack p))
  | _ =>
      o <- h_push_back (curr_obj p) x ;;
      Ok (mk_parser (curr_key p) o (key_stack p) (obj_stack p))
  end.

(** json.tcc:338-353 (EndAggregate).  back() and pop_back() of an empty vector are
    undefined. *)
Definition end_aggregate (p : parser) : res parser :=
  match obj_stack p with
  | [] => Ok p
  | parent :: os =>
      match parent with
      | VObj _ =>
          match key_stack p with
          | [] => Undef
          | k :: ks =>
              '(o, _) <- h_insert parent k (curr_obj p) ;;
              Ok (mk_parser (curr_key p) o ks os)
          end
      | _ =>
          o <- h_push_back parent (curr_obj p) ;;
          Ok (mk_parser (curr_key p) o (key_stack p) os)
      end
  end.

(** json.tcc:312-315 (Key), 318-321, 332-335 (EndObject, EndArray), 365-372,
    383-385 (Int, Uint, Uint64: converted to int64_t) *)
Definition handle (e : event) (p : parser) : res parser :=
  match e with
  | EStartObject => Ok (start (VObj []) p)
  | EKey s => Ok (mk_parser (VStr s) (curr_obj p) (key_stack p) (obj_stack p))
  | EEndObject => end_aggregate p
  | EStartArray => Ok (start (VArr []) p)
  | EEndArray => end_aggregate p
  | EString s => embed (VStr s) p
  | EInt z | EUint z | EInt64 z => embed (VInt z) p
  | EUint64 z => embed (VInt (to_signed 64 z)) p
  | EDouble d => embed (VDec d) p
  | EBool b => embed (VBool b) p
  | ENull => embed VNull p
  end.

Fixpoint run_events (es : list event) (p : parser) : res parser :=
  match es with
  | [] => Ok p
  | e :: r => p' <- handle e p ;; run_events r p'
  end.

(** json.tcc:138-158 (heap::from_json) *)
Definition heap_of_events (es : list event) : res value :=
  p <- run_events es new_parser ;; Ok (curr_obj p).
Definition heap_from_json (d : jdoc) : res value := heap_of_events (events d).

(** json.tcc:481-533 (sajson_lower): the other parser's document, walked. *)
Fixpoint sajson_lower (d : jdoc) (p : parser) : res parser :=
  match d with
  | JObj ms =>
      p' <- (fix go (ms : list (str * jdoc)) (p : parser) : res parser :=
        match ms with
        | [] => Ok p
        | (k, x) :: r => p1 <- handle (EKey k) p ;; p2 <- sajson_lower x p1 ;; go r p2
        end) ms (start (VObj []) p) ;;
      end_aggregate p'
  | JArr ds =>
      p' <- (fix go (ds : list jdoc) (p : parser) : res parser :=
        match ds with
        | [] => Ok p
        | x :: r => p1 <- sajson_lower x p ;; go r p1
        end) ds (start (VArr []) p) ;;
      end_aggregate p'
  | JStr s => handle (EString s) p
  | JInt z | JUint z => handle (EInt64 z) p
  | JDec d => handle (EDouble d) p
  | JBool b => handle (EBool b) p
  | JNull => handle ENull p
  end.

(** ** Lowering a document into a buffer *)

(** uint64_t to double, for numbers of 2^63 and more: to nearest, ties to even. *)
Definition dec_of_uint64 (z : Z) : Z :=
  let q := z / 2048 in
  let r := z mod 2048 in
  let q' := if (1024 <? r) || ((r =? 1024) && Z.odd q) then q + 1 else q in
  1086 * 2 ^ 52 + (q' - 2 ^ 52).

(** common.h:1495-1515 (json_identify) *)
Definition json_identify (d : jdoc) : Z :=
  match d with
  | JObj _ => R_object
  | JArr _ => R_array
  | JStr s => identify_string (zlen s)
  | JInt z => identify_integer z
  | JUint z => identify_decimal (dec_of_uint64 z)
  | JDec d => identify_decimal d
  | JBool _ => R_boolean
  | JNull => R_null
  end.

Section Lower.
  (** std::sort of the members by key (object.tcc:253-271): the order of members
      with one key is not specified. *)
  Variable sorter : forall A, list (str * A) -> list (str * A).

  (** A member about to be written: its type and how to write it. *)
  Definition action : Type := Z * (mem -> Z -> res (mem * Z)).

  (** object.tcc:273-296: the loop of the constructor from a document. *)
  Fixpoint lower_members (o : Z) (ms : list (str * action)) (m : mem) (offset i : Z) : res (mem * Z) :=
    match ms with
    | [] => Ok (m, offset)
    | (k, (val_type, lower)) :: r =>
        let aligned := align_up (o + offset) (alignment_of R_string) in
        let offset := aligned - o in
        m <- wr m (o + 8 + 8 * i) (obj_entry val_type offset k) ;;
        '(m, n) <- layout_str m aligned k ;;
        let offset := offset + n in
        let aligned := align_up (o + offset) (alignment_of val_type) in
        let offset := aligned - o in
        '(m, n) <- lower m aligned ;;
        lower_members o r m (offset + n) (i + 1)
    end.

  (** array.tcc:214-233 *)
  Fixpoint lower_elements (o : Z) (ds : list action) (m : mem) (offset i : Z) : res (mem * Z) :=
    match ds with
    | [] => Ok (m, offset)
    | (val_type, lower) :: r =>
        let aligned := align_up (o + offset) (alignment_of val_type) in
        let offset := aligned - o in
        m <- wr m (o + 8 + 8 * i) (arr_entry val_type offset) ;;
        '(m, n) <- lower m aligned ;;
        lower_elements o r m (offset + n) (i + 1)
    end.

  (** The decimal cases: GetFloat() or GetDouble(). *)
  Definition lower_decimal (d : Z) (m : mem) (o : Z) : res (mem * Z) :=
    m <- (if fits_single d then wr_le m o 4 (narrow d) else wr_le m o 8 d) ;;
    sz <- find_sizeof m (identify_decimal d) o ;;
    Ok (m, sz).

  (** common.h:1517-1560 (json_lower) with object.tcc:246-304 and
      array.tcc:210-238. *)
  Fixpoint json_lower (d : jdoc) (m : mem) (o : Z) {struct d} : res (mem * Z) :=
    match d with
    | JObj ms =>
        m <- wr_le m (o + 4) 4 (zlen ms) ;;
        '(m, offset) <- lower_members o
           (sorter _ (map (fun kv => (fst kv, (json_identify (snd kv), json_lower (snd kv)))) ms))
           m (8 + 8 * zlen ms) 0 ;;
        let offset := align_up offset (alignment_of R_object) in
        m <- wr_le m o 4 offset ;;
        sz <- find_sizeof m R_object o ;;
        Ok (m, sz)
    | JArr ds =>
        m <- wr_le m (o + 4) 4 (zlen ds) ;;
        '(m, offset) <- lower_elements o (map (fun x => (json_identify x, json_lower x)) ds)
           m (8 + 8 * zlen ds) 0 ;;
        m <- wr_le m o 4 offset ;;
        sz <- find_sizeof m R_array o ;;
        Ok (m, sz)
    | JStr s => layout_str m o s
    | JInt z =>
        let raw := identify_integer z in
        m <- wr_le m o (if raw =? R_short_integer then 2%nat
                        else if raw =? R_integer then 4%nat else 8%nat) z ;;
        sz <- find_sizeof m raw o ;;
        Ok (m, sz)
    | JUint z => lower_decimal (dec_of_uint64 z) m o
    | JDec d => lower_decimal d m o
    | JBool b =>
        m <- wr_le m o 1 (if b then 1 else 0) ;;
        sz <- find_sizeof m R_boolean o ;;
        Ok (m, sz)
    | JNull => Ok (m, 0)
    end.

  (** json.tcc:163-192 (buffer::from_json): [block] is the fresh allocation of 8
      bytes for each character of the text; it is not cleared. *)
  Definition buffer_from_json (block : mem) (d : jdoc) : res mem :=
    match d with
    | JObj _ => '(m, _) <- json_lower d block 0 ;; Ok m
    | _ => Throw type_error
    end.
End Lower.

(** ** Serialization: json.tcc:419-455 (json_serialize), on either form *)
Fixpoint concat_from {A} (f : Z -> res (list A)) (i : Z) (n : nat) : res (list A) :=
  match n with
  | O => Ok []
  | S n' => x <- f i ;; r <- concat_from f (i + 1) n' ;; Ok (x ++ r)
  end.

Fixpoint json_serialize (fuel : nat) (p : packet) : res (list event) :=
  match fuel with
  | O => Fuel
  | S fuel' =>
      match p_type p with
      | T_object =>
          n <- p_size p ;;
          es <- concat_from (fun i =>
            ke <- p_deref_key p i ;; kv <- p_scalar T_string ke ;; k <- value_strv kv ;;
            x <- p_deref p i ;; e <- json_serialize fuel' x ;; Ok (EKey k :: e)) 0 (Z.to_nat n) ;;
          Ok (EStartObject :: es ++ [EEndObject])
      | T_array =>
          n <- p_size p ;;
          es <- concat_from (fun i => x <- p_deref p i ;; json_serialize fuel' x) 0 (Z.to_nat n) ;;
          Ok (EStartArray :: es ++ [EEndArray])
      | T_null => Ok [ENull]
      | t =>
          x <- p_scalar t p ;;
          match x with
          | VStr s => Ok [EString s]
          | VInt z => Ok [EInt64 z]
          | VDec d => Ok [EDouble d]
          | VBool b => Ok [EBool b]
          | _ => Undef
          end
      end
  end.

(** What is read back for what was written (json.tcc:257-293, to_json).  The
    writer refuses infinities and NaN: it returns false, which json_serialize does
    not look at, and the text is left without the number. *)
Definition reread (e : event) : option event :=
  match e with
  | EInt64 z => Some (int_event z)
  | EDouble d => if d_exp d =? 2047 then None else Some e
  | _ => Some e
  end.
Fixpoint read_back (es : list event) : option (list event) :=
  match es with
  | [] => Some []
  | e :: r => match reread e, read_back r with Some a, Some b => Some (a :: b) | _, _ => None end
  end.
