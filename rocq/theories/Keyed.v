(** Model of lookups whose key or index is itself a dart value, in either form, or a
    typed wrapper around one. No proofs here. *)

From Coq Require Import ZArith List Bool.
From Verif Require Import Base Keys Dec Wire Read Buf HeapOps Nested SpecOps HeapRun SpecPacket Packet.
Import ListNotations.
Open Scope Z_scope.

(** strv() and integer() of the identifier: packet/string.tcc:21-23,
    packet/primitive.tcc:31-71; the integer becomes a size_t. *)
Definition id_str (q : packet) : res str :=
  x <- p_scalar T_string q ;; match x with VStr s => Ok s | _ => Oob end.
Definition id_index (q : packet) : res Z :=
  x <- p_scalar T_integer q ;; match x with VInt i => Ok (i mod 2 ^ 64) | _ => Oob end.

(** heap/api.tcc:359-369, buffer/api.tcc:193-203 (get), through packet/api.tcc:244-248;
    operator [] (heap/api.tcc:35-39, buffer/api.tcc:33-37, packet/api.tcc:19-23) is the
    same, and so are the overloads for rvalues (buffer/api.tcc:206-216,
    packet/api.tcc:250-255) on what they are called on. *)
Definition p_get_id (p q : packet) : res packet :=
  match p_type q with
  | T_string => s <- id_str q ;; p_get p s
  | T_integer => i <- id_index q ;; p_get_idx p i
  | _ => Throw type_error
  end.

(** heap/object.tcc:269-272, buffer/object.tcc:214-217, packet/object.tcc:266-269 *)
Definition p_has_id (p q : packet) : res bool :=
  match p_type q with
  | T_string => s <- id_str q ;; p_has_key p s
  | _ => Ok false
  end.

(** heap/api.tcc:373-383, packet/api.tcc:259-267 (get_or); buffers have none. An array
    asks the identifier for an integer before anything else is known about it. *)
Definition p_get_or_id (p q d : packet) : res packet :=
  match p_type p with
  | T_object => h <- p_has_id p q ;; if h : bool then p_get_id p q else Ok d
  | T_array =>
      n <- p_size p ;; i <- id_index q ;;
      if i <? n then p_get_id p q else Ok d
  | _ => Ok d
  end.

(** The overloads for basic_number and basic_string (heap/array.tcc:160-169,
    heap/object.tcc:184-195, packet/array.tcc:163-174, packet/object.tcc:179-190): they
    ask the wrapper first. *)
Definition p_get_num (p q : packet) : res packet := i <- id_index q ;; p_get_idx p i.
Definition p_get_str (p q : packet) : res packet := s <- id_str q ;; p_get p s.
Definition p_get_or_num (p q d : packet) : res packet :=
  i <- id_index q ;;
  match p_type p with
  | T_array => n <- p_size p ;; if i <? n then p_get_idx p i else Ok d
  | _ => Ok d
  end.
Definition p_get_or_str (p q d : packet) : res packet :=
  s <- id_str q ;;
  match p_type p with
  | T_object => h <- p_has_key p s ;; if h : bool then p_get p s else Ok d
  | _ => Ok d
  end.

(** Several lookups in a row: [p[q1][q2]...] *)
Fixpoint p_follow (p : packet) (qs : list packet) : res packet :=
  match qs with
  | [] => Ok p
  | q :: r => x <- p_get_id p q ;; p_follow x r
  end.
