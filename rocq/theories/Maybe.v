(** maybe_as, the conversions between the three dart types, and at_front / at_back
    called on a temporary packet. *)

From Coq Require Import ZArith List Bool.
From Verif Require Import Base Keys Wire Read Buf HeapOps Packet SpecConv Conv.
Import ListNotations.
Open Scope Z_scope.

(** packet/api.tcc:91-119, heap/api.tcc:85-111, buffer/api.tcc:92-118 (maybe_as):
    whatever is thrown is caught, and the return type default constructed. That is an
    empty optional for every T but pointers and the dart types (common.h:157-175). *)
Definition maybe {A} (r : res A) : res (option A) :=
  match r with
  | Ok x => Ok (Some x)
  | Throw _ => Ok None
  | Oob => Oob
  | Undef => Undef
  | Fuel => Fuel
  end.
Definition maybe_as (t : cty) (v : value) : res (option cval) := maybe (from_dart t v).

(** common.h:111-118 (is_dart_type): heap, buffer and packet *)
Inductive kind := K_heap | K_buffer | K_packet.

(** heap.h and buffer.h default constructors (buffer.h: raw {null, nullptr}); a packet
    starts with its first alternative, an empty heap. *)
Definition default (k : kind) : packet :=
  match k with K_buffer => PBuf 0 [] (R_null, None) | _ => PHeap VNull end.

(** conversion_traits.h:77-115 (buffer to heap), 117-140 (heap to buffer), 142-200
    (from and to packet); a heap counts as a packet that holds one, likewise a buffer.
    A new block is at [addr]. *)
Definition cast (addr : Z) (k : kind) (p : packet) : res packet :=
  match k with
  | K_heap => p_definalize p
  | K_buffer => p_finalize addr p
  | K_packet => Ok p
  end.

(** The same functions again, where maybe_cast_return_t is T itself. *)
Definition maybe_dart (addr : Z) (k : kind) (p : packet) : res packet :=
  match cast addr k p with
  | Throw _ => Ok (default k)
  | r => r
  end.

(** packet/array.tcc:205-210, 217-222 (at_front() &&, at_back() &&): the lambda is
    declared to return a packet, and after the assignment its body ends without one,
    which is undefined behaviour. *)
Definition p_at_front_temp (p : packet) : res packet := _ <- p_at_front p ;; Undef.
Definition p_at_back_temp (p : packet) : res packet := _ <- p_at_back p ;; Undef.

(** packet/array.tcc:229-234, 247-252 (front() &&, back() &&): the representation is
    replaced by its element. *)
Definition p_front_temp (p : packet) : res packet := visit p h_front (fun _ => b_front).
Definition p_back_temp (p : packet) : res packet := visit p h_back (fun _ => b_back).
