(** The build with the other JSON parser (DART_USE_SAJSON): json.tcc:75-131,
    common.h:1427-1490, object.tcc:202-245, array.tcc:181-207, dart.h:12143-12189.
    Model only.

    The parser is not in /repo; its document is given as the same [jdoc].  It sorts the
    members of objects itself, so the walk over them is the one of the other build.  Its
    documents are objects or arrays. *)

From Coq Require Import ZArith List Bool.
From Verif Require Import Base Keys Wire Read Buf HeapOps Packet SpecJson Json.
Import ListNotations.
Open Scope Z_scope.

Section Sajson.
  Variable sorter : forall A, list (str * A) -> list (str * A).

  (** json.tcc:91-110 (buffer::from_json): what the root is is not looked at.  The buffer
      made from the block takes it for an object (dart.h:8034-8047). *)
  Definition sajson_buffer (block : mem) (d : jdoc) : res mem :=
    '(m, _) <- json_lower sorter d block 0 ;; Ok m.
  (** json.tcc:76-90 (heap::from_json) *)
  Definition sajson_heap (d : jdoc) : res value := p <- sajson_lower d new_parser ;; Ok (curr_obj p).
  (** json.tcc:112-117 (packet::from_json); without a second argument [finalized] is true
      (dart.h:12167, 12192), in the other build it is false (dart.h:12217, 12242) *)
  Definition sajson_packet (block : mem) (addr : Z) (finalized : bool) (d : jdoc) : res packet :=
    if finalized then m <- sajson_buffer block d ;; Ok (PBuf addr m root) else v <- sajson_heap d ;; Ok (PHeap v).
  Definition rapid_packet (block : mem) (addr : Z) (finalized : bool) (d : jdoc) : res packet :=
    if finalized then m <- buffer_from_json sorter block d ;; Ok (PBuf addr m root) else v <- heap_from_json d ;; Ok (PHeap v).
End Sajson.
