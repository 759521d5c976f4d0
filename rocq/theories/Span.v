(** Building objects and arrays from a span of values, and injecting a span of
    keys and values, for every form the receiver and the elements can have.
    Model only; the properties are in PropsSpan.v.

    The finalized form's span overloads (buffer/object.tcc:35-48, 60-76) are
    [make_object] and [b_inject] of Merge.v. *)

From Coq Require Import ZArith List.
From Verif Require Import Base Keys Wire Read Buf Merge HeapOps Packet.
Import ListNotations.
Open Scope Z_scope.

(** conversion_traits.h:83-115, as heap::insert (heap/api.tcc:124-126) and
    heap::push_back use it: an element of the span as a mutable value. A mutable
    element is taken as it is, a finalized one is read off its bytes. *)
Definition arg_value (a : arg) : res value :=
  match a with
  | ArgHeap v => Ok v
  | ArgBuf bs m e => from_buffer (S (length m)) bs m e
  end.

(** heap/object.tcc:280-289: the loop of inject_pairs. Key and value are taken off
    the span one after the other and only the position of the key is compared with
    the end: with one element left, the value is read behind the span ([Oob]).
    (With Microsoft's GSL the iterator itself aborts the program there; with
    gsl-lite it is a plain pointer.) *)
Fixpoint span_pairs (v : value) (args : list arg) : res value :=
  match args with
  | [] => Ok v
  | [_] => Oob
  | k :: x :: r =>
      kv <- arg_value k ;;
      xv <- arg_value x ;;
      '(v', _) <- h_insert v kv xv ;;
      span_pairs v' r
  end.

(** heap/object.tcc:274-278 (inject_pairs), 117-139 (inject of a span): the work is
    done on a copy. *)
Definition h_inject_span (v : value) (args : list arg) : res value :=
  match v with
  | VObj _ => span_pairs v args
  | _ => Throw type_error
  end.

(** heap/object.tcc:25-47 (make_object of a span) *)
Definition h_make_object_span (args : list arg) : res value := h_inject_span (VObj []) args.

(** heap/object.tcc:11-22, 104-115 (the variadic overloads): as_span
    (conversion_traits.h:1420-1435) turns every argument into a mutable value
    before the first one is inserted. That their number is even is checked when
    compiling (dart.h:5514-5521, 6252-6262). *)
Fixpoint cast_all (args : list arg) : res (list value) :=
  match args with
  | [] => Ok []
  | a :: r => v <- arg_value a ;; vs <- cast_all r ;; Ok (v :: vs)
  end.
Definition h_inject_each (v : value) (args : list arg) : res value :=
  vs <- cast_all args ;; h_inject_span v (map ArgHeap vs).

(** heap/array.tcc:229-241 (push_elems): reserving changes no value. *)
Fixpoint span_elems (v : value) (args : list arg) : res value :=
  match args with
  | [] => Ok v
  | a :: r => x <- arg_value a ;; v' <- h_push_back v x ;; span_elems v' r
  end.
(** heap/array.tcc:26-48 (make_array of a span) *)
Definition h_make_array_span (args : list arg) : res value := span_elems (VArr []) args.

(** packet/object.tcc:18-34, packet/array.tcc:18-34: a packet is built mutable. *)
Definition p_make_object_span (args : list arg) : res packet :=
  v <- h_make_object_span args ;; Ok (PHeap v).
Definition p_make_array_span (args : list arg) : res packet :=
  v <- h_make_array_span args ;; Ok (PHeap v).

(** packet/object.tcc:96-112 (inject of a span): the form the packet has decides,
    and is kept. [addr] is where the allocator puts the new block. *)
Definition p_inject_span (addr : Z) (p : packet) (args : list arg) : res packet :=
  match p with
  | PHeap v => v' <- h_inject_span v args ;; Ok (PHeap v')
  | PBuf bs m e => out <- b_inject bs m e args ;; Ok (PBuf addr out (R_object, Some 0))
  end.
