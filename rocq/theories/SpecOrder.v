(** What the key comparator compares, without its overloads. *)

From Coq Require Import ZArith List.
From Verif Require Import Base Keys Wire Spec BufFacts Packet Order SpecSpan.
Import ListNotations.
Open Scope Z_scope.

(** The value compared: that of the packet, or of the key of a pair. *)
Definition keyed (o : operand) (v : value) : Prop :=
  match o with
  | View s => v = VStr s
  | Val p => p_shows p v
  | Pair k _ => p_shows k v
  end.

(** How many bytes, elements or fields: other values have no size. *)
Inductive measures : value -> nat -> Prop :=
| m_str s : measures (VStr s) (length s)
| m_arr vs : measures (VArr vs) (length vs)
| m_obj fs : measures (VObj fs) (length fs).

Definition text (v : value) : Prop := exists s, v = VStr s.
