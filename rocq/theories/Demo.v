(** Concrete values used to show that the hypotheses of the theorems are met by
    ordinary data. *)

From Coq Require Import ZArith List String Sorted Lia.
From Verif Require Import Base Keys KeysFacts Wire Spec.
Import ListNotations.
Open Scope Z_scope.

Definition b (s : string) : str := list_byte_of_string s.

Ltac heap_tac :=
  repeat match goal with
  | |- heap_value _ => unfold heap_value
  | |- every _ _ _ => constructor
  | |- Forall _ _ => constructor
  | |- _ /\ _ => split
  | |- heap_node _ => cbn [heap_node map fst]
  | |- StronglySorted _ _ => constructor
  | |- key_lt _ _ => apply dart_ltb_key_lt; reflexivity
  | |- True => exact I
  | |- _ <= _ => vm_compute; congruence
  | |- _ < _ => vm_compute; congruence
  end.

(** Nested objects and arrays, both key-length orders, every scalar type, a null
    that is the last member, an integer of each width and decimals of both. *)
Definition demo : value :=
  VObj [ (b "a", VInt 7);
         (b "d", VDec 4609434218613702656 (* 1.5 *));
         (b "z", VArr [VInt 70000; VStr (b "hello, world"); VBool true; VArr [VInt (-5000000000)]]);
         (b "pi", VDec 4614256656552045848);
         (b "arg", VObj [(b "k", VStr (b "a string longer than twenty-three bytes")); (b "none", VNull)]) ].

Lemma demo_heap : heap_value demo.
Proof. heap_tac. Qed.
Lemma demo_good : good_all demo.
Proof.
  repeat match goal with
  | |- good_all _ => unfold good_all
  | |- every _ _ _ => constructor
  | |- Forall _ _ => constructor
  | |- _ /\ _ => split
  | |- good_key _ => unfold good_key
  | |- True => exact I
  | |- ~ In _ _ => vm_compute; intuition congruence
  | |- _ < _ => vm_compute; congruence
  | |- _ <> _ => vm_compute; congruence
  | |- Forall _ _ => vm_compute
  end.
Qed.
