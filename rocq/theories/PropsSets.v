(** What reading produces (C37), and comparison with sets (C38). *)

From Coq Require Import ZArith String List Bool Lia Sorting.Sorted Sorting.Permutation.
From Verif Require Import Base BaseFacts Keys Wire Spec SpecDec SpecCmp SpecJson Ordered SpecConv SpecHas Conv ConvBase ConvHas ConvPerm.
Import ListNotations.
Open Scope string_scope.
Open Scope list_scope.
Open Scope Z_scope.

(** What is read as a type is a value of that type: integers in range, sets and maps
    in order and without duplicates, equal keys of hashed containers together. *)
Theorem c37_has t v c : lawful t -> heap_value v -> nodes v < 2 ^ 63 -> from_dart t v = Ok c -> has t c.
Proof. intros L. apply from_dart_has. exact L. Qed.
Print Assumptions c37_has.

Definition same_int (x y : cval) : bool := match x, y with CInt a, CInt b => a =? b | _, _ => false end.
Definition less_int (x y : cval) : bool := match x, y with CInt a, CInt b => a <? b | _, _ => false end.
Definition bag : cty := TSet (Hashed same_int same_int) true (TInt int64).
Definition ints : cty := TSet (Ordered less_int) false (TInt int64).
Definition some_ints : value := VArr [VInt 3; VInt 1; VInt 3; VInt 2].
Ltac int_cases := intros; repeat match goal with H : has (TInt _) _ |- _ => destruct H as (? & -> & _) end; cbn [same_int less_int] in *.
Example c37_has_case : lawful bag /\ lawful ints /\ heap_value some_ints /\ nodes some_ints = 5 /\
  from_dart bag some_ints = Ok (CList [CInt 3; CInt 3; CInt 1; CInt 2]) /\
  from_dart ints some_ints = Ok (CList [CInt 1; CInt 2; CInt 3]).
Proof.
  split; [|split; [|split; [|split; [|split]]]].
  - split; [cbn; lia|]. split; [|split]; int_cases; lia.
  - split; [cbn; lia|]. split; [|split]; int_cases; lia.
  - constructor; [exact I|]. repeat (apply Forall_cons; [constructor; cbn; lia|]). constructor.
  - reflexivity.
  - vm_compute. reflexivity.
  - vm_compute. reflexivity.
Qed.

(** Anything reads as a bool: false stands for false and null. *)
Theorem c37_bool v : exists b, from_dart TBool v = Ok (CBool b) /\ (b = false <-> v = VNull \/ v = VBool false).
Proof.
  eexists. split; [reflexivity|]. destruct v as [| | | | |b|]; try (split; [discriminate|intros []; discriminate]).
  - destruct b; split; auto; try discriminate. intros [|]; discriminate.
  - split; auto.
Qed.
Print Assumptions c37_bool.

(** Comparing with a set: as collections without order, counting repetitions. *)
Theorem c38_set o m a ws l us : exact a ->
  has (TSet o m a) (CList l) -> everywhere keyed (TSet o m a) (CList l) -> to_dart (TSet o m a) (CList l) = Ok (VArr us) ->
  heap_value (VArr ws) -> heap_value (VArr us) -> nul_free (VArr ws) -> no_null_members (VArr us) ->
  (forall w u, In w ws -> In u us -> unmixed w u) ->
  exists b, cmp (TSet o m a) (VArr ws) (CList l) = Ok b /\
    (b = true <-> exists us', Permutation us us' /\ Forall2 content_eq ws us').
Proof. apply set_exact. Qed.
Print Assumptions c38_set.

Definition texts : cty := TSet (Hashed same_int same_int) true TStr.
Definition held : cval := CList [CStr (lit "a"); CStr (lit "b"); CStr (lit "b")].
Lemma held_ok : has texts held /\ everywhere keyed texts held /\
  to_dart texts held = Ok (VArr [VStr (lit "a"); VStr (lit "b"); VStr (lit "b")]).
Proof.
  split; [|split; [|reflexivity]].
  - eexists. split; [reflexivity|]. split; [reflexivity|]. split.
    + repeat (apply Forall_cons; [eexists; reflexivity|]). constructor.
    + split; [discriminate|]. intros _ i j k x y z H I J K E.
      destruct x; try discriminate E. destruct i as [|[|[|i]]]; try discriminate I. cbn in I. destruct i; discriminate I.
  - split; [exact I|]. intros l [= <-]. repeat (apply Forall_cons; [split; exact I|]). constructor.
Qed.
(** Another order is the same; other repetitions are not. *)
Example c38_set_case : exact TStr /\
  cmp texts (VArr [VStr (lit "b"); VStr (lit "a"); VStr (lit "b")]) held = Ok true /\
  cmp texts (VArr [VStr (lit "a"); VStr (lit "a"); VStr (lit "b")]) held = Ok false /\
  cmp texts (VArr [VStr (lit "b"); VStr (lit "a"); VStr (lit "a")]) held = Ok false.
Proof. split; [exact I|]. split; [|split]; vm_compute; reflexivity. Qed.

(** With NUL inside strings it goes wrong both ways: the packet's strings are compared
    with each other up to the first NUL. *)
Definition nul (s t : string) : str := lit s ++ [x00] ++ lit t.
Theorem c38_set_nul_refuted :
  let cell s t := CStr (nul s t) in let text s t := VStr (nul s t) in
  (* equal as collections, but the answer is no *)
  cmp texts (VArr [text "a" "c"; text "a" "b"]) (CList [cell "a" "b"; cell "a" "c"]) = Ok false /\
  (* different, but the answer is yes *)
  cmp texts (VArr [text "z" ""; text "a" "b"; text "a" "c"]) (CList [cell "a" "b"; cell "a" "b"; cell "z" ""]) = Ok true /\
  ~ exists us', Permutation [text "a" "b"; text "a" "b"; text "z" ""] us' /\ Forall2 content_eq [text "z" ""; text "a" "b"; text "a" "c"] us'.
Proof.
  cbn zeta. split; [vm_compute; reflexivity|]. split; [vm_compute; reflexivity|]. intros (us' & P & F).
  assert (H : In (VStr (nul "a" "c")) us').
  { inversion F as [|? ? ? ? _ F1]; subst. inversion F1 as [|? ? ? ? _ F2]; subst. inversion F2 as [|? ? ? ? E F3]; subst.
    inversion E; subst. cbn. auto. }
  apply (Permutation_in _ (Permutation_sym P)) in H. cbn in H. destruct H as [H|[H|[H|[]]]]; discriminate H.
Qed.
Print Assumptions c38_set_nul_refuted.
