(** C++ types that make sense, and the size of a value.  Specification only. *)

From Coq Require Import ZArith List Bool.
From Verif Require Import Base Keys Wire Spec Ordered SpecConv.
Import ListNotations.
Open Scope Z_scope.

(** What the standard requires of comparators and of key equality. *)
Definition proper (o : order) (D : cval -> Prop) : Prop :=
  match o with
  | Ordered lt =>
      (forall x, D x -> lt x x = false) /\
      (forall x y z, D x -> D y -> D z -> lt x y = true -> lt y z = true -> lt x z = true) /\
      (forall x y z, D x -> D y -> D z -> lt x z = true -> lt x y = true \/ lt y z = true)
  | Hashed keq _ =>
      (forall x, D x -> keq x x = true) /\
      (forall x y, D x -> D y -> keq x y = true -> keq y x = true) /\
      (forall x y z, D x -> D y -> D z -> keq x y = true -> keq y z = true -> keq x z = true)
  end.

Fixpoint lawful (t : cty) : Prop :=
  match t with
  | TInt i => (1 <= it_bytes i <= 8)%nat
  | TSeq k a => lawful a /\ match k with Arr n => n <> O | _ => True end
  | TSet o _ a => lawful a /\ proper o (has a)
  | TMap o k x | TMulti o k x => lawful k /\ lawful x /\ proper o (has k)
  | TOpt a => lawful a
  | TPair a b => lawful a /\ lawful b
  | TTup ts | TVar ts => all lawful ts
  | _ => True
  end.

(** How many values there are in a value. *)
Fixpoint nodes (v : value) : Z :=
  match v with
  | VObj fs => (fix go (l : list (str * value)) : Z := match l with [] => 1 | p :: r => nodes (snd p) + go r end) fs
  | VArr vs => (fix go (l : list value) : Z := match l with [] => 1 | x :: r => nodes x + go r end) vs
  | _ => 1
  end.
