(** The size of a value: how many objects, arrays, keys and scalars there are. *)

From Coq Require Import ZArith List.
From Verif Require Import Base Keys Wire.
Import ListNotations.
Open Scope Z_scope.

Fixpoint nodes (v : value) : Z :=
  match v with
  | VObj fs => 1 + (fix go l := match l with [] => 0 | (_, x) :: r => 1 + nodes x + go r end) fs
  | VArr vs => 1 + (fix go l := match l with [] => 0 | x :: r => nodes x + go r end) vs
  | _ => 1
  end.
Fixpoint pair_nodes (l : list (str * value)) : Z :=
  match l with [] => 0 | (_, x) :: r => 1 + nodes x + pair_nodes r end.
Fixpoint elem_nodes (l : list value) : Z :=
  match l with [] => 0 | x :: r => nodes x + elem_nodes r end.

(** How deep it goes: a scalar or an empty aggregate is one level. *)
Fixpoint levels (v : value) : nat :=
  match v with
  | VObj fs => S ((fix go l := match l with [] => O | (_, x) :: r => Nat.max (levels x) (go r) end) fs)
  | VArr vs => S ((fix go l := match l with [] => O | x :: r => Nat.max (levels x) (go r) end) vs)
  | _ => 1%nat
  end.
Fixpoint pair_levels (l : list (str * value)) : nat :=
  match l with [] => O | (_, x) :: r => Nat.max (levels x) (pair_levels r) end.
Fixpoint elem_levels (l : list value) : nat :=
  match l with [] => O | x :: r => Nat.max (levels x) (elem_levels r) end.
