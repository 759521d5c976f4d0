(** How deep a document goes: a scalar or an empty object or array is one level. *)

From Coq Require Import ZArith List.
From Verif Require Import Base Keys SpecJson.
Import ListNotations.

Fixpoint jlevels (d : jdoc) : nat :=
  match d with
  | JObj ms => S ((fix go l := match l with [] => O | (_, x) :: r => Nat.max (jlevels x) (go r) end) ms)
  | JArr ds => S ((fix go l := match l with [] => O | x :: r => Nat.max (jlevels x) (go r) end) ds)
  | _ => 1
  end.
Fixpoint member_levels (l : list (str * jdoc)) : nat :=
  match l with [] => O | (_, x) :: r => Nat.max (jlevels x) (member_levels r) end.
Fixpoint element_levels (l : list jdoc) : nat :=
  match l with [] => O | x :: r => Nat.max (jlevels x) (element_levels r) end.
