(** What a lookup with a dart value as key or index should answer.  Specification
    only, over values. *)

From Coq Require Import ZArith List Bool.
From Verif Require Import Base Keys Wire Spec.
Import ListNotations.
Open Scope Z_scope.

(** The member [k] names in [v]: strings name pairs of objects, integers from zero name
    elements of arrays, and nothing else names anything. *)
Definition named (v k : value) : option value :=
  match v, k with
  | VObj fs, VStr s => lookup s fs
  | VArr vs, VInt i => if 0 <=? i then nth_error vs (Z.to_nat i) else None
  | _, _ => None
  end.

(** Is [k] the kind of name [v] has? *)
Definition suits (v k : value) : bool :=
  match v, k with VObj _, VStr _ | VArr _, VInt _ => true | _, _ => false end.

Definition or_null (x : option value) : value := match x with Some x => x | None => VNull end.

(** dart.h:6965-6979 (get): null for what is missing, an exception for a key of the
    wrong kind. *)
Definition picked (v k : value) : value + err :=
  if suits v k then inl (or_null (named v k)) else inr type_error.

(** Several lookups in a row; the first that fails decides. *)
Fixpoint followed (v : value) (ks : list value) : value + err :=
  match ks with
  | [] => inl v
  | k :: r => match picked v k with inl x => followed x r | inr e => inr e end
  end.

(** dart.h:6981-7010 (get_or): the member, or else the default - also when this is no
    aggregate or the key is of the wrong kind. *)
Definition or_else (v k d : value) : value := match named v k with Some x => x | None => d end.

(** Arrays in memory: a std::vector of 16 byte elements has no more. *)
Definition in_memory : value -> Prop :=
  every (fun _ => True) (fun n => match n with VArr vs => zlen vs <= 2 ^ 59 | _ => True end).
