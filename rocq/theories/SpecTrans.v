(** What a deep copy to another reference counter is.  Specification only. *)

From Coq Require Import ZArith List Permutation.
From Verif Require Import Base Keys Wire Store.
Import ListNotations.

(** The objects and arrays in a value, the value itself among them: one allocation
    each (dart.h:6663-6677, "as many allocations ... as there are nodes"; scalars,
    strings and keys are not allocations of the tree in this model, Store.v). *)
Fixpoint aggregates (v : value) : nat :=
  match v with
  | VObj fs => S (list_sum (map (fun kx => aggregates (snd kx)) fs))
  | VArr vs => S (list_sum (map aggregates vs))
  | _ => 0
  end.

Definition refs (h : hval) : list nat := match href h with Some a => [a] | None => [] end.

(** The cells [l], numbered from [n], and the handle [h] to the first: every cell is
    held once, by [h] or inside one of the others, and they hold no other cell. *)
Definition a_tree (n : nat) (l : list cell) (h : hval) : Prop :=
  Permutation (flat_map refs (h :: flat_map kids l)) (seq n (length l)).

(** A cell held by one handle. *)
Definition single (c : cell) : option (Z * cell) := Some (1%Z, c).
