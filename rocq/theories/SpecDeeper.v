(** Storages that two mutable values have in common. *)

From Coq Require Import ZArith List.
From Verif Require Import Base Keys Wire Compare.
Import ListNotations.
Open Scope Z_scope.

Fixpoint storages (x : hv) : list Z :=
  match x with
  | HObj s fs => s :: flat_map (fun kv => storages (snd kv)) fs
  | HArr s vs => s :: flat_map storages vs
  | _ => []
  end.
Definition apart (x y : hv) : Prop := forall s, In s (storages x) -> ~ In s (storages y).
