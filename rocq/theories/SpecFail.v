(** What a history with refused calls must amount to: the calls that were not
    refused, on variables that hold independent values.  Specification. *)

From Coq Require Import ZArith List Bool.
From Verif Require Import Base Keys Wire Spec SpecOps HeapOps Store StoreSpec Fail.
Import ListNotations.
Open Scope Z_scope.

(** The calls that were answered, and their answers. *)
Fixpoint answered (os : list hop) (outs : list (option ans)) : list hop :=
  match os, outs with
  | o :: os', Some _ :: outs' => o :: answered os' outs'
  | _ :: os', None :: outs' => answered os' outs'
  | _, _ => []
  end.
Fixpoint answers (outs : list (option ans)) : list ans :=
  match outs with
  | [] => []
  | Some a :: r => a :: answers r
  | None :: r => answers r
  end.

(** The conditions of StoreSpec.v, along a history with refused calls. *)
Fixpoint m_storable (p : counter) (m : memory) (s : state) (os : list hop) : Prop :=
  match os with
  | [] => True
  | o :: r =>
      storable s o /\
      match m_exec p m s o with Ok (m1, s1, _, _) => m_storable p m1 s1 r | _ => True end
  end.
Fixpoint m_allowed (p : counter) (m : memory) (s : state) (e : env) (os : list hop) : Prop :=
  match os with
  | [] => True
  | o :: r =>
      allowed s e o /\
      match m_exec p m s o with
      | Ok (m1, s1, Some _, _) => m_allowed p m1 s1 (fst (v_exec e o)) r
      | Ok (m1, s1, None, _) => m_allowed p m1 s1 e r
      | _ => True
      end
  end.
