(** Threads on values that share storage: what they may do, and what they must see. *)

From Coq Require Import ZArith List Bool.
From Verif Require Import Base Keys Wire Spec SpecOps HeapOps Store StoreSpec.
Import ListNotations.
Open Scope Z_scope.

(** A thread is an ordinary program on variables of its own (StoreSpec.v): a handle is
    not put into itself, a non-const variable is not inserted over an existing key, and
    clear() and resize(), which do not copy on write, are left out. *)
Definition polite (e : env) (o : hop) : Prop :=
  match o with
  | O_insert x k v =>
      ~ names v x /\ match v, val e x with Lref _, VObj _ => overwrites (val e x) k = false | _, _ => True end
  | O_set x _ v | O_push_front x v | O_push_back x v => ~ names v x
  | O_clear _ | O_resize _ _ _ => False
  | _ => True
  end.
Fixpoint orderly (e : env) (os : list hop) : Prop :=
  match os with
  | [] => True
  | o :: r => call_ok (length e) o /\ polite e o /\ orderly (fst (v_exec e o)) r
  end.

(** Calls that change no container. *)
Definition looks (o : hop) : bool :=
  match o with O_make _ _ | O_copy _ _ | O_move _ _ | O_destroy _ | O_read _ _ _ => true | _ => false end.

(** The values each thread starts with. *)
Fixpoint shares (jobs : list (nat * list hop)) (e : env) : list (env * list hop) :=
  match jobs with
  | [] => []
  | (n, os) :: r => (firstn n e, os) :: shares r (skipn n e)
  end.
Definition total (jobs : list (nat * list hop)) : nat := fold_right (fun j n => (fst j + n)%nat) 0%nat jobs.
