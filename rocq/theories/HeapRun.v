(** Running a history of calls against the model of one handle.  Model only.
    Dispatches to HeapOps.v, where the citations are; turns the iterator a call
    returns into what dereferencing it shows. *)

From Coq Require Import ZArith List Bool.
From Verif Require Import Base Keys Wire Buf SpecOps HeapOps.
Import ListNotations.
Open Scope Z_scope.

(** heap/iterator.tcc:1-81 with heap/api.tcc:527-600: what an iterator at position
    [i] of [v] shows. *)
Definition iter_ans (v : value) (i : nat) : ans :=
  match h_end v with
  | Ok n =>
      if Nat.eqb i n then A_end
      else match v with
           | VObj _ =>
               match h_deref_key v i, h_deref v i with
               | Ok (VStr k), Ok x => A_pair k x
               | _, _ => A_bad
               end
           | _ => match h_deref v i with Ok x => A_item (Z.of_nat i) x | _ => A_bad end
           end
  | _ => A_bad
  end.

(** The state and answer after a call: an exception leaves the contents alone. *)
Definition mutated (v : value) (r : res (value * ans)) : value * ans :=
  match r with
  | Ok p => p
  | Throw e => (v, A_err e)
  | _ => (v, A_bad)
  end.
Definition answered (v : value) (r : res ans) : value * ans :=
  mutated v (a <- r ;; Ok (v, a)).

Definition run_op (v : value) (o : op) : value * ans :=
  match o with
  | Insert k x => mutated v ('(v', i) <- h_insert v k x ;; Ok (v', iter_ans v' i))
  | Set_ k x => mutated v ('(v', i) <- h_set v k x ;; Ok (v', iter_ans v' i))
  | Erase k => mutated v ('(v', i) <- h_erase v k ;; Ok (v', iter_ans v' i))
  | Push_front x => mutated v (v' <- h_push_front v x ;; Ok (v', A_unit))
  | Push_back x => mutated v (v' <- h_push_back v x ;; Ok (v', A_unit))
  | Pop_front => mutated v (v' <- h_pop_front v ;; Ok (v', A_unit))
  | Pop_back => mutated v (v' <- h_pop_back v ;; Ok (v', A_unit))
  | Resize n x => mutated v (v' <- h_resize v n x ;; Ok (v', A_unit))
  | Clear => mutated v (v' <- h_clear v ;; Ok (v', A_unit))
  | Get k => answered v (x <- h_get v k ;; Ok (A_value x))
  | At k => answered v (x <- h_at v k ;; Ok (A_value x))
  | Has k => answered v (x <- h_has_key v k ;; Ok (A_bool x))
  | Get_or k d => answered v (x <- h_get_or v k d ;; Ok (A_value x))
  | Find k => answered v (i <- h_find v k ;; Ok (iter_ans v i))
  | Size => answered v (n <- h_size v ;; Ok (A_size n))
  | Keys => answered v (l <- h_iterate_keys v ;; Ok (A_values l))
  | Values => answered v (l <- h_iterate v ;; Ok (A_values l))
  | Rvalues => answered v (l <- h_riterate v ;; Ok (A_values l))
  | Get_idx i => answered v (x <- h_get_idx v i ;; Ok (A_value x))
  | At_idx i => answered v (x <- h_at_idx v i ;; Ok (A_value x))
  | Get_idx_or i d => answered v (x <- h_get_idx_or v i d ;; Ok (A_value x))
  | Front => answered v (x <- h_front v ;; Ok (A_value x))
  | Back => answered v (x <- h_back v ;; Ok (A_value x))
  | At_front => answered v (x <- h_at_front v ;; Ok (A_value x))
  | At_back => answered v (x <- h_at_back v ;; Ok (A_value x))
  | Front_or d => answered v (x <- h_front_or v d ;; Ok (A_value x))
  | Back_or d => answered v (x <- h_back_or v d ;; Ok (A_value x))
  end.

Fixpoint run (v : value) (os : list op) : value * list ans :=
  match os with
  | [] => (v, [])
  | o :: r => let '(v1, a) := run_op v o in let '(v2, l) := run v1 r in (v2, a :: l)
  end.
