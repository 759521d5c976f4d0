(** What sharing of storage must not change: every variable holds a value of its
    own.  Specification: variables are independent values, calls act on the value
    of their target only (with the single-handle semantics of HeapOps.v, which C14
    and C15 relate to maps and lists). *)

From Coq Require Import ZArith List Bool.
From Verif Require Import Base Keys Wire Spec SpecOps HeapOps Store.
Import ListNotations.
Open Scope Z_scope.

(** What a handle shows in a store: the finite tree below it. *)
Inductive shows (cs : cells) : hval -> value -> Prop :=
| sh_null : shows cs HNull VNull
| sh_int z : shows cs (HInt z) (VInt z)
| sh_dec d : shows cs (HDec d) (VDec d)
| sh_bool b : shows cs (HBool b) (VBool b)
| sh_str t : shows cs (HStr t) (VStr t)
| sh_obj a n fs vs :
    cell_at cs a = Some (n, CObj fs) ->
    Forall2 (fun p q => fst p = fst q /\ shows cs (snd p) (snd q)) fs vs ->
    shows cs (HObj a) (VObj vs)
| sh_arr a n ms vs :
    cell_at cs a = Some (n, CArr ms) -> Forall2 (shows cs) ms vs -> shows cs (HArr a) (VArr vs).

(** Variable [x] of a state shows [v]. *)
Definition observes (s : state) (x : nat) (v : value) : Prop :=
  exists h, nth_error (vars s) x = Some h /\ shows (heap s) h v.

(** ** Variables as independent values *)
Definition env := list value.
Definition val (e : env) (x : nat) : value := nth x e VNull.

Definition src_value (e : env) (v : src) : value :=
  match v with Lit l => l | Cref y | Lref y | Rref y => val e y end.
(** Only std::move(y) may empty y. *)
Definition emptied (e : env) (v : src) : env :=
  match v with Rref y => list_set y VNull e | _ => e end.

Definition settle (e : env) (x : nat) (e' : env) (r : res value) : env * ans :=
  match r with
  | Ok v' => (list_set x v' e', A_unit)
  | Throw err => (e, A_err err)
  | _ => (e, A_bad)
  end.
Definition result (r : res (value * nat)) : res value := '(v, _) <- r ;; Ok v.

(** Whether insert overwrites: an rvalue is taken over only then, or in an array. *)
Definition overwrites (v k : value) : bool :=
  match v, k with
  | VObj _, VStr key => match h_has_key v key with Ok b => b | _ => false end
  | VObj _, _ => false
  | _, _ => true
  end.

Definition v_read (v : value) (r : reader) : res value :=
  match r with
  | R_get k => h_get v k | R_at k => h_at v k
  | R_get_idx i => h_get_idx v i | R_at_idx i => h_at_idx v i
  | R_front => h_front v | R_back => h_back v
  end.

Definition v_insert (e : env) (x : nat) (k : value) (v : src) : env * ans :=
  settle e x (if overwrites (val e x) k then emptied e v else e)
    (result (h_insert (val e x) k (src_value e v))).

Definition v_exec (e : env) (o : hop) : env * ans :=
  match o with
  | O_make x New_object => (list_set x (VObj []) e, A_unit)
  | O_make x New_array => (list_set x (VArr []) e, A_unit)
  | O_make x (New_scalar v) => (list_set x v e, A_unit)
  | O_copy x y => (list_set x (val e y) e, A_unit)
  | O_move x y => (if Nat.eqb x y then e else list_set x (val e y) (list_set y VNull e), A_unit)
  | O_destroy x => (list_set x VNull e, A_unit)
  | O_read x y r => settle e x e (v_read (val e y) r)
  | O_insert x k v => v_insert e x k v
  | O_set x k v => settle e x (emptied e v) (result (h_set (val e x) k (src_value e v)))
  | O_erase x k => settle e x e (result (h_erase (val e x) k))
  | O_push_front x v => v_insert e x (VInt 0) v
  | O_push_back x v =>
      match h_size (val e x) with
      | Ok n => v_insert e x (VInt n) v
      | _ => (e, A_err type_error)
      end
  | O_pop_front x => settle e x e (h_pop_front (val e x))
  | O_pop_back x => settle e x e (h_pop_back (val e x))
  | O_clear x => settle e x e (h_clear (val e x))
  | O_resize x n v => settle e x e (h_resize (val e x) n (src_value e v))
  end.

Fixpoint v_run (e : env) (os : list hop) : env * list ans :=
  match os with
  | [] => (e, [])
  | o :: r => let '(e1, a) := v_exec e o in let '(e2, l) := v_run e1 r in (e2, a :: l)
  end.

(** ** Which calls are covered *)

Definition scalar (v : value) : Prop := lit_h v <> None.
Definition src_in (n : nat) (v : src) : Prop :=
  match v with Lit l => scalar l | Cref y | Lref y | Rref y => (y < n)%nat end.

(** Variables exist, literals are scalars, indexes are unsigned. *)
Definition call_ok (n : nat) (o : hop) : Prop :=
  match o with
  | O_make x f => (x < n)%nat /\ match f with New_scalar v => scalar v | _ => True end
  | O_copy x y | O_move x y => (x < n)%nat /\ (y < n)%nat
  | O_destroy x | O_pop_front x | O_pop_back x | O_clear x | O_erase x _ => (x < n)%nat
  | O_read x y r => (x < n)%nat /\ (y < n)%nat /\
      match r with R_get_idx i | R_at_idx i => 0 <= i | _ => True end
  | O_insert x _ v | O_set x _ v | O_push_front x v | O_push_back x v | O_resize x _ v =>
      (x < n)%nat /\ src_in n v
  end.

Definition names (v : src) (x : nat) : Prop :=
  match v with Lit _ => False | Cref y | Lref y | Rref y => y = x end.

(** Storage can be accounted for: a handle is not put into itself, and resize() is
    called on storage that is not shared. *)
Definition unshared (s : state) (x : nat) : Prop :=
  forall h, nth_error (vars s) x = Some h -> refcount (heap s) h <= 1.
Definition storable (s : state) (o : hop) : Prop :=
  match o with
  | O_insert x _ v | O_set x _ v | O_push_front x v | O_push_back x v => ~ names v x
  | O_resize x _ v => ~ names v x /\ unshared s x
  | _ => True
  end.

(** Value semantics hold: in addition a non-const variable is not inserted over an
    existing key, and clear() is called on storage that is not shared. *)
Definition allowed (s : state) (e : env) (o : hop) : Prop :=
  storable s o /\
  match o with
  | O_insert x k (Lref _) => match val e x with VObj _ => overwrites (val e x) k = false | _ => True end
  | O_clear x => unshared s x
  | _ => True
  end.

Fixpoint all_storable (s : state) (os : list hop) : Prop :=
  match os with
  | [] => True
  | o :: r =>
      storable s o /\
      match s_exec s o with Ok (s', _) => all_storable s' r | _ => True end
  end.
Fixpoint all_allowed (s : state) (e : env) (os : list hop) : Prop :=
  match os with
  | [] => True
  | o :: r =>
      allowed s e o /\
      match s_exec s o with
      | Ok (s', _) => all_allowed s' (fst (v_exec e o)) r
      | _ => True
      end
  end.

(** The number of handles that refer to cell [a]. *)
Fixpoint nref (a : nat) (hs : list hval) : Z :=
  match hs with
  | [] => 0
  | h :: r => (match href h with Some b => if Nat.eqb a b then 1 else 0 | None => 0 end) + nref a r
  end.
