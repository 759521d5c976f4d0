(** The read API of dart::buffer over one block of memory.  Model only.

    A dart::buffer is a raw element plus a reference to the block; the block is
    the parameter [m], its address [bs]. *)

From Coq Require Import ZArith List Bool.
From Verif Require Import Base Keys Dec Wire Read.
Import ListNotations.
Open Scope Z_scope.

(** buffer/api.tcc:357-360 (get_type) *)
Definition b_type (e : elem) : utype := simplify_type (fst e).

(** common.h:1025-1032, 1045-1052 (get_object / get_array): a type check; the
    pointer of an object or array element is never null (the assertions at 1027
    and 1047), a null one is a wild access. *)
Definition b_object {A} (e : elem) (k : Z -> res A) : res A :=
  match b_type e, snd e with
  | T_object, Some o => k o
  | T_object, None => Oob
  | _, _ => Throw type_error
  end.
Definition b_array {A} (e : elem) (k : Z -> res A) : res A :=
  match b_type e, snd e with
  | T_array, Some o => k o
  | T_array, None => Oob
  | _, _ => Throw type_error
  end.

(** buffer/object.tcc:105-135 (operator[], get), 160-163 (at), 200-214 (has_key) *)
Definition b_get (bs : Z) (m : mem) (e : elem) (key : str) : res elem :=
  b_object e (fun o => get_value bs m o key).
Definition b_at (bs : Z) (m : mem) (e : elem) (key : str) : res elem :=
  b_object e (fun o => at_value bs m o key).
Definition b_has_key (m : mem) (e : elem) (key : str) : res bool :=
  b_object e (fun o => has_key m o key).

(** buffer/array.tcc:47-50 (get), 72-75 (at); the index is a size_t. *)
Definition b_get_idx (m : mem) (e : elem) (i : Z) : res elem :=
  b_array e (fun o => get_elem m o i).
Definition b_at_idx (m : mem) (e : elem) (i : Z) : res elem :=
  b_array e (fun o => at_elem m o i).

(** buffer/api.tcc:275-288 (size), 290-293 (empty) *)
Definition b_size (m : mem) (e : elem) : res Z :=
  match b_type e, snd e with
  | T_object, Some o | T_array, Some o => agg_count m o
  | T_string, Some o =>
      if fst e =? R_big_string then rd_le m o 4 else rd_le m o 2
  | T_object, None | T_array, None | T_string, None => Oob
  | _, _ => Throw type_error
  end.

(** buffer/array.tcc:110-114, 126-130 (front / back, const& overloads) and
    84-87, 96-99 (at_front / at_back; size() throws for a non-container). *)
Definition b_front (m : mem) (e : elem) : res elem :=
  b_array e (fun o =>
    n <- b_size m e ;; if n =? 0 then Ok (R_null, None) else get_elem m o 0).
Definition b_back (m : mem) (e : elem) : res elem :=
  b_array e (fun o =>
    n <- b_size m e ;; if n =? 0 then Ok (R_null, None) else get_elem m o (n - 1)).
Definition b_at_front (m : mem) (e : elem) : res elem :=
  n <- b_size m e ;; if n =? 0 then Throw out_of_range else b_front m e.
Definition b_at_back (m : mem) (e : elem) : res elem :=
  n <- b_size m e ;; if n =? 0 then Throw out_of_range else b_back m e.

(** iterator.tcc:27-57 with object.tcc:614-631 and array.tcc:355-361: a buffer
    iterator is an index into the vtable and a load function; [b_deref] is
    [*(begin() + i)], [b_deref_key] is [*(key_begin() + i)]. *)
Definition b_deref (bs : Z) (m : mem) (e : elem) (i : Z) : res elem :=
  match b_type e, snd e with
  | T_object, Some o => '(t, p) <- load_value bs m o i ;; Ok (t, Some p)
  | T_array, Some o => get_elem m o i
  | T_object, None | T_array, None => Oob
  | _, _ => Throw type_error
  end.
Definition b_deref_key (m : mem) (e : elem) (i : Z) : res elem :=
  b_object e (fun o => '(t, p) <- load_key m o i ;; Ok (t, Some p)).

(** buffer/object.tcc:182-197 (find / find_key) through object.tcc:681-692
    (get_it / get_key_it): the index variable is left uninitialised when the key
    is absent, so using the iterator uses an indeterminate value. *)
Definition b_find (m : mem) (e : elem) (key : str) : res Z :=
  b_object e (fun o =>
    r <- get_key m o key ;;
    match r with Some (i, _, _) => Ok i | None => Undef end).

(** buffer/api.tcc:233-237 (get_bytes): the bytes of an object, found through its
    own size field; dup_bytes (263-272) copies them to a fresh aligned block. *)
Definition b_get_bytes (m : mem) (e : elem) : res (list byte) :=
  b_object e (fun o => n <- rd_le m o 4 ;; rd m o n).

(** buffer/api.tcc:240-248 (share_bytes): the *root's* block and size. *)
Definition b_share_bytes (m : mem) (e : elem) : res (list byte) :=
  match b_type e with
  | T_null => Throw type_error
  | _ => n <- rd_le m 0 4 ;; rd m 0 n
  end.

(** buffer/string.tcc:15-18 (strv), buffer/primitive.tcc:13-37: reading a scalar
    of the wrong type throws type_error (common.h:1134-1179 deref functions and
    1081-1093 get_primitive). *)
Definition b_scalar (want : utype) (m : mem) (e : elem) : res value :=
  if utype_eqb (b_type e) want then
    match snd e with
    | Some o => rd_scalar m (fst e) o
    | None => Oob
    end
  else Throw type_error.

(** Everything a user sees through one element: a complete walk of it. *)
Definition b_value (bs : Z) (m : mem) (e : elem) : res value :=
  match snd e with
  | Some o => read_value (S (length m)) bs m (fst e) o
  | None => Ok VNull
  end.

(** The element at a path of positions, reached with iterators: [*(begin() + i)]
    at each step.  The root of a finalized block is [root]. *)
Definition root : elem := (R_object, Some 0).
Fixpoint nav (bs : Z) (m : mem) (e : elem) (path : list nat) : res elem :=
  match path with
  | [] => Ok e
  | i :: r => e' <- b_deref bs m e (Z.of_nat i) ;; nav bs m e' r
  end.

(** Iteration from begin() to end() and, with reverse iterators, from end() back
    to begin(): iterator.tcc:59-110 (++ and -- move the index by one, == compares
    indices) and buffer/iterator.tcc; key iteration likewise. *)
(** buffer/api.tcc:375-440: end() and key_end() of what is not an aggregate (an
    object) throw type_error; the end position is the size. *)
Definition b_end (m : mem) (e : elem) : res Z :=
  match b_type e with T_object | T_array => b_size m e | _ => Throw type_error end.
Definition b_key_end (m : mem) (e : elem) : res Z :=
  match b_type e with T_object => b_size m e | _ => Throw type_error end.
Definition b_iterate (bs : Z) (m : mem) (e : elem) : res (list elem) :=
  n <- b_end m e ;; for_each (b_deref bs m e) 0 (Z.to_nat n).
Definition b_riterate (bs : Z) (m : mem) (e : elem) : res (list elem) :=
  n <- b_end m e ;; for_each (fun j => b_deref bs m e (n - 1 - j)) 0 (Z.to_nat n).
Definition b_iterate_keys (m : mem) (e : elem) : res (list elem) :=
  n <- b_key_end m e ;; for_each (b_deref_key m e) 0 (Z.to_nat n).
Definition b_riterate_keys (m : mem) (e : elem) : res (list elem) :=
  n <- b_key_end m e ;; for_each (fun j => b_deref_key m e (n - 1 - j)) 0 (Z.to_nat n).
