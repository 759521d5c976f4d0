(** The dart::heap API on the contents of one handle.  Model only.

    A [value] is what one handle sees through its (shared) storage; how storage
    is shared and copied is modelled separately in Store.v.  A mutator returns the
    new contents and the position of the iterator it returns; when it throws, the
    contents stay as they were.  Objects are std::map<basic_heap, basic_heap,
    dart_comparator> (common.h:463-469): a list in comparator order. *)

From Coq Require Import ZArith List Bool.
From Verif Require Import Base Keys Dec Wire Read Buf.
Import ListNotations.
Open Scope Z_scope.

(** ** std::map with dart_comparator (common.h:464-468, common.tcc:27-33) *)

Fixpoint map_lower_bound {A} (key : str) (fs : list (str * A)) : nat :=
  match fs with
  | [] => O
  | (k, _) :: r => if dart_ltb k key then S (map_lower_bound key r) else O
  end.

(** find: the lower bound, unless [key] is smaller than what is there. *)
Definition map_find {A} (key : str) (fs : list (str * A)) : option nat :=
  let i := map_lower_bound key fs in
  match nth_error fs i with
  | Some (k, _) => if dart_ltb key k then None else Some i
  | None => None
  end.

Fixpoint list_set {A} (i : nat) (x : A) (l : list A) : list A :=
  match l, i with
  | [], _ => []
  | _ :: r, O => x :: r
  | y :: r, S i' => y :: list_set i' x r
  end.
Fixpoint list_insert {A} (i : nat) (x : A) (l : list A) : list A :=
  match i, l with
  | O, _ => x :: l
  | S i', y :: r => y :: list_insert i' x r
  | S _, [] => [x]
  end.
Fixpoint list_erase {A} (i : nat) (l : list A) : list A :=
  match l, i with
  | [], _ => []
  | _ :: r, O => r
  | y :: r, S i' => y :: list_erase i' r
  end.

(** ** Type queries: heap/api.tcc:423-510 *)
Definition h_type (v : value) : utype :=
  match v with
  | VObj _ => T_object | VArr _ => T_array | VStr _ => T_string | VInt _ => T_integer
  | VDec _ => T_decimal | VBool _ => T_boolean | VNull => T_null
  end.

(** heap/detail.tcc:215-243 (get_fields, get_elements) *)
Definition h_fields {A} (v : value) (k : list (str * value) -> res A) : res A :=
  match v with VObj fs => k fs | _ => Throw type_error end.
Definition h_elements {A} (v : value) (k : list value -> res A) : res A :=
  match v with VArr vs => k vs | _ => Throw type_error end.

(** ** Readers *)

(** heap/object.tcc:169-181 (get), 206-214 (at), 278-281 (has_key) *)
Definition h_get (v : value) (key : str) : res value :=
  h_fields v (fun fs =>
    match map_find key fs with
    | Some i => match nth_error fs i with Some (_, x) => Ok x | None => Oob end
    | None => Ok VNull
    end).
Definition h_at (v : value) (key : str) : res value :=
  h_fields v (fun fs =>
    match map_find key fs with
    | Some i => match nth_error fs i with Some (_, x) => Ok x | None => Oob end
    | None => Throw out_of_range
    end).
Definition h_has_key (v : value) (key : str) : res bool :=
  h_fields v (fun fs => Ok (match map_find key fs with Some _ => true | None => false end)).

(** heap/object.tcc:190-195 (get_or with a string key) *)
Definition h_get_or (v : value) (key : str) (opt : value) : res value :=
  match h_type v with
  | T_object => b <- h_has_key v key ;; if b : bool then h_get v key else Ok opt
  | _ => Ok opt
  end.

(** heap/object.tcc:216-233 (find): the position found, or the end position. *)
Definition h_find (v : value) (key : str) : res nat :=
  match v with
  | VObj fs => Ok (match map_find key fs with Some i => i | None => length fs end)
  | _ => Throw type_error
  end.

(** heap/api.tcc:398-421 (size, empty) *)
Definition h_size (v : value) : res Z :=
  match v with
  | VObj fs => Ok (zlen fs)
  | VArr vs => Ok (zlen vs)
  | VStr s => Ok (zlen s)
  | _ => Throw type_error
  end.

(** heap/array.tcc:146-150 (get), 172-176 (at); [i] is a size_t *)
Definition h_get_idx (v : value) (i : Z) : res value :=
  h_elements v (fun vs =>
    n <- h_size v ;;
    if i <? n then match nth_error vs (Z.to_nat i) with Some x => Ok x | None => Oob end
    else Ok VNull).
Definition h_at_idx (v : value) (i : Z) : res value :=
  n <- h_size v ;;
  if i <? n then
    h_elements v (fun vs => match nth_error vs (Z.to_nat i) with Some x => Ok x | None => Oob end)
  else Throw out_of_range.

(** heap/array.tcc:157-163 (get_or with an index) *)
Definition h_get_idx_or (v : value) (i : Z) (opt : value) : res value :=
  match h_type v with
  | T_array => n <- h_size v ;; if i <? n then h_get_idx v i else Ok opt
  | _ => Ok opt
  end.

(** heap/array.tcc:178-223 (at_front, at_back, front, front_or, back, back_or) *)
Definition h_front (v : value) : res value :=
  h_elements v (fun vs => match vs with [] => Ok VNull | x :: _ => Ok x end).
Definition h_back (v : value) : res value :=
  h_elements v (fun vs =>
    match vs with
    | [] => Ok VNull
    | _ => match nth_error vs (length vs - 1) with Some x => Ok x | None => Oob end
    end).
Definition h_at_front (v : value) : res value :=
  n <- h_size v ;; if n =? 0 then Throw out_of_range else h_front v.
Definition h_at_back (v : value) : res value :=
  n <- h_size v ;; if n =? 0 then Throw out_of_range else h_back v.
Definition h_front_or (v : value) (opt : value) : res value :=
  match h_type v with
  | T_array => n <- h_size v ;; if negb (n =? 0) then h_front v else Ok opt
  | _ => Ok opt
  end.
Definition h_back_or (v : value) (opt : value) : res value :=
  match h_type v with
  | T_array => n <- h_size v ;; if negb (n =? 0) then h_back v else Ok opt
  | _ => Ok opt
  end.

(** heap/string.tcc:28-40 (strv), heap/primitive.tcc:31-75 (integer, decimal,
    boolean): the scalar, when the type is the one asked for. *)
Definition h_scalar (want : utype) (v : value) : res value :=
  if utype_eqb (h_type v) want then Ok v else Throw type_error.

(** heap/api.tcc:527-600 (begin, end, key_begin, key_end) with the map and vector
    iterators of common.h:547-612: [*(begin() + i)] and [*(key_begin() + i)];
    dereferencing the end position is outside the container. *)
Definition h_deref (v : value) (i : nat) : res value :=
  match v with
  | VObj fs => match nth_error fs i with Some (_, x) => Ok x | None => Oob end
  | VArr vs => match nth_error vs i with Some x => Ok x | None => Oob end
  | _ => Throw type_error
  end.
Definition h_deref_key (v : value) (i : nat) : res value :=
  match v with
  | VObj fs => match nth_error fs i with Some (k, _) => Ok (VStr k) | None => Oob end
  | _ => Throw type_error
  end.
Definition h_end (v : value) : res nat :=
  match v with
  | VObj fs => Ok (length fs)
  | VArr vs => Ok (length vs)
  | _ => Throw type_error
  end.

(** ** Mutators *)

(** heap/api.tcc:112-148 (insert): the key is converted to a heap value first;
    an integer index is cast to size_t. *)
Definition h_insert (v k x : value) : res (value * nat) :=
  match k with
  | VStr key =>
      if 65535 <? zlen key then Throw invalid_argument
      else h_fields v (fun fs =>
        let i := map_lower_bound key fs in
        match map_find key fs with
        | Some j => Ok (VObj (list_set j (match nth_error fs j with Some (k', _) => (k', x) | None => (key, x) end) fs), j)
        | None => Ok (VObj (list_insert i (key, x) fs), i)
        end)
  | VInt z =>
      h_elements v (fun vs =>
        let pos := z mod 2 ^ 64 in
        if zlen vs <? pos then Throw out_of_range
        else Ok (VArr (list_insert (Z.to_nat pos) x vs), Z.to_nat pos))
  | _ => Throw type_error
  end.

(** heap/api.tcc:165-198 (set) *)
Definition h_set (v k x : value) : res (value * nat) :=
  match k with
  | VStr key =>
      if 65535 <? zlen key then Throw invalid_argument
      else h_fields v (fun fs =>
        match map_find key fs with
        | Some j => Ok (VObj (list_set j (match nth_error fs j with Some (k', _) => (k', x) | None => (key, x) end) fs), j)
        | None => Throw out_of_range
        end)
  | VInt z =>
      h_elements v (fun vs =>
        let pos := z mod 2 ^ 64 in
        if zlen vs <=? pos then Throw out_of_range
        else Ok (VArr (list_set (Z.to_nat pos) x vs), Z.to_nat pos))
  | _ => Throw type_error
  end.

(** heap/object.tcc:93-97 with 319-337 (erase by key): the position after the
    erased pair, or the end. *)
Definition h_erase_key (v : value) (key : str) : res (value * nat) :=
  h_fields v (fun fs =>
    match map_find key fs with
    | Some j => Ok (VObj (list_erase j fs), j)
    | None => Ok (v, length fs)
    end).

(** heap/array.tcc:106-117 (erase by index; [pos] is a size_t) *)
Definition h_erase_idx (v : value) (pos : Z) : res (value * nat) :=
  h_elements v (fun vs =>
    if zlen vs <=? pos then Ok (v, length vs)
    else Ok (VArr (list_erase (Z.to_nat pos) vs), Z.to_nat pos)).

(** heap/api.tcc:215-225 (erase by a dynamic identifier) *)
Definition h_erase (v k : value) : res (value * nat) :=
  match k with
  | VStr key => h_erase_key v key
  | VInt z => h_erase_idx v (z mod 2 ^ 64)
  | _ => Throw type_error
  end.

(** heap/array.tcc:49-98 (push_front, pop_front, push_back, pop_back):
    [erase(size() - 1)] wraps around on an empty array, and size() throws before
    anything else on a value without size. *)
Definition h_push_front (v x : value) : res value :=
  '(v', _) <- h_insert v (VInt 0) x ;; Ok v'.
Definition h_push_back (v x : value) : res value :=
  n <- h_size v ;; '(v', _) <- h_insert v (VInt n) x ;; Ok v'.
Definition h_pop_front (v : value) : res value :=
  '(v', _) <- h_erase_idx v 0 ;; Ok v'.
Definition h_pop_back (v : value) : res value :=
  n <- h_size v ;; '(v', _) <- h_erase_idx v ((n - 1) mod 2 ^ 64) ;; Ok v'.

(** heap/array.tcc:125-129 (resize) *)
Definition h_resize (v : value) (count : Z) (def : value) : res value :=
  h_elements v (fun vs =>
    Ok (VArr (firstn (Z.to_nat count) vs ++ repeat def (Z.to_nat count - length vs)))).

(** heap/api.tcc:256-261 (clear) *)
Definition h_clear (v : value) : res value :=
  match v with
  | VObj _ => Ok (VObj [])
  | VArr _ => Ok (VArr [])
  | _ => Throw type_error
  end.

(** heap/object.tcc:290-304 (inject_pairs) and 100-134 (inject) *)
Fixpoint h_inject (v : value) (pairs : list (value * value)) : res value :=
  match v with
  | VObj _ =>
      match pairs with
      | [] => Ok v
      | (k, x) :: r => '(v', _) <- h_insert v k x ;; h_inject v' r
      end
  | _ => Throw type_error
  end.

(** heap/object.tcc:306-316 (project_keys) *)
Fixpoint h_project_loop (v : value) (keys : list str) (acc : value) : res value :=
  match keys with
  | [] => Ok acc
  | k :: r =>
      b <- h_has_key v k ;;
      if b : bool then
        x <- h_get v k ;; '(acc', _) <- h_insert acc (VStr k) x ;; h_project_loop v r acc'
      else h_project_loop v r acc
  end.
Definition h_project (v : value) (keys : list str) : res value :=
  match v with
  | VObj _ => h_project_loop v keys (VObj [])
  | _ => Throw type_error
  end.

(** ** definalize: conversion_traits.h:83-115 (buffer to heap) *)

(** Iterating keys and values of the buffer in step, adding each pair. *)
Fixpoint fold_range {A} (f : Z -> A -> res A) (i : Z) (n : nat) (acc : A) : res A :=
  match n with
  | O => Ok acc
  | S n' => acc' <- f i acc ;; fold_range f (i + 1) n' acc'
  end.

Fixpoint from_buffer (fuel : nat) (bs : Z) (m : mem) (e : elem) : res value :=
  match fuel with
  | O => Fuel
  | S fuel' =>
      match b_type e with
      | T_object =>
          n <- b_size m e ;;
          fold_range (fun i acc =>
            ke <- b_deref_key m e i ;;
            k <- from_buffer fuel' bs m ke ;;
            ve <- b_deref bs m e i ;;
            x <- from_buffer fuel' bs m ve ;;
            '(acc', _) <- h_insert acc k x ;; Ok acc') 0 (Z.to_nat n) (VObj [])
      | T_array =>
          n <- b_size m e ;;
          fold_range (fun i acc =>
            ve <- b_deref bs m e i ;;
            x <- from_buffer fuel' bs m ve ;;
            h_push_back acc x) 0 (Z.to_nat n) (VArr [])
      | T_null => Ok VNull
      | t => b_scalar t m e
      end
  end.

Definition definalize (bs : Z) (m : mem) : res value :=
  from_buffer (S (length m)) bs m (R_object, Some 0).

(** Iteration of a mutable aggregate (heap/api.tcc:527-600, heap/iterator.tcc):
    from begin() to end(), and with reverse iterators from end() to begin(). *)
Definition h_iterate (v : value) : res (list value) :=
  n <- h_end v ;; for_each (fun i => h_deref v (Z.to_nat i)) 0 n.
Definition h_riterate (v : value) : res (list value) :=
  n <- h_end v ;; for_each (fun j => h_deref v (Z.to_nat (Z.of_nat n - 1 - j))) 0 n.
Definition h_key_end (v : value) : res nat := h_fields v (fun fs => Ok (length fs)).
Definition h_iterate_keys (v : value) : res (list value) :=
  n <- h_key_end v ;; for_each (fun i => h_deref_key v (Z.to_nat i)) 0 n.
Definition h_riterate_keys (v : value) : res (list value) :=
  n <- h_key_end v ;; for_each (fun j => h_deref_key v (Z.to_nat (Z.of_nat n - 1 - j))) 0 n.
