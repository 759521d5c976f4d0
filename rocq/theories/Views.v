(** dart::heap::view: a handle that does not count.  Model only.

    A view of an aggregate holds no storage of its own: it keeps a pointer to the
    counted pointer inside the handle it was made from (support/ptrs.h:380-450 and
    ptrs.tcc:442-596, view_ptr), wherever that handle is: a variable, a pair of a
    map, an element of a vector.  Scalars and strings are copied into the view
    (heap/detail.tcc:12-52).  Views are kept in numbered variables next to the store
    of Store.v. *)

From Coq Require Import ZArith List Bool.
From Verif Require Import Base Keys Wire SpecOps HeapOps Store.
Import ListNotations.
Open Scope Z_scope.

(** Where the handle is that the view points to. *)
Inductive spot : Type :=
| At_var (x : nat)
| At_field (a : nat) (k : str)
| At_elem (a i : nat).

(** [V_at p obj]: points into the handle at [p], as to an object or an array.
    [V_lost]: the handle pointed to is gone, or holds something else. *)
Inductive wview : Type :=
| V_val (h : hval)
| V_at (p : spot) (obj : bool)
| V_lost.

Record vstate : Type := Vs { base : state; views : list wview }.

Definition get_view (t : vstate) (w : nat) : res wview :=
  match nth_error (views t) w with Some u => Ok u | None => Oob end.
Definition set_view (t : vstate) (w : nat) (u : wview) : vstate := Vs (base t) (list_set w u (views t)).

Definition spot_handle (s : state) (p : spot) : option hval :=
  match p with
  | At_var x => nth_error (vars s) x
  | At_field a k =>
      match cell_at (heap s) a with
      | Some (_, CObj fs) =>
          match map_find k fs with Some j => option_map snd (nth_error fs j) | None => None end
      | _ => None
      end
  | At_elem a i =>
      match cell_at (heap s) a with Some (_, CArr vs) => nth_error vs i | _ => None end
  end.

Definition holds (obj : bool) (h : hval) : bool :=
  match h with HObj _ => obj | HArr _ => negb obj | _ => false end.

(** Reading through the view: the pointer to the counted pointer is followed
    (ptrs.tcc:532-563, get, operator* and raw of view_ptr). *)
Definition through (s : state) (u : wview) : res hval :=
  match u with
  | V_val h => Ok h
  | V_at p obj =>
      match spot_handle s p with
      | Some h => if holds obj h then Ok h else Undef
      | None => Undef
      end
  | V_lost => Undef
  end.

(** What becomes of a view when the store changes.  A variable stays where it is, and
    so does a pair of a map until it is erased; an element of a vector stays while
    the vector keeps its size (some survive even then, which is not used).  A handle
    assigned over by one of the same kind is taken for the same object
    (heap/api.tcc:17-26 destroys and makes anew in place). *)
Definition same_size (cs cs' : cells) (a : nat) : bool :=
  match cell_at cs a, cell_at cs' a with
  | Some (_, CArr vs), Some (_, CArr vs') => Nat.eqb (length vs) (length vs')
  | _, _ => false
  end.
Definition kept_view (s s' : state) (u : wview) : wview :=
  match u with
  | V_at p obj =>
      match spot_handle s' p with
      | Some h =>
          if holds obj h && match p with At_elem a _ => same_size (heap s) (heap s') a | _ => true end
          then u else V_lost
      | None => V_lost
      end
  | _ => u
  end.
Definition on_base (t : vstate) (s' : state) : vstate := Vs s' (map (kept_view (base t) s') (views t)).

(** heap/api.tcc:52-54 (operator view) with heap/detail.tcc:12-52: a view of the
    handle [h] found at [p]. *)
Definition view_of (p : spot) (h : hval) : wview :=
  match h with HObj _ => V_at p true | HArr _ => V_at p false | _ => V_val h end.

(** heap/object.tcc:169-214, heap/array.tcc:146-223 on a view: the member returned is
    the handle in the container, converted to a view; a missing member is a null of
    its own.  Where the member is that [read_member] finds. *)
Definition member_spot (s : state) (h : hval) (r : reader) : spot :=
  match h with
  | HObj a =>
      match r with R_get k | R_at k => At_field a k | _ => At_var 0 end
  | HArr a =>
      match r with
      | R_get_idx i | R_at_idx i => At_elem a (Z.to_nat i)
      | R_front => At_elem a 0
      | R_back => At_elem a (match cell_at (heap s) a with Some (_, CArr vs) => length vs - 1 | _ => 0 end)
      | _ => At_var 0
      end
  | _ => At_var 0
  end.

(** What can be asked of a view without making another: a scalar or string, the keys
    of an object in order, the length of an array; heap/api.tcc:430-470 (the is_
    functions, get_type), heap/object.tcc keys(), size(). *)
Inductive vans : Type :=
| W_done | W_err (e : err) | W_call (a : ans)
| W_scalar (v : value) | W_keys (ks : list str) | W_len (n : Z).

Definition glance (s : state) (h : hval) : res vans :=
  match h with
  | HNull => Ok (W_scalar VNull) | HInt z => Ok (W_scalar (VInt z)) | HDec d => Ok (W_scalar (VDec d))
  | HBool b => Ok (W_scalar (VBool b)) | HStr t => Ok (W_scalar (VStr t))
  | HObj a => match cell_at (heap s) a with Some (_, CObj fs) => Ok (W_keys (map fst fs)) | _ => Oob end
  | HArr a => match cell_at (heap s) a with Some (_, CArr vs) => Ok (W_len (zlen vs)) | _ => Oob end
  end.

(** The member an iterator of the view stands before, [i] steps from its begin
    (heap/api.tcc:516-600, heap/iterator.tcc): the view of the member in place. *)
Definition nth_spot (s : state) (h : hval) (i : nat) : res (err + (spot * hval)) :=
  match h with
  | HObj a =>
      match cell_at (heap s) a with
      | Some (_, CObj fs) => match nth_error fs i with Some (k, m) => Ok (inr (At_field a k, m)) | None => Undef end
      | _ => Oob
      end
  | HArr a =>
      match cell_at (heap s) a with
      | Some (_, CArr vs) => match nth_error vs i with Some m => Ok (inr (At_elem a i, m)) | None => Undef end
      | _ => Oob
      end
  | _ => Ok (inl type_error)
  end.

Inductive vop : Type :=
| Base (o : hop)                       (* a call on the variables *)
| View (w x : nat)                     (* view w = x; *)
| Member (w u : nat) (r : reader)      (* w = u.get(...), u.at(...), u.front(), u.back() *)
| Nth (w u i : nat)                    (* w = *(u.begin() + i) *)
| Glance (u : nat)
| Copy_view (w u : nat)                (* w = u *)
| Move_view (w u : nat)                (* w = std::move(u) *)
| Reset (w : nat)                      (* w = view {} *)
| Own (x u : nat)                      (* x = u.as_owner() *)
| View_temp (w y : nat) (r : reader).  (* w = y.get(...), y an owning handle *)

Definition v_exec_op (t : vstate) (o : vop) : res (vstate * vans) :=
  let s := base t in
  match o with
  | Base o => '(s', a) <- s_exec s o ;; Ok (on_base t s', W_call a)
  | View w x => h <- get_var s x ;; Ok (set_view t w (view_of (At_var x) h), W_done)
  | Member w u r =>
      v <- get_view t u ;; h <- through s v ;;
      m <- read_member s h r ;;
      match m with
      | inl e => Ok (t, W_err e)
      | inr hm => Ok (set_view t w (view_of (member_spot s h r) hm), W_done)
      end
  | Nth w u i =>
      v <- get_view t u ;; h <- through s v ;;
      m <- nth_spot s h i ;;
      match m with
      | inl e => Ok (t, W_err e)
      | inr (p, hm) => Ok (set_view t w (view_of p hm), W_done)
      end
  | Glance u => v <- get_view t u ;; h <- through s v ;; a <- glance s h ;; Ok (t, a)
  | Copy_view w u => v <- get_view t u ;; Ok (set_view t w v, W_done)
  | Move_view w u =>
      (* heap/api.tcc:12-26: the source is left null *)
      if Nat.eqb w u then Ok (t, W_done)
      else v <- get_view t u ;; Ok (set_view (set_view t u (V_val HNull)) w v, W_done)
  | Reset w => Ok (set_view t w (V_val HNull), W_done)
  | Own x u =>
      (* heap/api.tcc:616-620: the owner's counted pointer is copied, then moved in *)
      v <- get_view t u ;; h <- through s v ;;
      cs <- inc (heap s) h ;;
      s1 <- overwrite (St cs (vars s)) x h ;; Ok (on_base t s1, W_done)
  | View_temp w y r =>
      (* the member is copied into a temporary, viewed, and the temporary destroyed *)
      h <- get_var s y ;; m <- read_member s h r ;;
      match m with
      | inl e => Ok (t, W_err e)
      | inr hm => Ok (set_view t w (match href hm with Some _ => V_lost | None => V_val hm end), W_done)
      end
  end.

(** heap/api.tcc:502-513 over ptrs.tcc:549-551: the count of a view is its owner's. *)
Definition view_count (t : vstate) (u : nat) : res Z :=
  v <- get_view t u ;; h <- through (base t) v ;; Ok (refcount (heap (base t)) h).

Fixpoint v_run_ops (t : vstate) (os : list vop) : res (vstate * list vans) :=
  match os with
  | [] => Ok (t, [])
  | o :: r =>
      '(t1, a) <- v_exec_op t o ;;
      '(t2, l) <- v_run_ops t1 r ;; Ok (t2, a :: l)
  end.

Definition v_init (n m : nat) : vstate := Vs (init n) (repeat (V_val HNull) m).
