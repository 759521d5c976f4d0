(** How dart::heap handles share storage: reference counts and copy-on-write.
    Model only.

    An object is a counted pointer to a std::map, an array one to a std::vector
    (heap members fields_type and elements_type, dart.h:7700-7730); copying a
    handle copies the pointer.  Aggregates live in numbered cells, with their count;
    a released cell is gone and touching it is [Oob].  Strings, keys and scalars are
    immutable and are kept in the handle itself.  Numbers of released cells are not
    used again.  Iterators, which are plain pointers into a cell, are
    modelled in Cursor.v. *)

From Coq Require Import ZArith List Bool.
From Verif Require Import Base Keys Wire Read Buf SpecOps HeapOps.
Import ListNotations.
Open Scope Z_scope.

Inductive hval : Type :=
| HNull | HInt (z : Z) | HDec (d : Z) | HBool (b : bool) | HStr (s : str)
| HObj (a : nat) | HArr (a : nat).

Inductive cell : Type :=
| CObj (fs : list (str * hval))
| CArr (vs : list hval).

Definition cells := list (option (Z * cell)).
Record state : Type := St { heap : cells; vars : list hval }.

Definition href (h : hval) : option nat :=
  match h with HObj a | HArr a => Some a | _ => None end.
Definition kids (c : cell) : list hval :=
  match c with CObj fs => map snd fs | CArr vs => vs end.
Definition cell_at (cs : cells) (a : nat) : option (Z * cell) :=
  match nth_error cs a with Some (Some p) => Some p | _ => None end.

(** Copying and destroying a counted pointer (support/ptrs.tcc:64-89, or
    std::shared_ptr).  Destroying the last one destroys the container, which
    destroys its handles in turn; [drop] does so with a list of handles still to be
    destroyed. *)
Definition inc (cs : cells) (h : hval) : res cells :=
  match href h with
  | None => Ok cs
  | Some a =>
      match cell_at cs a with
      | Some (n, c) => Ok (list_set a (Some (n + 1, c)) cs)
      | None => Oob
      end
  end.
Fixpoint inc_all (cs : cells) (hs : list hval) : res cells :=
  match hs with
  | [] => Ok cs
  | h :: r => cs1 <- inc cs h ;; inc_all cs1 r
  end.

Fixpoint drop_n (fuel : nat) (cs : cells) (hs : list hval) : res cells :=
  match fuel, hs with
  | _, [] => Ok cs
  | O, _ => Fuel
  | S fuel', h :: r =>
      match href h with
      | None => drop_n fuel' cs r
      | Some a =>
          match cell_at cs a with
          | Some (n, c) =>
              if n =? 1 then drop_n fuel' (list_set a None cs) (kids c ++ r)
              else drop_n fuel' (list_set a (Some (n - 1, c)) cs) r
          | None => Oob
          end
      end
  end.
Definition all_kids (cs : cells) : list hval :=
  flat_map (fun o => match o with Some (_, c) => kids c | None => [] end) cs.
Definition drop (cs : cells) (hs : list hval) : res cells :=
  drop_n (length hs + length (all_kids cs)) cs hs.

Definition alloc (cs : cells) (c : cell) : cells * nat := (cs ++ [Some (1, c)], length cs).

(** The contents of a cell replaced in place. *)
Definition put (cs : cells) (a : nat) (c : cell) : res cells :=
  match cell_at cs a with
  | Some (n, _) => Ok (list_set a (Some (n, c)) cs)
  | None => Oob
  end.

(** heap/api.tcc:502-513 (refcount) for aggregates *)
Definition refcount (cs : cells) (h : hval) : Z :=
  match href h with
  | Some a => match cell_at cs a with Some (n, _) => n | None => 0 end
  | None => match h with HNull => 0 | _ => 1 end
  end.

(** heap/detail.tcc:54-60 (copy_on_write): the new container copies the handles
    of the old one, then the old pointer is released.  [over] handles, one unless
    told otherwise, do not count as sharing. *)
Definition copy_on_write_over (over : Z) (cs : cells) (h : hval) : res (cells * hval) :=
  if over <? refcount cs h then
    match h with
    | HObj a =>
        match cell_at cs a with
        | Some (_, c) =>
            cs1 <- inc_all cs (kids c) ;;
            let '(cs2, a') := alloc cs1 c in
            cs3 <- drop cs2 [h] ;; Ok (cs3, HObj a')
        | None => Oob
        end
    | HArr a =>
        match cell_at cs a with
        | Some (_, c) =>
            cs1 <- inc_all cs (kids c) ;;
            let '(cs2, a') := alloc cs1 c in
            cs3 <- drop cs2 [h] ;; Ok (cs3, HArr a')
        | None => Oob
        end
    | _ => Ok (cs, h)
    end
  else Ok (cs, h).
Definition copy_on_write : cells -> hval -> res (cells * hval) := copy_on_write_over 1.

(** ** The argument of a mutator

    conversion_traits.h:860-872: an argument that is a dart::heap already is not
    copied by convert::cast, it is forwarded as the reference it is. *)
Inductive src : Type :=
| Lit (v : value)      (* converted from a C++ scalar or string: a temporary *)
| Cref (y : nat)       (* a const variable *)
| Lref (y : nat)       (* a variable *)
| Rref (y : nat).      (* std::move(variable) *)

Definition lit_h (v : value) : option hval :=
  match v with
  | VNull => Some HNull | VInt z => Some (HInt z) | VDec d => Some (HDec d)
  | VBool b => Some (HBool b) | VStr s => Some (HStr s)
  | _ => None
  end.

Definition get_var (s : state) (x : nat) : res hval :=
  match nth_error (vars s) x with Some h => Ok h | None => Oob end.
Definition set_var (s : state) (x : nat) (h : hval) : state := St (heap s) (list_set x h (vars s)).

(** Copy construction and move construction (heap/api.tcc:12-15) of a handle from
    the argument. *)
Definition take_copy (s : state) (v : src) : res (state * hval) :=
  match v with
  | Lit l => match lit_h l with Some h => Ok (s, h) | None => Oob end
  | Cref y | Lref y | Rref y =>
      h <- get_var s y ;; cs <- inc (heap s) h ;; Ok (St cs (vars s), h)
  end.
Definition take_move (s : state) (v : src) : res (state * hval) :=
  match v with
  | Lref y | Rref y => h <- get_var s y ;; Ok (set_var s y HNull, h)
  | _ => take_copy s v
  end.
(** std::forward of the argument: only an rvalue is moved from. *)
Definition take_forward (s : state) (v : src) : res (state * hval) :=
  match v with Rref _ => take_move s v | _ => take_copy s v end.

Definition put_s (s : state) (a : nat) (c : cell) : res state :=
  cs <- put (heap s) a c ;; Ok (St cs (vars s)).
Definition drop_s (s : state) (hs : list hval) : res state :=
  cs <- drop (heap s) hs ;; Ok (St cs (vars s)).

Definition unshare (s : state) (x : nat) : res (state * hval) :=
  h <- get_var s x ;;
  '(cs, h') <- copy_on_write (heap s) h ;;
  Ok (St cs (list_set x h' (vars s)), h').

Definition fields_of (s : state) (h : hval) : res (option (nat * list (str * hval))) :=
  match h with
  | HObj a => match cell_at (heap s) a with Some (_, CObj fs) => Ok (Some (a, fs)) | _ => Oob end
  | _ => Ok None
  end.
Definition elements_of (s : state) (h : hval) : res (option (nat * list hval)) :=
  match h with
  | HArr a => match cell_at (heap s) a with Some (_, CArr vs) => Ok (Some (a, vs)) | _ => Oob end
  | _ => Ok None
  end.

(** Assigning to an element of a container: the old handle is destroyed. *)
Definition assign_field (s : state) (a : nat) (fs : list (str * hval)) (j : nat) (h : hval) : res state :=
  match nth_error fs j with
  | Some (k, old) => s1 <- put_s s a (CObj (list_set j (k, h) fs)) ;; drop_s s1 [old]
  | None => Oob
  end.
Definition assign_element (s : state) (a : nat) (vs : list hval) (j : nat) (h : hval) : res state :=
  match nth_error vs j with
  | Some old => s1 <- put_s s a (CArr (list_set j h vs)) ;; drop_s s1 [old]
  | None => Oob
  end.

(** heap/api.tcc:112-153 (insert).  When the key is already present the value
    argument is moved from with std::move, also if it was given as an lvalue
    (api.tcc:139-144); when it is not, it is copied into the pair, also if it was
    given as an rvalue.  The copy made for the pair before finding the key present
    is destroyed again; its count goes up and down and is left out.  [insert_in] is
    what happens once copy_on_write is done, to the target's handle [h]. *)
Definition insert_in (s : state) (h : hval) (k : value) (v : src) : res (state * ans) :=
  match k with
  | VStr key =>
      if 65535 <? zlen key then Ok (s, A_err invalid_argument)
      else
        f <- fields_of s h ;;
        match f with
        | None => Ok (s, A_err type_error)
        | Some (a, fs) =>
            match map_find key fs with
            | None =>
                '(s1, hv) <- take_copy s v ;;
                s2 <- put_s s1 a (CObj (list_insert (map_lower_bound key fs) (key, hv) fs)) ;;
                Ok (s2, A_unit)
            | Some j =>
                '(s1, hv) <- take_move s v ;;
                s2 <- assign_field s1 a fs j hv ;; Ok (s2, A_unit)
            end
        end
  | VInt z =>
      e <- elements_of s h ;;
      match e with
      | None => Ok (s, A_err type_error)
      | Some (a, vs) =>
          let pos := z mod 2 ^ 64 in
          if zlen vs <? pos then Ok (s, A_err out_of_range)
          else
            '(s1, hv) <- take_forward s v ;;
            s2 <- put_s s1 a (CArr (list_insert (Z.to_nat pos) hv vs)) ;; Ok (s2, A_unit)
      end
  | _ => Ok (s, A_err type_error)
  end.
Definition s_insert (s : state) (x : nat) (k : value) (v : src) : res (state * ans) :=
  '(s, h) <- unshare s x ;; insert_in s h k v.

(** heap/api.tcc:165-198 (set) *)
Definition set_in (s : state) (h : hval) (k : value) (v : src) : res (state * ans) :=
  match k with
  | VStr key =>
      if 65535 <? zlen key then Ok (s, A_err invalid_argument)
      else
        f <- fields_of s h ;;
        match f with
        | None => Ok (s, A_err type_error)
        | Some (a, fs) =>
            match map_find key fs with
            | None => Ok (s, A_err out_of_range)
            | Some j =>
                '(s1, hv) <- take_forward s v ;;
                s2 <- assign_field s1 a fs j hv ;; Ok (s2, A_unit)
            end
        end
  | VInt z =>
      e <- elements_of s h ;;
      match e with
      | None => Ok (s, A_err type_error)
      | Some (a, vs) =>
          let pos := z mod 2 ^ 64 in
          if zlen vs <=? pos then Ok (s, A_err out_of_range)
          else
            '(s1, hv) <- take_forward s v ;;
            s2 <- assign_element s1 a vs (Z.to_nat pos) hv ;; Ok (s2, A_unit)
      end
  | _ => Ok (s, A_err type_error)
  end.
Definition s_set (s : state) (x : nat) (k : value) (v : src) : res (state * ans) :=
  '(s, h) <- unshare s x ;; set_in s h k v.

(** heap/object.tcc:93-97, 304-322 and heap/array.tcc:106-117, dispatched by
    heap/api.tcc:215-225 (erase) *)
Definition s_erase_key (s : state) (x : nat) (key : str) : res (state * ans) :=
  '(s, h) <- unshare s x ;;
  f <- fields_of s h ;;
  match f with
  | None => Ok (s, A_err type_error)
  | Some (a, fs) =>
      match map_find key fs with
      | None => Ok (s, A_unit)
      | Some j =>
          match nth_error fs j with
          | Some (_, old) =>
              s1 <- put_s s a (CObj (list_erase j fs)) ;; s2 <- drop_s s1 [old] ;; Ok (s2, A_unit)
          | None => Oob
          end
      end
  end.
Definition s_erase_idx (s : state) (x : nat) (pos : Z) : res (state * ans) :=
  '(s, h) <- unshare s x ;;
  e <- elements_of s h ;;
  match e with
  | None => Ok (s, A_err type_error)
  | Some (a, vs) =>
      if zlen vs <=? pos then Ok (s, A_unit)
      else
        match nth_error vs (Z.to_nat pos) with
        | Some old =>
            s1 <- put_s s a (CArr (list_erase (Z.to_nat pos) vs)) ;; s2 <- drop_s s1 [old] ;; Ok (s2, A_unit)
        | None => Oob
        end
  end.
Definition s_erase (s : state) (x : nat) (k : value) : res (state * ans) :=
  match k with
  | VStr key => s_erase_key s x key
  | VInt z => s_erase_idx s x (z mod 2 ^ 64)
  | _ => Ok (s, A_err type_error)
  end.

(** heap/api.tcc:256-261 (clear) and heap/array.tcc:125-129 (resize): both change
    the container in place without copy_on_write. *)
Definition s_clear (s : state) (x : nat) : res (state * ans) :=
  h <- get_var s x ;;
  match h with
  | HObj a =>
      f <- fields_of s h ;;
      match f with
      | Some (_, fs) => s1 <- put_s s a (CObj []) ;; s2 <- drop_s s1 (map snd fs) ;; Ok (s2, A_unit)
      | None => Oob
      end
  | HArr a =>
      e <- elements_of s h ;;
      match e with
      | Some (_, vs) => s1 <- put_s s a (CArr []) ;; s2 <- drop_s s1 vs ;; Ok (s2, A_unit)
      | None => Oob
      end
  | _ => Ok (s, A_err type_error)
  end.
Definition s_resize (s : state) (x : nat) (n : Z) (v : src) : res (state * ans) :=
  h <- get_var s x ;;
  e <- elements_of s h ;;
  match e with
  | None => Ok (s, A_err type_error)
  | Some (a, vs) =>
      let n := Z.to_nat n in
      '(s0, hv) <- take_copy s (match v with Lref y | Rref y => Cref y | _ => v end) ;;
      cs <- inc_all (heap s0) (repeat hv (n - length vs)) ;;
      s1 <- put_s (St cs (vars s0)) a (CArr (firstn n vs ++ repeat hv (n - length vs))) ;;
      s2 <- drop_s s1 (hv :: skipn n vs) ;; Ok (s2, A_unit)
  end.

(** heap/array.tcc:49-98 (push_front, push_back, pop_front, pop_back) *)
Definition s_size (s : state) (x : nat) : res (option Z) :=
  h <- get_var s x ;;
  match h with
  | HObj a => match cell_at (heap s) a with Some (_, CObj fs) => Ok (Some (zlen fs)) | _ => Oob end
  | HArr a => match cell_at (heap s) a with Some (_, CArr vs) => Ok (Some (zlen vs)) | _ => Oob end
  | HStr t => Ok (Some (zlen t))
  | _ => Ok None
  end.
Definition s_push_back (s : state) (x : nat) (v : src) : res (state * ans) :=
  n <- s_size s x ;;
  match n with
  | Some n => s_insert s x (VInt n) v
  | None => Ok (s, A_err type_error)
  end.
Definition s_pop_back (s : state) (x : nat) : res (state * ans) :=
  n <- s_size s x ;;
  match n with
  | Some n => s_erase_idx s x ((n - 1) mod 2 ^ 64)
  | None => Ok (s, A_err type_error)
  end.

(** ** Handles: construction, copy, move, assignment, destruction, reading *)

(** Move assignment of a temporary or variable's handle into variable [x]: the old
    handle is destroyed, then the new one is taken over (heap/api.tcc:17-26). *)
Definition overwrite (s : state) (x : nat) (h : hval) : res state :=
  old <- get_var s x ;; drop_s (set_var s x h) [old].

Inductive fresh : Type := New_object | New_array | New_scalar (v : value).

(** heap/object.tcc:12-22, heap/array.tcc:12-23 (make_object(), make_array(): empty),
    heap/primitive.tcc, heap/string.tcc (scalars) *)
Definition s_make (s : state) (x : nat) (f : fresh) : res (state * ans) :=
  match f with
  | New_object =>
      let '(cs, a) := alloc (heap s) (CObj []) in
      s1 <- overwrite (St cs (vars s)) x (HObj a) ;; Ok (s1, A_unit)
  | New_array =>
      let '(cs, a) := alloc (heap s) (CArr []) in
      s1 <- overwrite (St cs (vars s)) x (HArr a) ;; Ok (s1, A_unit)
  | New_scalar v =>
      match lit_h v with
      | Some h => s1 <- overwrite s x h ;; Ok (s1, A_unit)
      | None => Oob
      end
  end.

(** dart.h:5229 (copy construction, defaulted: counted pointers copied), copy
    assignment through a temporary, move assignment (heap/api.tcc:17-26). *)
Definition s_copy (s : state) (x y : nat) : res (state * ans) :=
  '(s1, h) <- take_copy s (Cref y) ;; s2 <- overwrite s1 x h ;; Ok (s2, A_unit).
Definition s_move (s : state) (x y : nat) : res (state * ans) :=
  if Nat.eqb x y then Ok (s, A_unit)
  else '(s1, h) <- take_move s (Rref y) ;; s2 <- overwrite s1 x h ;; Ok (s2, A_unit).
(** The end of a variable's life: it holds nothing afterwards. *)
Definition s_destroy (s : state) (x : nat) : res (state * ans) :=
  s1 <- overwrite s x HNull ;; Ok (s1, A_unit).

(** Reading a member: a copy of its handle (heap/object.tcc:169-214,
    heap/array.tcc:146-223). *)
Inductive reader : Type :=
| R_get (k : str) | R_at (k : str) | R_get_idx (i : Z) | R_at_idx (i : Z) | R_front | R_back.

Definition read_member (s : state) (h : hval) (r : reader) : res (err + hval) :=
  match r with
  | R_get k | R_at k =>
      f <- fields_of s h ;;
      match f with
      | None => Ok (inl type_error)
      | Some (_, fs) =>
          match map_find k fs with
          | Some j => match nth_error fs j with Some (_, m) => Ok (inr m) | None => Oob end
          | None => match r with R_at _ => Ok (inl out_of_range) | _ => Ok (inr HNull) end
          end
      end
  | R_get_idx i =>
      e <- elements_of s h ;;
      match e with
      | None => Ok (inl type_error)
      | Some (_, vs) =>
          if i <? zlen vs then match nth_error vs (Z.to_nat i) with Some m => Ok (inr m) | None => Oob end
          else Ok (inr HNull)
      end
  | R_at_idx i =>
      match h with
      | HArr a =>
          e <- elements_of s h ;;
          match e with
          | None => Oob
          | Some (_, vs) =>
              if i <? zlen vs then match nth_error vs (Z.to_nat i) with Some m => Ok (inr m) | None => Oob end
              else Ok (inl out_of_range)
          end
      | HObj a =>
          f <- fields_of s h ;;
          match f with
          | None => Oob
          | Some (_, fs) => Ok (inl (if i <? zlen fs then type_error else out_of_range))
          end
      | HStr t => Ok (inl (if i <? zlen t then type_error else out_of_range))
      | _ => Ok (inl type_error)
      end
  | R_front =>
      e <- elements_of s h ;;
      match e with
      | None => Ok (inl type_error)
      | Some (_, vs) => Ok (inr (match vs with [] => HNull | m :: _ => m end))
      end
  | R_back =>
      e <- elements_of s h ;;
      match e with
      | None => Ok (inl type_error)
      | Some (_, []) => Ok (inr HNull)
      | Some (_, vs) => match nth_error vs (length vs - 1) with Some m => Ok (inr m) | None => Oob end
      end
  end.

(** [x = y.get(...)]: the member's handle is copied into a temporary, which is
    then moved into [x]. *)
Definition s_read (s : state) (x y : nat) (r : reader) : res (state * ans) :=
  h <- get_var s y ;;
  m <- read_member s h r ;;
  match m with
  | inl e => Ok (s, A_err e)
  | inr hm =>
      cs <- inc (heap s) hm ;;
      s1 <- overwrite (St cs (vars s)) x hm ;; Ok (s1, A_unit)
  end.

(** ** Histories of calls on a fixed set of variables, all null at first *)
Inductive hop : Type :=
| O_make (x : nat) (f : fresh)
| O_copy (x y : nat) | O_move (x y : nat) | O_destroy (x : nat)
| O_read (x y : nat) (r : reader)
| O_insert (x : nat) (k : value) (v : src) | O_set (x : nat) (k : value) (v : src)
| O_erase (x : nat) (k : value)
| O_push_front (x : nat) (v : src) | O_push_back (x : nat) (v : src)
| O_pop_front (x : nat) | O_pop_back (x : nat)
| O_clear (x : nat) | O_resize (x : nat) (n : Z) (v : src).

Definition s_exec (s : state) (o : hop) : res (state * ans) :=
  match o with
  | O_make x f => s_make s x f
  | O_copy x y => s_copy s x y
  | O_move x y => s_move s x y
  | O_destroy x => s_destroy s x
  | O_read x y r => s_read s x y r
  | O_insert x k v => s_insert s x k v
  | O_set x k v => s_set s x k v
  | O_erase x k => s_erase s x k
  | O_push_front x v => s_insert s x (VInt 0) v
  | O_push_back x v => s_push_back s x v
  | O_pop_front x => s_erase_idx s x 0
  | O_pop_back x => s_pop_back s x
  | O_clear x => s_clear s x
  | O_resize x n v => s_resize s x n v
  end.

Fixpoint s_run (s : state) (os : list hop) : res (state * list ans) :=
  match os with
  | [] => Ok (s, [])
  | o :: r =>
      '(s1, a) <- s_exec s o ;;
      '(s2, l) <- s_run s1 r ;; Ok (s2, a :: l)
  end.

Definition init (n : nat) : state := St [] (repeat HNull n).

(** What a handle shows: the tree below it.  Fuelled, for examples. *)
Fixpoint h_show (fuel : nat) (cs : cells) (h : hval) : res value :=
  match fuel with
  | O => Fuel
  | S fuel' =>
      match h with
      | HNull => Ok VNull | HInt z => Ok (VInt z) | HDec d => Ok (VDec d)
      | HBool b => Ok (VBool b) | HStr t => Ok (VStr t)
      | HObj a =>
          match cell_at cs a with
          | Some (_, CObj fs) =>
              l <- (fix go l := match l with
                                | [] => Ok []
                                | (k, m) :: r => v <- h_show fuel' cs m ;; vs <- go r ;; Ok ((k, v) :: vs)
                                end) fs ;; Ok (VObj l)
          | _ => Oob
          end
      | HArr a =>
          match cell_at cs a with
          | Some (_, CArr ms) =>
              l <- (fix go l := match l with
                                | [] => Ok []
                                | m :: r => v <- h_show fuel' cs m ;; vs <- go r ;; Ok (v :: vs)
                                end) ms ;; Ok (VArr l)
          | _ => Oob
          end
      end
  end.
Definition show (s : state) (x : nat) : res value :=
  h <- get_var s x ;; h_show (S (length (heap s))) (heap s) h.
