(** dart::heap iterators as positions for insert, set and erase.  Model only.

    An iterator holds, if anything, the iterator of a std::map or std::vector and a
    function that picks the key or the value (common.h:550-600, dart.h:4870-4960).
    A map iterator denotes a node: here the cell and the node's key.  A vector
    iterator denotes an index.  Iterators do not own anything: when the node, the
    elements or the cell they denote go, they are lost, and using them is [Undef]. *)

From Coq Require Import ZArith List Bool.
From Verif Require Import Base Keys Wire Read Buf SpecOps HeapOps Store.
Import ListNotations.
Open Scope Z_scope.

Inductive place : Type :=
| P_none                                          (* valueless: default-made or moved from *)
| P_field (a : nat) (k : option str) (keys : bool)   (* a node, or the end, of the map in cell [a] *)
| P_elem (a : nat) (i : nat)                      (* an index of the vector in cell [a] *)
| P_lost.

Record cstate : Type := Cs { store : state; its : list place }.

Definition get_it (c : cstate) (i : nat) : res place :=
  match nth_error (its c) i with Some p => Ok p | None => Oob end.
Definition set_it (c : cstate) (i : nat) (p : place) : cstate := Cs (store c) (list_set i p (its c)).

(** What a call does to the iterators there are.  Nodes of a map stay where they are
    until erased; a vector keeps its elements in place unless it changes size (some
    iterators survive even then, which is not used).  No call both erases a node and
    makes another with the same key. *)
Definition surviving (cs cs' : cells) (p : place) : place :=
  match p with
  | P_field a k _ =>
      match cell_at cs' a with
      | Some (_, CObj fs) =>
          match k with
          | Some k => match map_find k fs with Some _ => p | None => P_lost end
          | None => p
          end
      | _ => P_lost
      end
  | P_elem a _ =>
      match cell_at cs a, cell_at cs' a with
      | Some (_, CArr vs), Some (_, CArr vs') => if Nat.eqb (length vs) (length vs') then p else P_lost
      | _, _ => P_lost
      end
  | _ => p
  end.
Definition after (c : cstate) (s : state) : cstate :=
  Cs s (map (surviving (heap (store c)) (heap s)) (its c)).

(** heap/api.tcc:516-600 (begin, end, key_begin, key_end), heap/object.tcc:216-262
    (find, find_key) *)
Definition field_place (a : nat) (fs : list (str * hval)) (j : nat) (keys : bool) : place :=
  P_field a (option_map fst (nth_error fs j)) keys.
Definition whole (s : state) (x : nat) (keys last : bool) : res (err + place) :=
  h <- get_var s x ;;
  match h with
  | HObj _ =>
      f <- fields_of s h ;;
      match f with
      | Some (a, fs) => Ok (inr (field_place a fs (if last then length fs else 0%nat) keys))
      | None => Oob
      end
  | HArr _ =>
      if keys then Ok (inl type_error)
      else
        e <- elements_of s h ;;
        match e with
        | Some (a, vs) => Ok (inr (P_elem a (if last then length vs else 0%nat)))
        | None => Oob
        end
  | _ => Ok (inl type_error)
  end.
Definition found (s : state) (x : nat) (keys : bool) (k : str) : res (err + place) :=
  h <- get_var s x ;;
  f <- fields_of s h ;;
  match f with
  | None => Ok (inl type_error)
  | Some (a, fs) => Ok (inr (field_place a fs (match map_find k fs with Some j => j | None => length fs end) keys))
  end.

(** heap/iterator.tcc:39-56, iterator.tcc:71-97 (++, --): past the end, or before the
    beginning, is undefined. *)
Definition node_index (s : state) (a : nat) (k : option str) : res (nat * list (str * hval)) :=
  match cell_at (heap s) a with
  | Some (_, CObj fs) =>
      match k with
      | None => Ok (length fs, fs)
      | Some k => match map_find k fs with Some j => Ok (j, fs) | None => Undef end
      end
  | _ => Undef
  end.
Definition elems_at (s : state) (a : nat) : res (list hval) :=
  match cell_at (heap s) a with Some (_, CArr vs) => Ok vs | _ => Undef end.
Definition forward (s : state) (p : place) : res place :=
  match p with
  | P_field a (Some k) keys => '(j, fs) <- node_index s a (Some k) ;; Ok (field_place a fs (S j) keys)
  | P_elem a i => vs <- elems_at s a ;; if (i <? length vs)%nat then Ok (P_elem a (S i)) else Undef
  | _ => Undef
  end.
Definition backward (s : state) (p : place) : res place :=
  match p with
  | P_field a k keys =>
      '(j, fs) <- node_index s a k ;;
      match j with S j => Ok (field_place a fs j keys) | O => Undef end
  | P_elem a (S i) => Ok (P_elem a i)
  | _ => Undef
  end.

(** heap/iterator.tcc:72-80, iterator.tcc:99-103 (dereference) *)
Definition target (s : state) (p : place) : res hval :=
  match p with
  | P_field a (Some k) keys =>
      '(j, fs) <- node_index s a (Some k) ;;
      match nth_error fs j with Some (k', h) => Ok (if keys then HStr k' else h) | None => Oob end
  | P_elem a i => vs <- elems_at s a ;; match nth_error vs i with Some h => Ok h | None => Undef end
  | _ => Undef
  end.

(** heap/iterator.tcc:27-36, iterator.tcc:56-69 (==): iterators into different
    containers must not be compared; a map iterator never equals a vector iterator. *)
Definition str_eqb (a b : str) : bool := if list_eq_dec Byte.byte_eq_dec a b then true else false.
Definition key_eqb (a b : option str) : bool :=
  match a, b with Some a, Some b => str_eqb a b | None, None => true | _, _ => false end.
Definition same_place (p q : place) : res bool :=
  match p, q with
  | P_none, P_none => Ok true
  | P_lost, _ | _, P_lost => Undef
  | P_none, _ | _, P_none => Ok false
  | P_field a k _, P_field b l _ => if Nat.eqb a b then Ok (key_eqb k l) else Undef
  | P_elem a i, P_elem b j => if Nat.eqb a b then Ok (Nat.eqb i j) else Undef
  | _, _ => Ok false
  end.

(** heap/object.tcc:323-343 (iterator_key) on an object: a view of the node's key;
    heap/array.tcc:242-262 (iterator_index) on anything else: the distance from the
    first element, which must be one of the same vector. *)
Definition iterator_key (p : place) : res (err + (nat * str)) :=
  match p with
  | P_field a (Some k) _ => Ok (inr (a, k))
  | P_elem _ _ => Ok (inl type_error)
  | _ => Undef
  end.
Definition iterator_index (h : hval) (p : place) : res (err + nat) :=
  match p with
  | P_lost | P_none => Undef
  | P_field _ _ _ => Ok (inl type_error)
  | P_elem a i => match h with HArr b => if Nat.eqb a b then Ok (inr i) else Undef | _ => Ok (inl type_error) end
  end.
(** Reading a key through the view: its node must still be there. *)
Definition view (s : state) (v : nat * str) : res str :=
  let '(a, k) := v in
  match cell_at (heap s) a with
  | Some (_, CObj fs) => match map_find k fs with Some _ => Ok k | None => Undef end
  | _ => Undef
  end.

(** Where in the container of [x], which no other handle shares by now. *)
Definition placed_key (s : state) (x : nat) (k : str) : res place :=
  h <- get_var s x ;; match h with HObj a => Ok (P_field a (Some k) false) | _ => Oob end.
Definition placed_index (s : state) (x : nat) (i : nat) : res place :=
  h <- get_var s x ;; match h with HArr a => Ok (P_elem a i) | _ => Oob end.

(** The result of a call that returns an iterator, assigned to iterator [i]. *)
Definition give (c : cstate) (i : nat) (s : state) (p : place) : cstate := set_it (after c s) i p.

(** heap/api.tcc:156-168 (insert), 204-216 (set) with an iterator: the key or index,
    then the ordinary call ([by_key]), which reads the key after copy_on_write. *)
Definition put_at (call : state -> nat -> value -> src -> res (state * ans))
    (c : cstate) (i x j : nat) (v : src) : res (cstate * ans) :=
  let s := store c in
  p <- get_it c j ;;
  match p with
  | P_none => Ok (c, A_err invalid_argument)
  | _ =>
      h <- get_var s x ;;
      match h with
      | HObj _ =>
          k <- iterator_key p ;;
          match k with
          | inl e => Ok (c, A_err e)
          | inr w =>
              '(s0, _) <- unshare s x ;; key <- view s0 w ;;
              '(s1, a) <- call s x (VStr key) v ;;
              match a with
              | A_unit => q <- placed_key s1 x key ;; Ok (give c i s1 q, A_unit)
              | _ => Ok (after c s1, a)
              end
          end
      | _ =>
          n <- iterator_index h p ;;
          match n with
          | inl e => Ok (c, A_err e)
          | inr n =>
              '(s1, a) <- call s x (VInt (Z.of_nat n)) v ;;
              match a with
              | A_unit => q <- placed_index s1 x n ;; Ok (give c i s1 q, A_unit)
              | _ => Ok (after c s1, a)
              end
          end
      end
  end.

(** heap/api.tcc:230-253 (erase) with heap/object.tcc:302-321 (erase_key_impl): the
    call holds a handle of its own on the container until the key has been found,
    which copy_on_write(2) does not count as sharing.  Whatever is thrown on an
    object becomes a type_error. *)
Definition erase_guarded (s : state) (x : nat) (w : nat * str) (keys : bool) : res (state * place) :=
  h <- get_var s x ;;
  cs0 <- inc (heap s) h ;;
  '(cs, h') <- copy_on_write_over 2 cs0 h ;;
  let s1 := St cs (list_set x h' (vars s)) in
  key <- view s1 w ;;
  f <- fields_of s1 h' ;;
  match f with
  | None => Oob
  | Some (a, fs) =>
      s2 <- drop_s s1 [h] ;;
      match map_find key fs with
      | None => Ok (s2, P_field a None keys)
      | Some j =>
          match nth_error fs j with
          | Some (_, old) =>
              s3 <- put_s s2 a (CObj (list_erase j fs)) ;; s4 <- drop_s s3 [old] ;;
              Ok (s4, field_place a (list_erase j fs) j keys)
          | None => Oob
          end
      end
  end.
Definition keys_of (p : place) : bool := match p with P_field _ _ keys => keys | _ => false end.
Definition erase_at (c : cstate) (i x j : nat) : res (cstate * ans) :=
  let s := store c in
  p <- get_it c j ;;
  match p with
  | P_none => Ok (c, A_err invalid_argument)
  | _ =>
      h <- get_var s x ;;
      match h with
      | HObj _ =>
          k <- iterator_key p ;;
          match k with
          | inl e => Ok (c, A_err type_error)
          | inr w => '(s1, q) <- erase_guarded s x w (keys_of p) ;; Ok (give c i s1 q, A_unit)
          end
      | _ =>
          n <- iterator_index h p ;;
          match n with
          | inl e => Ok (c, A_err e)
          | inr n =>
              (* heap/array.tcc:106-117: past the last element nothing is erased and
                 end() is returned *)
              '(s1, a) <- s_erase_idx s x (Z.of_nat n) ;;
              match a with
              | A_unit =>
                  m <- s_size s1 x ;;
                  q <- placed_index s1 x (match m with Some m => Nat.min n (Z.to_nat m) | None => n end) ;;
                  Ok (give c i s1 q, A_unit)
              | _ => Ok (after c s1, a)
              end
          end
      end
  end.

(** ** Programs: calls on variables, and on iterators numbered from 0 *)
Inductive instr : Type :=
| Call (o : hop)
| Begin (keys : bool) (i x : nat) | End_ (keys : bool) (i x : nat)
| Find_ (keys : bool) (i x : nat) (k : str)
| Next (i : nat) | Prev (i : nat)
| Load (x i : nat)                       (* x = *it *)
| Same (i j : nat) | Holds (i : nat)     (* it == jt, static_cast<bool>(it) *)
| Assign (i j : nat) | Take (i j : nat)  (* it = jt, it = std::move(jt) *)
| Insert_at (i x j : nat) (v : src) | Set_at (i x j : nat) (v : src)   (* it = x.insert(jt, v) *)
| Erase_at (i x j : nat).

Definition assigned (c : cstate) (i : nat) (r : err + place) : cstate * ans :=
  match r with inl e => (c, A_err e) | inr p => (set_it c i p, A_unit) end.

Definition c_exec (c : cstate) (o : instr) : res (cstate * ans) :=
  let s := store c in
  match o with
  | Call o => '(s1, a) <- s_exec s o ;; Ok (after c s1, a)
  | Begin keys i x => r <- whole s x keys false ;; Ok (assigned c i r)
  | End_ keys i x => r <- whole s x keys true ;; Ok (assigned c i r)
  | Find_ keys i x k => r <- found s x keys k ;; Ok (assigned c i r)
  | Next i => p <- get_it c i ;; q <- forward s p ;; Ok (set_it c i q, A_unit)
  | Prev i => p <- get_it c i ;; q <- backward s p ;; Ok (set_it c i q, A_unit)
  | Load x i =>
      p <- get_it c i ;; h <- target s p ;;
      cs <- inc (heap s) h ;; s1 <- overwrite (St cs (vars s)) x h ;; Ok (after c s1, A_unit)
  | Same i j =>
      p <- get_it c i ;; q <- get_it c j ;;
      if Nat.eqb i j then Ok (c, A_bool true) else b <- same_place p q ;; Ok (c, A_bool b)
  | Holds i => p <- get_it c i ;; Ok (c, A_bool (match p with P_none => false | _ => true end))
  | Assign i j => p <- get_it c j ;; Ok (set_it c i p, A_unit)
  | Take i j => p <- get_it c j ;; Ok (if Nat.eqb i j then c else set_it (set_it c j P_none) i p, A_unit)
  | Insert_at i x j v => put_at s_insert c i x j v
  | Set_at i x j v => put_at s_set c i x j v
  | Erase_at i x j => erase_at c i x j
  end.

Fixpoint c_run (c : cstate) (os : list instr) : res (cstate * list ans) :=
  match os with
  | [] => Ok (c, [])
  | o :: r =>
      '(c1, a) <- c_exec c o ;;
      '(c2, l) <- c_run c1 r ;; Ok (c2, a :: l)
  end.

Definition c_init (n m : nat) : cstate := Cs (init n) (repeat P_none m).

(** The usual way to erase the members that satisfy a condition:
    [for (i = x.begin(); i != x.end();) if (cond(t = *i)) i = x.erase(i); else ++i;]
    [depth] bounds how deep members are looked into. *)
Fixpoint erase_loop (fuel depth : nat) (cond : value -> bool) (x t i j : nat) (c : cstate) : res cstate :=
  match fuel with
  | O => Fuel
  | S fuel' =>
      '(c1, _) <- c_exec c (End_ false j x) ;;
      '(c2, b) <- c_exec c1 (Same i j) ;;
      match b with
      | A_bool true => Ok c2
      | _ =>
          '(c3, _) <- c_exec c2 (Load t i) ;;
          h <- get_var (store c3) t ;;
          v <- h_show depth (heap (store c3)) h ;;
          '(c4, _) <- c_exec c3 (if cond v then Erase_at i x i else Next i) ;;
          erase_loop fuel' depth cond x t i j c4
      end
  end.
Definition erase_if (fuel depth : nat) (cond : value -> bool) (x t i j : nat) (c : cstate) : res cstate :=
  '(c1, _) <- c_exec c (Begin false i x) ;; erase_loop fuel depth cond x t i j c1.
