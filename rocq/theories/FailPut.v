(** heap::insert(iterator, ...) and heap::set(iterator, ...) when memory may not be
    there.  Model only; see Fail.v. *)

From Coq Require Import ZArith List Bool.
From Verif Require Import Base Keys Wire Read Buf SpecOps HeapOps Store Cursor Fail FailAt.
Import ListNotations.
Open Scope Z_scope.

(** heap/api.tcc:156-168 (insert), 204-216 (set): the key or index, then the ordinary
    call; nothing is caught.  The key is read after copy_on_write: that its node is
    still there is checked as if memory were there. *)
Definition m_put_at (call : state -> nat -> value -> src -> res aftermath) (m : memory)
    (c : cstate) (i x j : nat) (v : src) : res (memory * cstate * option ans * list cell) :=
  let s := store c in
  it <- get_it c j ;;
  match it with
  | P_none => Ok (m, c, Some (A_err invalid_argument), [])
  | _ =>
      h <- get_var s x ;;
      match h with
      | HObj _ =>
          k <- iterator_key it ;;
          match k with
          | inl e => Ok (m, c, Some (A_err e), [])
          | inr w =>
              '(s0, _) <- unshare s x ;; key <- view s0 w ;;
              '(m1, s1, a, l) <- call s x (VStr key) v ;;
              match a with
              | Some A_unit => q <- placed_key s1 x key ;; Ok (m1, give c i s1 q, Some A_unit, l)
              | _ => Ok (m1, after c s1, a, l)
              end
          end
      | _ =>
          n <- iterator_index h it ;;
          match n with
          | inl e => Ok (m, c, Some (A_err e), [])
          | inr n =>
              '(m1, s1, a, l) <- call s x (VInt (Z.of_nat n)) v ;;
              match a with
              | Some A_unit => q <- placed_index s1 x n ;; Ok (m1, give c i s1 q, Some A_unit, l)
              | _ => Ok (m1, after c s1, a, l)
              end
          end
      end
  end.
(** The three calls that take an iterator. *)
Definition m_at (p : counter) (m : memory) (c : cstate) (o : instr) : res (memory * cstate * option ans * list cell) :=
  match o with
  | Insert_at i x j v => m_put_at (m_insert p m) m c i x j v
  | Set_at i x j v => m_put_at (m_set p m) m c i x j v
  | Erase_at i x j => m_erase_at p m c i x j
  | _ => '(c1, a) <- c_exec c o ;; Ok (m, c1, Some a, [])
  end.
