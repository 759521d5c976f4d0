(** heap::erase(iterator) when the memory its copy_on_write asks for may not be
    there.  Model only; see Fail.v. *)

From Coq Require Import ZArith List Bool.
From Verif Require Import Base Keys Wire Read Buf SpecOps HeapOps Store Cursor Fail.
Import ListNotations.
Open Scope Z_scope.

(** heap/object.tcc:304-322 (erase_key_impl): after copy_on_write(2); [h] is the
    safeguard and [h'] the container of [x] by now. *)
Definition erased_in (s1 : state) (h h' : hval) (w : nat * str) (keys : bool) : res (state * place) :=
  key <- view s1 w ;;
  f <- fields_of s1 h' ;;
  match f with
  | None => Oob
  | Some (a, fs) =>
      s2 <- drop_s s1 [h] ;;
      match map_find key fs with
      | None => Ok (s2, P_field a None keys)
      | Some j =>
          match nth_error fs j with
          | Some (_, old) =>
              s3 <- put_s s2 a (CObj (list_erase j fs)) ;; s4 <- drop_s s3 [old] ;;
              Ok (s4, field_place a (list_erase j fs) j keys)
          | None => Oob
          end
      end
  end.
(** When it is refused the safeguard is given up by the unwinding. *)
Definition erase_guarded_may (p : counter) (m : memory) (s : state) (x : nat) (w : nat * str) (keys : bool)
  : res (memory * state * option place * list cell) :=
  h <- get_var s x ;;
  cs0 <- inc (heap s) h ;;
  '(m1, cs, o, l) <- cow_may_over 2 p m cs0 h ;;
  match o with
  | None => s1 <- drop_s (St cs (vars s)) [h] ;; Ok (m1, s1, None, l)
  | Some h' => '(s1, q) <- erased_in (St cs (list_set x h' (vars s))) h h' w keys ;; Ok (m1, s1, Some q, l)
  end.

(** heap/api.tcc:230-253 (erase): on an object everything is caught, std::bad_alloc
    included, and a type_error is thrown instead; on an array nothing is caught. *)
Definition m_erase_at (p : counter) (m : memory) (c : cstate) (i x j : nat)
  : res (memory * cstate * option ans * list cell) :=
  let s := store c in
  it <- get_it c j ;;
  match it with
  | P_none => Ok (m, c, Some (A_err invalid_argument), [])
  | _ =>
      h <- get_var s x ;;
      match h with
      | HObj _ =>
          k <- iterator_key it ;;
          match k with
          | inl e => Ok (m, c, Some (A_err type_error), [])
          | inr w =>
              '(m1, s1, q, l) <- erase_guarded_may p m s x w (keys_of it) ;;
              match q with
              | Some q => Ok (m1, give c i s1 q, Some A_unit, l)
              | None => Ok (m1, after c s1, Some (A_err type_error), l)
              end
          end
      | _ =>
          n <- iterator_index h it ;;
          match n with
          | inl e => Ok (m, c, Some (A_err e), [])
          | inr n =>
              '(m1, s1, a, l) <- m_erase_idx p m s x (Z.of_nat n) ;;
              match a with
              | Some A_unit =>
                  z <- s_size s1 x ;;
                  q <- placed_index s1 x (match z with Some z => Nat.min n (Z.to_nat z) | None => n end) ;;
                  Ok (m1, give c i s1 q, Some A_unit, l)
              | _ => Ok (m1, after c s1, a, l)
              end
          end
      end
  end.
