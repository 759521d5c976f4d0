(** Model of transmogrify: a copy of a value over another reference counter. There are
    two stores, one per counter. No proofs here. *)

From Coq Require Import ZArith List Bool.
From Verif Require Import Base Keys Wire Read Buf SpecOps HeapOps Store.
Import ListNotations.
Open Scope Z_scope.

(** A local variable of the new side, and the end of the last one's life. *)
Definition local (s : state) (h : hval) : state := St (heap s) (vars s ++ [h]).
Definition leave (s : state) : res state :=
  cs <- drop (heap s) [last (vars s) HNull] ;; Ok (St cs (removelast (vars s))).
(** Returning the last local variable. *)
Definition give (s : state) : state * hval := (St (heap s) (removelast (vars s)), last (vars s) HNull).

Definition thrown (a : ans) : res unit :=
  match a with A_unit => Ok tt | A_err e => Throw e | _ => Oob end.

(** heap/api.tcc:323-358 (transmogrify). The source is const; its container is read
    through iterators, and dereferencing one makes a copy of the handle
    (heap/detail.tcc, Cursor.v) that lives to the end of the statement. The result grows
    by add_field (heap/object.tcc:48-53) and push_back (heap/array.tcc:76-81), given
    a temporary each. What an exception leaves behind is not modelled; none is
    thrown on the values a heap can hold. *)
Fixpoint transmogrify_n (fuel : nat) (old : cells) (h : hval) (s : state) : res (cells * state * hval) :=
  match fuel with
  | O => Fuel
  | S fuel' =>
      match h with
      | HObj a =>
          match cell_at old a with
          | Some (_, CObj fs) =>
              let '(cs, b) := alloc (heap s) (CObj []) in
              let x := length (vars s) in
              '(old', s') <-
                (fix go (old : cells) (s : state) (l : list (str * hval)) : res (cells * state) :=
                   match l with
                   | [] => Ok (old, s)
                   | (k, m) :: r =>
                       old1 <- inc old m ;;
                       ' t <- transmogrify_n fuel' old1 m s ;;
                       let '(old2, s1, g) := t in
                       ' u <- s_insert (local s1 g) x (VStr k) (Rref (S x)) ;;
                       _ <- thrown (snd u) ;;
                       s3 <- leave (fst u) ;;
                       old3 <- drop old2 [m] ;;
                       go old3 s3 r
                   end) old (local (St cs (vars s)) (HObj b)) fs ;;
              let '(s2, g) := give s' in Ok (old', s2, g)
          | _ => Oob
          end
      | HArr a =>
          match cell_at old a with
          | Some (_, CArr ms) =>
              let '(cs, b) := alloc (heap s) (CArr []) in
              let x := length (vars s) in
              '(old', s') <-
                (fix go (old : cells) (s : state) (l : list hval) : res (cells * state) :=
                   match l with
                   | [] => Ok (old, s)
                   | m :: r =>
                       old1 <- inc old m ;;
                       ' t <- transmogrify_n fuel' old1 m s ;;
                       let '(old2, s1, g) := t in
                       ' u <- s_push_back (local s1 g) x (Rref (S x)) ;;
                       _ <- thrown (snd u) ;;
                       s3 <- leave (fst u) ;;
                       old3 <- drop old2 [m] ;;
                       go old3 s3 r
                   end) old (local (St cs (vars s)) (HArr b)) ms ;;
              let '(s2, g) := give s' in Ok (old', s2, g)
          | _ => Oob
          end
      | _ => Ok (old, s, h)
      end
  end.

(** No cell contains itself, so the recursion is at most as deep as there are cells. *)
Definition transmogrify (old : cells) (h : hval) (s : state) : res (cells * state * hval) :=
  transmogrify_n (S (length old)) old h s.

(** buffer/api.tcc:185-189, with 249-254 and 266-282 (dup_bytes) and dart.h:8064-8067
    (from a unique_ptr): the bytes of the object copied to an aligned block at [addr]. *)
Definition b_transmogrify (addr : Z) (m : mem) (e : elem) : res (mem * elem) :=
  bytes <- b_get_bytes m e ;; Ok (bytes, root).

(** packet/api.tcc:235-242: the same, by form. *)
Inductive form : Type := In_cells (h : hval) | In_bytes (bs : Z) (m : mem) (e : elem).
Definition p_transmogrify (old : cells) (p : form) (s : state) (addr : Z) : res (cells * state * form) :=
  match p with
  | In_cells h => ' t <- transmogrify old h s ;; let '(old', s', g) := t in Ok (old', s', In_cells g)
  | In_bytes _ m e => '(m', e') <- b_transmogrify addr m e ;; Ok (old, s, In_bytes addr m' e')
  end.
