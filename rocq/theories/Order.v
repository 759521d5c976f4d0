(** The key comparator in all its forms: what std::map, the object constructors and
    the vtable search compare keys with. *)

From Coq Require Import ZArith List Bool.
From Verif Require Import Base Keys Wire Read Buf HeapOps Packet Compare.
Import ListNotations.
Open Scope Z_scope.

(** common.h:463-469, common.tcc:24-119: an argument is a string_view, a packet of
    any kind, or a basic_pair (common.h:441-461) of packets. *)
Inductive operand := View (s : str) | Val (p : packet) | Pair (key value : packet).

(** packet/string.tcc:21-23 (strv) on whichever representation it is *)
Definition p_strv (p : packet) : res str := v <- p_scalar T_string p ;; value_strv v.

(** The last two lines of every overload; the views are fetched only when the sizes agree. *)
Definition settle (lhs_size rhs_size : Z) (same : res bool) : res bool :=
  if negb (lhs_size =? rhs_size) then Ok (lhs_size <? rhs_size) else same.

(** common.tcc:26-32, 34-41, 43-50, 52-59, 61-68, 70-80, 82-93, 95-106, 108-119, in
    that order: nine overloads. Of the two strv() calls in one expression C++ leaves
    the order open; both fail in the same way. *)
Definition compare_keys (lhs rhs : operand) : res bool :=
  match lhs, rhs with
  | View l, View r => settle (zlen l) (zlen r) (Ok (sv_ltb l r))
  | Val l, View r => n <- p_size l ;; settle n (zlen r) (s <- p_strv l ;; Ok (sv_ltb s r))
  | View l, Val r => n <- p_size r ;; settle (zlen l) n (s <- p_strv r ;; Ok (sv_ltb l s))
  | Pair k _, View r => n <- p_size k ;; settle n (zlen r) (s <- p_strv k ;; Ok (sv_ltb s r))
  | View l, Pair k _ => n <- p_size k ;; settle (zlen l) n (s <- p_strv k ;; Ok (sv_ltb l s))
  | Val l, Val r =>
      n <- p_size l ;; n' <- p_size r ;; settle n n' (s <- p_strv l ;; t <- p_strv r ;; Ok (sv_ltb s t))
  | Pair k _, Val r =>
      n <- p_size k ;; n' <- p_size r ;; settle n n' (s <- p_strv k ;; t <- p_strv r ;; Ok (sv_ltb s t))
  | Val l, Pair k _ =>
      n <- p_size l ;; n' <- p_size k ;; settle n n' (s <- p_strv l ;; t <- p_strv k ;; Ok (sv_ltb s t))
  | Pair k _, Pair k' _ =>
      n <- p_size k ;; n' <- p_size k' ;; settle n n' (s <- p_strv k ;; t <- p_strv k' ;; Ok (sv_ltb s t))
  end.
