(** Comparing heaps, buffers and packets.  Model only. *)

From Coq Require Import ZArith List Bool.
From Verif Require Import Base Keys Dec Wire Read Buf HeapOps Packet.
Import ListNotations.
Open Scope Z_scope.

(** ** heap == heap: conversion_traits.h:219-246

    What is compared are variables; two variables at one address are equal without
    looking further.  The elements of an aggregate are variables inside its (shared)
    storage, so elements at one position of one storage are the same variable: a
    heap value here carries the identity of each storage. *)
Inductive hv : Type :=
| HObj (st : Z) (fs : list (str * hv))
| HArr (st : Z) (vs : list hv)
| HStr (s : str) | HInt (z : Z) | HDec (d : Z) | HBool (b : bool) | HNull.

Fixpoint erase (x : hv) : value :=
  match x with
  | HObj _ fs => VObj (map (fun kv => (fst kv, erase (snd kv))) fs)
  | HArr _ vs => VArr (map erase vs)
  | HStr s => VStr s | HInt z => VInt z | HDec d => VDec d | HBool b => VBool b | HNull => VNull
  end.

(** common.h:308-327 (operator == of the string layouts): the lengths, then strcmp.
    That the layouts compute this is HeapStrFacts.v:held_eqb. *)
Definition str_same (s t : str) : bool :=
  (zlen s =? zlen t) && (if list_eq_dec Byte.byte_eq_dec (cstr s) (cstr t) then true else false).

(** std::map and std::vector operator ==: the sizes, then the elements in step. *)
Definition all2 {A} (f : A -> A -> bool) := fix go (l r : list A) : bool :=
  match l, r with
  | [], [] => true
  | a :: l', b :: r' => f a b && go l' r'
  | _, _ => false
  end.

(** [same] says whether the two variables are one.  common.tcc:127-138
    (typeless_comparator): values of different alternatives are different. *)
Fixpoint hcmp (same : bool) (x y : hv) {struct x} : bool :=
  if same then true
  else
    match x, y with
    | HNull, HNull => true
    | HObj s fs, HObj t gs =>
        (zlen fs =? zlen gs) &&
        (fix go (l : list (str * hv)) (r : list (str * hv)) {struct l} : bool :=
           match l, r with
           | [], [] => true
           | (k, a) :: l', (j, b) :: r' =>
               ((s =? t) || str_same k j) && hcmp (s =? t) a b && go l' r'
           | _, _ => false
           end) fs gs
    | HArr s vs, HArr t ws =>
        (zlen vs =? zlen ws) &&
        (fix go (l r : list hv) {struct l} : bool :=
           match l, r with
           | [], [] => true
           | a :: l', b :: r' => hcmp (s =? t) a b && go l' r'
           | _, _ => false
           end) vs ws
    | HStr s, HStr t => str_same s t
    | HInt a, HInt b => a =? b
    | HDec a, HDec b => ieee_eqb a b
    | HBool a, HBool b => Bool.eqb a b
    | _, _ => false
    end.

(** ** buffer == buffer: conversion_traits.h:247-272

    The element pointers are compared as addresses; then the bytes, find_sizeof
    giving how many. *)
Definition bcmp (bs : Z) (m : mem) (e : elem) (bs' : Z) (m' : mem) (e' : elem) : res bool :=
  match b_type e, b_type e' with
  | T_null, T_null => Ok true
  | _, _ =>
      if negb (utype_eqb (b_type e) (b_type e')) then Ok false
      else
        match snd e, snd e' with
        | Some o, Some o' =>
            if bs + o =? bs' + o' then Ok true
            else
              n <- find_sizeof m (fst e) o ;;
              n' <- find_sizeof m' (fst e') o' ;;
              if n =? n' then
                a <- rd m o n ;; b <- rd m' o' n ;;
                Ok (if list_eq_dec Byte.byte_eq_dec a b then true else false)
              else Ok false
        | None, None => Ok true
        | _, _ => Oob
        end
  end.

(** ** heap against buffer, packet against either: conversion_traits.h:285-330
    (generic_compare), 1115-1149 (dispatch)

    The finalized operand is the one looked up in.  The array loop counts with a
    32-bit unsigned; arrays hold less than 2^32 elements. *)
Definition p_deref (p : packet) (i : Z) : res packet :=
  visit p (fun v => h_deref v (Z.to_nat i)) (fun bs m e => b_deref bs m e i).
Definition p_deref_key (p : packet) (i : Z) : res packet :=
  visit p (fun v => h_deref_key v (Z.to_nat i)) (fun _ m e => b_deref_key m e i).

(** A loop over positions that stops at the first difference. *)
Fixpoint all_from (f : Z -> res bool) (i : Z) (n : nat) : res bool :=
  match n with
  | O => Ok true
  | S n' => q <- f i ;; if q : bool then all_from f (i + 1) n' else Ok false
  end.

Definition value_strv (v : value) : res str := match v with VStr s => Ok s | _ => Throw type_error end.

Fixpoint gcmp (fuel : nat) (p q : packet) : res bool :=
  match fuel with
  | O => Fuel
  | S fuel' =>
      let '(l, r) := if is_finalized p then (p, q) else (q, p) in
      if negb (utype_eqb (p_type l) (p_type r)) then Ok false
      else
        match p_type l with
        | T_object =>
            n <- p_size l ;; n' <- p_size r ;;
            if negb (n =? n') then Ok false
            else all_from (fun i =>
              x <- p_deref r i ;; ke <- p_deref_key r i ;;
              kv <- p_scalar T_string ke ;; k <- value_strv kv ;;
              y <- p_get l k ;; gcmp fuel' x y) 0 (Z.to_nat n')
        | T_array =>
            n <- p_size l ;; n' <- p_size r ;;
            if negb (n =? n') then Ok false
            else all_from (fun i =>
              x <- p_get_idx l i ;; y <- p_get_idx r i ;; gcmp fuel' x y) 0 (Z.to_nat n)
        | T_null => Ok true
        | t =>
            x <- p_scalar t l ;; y <- p_scalar t r ;;
            Ok (match x, y with
                | VStr a, VStr b => if list_eq_dec Byte.byte_eq_dec a b then true else false
                | VInt a, VInt b => a =? b
                | VDec a, VDec b => ieee_eqb a b
                | VBool a, VBool b => Bool.eqb a b
                | _, _ => false
                end)
        end
  end.

(** ** packet == packet: conversion_traits.h:273-283: the operation for the two
    representations held. *)
Inductive lpacket : Type := LHeap (x : hv) | LBuf (bs : Z) (m : mem) (e : elem).

Definition forget (p : lpacket) : packet :=
  match p with LHeap x => PHeap (erase x) | LBuf bs m e => PBuf bs m e end.

Definition pcmp (fuel : nat) (p q : lpacket) : res bool :=
  match p, q with
  | LHeap x, LHeap y => Ok (hcmp false x y)
  | LBuf bs m e, LBuf bs' m' e' => bcmp bs m e bs' m' e'
  | _, _ => gcmp fuel (forget p) (forget q)
  end.
