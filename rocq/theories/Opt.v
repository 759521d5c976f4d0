(** Model of dart::optional (support/optional.h, support/optional.tcc), which stands
    in for std::optional before C++17: raw storage, a flag, and the objects that
    live in the storage. No proofs here. *)

From Coq Require Import ZArith List Bool.
From Verif Require Import Base HeapOps SpecOpt.
Import ListNotations.

(** Every object of the wrapped type ever constructed, in order; [None] once
    destroyed. *)
Notation objects := (list (option content)).

(** optional.h:339-340: the flag, and which object lives in the storage. That the
    two agree is not part of the type. *)
Record opt : Type := Opt { is_set : bool; store : option nat }.
(** Variables; [None] is memory no optional lives in. *)
Record ostate : Type := OSt { objs : objects; vars : list (option opt) }.

Definition o_ret (A : Type) : Type := res (ostate * (A + unit)).

(** The wrapped type: reading and destroying an object that is not there is undefined. *)
Definition t_read (l : objects) (i : option nat) : res content :=
  match i with
  | Some i => match nth_error l i with Some (Some c) => Ok c | _ => Undef end
  | None => Undef
  end.
Definition t_write (l : objects) (i : option nat) (c : content) : res objects :=
  _ <- t_read l i ;; match i with Some i => Ok (list_set i (Some c) l) | None => Undef end.
Definition t_kill (l : objects) (i : option nat) : res objects :=
  _ <- t_read l i ;; match i with Some i => Ok (list_set i None l) | None => Undef end.

(** An argument after overload resolution: a value, or a reference to an object and
    whether it may be moved from. *)
Inductive given : Type := G_temp (c : content) | G_ref (i : option nat) (moves : bool).
Definition g_read (l : objects) (g : given) : res content :=
  match g with G_temp c => Ok c | G_ref i _ => t_read l i end.
Definition g_moved (l : objects) (g : given) : res objects :=
  match g with G_ref i true => t_write l i Hollow | _ => Ok l end.

(** Placement new: [inr tt] is the constructor's exception. *)
Definition t_new (l : objects) (g : given) (t : luck) : res (objects * (nat + unit)) :=
  c <- g_read l g ;;
  match t with
  | Throws _ => Ok (l, inr tt)
  | Works => l1 <- g_moved l g ;; Ok (l1 ++ [Some c], inl (length l))
  end.
(** The wrapped type's operator =. *)
Definition t_assign (l : objects) (i : option nat) (g : given) (t : luck) : res (objects * (unit + unit)) :=
  c <- g_read l g ;;
  match t with
  | Throws w => l1 <- t_write l i w ;; Ok (l1, inr tt)
  | Works => l1 <- t_write l i c ;; l2 <- g_moved l1 g ;; Ok (l2, inl tt)
  end.

(** optional.tcc:271-277, construct: the flag is set last. *)
Definition construct (l : objects) (o : opt) (g : given) (t : luck) : res (objects * opt * bool) :=
  '(l1, r) <- t_new l g t ;;
  match r with
  | inl i => Ok (l1, Opt true (Some i), true)
  | inr _ => Ok (l1, o, false)
  end.
(** optional.tcc:279-284, assign *)
Definition assign (l : objects) (o : opt) (g : given) (t : luck) : res (objects * opt * bool) :=
  '(l1, r) <- t_assign l (store o) g t ;;
  Ok (l1, o, match r with inl _ => true | inr _ => false end).
(** optional.tcc:286-291, destroy *)
Definition destroy (l : objects) (o : opt) : res (objects * opt) :=
  l1 <- t_kill l (store o) ;; Ok (l1, Opt false None).

Definition var {A} (s : ostate) (x : nat) (k : opt -> res A) : res A :=
  match nth_error (vars s) x with Some (Some o) => k o | _ => Undef end.
Definition raw {A} (s : ostate) (x : nat) (k : res A) : res A :=
  match nth_error (vars s) x with Some None => k | _ => Undef end.
Definition put (s : ostate) (l : objects) (x : nat) (o : option opt) : ostate :=
  OSt l (list_set x o (vars s)).

Definition said (ok : bool) : oans := if ok then O_unit else O_thrown.
(** The end of a constructor: if it threw there is no variable. *)
Definition built (s : ostate) (x : nat) (r : res (objects * opt * bool)) : res (ostate * oans) :=
  '(l, o, ok) <- r ;; Ok (put s l x (if ok then Some o else None), said ok).
(** The end of an assignment. *)
Definition kept (s : ostate) (x : nat) (r : res (objects * opt * bool)) : res (ostate * oans) :=
  '(l, o, ok) <- r ;; Ok (put s l x (Some o), said ok).
Definition wiped (s : ostate) (x : nat) (o : opt) : res (ostate * oans) :=
  if is_set o then '(l, o1) <- destroy (objs s) o ;; Ok (put s l x (Some o1), O_unit) else Ok (s, O_unit).

(** optional.tcc:293-301: access() does not look at the flag. *)
Definition give {A} (s : ostate) (a : arg) (k : given -> res A) : res A :=
  match a with
  | Temp c => k (G_temp c)
  | Ref y => var s y (fun o => k (G_ref (store o) false))
  | Mov y => var s y (fun o => k (G_ref (store o) true))
  end.

(** A returned temporary: constructed, read by the caller, destroyed. *)
Definition returned (s : ostate) (g : given) (t : luck) : res (ostate * oans) :=
  '(l, r) <- t_new (objs s) g t ;;
  match r with
  | inl i => c <- t_read l (Some i) ;; l1 <- t_kill l (Some i) ;; Ok (OSt l1 (vars s), O_content c)
  | inr _ => Ok (OSt l (vars s), O_thrown)
  end.

Definition empty : opt := Opt false None.

Definition o_exec (s : ostate) (o : oop) : res (ostate * oans) :=
  match o with
  (* optional.h:148-149 *)
  | C_null x => raw s x (Ok (put s (objs s) x (Some empty), O_unit))
  (* optional.tcc:21-24, and the converting constructors 31-61 *)
  | C_copy x y t =>
      raw s x (var s y (fun p =>
        if is_set p then built s x (construct (objs s) empty (G_ref (store p) false) t)
        else Ok (put s (objs s) x (Some empty), O_unit)))
  (* optional.tcc:26-29, 61-91 *)
  | C_move x y t =>
      raw s x (var s y (fun p =>
        if is_set p then built s x (construct (objs s) empty (G_ref (store p) true) t)
        else Ok (put s (objs s) x (Some empty), O_unit)))
  (* optional.tcc:91-125 *)
  | C_val x a t => raw s x (give s a (fun g => built s x (construct (objs s) empty g t)))
  (* optional.tcc:127-130 *)
  | D_var x =>
      var s x (fun p =>
        if is_set p then '(l, _) <- destroy (objs s) p ;; Ok (put s l x None, O_unit)
        else Ok (put s (objs s) x None, O_unit))
  (* optional.tcc:132-136, 258-261 *)
  | A_null x | Reset x => var s x (fun p => wiped s x p)
  (* optional.tcc:138-145, 164-171 *)
  | A_copy x y t =>
      var s x (fun p => var s y (fun q =>
        if Nat.eqb x y then Ok (s, O_unit)
        else if is_set q && is_set p then kept s x (assign (objs s) p (G_ref (store q) false) t)
        else if is_set q then kept s x (construct (objs s) p (G_ref (store q) false) t)
        else wiped s x p))
  (* optional.tcc:147-154, 173-180 *)
  | A_move x y t =>
      var s x (fun p => var s y (fun q =>
        if Nat.eqb x y then Ok (s, O_unit)
        else if is_set q && is_set p then kept s x (assign (objs s) p (G_ref (store q) true) t)
        else if is_set q then kept s x (construct (objs s) p (G_ref (store q) true) t)
        else wiped s x p))
  (* optional.tcc:156-162 *)
  | A_val x a t =>
      var s x (fun p => give s a (fun g =>
        if is_set p then kept s x (assign (objs s) p g t) else kept s x (construct (objs s) p g t)))
  (* optional.tcc:263-269: what is there is destroyed before the arguments are read *)
  | Emplace x a t =>
      var s x (fun p => give s a (fun g =>
        '(l, p1) <- (if is_set p then destroy (objs s) p else Ok (objs s, p)) ;;
        kept s x (construct l p1 g t)))
  (* optional.tcc:212-220 *)
  | Has x => var s x (fun p => Ok (s, O_bool (is_set p)))
  (* optional.tcc:182-210 *)
  | Deref x => var s x (fun p => c <- t_read (objs s) (store p) ;; Ok (s, O_content c))
  (* optional.tcc:222-232; the rvalue forms 234-244 do not compile when used *)
  | Value x =>
      var s x (fun p =>
        if is_set p then c <- t_read (objs s) (store p) ;; Ok (s, O_content c) else Ok (s, O_bad_access))
  (* optional.tcc:246-250 *)
  | Value_or x a t =>
      var s x (fun p => give s a (fun g =>
        returned s (if is_set p then G_ref (store p) false else g) t))
  (* optional.tcc:252-256 *)
  | Value_or_move x a t =>
      var s x (fun p => give s a (fun g =>
        returned s (if is_set p then G_ref (store p) true else g) t))
  end.

Fixpoint o_run (s : ostate) (ops : list oop) : res (ostate * list oans) :=
  match ops with
  | [] => Ok (s, [])
  | o :: r => '(s1, a) <- o_exec s o ;; '(s2, l) <- o_run s1 r ;; Ok (s2, a :: l)
  end.

Definition o_start (n : nat) : ostate := OSt [] (repeat None n).

(** The comparisons (optional.h:344-608), over the wrapped types' own operators. *)
Section Compare.
  Context {A B : Type} (eq lt le gt ge : A -> B -> bool).
  (* 350-371, 440-467, 534-561 *)
  Definition o_eq (l : option A) (r : option B) : bool :=
    match l, r with Some a, Some c => eq a c | None, None => true | _, _ => false end.
  Definition o_ne (l : option A) (r : option B) : bool := negb (o_eq l r).
  Definition o_lt (l : option A) (r : option B) : bool :=
    match r, l with None, _ => false | _, None => true | Some c, Some a => lt a c end.
  Definition o_le (l : option A) (r : option B) : bool :=
    match l, r with None, _ => true | _, None => false | Some a, Some c => le a c end.
  Definition o_gt (l : option A) (r : option B) : bool :=
    match l, r with None, _ => false | _, None => true | Some a, Some c => gt a c end.
  Definition o_ge (l : option A) (r : option B) : bool :=
    match r, l with None, _ => true | _, None => false | Some c, Some a => ge a c end.

  (* an optional against a bare value: 377-412, 470-503, 564-597 *)
  Definition ov_eq (l : option A) (c : B) : bool := match l with None => false | Some a => eq a c end.
  Definition ov_ne (l : option A) (c : B) : bool := negb (ov_eq l c).
  Definition ov_lt (l : option A) (c : B) : bool := match l with None => true | Some a => lt a c end.
  Definition ov_le (l : option A) (c : B) : bool := match l with None => true | Some a => le a c end.
  Definition ov_gt (l : option A) (c : B) : bool := match l with Some a => gt a c | None => false end.
  Definition ov_ge (l : option A) (c : B) : bool := match l with Some a => ge a c | None => false end.

  (* a bare value against an optional: 388-417, 481-514, 575-608 *)
  Definition vo_lt (a : A) (r : option B) : bool := match r with None => false | Some c => lt a c end.
  Definition vo_le (a : A) (r : option B) : bool := match r with None => false | Some c => le a c end.
  Definition vo_gt (a : A) (r : option B) : bool := match r with Some c => gt a c | None => true end.
  Definition vo_ge (a : A) (r : option B) : bool := match r with Some c => ge a c | None => true end.

  (* nullopt: 420-435, 516-531 *)
  Definition on_eq (l : option A) : bool := match l with Some _ => false | None => true end.
  Definition on_lt (l : option A) : bool := false.
  Definition no_lt (r : option B) : bool := match r with Some _ => true | None => false end.
  Definition on_le (l : option A) : bool := match l with Some _ => false | None => true end.
  Definition no_le (r : option B) : bool := true.
End Compare.
(* 395-397, 425-427: these ask the other way round *)
Definition vo_eq {A B} (qe : B -> A -> bool) (a : A) (r : option B) : bool := ov_eq qe r a.
Definition no_eq {B} (r : option B) : bool := on_eq r.
