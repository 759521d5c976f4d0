(** What programs over optional values should observe: each variable holds a
    value, holds nothing, or does not exist. Specification only. *)

From Coq Require Import ZArith List Bool.
Import ListNotations.

(** What an object of the wrapped type holds: something, or whatever being moved
    from leaves behind. *)
Inductive content : Type := Full (z : Z) | Hollow.

(** How the wrapped type's own constructor or assignment, if the operation calls
    one, goes: it may throw, and an assignment that throws leaves [wreck] behind. *)
Inductive luck : Type := Works | Throws (wreck : content).

(** What is handed to a constructor, an assignment, emplace or value_or: a temporary,
    a reference to what variable [y] holds, or the same as an rvalue. *)
Inductive arg : Type := Temp (c : content) | Ref (y : nat) | Mov (y : nat).

Inductive oop : Type :=
| C_null (x : nat)                      (* optional<T> x; *)
| C_copy (x y : nat) (t : luck)         (* optional<T> x(y); *)
| C_move (x y : nat) (t : luck)         (* optional<T> x(std::move(y)); *)
| C_val (x : nat) (a : arg) (t : luck)  (* optional<T> x(a); *)
| D_var (x : nat)                       (* the end of x's life *)
| A_null (x : nat)                      (* x = nullopt *)
| A_copy (x y : nat) (t : luck)         (* x = y *)
| A_move (x y : nat) (t : luck)         (* x = std::move(y) *)
| A_val (x : nat) (a : arg) (t : luck)  (* x = a *)
| Reset (x : nat)
| Emplace (x : nat) (a : arg) (t : luck)
| Has (x : nat)                         (* bool(x) *)
| Deref (x : nat)                       (* *x *)
| Value (x : nat)                       (* x.value() *)
| Value_or (x : nat) (a : arg) (t : luck)       (* x.value_or(a) *)
| Value_or_move (x : nat) (a : arg) (t : luck). (* std::move(x).value_or(a) *)

Inductive oans : Type := O_unit | O_bool (b : bool) | O_content (c : content) | O_bad_access | O_thrown.

(** A variable: not there, empty, or holding something. *)
Notation ovar := (option (option content)).
Notation ospec := (list ovar).

Definition set_var (s : ospec) (x : nat) (v : ovar) : ospec := firstn x s ++ v :: skipn (S x) s.
Definition of_var (s : ospec) (x : nat) : option content :=
  match nth x s None with Some h => h | None => None end.
(** A variable something was moved out of still holds something. *)
Definition hollow (s : ospec) (x : nat) : ospec :=
  match of_var s x with Some _ => set_var s x (Some (Some Hollow)) | None => s end.

Definition arg_val (s : ospec) (a : arg) : content :=
  match a with
  | Temp c => c
  | Ref y | Mov y => match of_var s y with Some c => c | None => Hollow end
  end.
Definition arg_after (s : ospec) (a : arg) : ospec := match a with Mov y => hollow s y | _ => s end.

(** Giving [x], which is empty, the value [c]; the source then shows
    what [after] says. When it throws, [x] is what [failed] says and the source
    keeps its value. *)
Definition s_fill (s : ospec) (x : nat) (c : content) (t : luck) (failed : ovar)
    (after : ospec -> ospec) : ospec * oans :=
  match t with
  | Works => (set_var (after s) x (Some (Some c)), O_unit)
  | Throws _ => (set_var s x failed, O_thrown)
  end.
(** Assigning to what [x] holds. An object that is moved onto itself is hollow. *)
Definition s_over (s : ospec) (x : nat) (c : content) (t : luck)
    (after : ospec -> ospec) : ospec * oans :=
  match t with
  | Works => (after (set_var s x (Some (Some c))), O_unit)
  | Throws w => (set_var s x (Some (Some w)), O_thrown)
  end.

Definition o_does (s : ospec) (o : oop) : ospec * oans :=
  match o with
  | C_null x => (set_var s x (Some None), O_unit)
  | C_copy x y t =>
      match of_var s y with
      | Some c => s_fill s x c t None (fun s => s)
      | None => (set_var s x (Some None), O_unit)
      end
  | C_move x y t =>
      match of_var s y with
      | Some c => s_fill s x c t None (fun s => hollow s y)
      | None => (set_var s x (Some None), O_unit)
      end
  | C_val x a t => s_fill s x (arg_val s a) t None (fun s => arg_after s a)
  | D_var x => (set_var s x None, O_unit)
  | A_null x | Reset x => (set_var s x (Some None), O_unit)
  | A_copy x y t =>
      if Nat.eqb x y then (s, O_unit)
      else match of_var s y, of_var s x with
           | Some c, Some _ => s_over s x c t (fun s => s)
           | Some c, None => s_fill s x c t (Some None) (fun s => s)
           | None, _ => (set_var s x (Some None), O_unit)
           end
  | A_move x y t =>
      if Nat.eqb x y then (s, O_unit)
      else match of_var s y, of_var s x with
           | Some c, Some _ => s_over s x c t (fun s => hollow s y)
           | Some c, None => s_fill s x c t (Some None) (fun s => hollow s y)
           | None, _ => (set_var s x (Some None), O_unit)
           end
  | A_val x a t =>
      match of_var s x with
      | Some _ => s_over s x (arg_val s a) t (fun s => arg_after s a)
      | None => s_fill s x (arg_val s a) t (Some None) (fun s => arg_after s a)
      end
  (* even when the constructor throws, what was there before is gone *)
  | Emplace x a t => s_fill s x (arg_val s a) t (Some None) (fun s => arg_after s a)
  | Has x => (s, O_bool (match of_var s x with Some _ => true | None => false end))
  | Deref x => (s, match of_var s x with Some c => O_content c | None => O_unit end)
  | Value x => (s, match of_var s x with Some c => O_content c | None => O_bad_access end)
  | Value_or x a t =>
      match t with
      | Throws _ => (s, O_thrown)
      | Works =>
          match of_var s x with
          | Some c => (s, O_content c)
          | None => (arg_after s a, O_content (arg_val s a))
          end
      end
  | Value_or_move x a t =>
      match t with
      | Throws _ => (s, O_thrown)
      | Works =>
          match of_var s x with
          | Some c => (hollow s x, O_content c)
          | None => (arg_after s a, O_content (arg_val s a))
          end
      end
  end.

Fixpoint o_story (s : ospec) (ops : list oop) : ospec * list oans :=
  match ops with
  | [] => (s, [])
  | o :: r => let '(s1, a) := o_does s o in let '(s2, l) := o_story s1 r in (s2, a :: l)
  end.

(** What the caller owes: variables are constructed once, used while they exist,
    dereferenced while they hold something, and emplace is not handed what it is
    about to destroy. *)
Definition there (s : ospec) (x : nat) : Prop := exists h, nth_error s x = Some (Some h).
Definition room_for (s : ospec) (x : nat) : Prop := nth_error s x = Some None.
Definition full (s : ospec) (x : nat) : Prop := exists c, nth_error s x = Some (Some (Some c)).
Definition arg_ok (s : ospec) (a : arg) : Prop :=
  match a with Temp _ => True | Ref y | Mov y => full s y end.
Definition o_fair (s : ospec) (o : oop) : Prop :=
  match o with
  | C_null x => room_for s x
  | C_copy x y _ | C_move x y _ => room_for s x /\ there s y
  | C_val x a _ => room_for s x /\ arg_ok s a
  | D_var x | A_null x | Reset x | Has x | Value x => there s x
  | A_copy x y _ | A_move x y _ => there s x /\ there s y
  | A_val x a _ | Value_or x a _ | Value_or_move x a _ => there s x /\ arg_ok s a
  | Emplace x a _ => there s x /\ arg_ok s a /\ a <> Ref x /\ a <> Mov x
  | Deref x => full s x
  end.
Fixpoint o_fair_all (s : ospec) (ops : list oop) : Prop :=
  match ops with
  | [] => True
  | o :: r => o_fair s o /\ o_fair_all (fst (o_does s o)) r
  end.

Definition o_blank (n : nat) : ospec := repeat None n.

(** How many variables hold something. *)
Definition holding (s : ospec) : nat :=
  length (filter (fun v => match v with Some (Some _) => true | _ => false end) s).
