(** Data races by the definition of the C++ standard, without clocks: the accesses of a
    run in order, and happens-before on them. *)

From Coq Require Import ZArith List Bool Arith.
From Verif Require Import Base Keys Wire SpecOps HeapOps Store Par.
Import ListNotations.
Open Scope Z_scope.

(** What an access does to the two objects of a container, its contents and its count
    ([intro.races]).  A container that is made or destroyed is written as a whole. *)
Inductive object : Type := Contents | Counter.
Inductive mode : Type := M_read | M_write | M_atomic.
Definition does (k : kind) (o : object) : option mode :=
  match k, o with
  | K_new, _ | K_free, _ => Some M_write
  | K_read, Contents => Some M_read
  | K_write, Contents => Some M_write
  | K_count, Counter => Some M_atomic
  | _, _ => None
  end.
(** Two accesses conflict if they are to the same object, one of them modifies it, and
    they are not both atomic. *)
Definition at_odds (x y : mode) : Prop := ~ (x = M_read /\ y = M_read) /\ ~ (x = M_atomic /\ y = M_atomic).
Definition clash (x y : kind) : Prop :=
  exists o mx my, does x o = Some mx /\ does y o = Some my /\ at_odds mx my.

Record event : Type := Ev { tid : nat; place : nat; what : kind; releases : bool; acquires : bool }.
Definition event_at (l : list event) (i : nat) (x : event) : Prop := nth_error l i = Some x.

(** Happens-before: the order of a thread, and from a release to every later acquire
    of the same count.  All changes of a count are read-modify-writes, so that a later
    acquire always reads from the release sequence. *)
Inductive hb (l : list event) : nat -> nat -> Prop :=
| hb_thread i j x y : (i < j)%nat -> event_at l i x -> event_at l j y -> tid x = tid y -> hb l i j
| hb_sync i j x y : (i < j)%nat -> event_at l i x -> event_at l j y ->
    place x = place y -> releases x = true -> acquires y = true -> hb l i j
| hb_trans i j k : hb l i j -> hb l j k -> hb l i k.

Definition race_free (l : list event) : Prop :=
  forall i j x y, (i < j)%nat -> event_at l i x -> event_at l j y -> place x = place y ->
    clash (what x) (what y) -> hb l i j.

(** The accesses a step makes ([g_step], [perform], [drop_one]). *)
Definition acted (acquire : bool) (t : nat) (x : act) (m : mem) : list event :=
  match x with
  | Count a => [Ev t a K_count false acquire]
  | Inc h => match href h with Some a => [Ev t a K_count false false] | None => [] end
  | Read a => [Ev t a K_read false false]
  | Write a _ => [Ev t a K_write false false]
  | New c => [Ev t (snd (alloc (cs m) c)) K_new false false]
  | Toss _ => []
  end.
Definition dropped (t : nat) (h : hval) (m : mem) : list event :=
  match href h with
  | None => []
  | Some a =>
      match cell_at (cs m) a with
      | None => []
      | Some (n, _) => if n =? 1 then [Ev t a K_count true true; Ev t a K_free false false] else [Ev t a K_count true false]
      end
  end.
Definition stepped (acquire : bool) (g : global) (t : nat) : list event :=
  match nth_error (threads g) t with
  | None => []
  | Some th =>
      match junk th with
      | h :: _ => dropped t h (mem_ g)
      | [] => match code th with Some (Do x _) => acted acquire t x (mem_ g) | _ => [] end
      end
  end.
(** Up to and including the first step that is undefined. *)
Fixpoint g_log (acquire : bool) (g : global) (sched : list nat) : list event :=
  match sched with
  | [] => []
  | t :: r => stepped acquire g t ++ match g_step acquire g t with Ok g1 => g_log acquire g1 r | _ => [] end
  end.
