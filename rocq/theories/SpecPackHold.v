(** What programs that pass dart::packets around should observe, whichever of the
    two forms each packet has: every mutable packet holds a value of its own, every
    finalized one shows a value of a document that never changes, and a call changes
    the packets it names only.
    Specification; nothing here knows about cells, bytes, counters or pointers. *)

From Coq Require Import ZArith List Bool.
From Verif Require Import Base Keys Wire Spec SpecOps SpecPacket HeapOps SpecBufHold.
Import ListNotations.
Open Scope Z_scope.

(** A mutable packet, or a finalized one with what it shows (SpecBufHold.v). *)
Inductive pkt : Type := Mut (v : value) | Fin (h : shown).
Record pspec : Type := PS { texts : list value; pkts : list pkt }.

Definition is_final (p : pkt) : bool := match p with Fin _ => true | Mut _ => false end.
Definition value_of (p : pkt) : value := match p with Mut v => v | Fin h => seen h end.

(** The ways to reach a member. *)
Inductive way : Type :=
| By (k : str) | Must (k : str) | Nth (i : Z) | Must_nth (i : Z) | Front | Back.

(** The argument of a mutator: a C++ scalar, a packet, or std::move of a packet. *)
Inductive arg : Type := Plain (v : value) | Pkt (y : nat) | Moved (y : nat).

Inductive pop : Type :=
| K_object (x : nat) | K_array (x : nat)      (* x = packet::make_object(), make_array() *)
| K_scalar (x : nat) (v : value)              (* x = packet(v) *)
| K_assign (x : nat) (v : value)              (* x = v, packet's assignment from a scalar *)
| K_copy (x y : nat) | K_move (x y : nat)     (* x = y, x = std::move(y) *)
| K_reset (x : nat)                           (* the end of x's life *)
| K_read (x y : nat) (n : way)                (* x = y[...] *)
| K_into (x y : nat) (n : way)                (* x = std::move(y)[...] *)
| K_insert (x : nat) (k : value) (a : arg) | K_set (x : nat) (k : value) (a : arg)
| K_erase (x : nat) (k : value)
| K_push_front (x : nat) (a : arg) | K_push_back (x : nat) (a : arg)
| K_pop_front (x : nat) | K_pop_back (x : nat)
| K_finalize (x : nat) (addr : Z)             (* the block is put at [addr] *)
| K_definalize (x : nat)
| K_show (x : nat) | K_final (x : nat).       (* everything reachable; is_finalized() *)

Inductive kans : Type := Y_unit | Y_err (e : err) | Y_value (v : value) | Y_bool (b : bool) | Y_bad.

Definition pk (s : pspec) (x : nat) : pkt := nth x (pkts s) (Mut VNull).
Definition set_pkt (s : pspec) (x : nat) (p : pkt) : pspec := PS (texts s) (put_at (pkts s) x p).

Definition as_step (n : way) : step :=
  match n with
  | By k => By_key k | Must k => Must_key k | Nth i => By_idx i | Must_nth i => Must_idx i
  | Front => First | Back => Last
  end.
(** Reading a mutable value (HeapOps.v; C14 and C15 relate it to maps and lists). *)
Definition fetch (v : value) (n : way) : res value :=
  match n with
  | By k => h_get v k | Must k => h_at v k | Nth i => h_get_idx v i | Must_nth i => h_at_idx v i
  | Front => h_front v | Back => h_back v
  end.

(** A moved-from packet is null, in the form it had. *)
Definition hollow (p : pkt) : pkt := match p with Mut _ => Mut VNull | Fin _ => Fin None end.
Definition moved_to (s : pspec) (x y : nat) : pspec :=
  if Nat.eqb x y then s else set_pkt (set_pkt s x (pk s y)) y (hollow (pk s y)).

(** A mutator takes the storage of a mutable packet given as std::move(y), whether
    or not it succeeds; of a finalized one it takes a copy. *)
Definition given (s : pspec) (a : arg) : value :=
  match a with Plain v => v | Pkt y | Moved y => value_of (pk s y) end.
Definition spent (s : pspec) (a : arg) : pspec :=
  match a with
  | Moved y => match pk s y with Mut _ => set_pkt s y (Mut VNull) | Fin _ => s end
  | _ => s
  end.

(** A result for [x]: its new value, or an exception that leaves it alone. *)
Definition ends (s : pspec) (x : nat) (r : res value) : pspec * kans :=
  match r with
  | Ok v => (set_pkt s x (Mut v), Y_unit)
  | Throw e => (s, Y_err e)
  | _ => (s, Y_bad)
  end.
Definition first {A B} (r : res (A * B)) : res A := '(a, _) <- r ;; Ok a.

(** Only mutable packets can be changed. *)
Definition mutably (s : pspec) (x : nat) (k : value -> pspec * kans) : pspec * kans :=
  match pk s x with Mut v => k v | Fin _ => (s, Y_err state_error) end.
Definition inserts (s : pspec) (x : nat) (k : value) (a : arg) : pspec * kans :=
  let s1 := spent s a in ends s1 x (first (h_insert (value_of (pk s1 x)) k (given s a))).

Definition does (s : pspec) (o : pop) : pspec * kans :=
  match o with
  | K_object x => (set_pkt s x (Mut (VObj [])), Y_unit)
  | K_array x => (set_pkt s x (Mut (VArr [])), Y_unit)
  | K_scalar x v => (set_pkt s x (Mut v), Y_unit)
  | K_assign x v => mutably s x (fun _ => (set_pkt s x (Mut v), Y_unit))
  | K_copy x y => (set_pkt s x (pk s y), Y_unit)
  | K_move x y => (moved_to s x y, Y_unit)
  | K_reset x => (set_pkt s x (Mut VNull), Y_unit)
  | K_read x y n =>
      match pk s y with
      | Mut v => ends s x (fetch v n)
      | Fin h =>
          match reached (as_step n) (seen h) with
          | inl w => (set_pkt s x (Fin (within (doc_of h) w)), Y_unit)
          | inr e => (s, Y_err e)
          end
      end
  | K_into x y n =>
      match pk s y with
      | Mut v => let '(s1, a) := ends s y (fetch v n) in
                 match a with Y_unit => (moved_to s1 x y, Y_unit) | _ => (s1, a) end
      | Fin h =>
          match reached (as_step n) (seen h) with
          | inl w => (moved_to (set_pkt s y (Fin (within (doc_of h) w))) x y, Y_unit)
          | inr e => (s, Y_err e)
          end
      end
  | K_insert x k a => mutably s x (fun _ => inserts s x k a)
  | K_set x k a => mutably s x (fun _ =>
      let s1 := spent s a in ends s1 x (first (h_set (value_of (pk s1 x)) k (given s a))))
  | K_erase x k =>
      match k with
      | VStr _ | VInt _ => mutably s x (fun v => ends s x (first (h_erase v k)))
      | _ => (s, Y_err type_error)
      end
  | K_push_front x a => mutably s x (fun _ => inserts s x (VInt 0) a)
  | K_push_back x a => mutably s x (fun v =>
      match h_size v with Ok n => inserts s x (VInt n) a | _ => (s, Y_err type_error) end)
  | K_pop_front x => mutably s x (fun v => ends s x (h_pop_front v))
  | K_pop_back x => mutably s x (fun v => ends s x (h_pop_back v))
  | K_finalize x _ =>
      match pk s x with
      | Mut (VObj fs) =>
          (PS (texts s ++ [VObj fs]) (put_at (pkts s) x (Fin (Some (length (texts s), VObj fs)))), Y_unit)
      | Mut _ => (s, Y_err type_error)
      | Fin _ => (s, Y_unit)
      end
  | K_definalize x => (set_pkt s x (Mut (value_of (pk s x))), Y_unit)
  | K_show x => (s, Y_value (value_of (pk s x)))
  | K_final x => (s, Y_bool (is_final (pk s x)))
  end.

Fixpoint story (s : pspec) (ops : list pop) : pspec * list kans :=
  match ops with
  | [] => (s, [])
  | o :: r => let '(s1, a) := does s o in let '(s2, l) := story s1 r in (s2, a :: l)
  end.

(** What the caller owes: packets exist, scalars are scalars the wire format has
    room for, indices are unsigned, keys are ordinary ones, objects are small enough
    when they are finalized, and no packet is copied into itself. *)
Definition plain (v : value) : Prop :=
  heap_value v /\ match v with VObj _ | VArr _ => False | _ => True end.
Definition way_ok (n : way) : Prop := match n with Nth i | Must_nth i => 0 <= i < 2 ^ 64 | _ => True end.
Definition key_ok (k : value) : Prop := plain k /\ match k with VStr s => good_key s | _ => True end.
Definition arg_ok (n x : nat) (a : arg) : Prop :=
  match a with Plain v => plain v | Pkt y => (y < n)%nat /\ y <> x | Moved y => (y < n)%nat end.
Definition fair (s : pspec) (o : pop) : Prop :=
  let n := length (pkts s) in
  match o with
  | K_object x | K_array x | K_reset x | K_erase x _ | K_pop_front x | K_pop_back x | K_definalize x
  | K_show x | K_final x => (x < n)%nat
  | K_scalar x v | K_assign x v => (x < n)%nat /\ plain v
  | K_copy x y | K_move x y => (x < n)%nat /\ (y < n)%nat
  | K_read x y w | K_into x y w => (x < n)%nat /\ (y < n)%nat /\ way_ok w
  | K_insert x k a | K_set x k a => (x < n)%nat /\ key_ok k /\ arg_ok n x a
  | K_push_front x a | K_push_back x a => (x < n)%nat /\ arg_ok n x a
  | K_finalize x addr => (x < n)%nat /\ addr mod 8 = 0 /\
      match pk s x with Mut (VObj fs) => room (VObj fs) < 2 ^ 32 | _ => True end
  end.
Fixpoint fair_all (s : pspec) (ops : list pop) : Prop :=
  match ops with
  | [] => True
  | o :: r => fair s o /\ fair_all (fst (does s o)) r
  end.

(** Before anything happened: [n] null packets. *)
Definition blank (n : nat) : pspec := PS [] (repeat (Mut VNull) n).

(** How many packets hold document [d]. *)
Definition keepers (s : pspec) (d : nat) : nat :=
  length (filter (fun p => match p with Fin h => holds_doc d h | Mut _ => false end) (pkts s)).
