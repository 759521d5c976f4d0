(** Vocabulary for counted pointers: a picture of memory and what it means for it
    to be sound.  No function of the model is used here.

    A control block (use count, pointer to the pointee) and the pointee itself are
    separate allocations that share a number.  A pointee is a record of counted
    pointers; anything else in it plays no part.  [Raw] is storage without a live
    pointer in it: before construction or after destruction. *)

From Coq Require Import ZArith List Bool.
Import ListNotations.
Open Scope Z_scope.

Inductive slot : Type := Raw | Held (p : option nat).
Inductive addr : Type := AVar (x : nat) | AFld (b i : nat).

Record ctl : Type := Ctl { cnt : Z; owns : bool }.   (* owns = false: the pointer given was null *)
Record pstate : Type := PSt {
  ctls : list (option ctl);
  objs : list (option (list slot));
  pvars : list slot;
  deleted : list nat }.                               (* deleter calls so far, latest first *)

Definition addr_eqb (a b : addr) : bool :=
  match a, b with
  | AVar x, AVar y => Nat.eqb x y
  | AFld b i, AFld c j => Nat.eqb b c && Nat.eqb i j
  | _, _ => false
  end.

Definition ctl_of (s : pstate) (b : nat) : option ctl :=
  match nth_error (ctls s) b with Some (Some c) => Some c | _ => None end.
Definition obj_of (s : pstate) (b : nat) : option (list slot) :=
  match nth_error (objs s) b with Some (Some fs) => Some fs | _ => None end.
Definition slot_at (s : pstate) (a : addr) : option slot :=
  match a with
  | AVar x => nth_error (pvars s) x
  | AFld b i => match obj_of s b with Some fs => nth_error fs i | None => None end
  end.

(** How many pointers hold a block. *)
Definition holds (b : nat) (sl : slot) : bool :=
  match sl with Held (Some c) => Nat.eqb b c | _ => false end.
Definition among (b : nat) (l : list slot) : Z := Z.of_nat (length (filter (holds b) l)).
Definition all_slots (s : pstate) : list slot :=
  pvars s ++ flat_map (fun o => match o with Some fs => fs | None => [] end) (objs s).
Definition holders (s : pstate) (b : nat) : Z := among b (all_slots s).

(** Every count is the number of pointers that hold the block, blocks held by nobody
    are gone, nobody holds a block that is gone, and the deleter has been called
    exactly once for exactly the blocks that are gone. *)
Record sound (s : pstate) : Prop := {
  so_len : length (ctls s) = length (objs s);
  so_count : forall b c, ctl_of s b = Some c -> cnt c = holders s b /\ 0 < holders s b;
  so_held : forall a b, slot_at s a = Some (Held (Some b)) -> ctl_of s b <> None;
  so_pointee : forall b c, ctl_of s b = Some c ->
    if owns c then exists fs, obj_of s b = Some fs /\ ~ In Raw fs else obj_of s b = None;
  so_gone : forall b, ctl_of s b = None -> obj_of s b = None;
  so_once : NoDup (deleted s);
  so_deleted : forall b, In b (deleted s) <-> (b < length (ctls s))%nat /\ ctl_of s b = None }.

(** Reached from a variable without following the pointer at [hole]. *)
Inductive reached (s : pstate) (hole : option addr) : nat -> Prop :=
| Reach_var x b : hole <> Some (AVar x) -> slot_at s (AVar x) = Some (Held (Some b)) -> reached s hole b
| Reach_fld b i c : reached s hole b -> hole <> Some (AFld b i) ->
    slot_at s (AFld b i) = Some (Held (Some c)) -> reached s hole c.

(** The storage of a pointer stays when [hole] lets go of what it holds. *)
Definition kept (s : pstate) (hole a : addr) : Prop :=
  match a with AVar _ => True | AFld b _ => reached s (Some hole) b end.

(** No pointee holds itself, directly or through others. *)
Definition acyclic (s : pstate) : Prop :=
  exists rank : nat -> nat, forall b i c, slot_at s (AFld b i) = Some (Held (Some c)) -> (rank c < rank b)%nat.

(** From [s] to [s']: the pointers in [ch] hold what is given there, no other pointer
    changes except that some may have gone with their pointees, and none of those that
    are reached without the pointer at [target] has gone.  Pointees made on the way
    hold nothing. *)
Record becomes (s : pstate) (target : addr) (ch : list (addr * option nat)) (s' : pstate) : Prop := {
  x_sound : sound s';
  x_set : forall a p, In (a, p) ch -> slot_at s' a = Some (Held p);
  x_slot : forall a u, ~ In a (map fst ch) -> slot_at s' a = Some u -> slot_at s a = Some u \/
     exists b i, a = AFld b i /\ (length (ctls s) <= b)%nat /\ u = Held None;
  x_var : forall x, ~ In (AVar x) (map fst ch) -> slot_at s' (AVar x) = slot_at s (AVar x);
  x_kept : forall b i, reached s (Some target) b -> ~ In (AFld b i) (map fst ch) -> slot_at s' (AFld b i) = slot_at s (AFld b i) }.

(** ** Histories *)

(** An expression for a pointer: a variable, or a field of what a pointer points to. *)
Inductive ploc : Type := PVar (x : nat) | PFld (l : ploc) (i : nat).
Inductive names (s : pstate) : ploc -> addr -> Prop :=
| Names_var x p : slot_at s (AVar x) = Some (Held p) -> names s (PVar x) (AVar x)
| Names_fld l a b i p : names s l a -> slot_at s a = Some (Held (Some b)) ->
    slot_at s (AFld b i) = Some (Held p) -> names s (PFld l i) (AFld b i).

(** Constructors, and what can be done to pointers: O... to a counted_ptr, S... to a
    shareable_ptr.  ...Conv is the overload for another pointer type, ...Raw the one
    that takes the wrapped pointer. *)
Inductive ctor : Type :=
| CNull | CTake (pointee : option nat) | CCopy (l : ploc) | CMove (l : ploc).
Inductive pop : Type :=
| OMake (c : ctor)                    (* a new variable *)
| ODestroy (x : nat) | SDestroy (x : nat)
| OReset (l : ploc) | OResetTo (l : ploc) (pointee : option nat)
| OCopy (l o : ploc) | OMove (l o : ploc) | OCopyConv (l o : ploc) | OMoveConv (l o : ploc)
| SNull (l : ploc) | STo (l : ploc) (pointee : option nat)
| SCopy (l o : ploc) | SMove (l o : ploc) | SCopyRaw (l o : ploc) | SMoveRaw (l o : ploc)
| SShare (l o : ploc) | STransfer (l o : ploc).

(** The expressions an operation evaluates. *)
Definition operands (o : pop) : list ploc :=
  match o with
  | OMake (CNull | CTake _) => []
  | OMake (CCopy l | CMove l) => [l]
  | ODestroy x | SDestroy x => [PVar x]
  | OReset l | OResetTo l _ | SNull l | STo l _ => [l]
  | OCopy l o | OMove l o | OCopyConv l o | OMoveConv l o | SCopy l o | SMove l o
  | SCopyRaw l o | SMoveRaw l o | SShare l o | STransfer l o => [l; o]
  end.
Definition sensible (s : pstate) (o : pop) : Prop := Forall (fun l => exists a, names s l a) (operands o).

(** Moving into a pointer releases what it holds first: the source has to survive
    that, and in two overloads must not be the target itself. *)
Definition safe (s : pstate) (o : pop) : Prop :=
  match o with
  | OMove l o | OMoveConv l o | SMove l o =>
      forall a b, names s l a -> names s o b -> kept s a b
  | SMoveRaw l o | STransfer l o =>
      forall a b, names s l a -> names s o b -> kept s a b /\ a <> b
  | _ => True
  end.
(** Enough for that, without looking at the state: the source is a variable. *)
Definition plain (o : pop) : Prop :=
  match o with
  | OMove _ (PVar _) | OMoveConv _ (PVar _) | SMove _ (PVar _) => True
  | SMoveRaw l (PVar x) | STransfer l (PVar x) => l <> PVar x
  | OMove _ _ | OMoveConv _ _ | SMove _ _ | SMoveRaw _ _ | STransfer _ _ => False
  | _ => True
  end.

(** ** What an operation does *)

(** A variable is gone: nothing else changes, except that pointees may have gone too. *)
Record ends (s : pstate) (x : nat) (s' : pstate) : Prop := {
  e_sound : sound s';
  e_raw : slot_at s' (AVar x) = Some Raw;
  e_slot : forall a u, a <> AVar x -> slot_at s' a = Some u -> slot_at s a = Some u;
  e_var : forall y, y <> x -> slot_at s' (AVar y) = slot_at s (AVar y);
  e_kept : forall b i, reached s (Some (AVar x)) b -> slot_at s' (AFld b i) = slot_at s (AFld b i) }.

(** The block after those of [s] owns a new pointee with [n] fields, or nothing. *)
Definition made (s : pstate) (pointee : option nat) (s' : pstate) : Prop :=
  let b := length (ctls s) in
  ctl_of s' b <> None /\
  match pointee with
  | Some n => exists fs, obj_of s' b = Some fs /\ length fs = n
  | None => obj_of s' b = None
  end.

Definition copied (s : pstate) (l o : ploc) (s' : pstate) : Prop :=
  exists a b p, names s l a /\ names s o b /\ slot_at s b = Some (Held p) /\ becomes s a [(a, p)] s'.
Definition moved (s : pstate) (l o : ploc) (s' : pstate) : Prop :=
  exists a b p, names s l a /\ names s o b /\ slot_at s b = Some (Held p) /\
    ((a = b /\ s' = s) \/ (a <> b /\ becomes s a [(a, p); (b, None)] s')).

Definition effect (s : pstate) (o : pop) (s' : pstate) : Prop :=
  match o with
  | OMake c =>
      let t := AVar (length (pvars s)) in
      match c with
      | CNull => becomes s t [(t, None)] s'
      | CTake q => becomes s t [(t, Some (length (ctls s)))] s' /\ made s q s'
      | CCopy l => exists a p, names s l a /\ slot_at s a = Some (Held p) /\ becomes s t [(t, p)] s'
      | CMove l => exists a p, names s l a /\ slot_at s a = Some (Held p) /\ becomes s t [(t, p); (a, None)] s'
      end
  | ODestroy x | SDestroy x => ends s x s'
  | OReset l | SNull l => exists a, names s l a /\ becomes s a [(a, None)] s'
  | OResetTo l q | STo l q => exists a, names s l a /\ becomes s a [(a, Some (length (ctls s)))] s' /\ made s q s'
  | OCopy l o | OCopyConv l o | SCopy l o | SCopyRaw l o | SShare l o => copied s l o s'
  | OMove l o | SMove l o | SMoveRaw l o | STransfer l o => moved s l o s'
  | OMoveConv l o =>                 (* the source keeps what it holds if both hold the same *)
      exists a b p q, names s l a /\ names s o b /\ slot_at s a = Some (Held p) /\ slot_at s b = Some (Held q) /\
        ((p = q /\ s' = s) \/ (p <> q /\ becomes s a [(a, q); (b, None)] s'))
  end.
