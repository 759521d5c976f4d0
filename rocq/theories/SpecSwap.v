(** What the C interface over the same storage should do.  Specification: slots and
    variables are independent values (StoreSpec.v); what calls are covered; what is lost
    when bytes still in use are initialised again. *)

From Coq Require Import ZArith List Bool.
From Verif Require Import Base Keys Wire SpecOps HeapOps Store StoreSpec Swap.
Import ListNotations.
Open Scope Z_scope.

(** The machine over independent values: no storage, so nothing to lose. *)
Definition p_exec (e : env) (o : hop) : res (env * ans) := Ok (v_exec e o).
Definition p_forget (e : env) (x : nat) : env := list_set x VNull e.
Definition plain_world (n k : nat) : world (S := env) :=
  World (repeat VNull (n + k)) (repeat VNull (n + k)) (repeat (Slot None None) k).
Definition p_run (n k : nat) (p : list call) : res (world * list reply) := run p_exec p_forget n (plain_world n k) p.

(** Initialised, by what the caller can know: its last initialisation worked and it was
    not destroyed since. *)
Definition live {S} (w : world (S := S)) (j : nat) : Prop :=
  exists c, nth_error (slots w) j = Some (Slot (Some c) (Some c)).
Definition alone (n : nat) (w : world (S := state)) (j : nat) : Prop := forall c, unshared (store c w) (n + j).

Definition legal_arg {S} (w : world (S := S)) (j : nat) (v : csrc) : Prop :=
  match v with Val v => scalar v | Const i | Take i => live w i /\ i <> j end.

(** Slots used are initialised, no slot is copied or put into itself; on C++ variables,
    what C16 covers. *)
Definition legal (n k : nat) (w : world) (e : world) (o : call) : Prop :=
  match o with
  | Cpp c o => call_ok n o /\ allowed (store c w) (store c e) o
  | C_init j _ f => (j < k)%nat /\ match f with New_scalar v => scalar v | _ => True end
  | C_copy j i | C_move j i => (j < k)%nat /\ live w i /\ j <> i
  | C_destroy j => live w j
  | C_get j i q => (j < k)%nat /\ live w i /\ j <> i /\ match q with inr z => 0 <= z | inl _ => True end
  | C_insert j _ v | C_set j _ v => live w j /\ legal_arg w j v
  | C_erase j _ => live w j
  | C_clear j | C_resize j _ => live w j /\ alone n w j
  | To_c _ j x _ => (j < k)%nat /\ (x < n)%nat
  | To_cpp c x j => (x < n)%nat /\
      match nth_error (slots w) j with Some (Slot (Some d) _) => c = d -> live w j | _ => False end
  end.
Fixpoint all_legal (n k : nat) (w : world) (e : world) (p : list call) : Prop :=
  match p with
  | [] => True
  | o :: r => legal n k w e o /\
      match run1 s_exec abandon n w o, run1 p_exec p_forget n e o with
      | Ok (w1, _), Ok (e1, _) => all_legal n k w1 e1 r
      | _, _ => True
      end
  end.
Definition legal_program (n k : nat) (p : list call) : Prop := all_legal n k (fresh_world n k) (plain_world n k) p.

(** The bytes a call constructs in. *)
Definition target (o : call) : option nat :=
  match o with C_init j _ _ | C_copy j _ | C_move j _ | C_get j _ _ | To_c _ j _ _ => Some j | _ => None end.

(** The handle of counter [c] that was in them, nowhere any more. *)
Definition overwritten (n : nat) (c : counter) (w : world) (o : call) : list hval :=
  match target o with
  | Some j =>
      match nth_error (slots w) j with
      | Some (Slot _ (Some d)) =>
          if counter_eqb c d then match nth_error (vars (store c w)) (n + j) with Some h => [h] | None => [] end else []
      | _ => []
      end
  | None => []
  end.
Definition failed (r : reply) : bool := match r with Done (A_err _) => true | _ => false end.
Fixpoint lost (n : nat) (c : counter) (w : world) (p : list call) : list hval :=
  match p with
  | [] => []
  | o :: r =>
      match run1 s_exec abandon n w o with
      | Ok (w1, a) => lost n c w1 r ++ (if failed a then [] else overwritten n c w o)
      | _ => []
      end
  end.

(** A program that never initialises what it has not destroyed. *)
Fixpoint tidy (n : nat) (w : world) (p : list call) : Prop :=
  match p with
  | [] => True
  | o :: r =>
      match target o with Some j => forall t, nth_error (slots w) j = Some t -> held t = None | None => True end /\
      match run1 s_exec abandon n w o with Ok (w1, _) => tidy n w1 r | _ => True end
  end.

(** Every reference count of counter [c] is the number of handles that refer to the cell:
    in variables, slots and containers, and [g]. *)
Definition counted (w : world) (c : counter) (g : list hval) : Prop :=
  forall a m d, cell_at (heap (store c w)) a = Some (m, d) ->
    m = nref a (vars (store c w)) + nref a (all_kids (heap (store c w))) + nref a g /\ 0 < m.

(** ** Call by call *)

(** Slot [j] is initialised, of counter [c], and shows [v]. *)
Definition slot_shows (n : nat) (w : world) (j : nat) (c : counter) (v : value) : Prop :=
  nth_error (slots w) j = Some (Slot (Some c) (Some c)) /\ observes (store c w) (n + j) v.

Definition key_value (q : str + Z) : value := match q with inl s => VStr s | inr z => VInt z end.

(** The value of an argument of a call on counter [c]; none if it is of the other. *)
Definition arg_shows (n : nat) (w : world) (c : counter) (v : csrc) (x : option value) : Prop :=
  match v with
  | Val v => x = Some v
  | Const i | Take i => exists d y, slot_shows n w i d y /\ x = if counter_eqb c d then Some y else None
  end.
(** What the argument is after the call; [taken]: emptied if it was to be. *)
Definition arg_after (n : nat) (w : world) (c : counter) (v : csrc) (x : value) (taken : bool) : Prop :=
  match v with
  | Val _ => True
  | Const i => slot_shows n w i c x
  | Take i => slot_shows n w i c (if taken then VNull else x)
  end.

(** A call that gives slot [j] a new value or fails. *)
Definition outcome (n : nat) (w' : world) (r : reply) (j : nat) (c : counter) (old : value) (res : res value) : Prop :=
  match res with
  | Ok v => r = Done A_unit /\ slot_shows n w' j c v
  | Throw er => r = Done (A_err er) /\ slot_shows n w' j c old
  | _ => False
  end.

Definition effect (n : nat) (w : world) (o : call) (w' : world) (r : reply) : Prop :=
  match o with
  | C_init j c f => r = Done A_unit /\
      slot_shows n w' j c (match f with New_object => VObj [] | New_array => VArr [] | New_scalar v => v end)
  | C_copy j i => forall c v, slot_shows n w i c v -> r = Done A_unit /\ slot_shows n w' j c v /\ slot_shows n w' i c v
  | C_move j i => forall c v, slot_shows n w i c v -> r = Done A_unit /\ slot_shows n w' j c v /\ slot_shows n w' i c VNull
  | C_destroy j => r = Done A_unit /\ exists c, nth_error (slots w') j = Some (Slot (Some c) None)
  | C_get j i q => forall c v, slot_shows n w i c v ->
      slot_shows n w' i c v /\
      match (match q with inl s => h_get v s | inr z => h_get_idx v z end) with
      | Ok m => r = Done A_unit /\ slot_shows n w' j c m
      | Throw er => r = Done (A_err er)
      | _ => False
      end
  | C_insert j q v => forall c old x, slot_shows n w j c old -> arg_shows n w c v x ->
      match x with
      | None => r = Client
      | Some x =>
          outcome n w' r j c old (result (h_insert old (key_value q) x)) /\
          arg_after n w' c v x (match r with Done A_unit => overwrites old (key_value q) | _ => false end)
      end
  | C_set j q v => forall c old x, slot_shows n w j c old -> arg_shows n w c v x ->
      match x with
      | None => r = Client
      | Some x =>
          outcome n w' r j c old (result (h_set old (key_value q) x)) /\
          arg_after n w' c v x (match r with Done A_unit => true | _ => false end)
      end
  | C_erase j q => forall c old, slot_shows n w j c old -> outcome n w' r j c old (result (h_erase old (key_value q)))
  | C_clear j => forall c old, slot_shows n w j c old -> outcome n w' r j c old (h_clear old)
  | C_resize j m => forall c old, slot_shows n w j c old -> outcome n w' r j c old (h_resize old m VNull)
  | Cpp _ _ | To_c _ _ _ _ | To_cpp _ _ _ => True
  end.

(** The slots a call may change. *)
Definition slots_of (o : call) : list nat :=
  match o with
  | Cpp _ _ | To_cpp _ _ _ => []
  | C_init j _ _ | C_copy j _ | C_destroy j | C_get j _ _ | C_erase j _ | C_clear j | C_resize j _ | To_c _ j _ _ => [j]
  | C_move j i => [j; i]
  | C_insert j _ v | C_set j _ v => match v with Take i => [j; i] | _ => [j] end
  end.
