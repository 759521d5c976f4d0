(** How iterators into mutable values should work as positions: an iterator belongs
    to the variable it was taken from and stands before one of its members, or at
    the end.  Variables are independent values (StoreSpec.v).  Once a variable may
    have changed, only the iterator the call returned is good for it; a program is
    careful when it uses no other.  Specification only. *)

From Coq Require Import ZArith List Bool.
From Verif Require Import Base Keys Wire Spec SpecOps HeapOps Store StoreSpec Cursor.
Import ListNotations.
Open Scope Z_scope.

(** [M_at x p keys]: before member [p] of variable [x], showing names or values. *)
Inductive mark : Type := M_none | M_at (x p : nat) (keys : bool) | M_stale.
Definition cspec : Type := env * list mark.

Definition members (keys : bool) (v : value) : option (list value) :=
  match v, keys with
  | VObj fs, true => Some (map (fun kv => VStr (fst kv)) fs)
  | VObj fs, false => Some (map snd fs)
  | VArr vs, false => Some vs
  | _, _ => None
  end.

Fixpoint index_of (k : str) (fs : list (str * value)) : nat :=
  match fs with
  | [] => 0
  | (k', _) :: r => if list_eq_dec Byte.byte_eq_dec k k' then 0 else S (index_of k r)
  end.

(** The variables a call may change. *)
Definition moved (v : src) : list nat := match v with Rref y => [y] | _ => [] end.
Definition changes (o : hop) : list nat :=
  match o with
  | O_make x _ | O_copy x _ | O_destroy x | O_read x _ _ | O_erase x _
  | O_pop_front x | O_pop_back x | O_clear x | O_resize x _ _ => [x]
  | O_move x y => [x; y]
  | O_insert x _ v | O_set x _ v | O_push_front x v | O_push_back x v => x :: moved v
  end.
Definition upset (xs : list nat) (ms : list mark) : list mark :=
  map (fun m => match m with M_at y _ _ => if existsb (Nat.eqb y) xs then M_stale else m | _ => m end) ms.

Definition mark_of (ms : list mark) (i : nat) : mark := nth i ms M_stale.

(** One member replaced, added before, removed. *)
Definition replaced {A} (p : nat) (y : A) (l : list A) : list A := firstn p l ++ y :: skipn (S p) l.
Definition added {A} (p : nat) (y : A) (l : list A) : list A := firstn p l ++ y :: skipn p l.
Definition removed {A} (p : nat) (l : list A) : list A := firstn p l ++ skipn (S p) l.

(** [x] becomes [w], iterator [i] stands before member [p] of it. *)
Definition becomes (e : env) (ms : list mark) (x : nat) (w : value) (xs : list nat) (i p : nat) (keys : bool)
    : option (cspec * ans) :=
  Some ((list_set x w e, list_set i (M_at x p keys) (upset (x :: xs) ms)), A_unit).
(** An ordinary call, whose result iterator [i] stands before the pair with key [k]. *)
Definition by_key (e : env) (ms : list mark) (o : hop) (x i : nat) (k : str) (keys : bool) : option (cspec * ans) :=
  let '(e', a) := v_exec e o in
  let ms' := upset (changes o) ms in
  match a, val e' x with
  | A_unit, VObj fs => Some ((e', list_set i (M_at x (index_of k fs) keys) ms'), A_unit)
  | _, _ => Some ((e', ms'), a)
  end.

(** An iterator of another object stands for the key of its member; one of another
    array, or at the end of an object, must not be used. *)
Definition edit (e : env) (ms : list mark) (x j : nat)
    (own_field : nat -> bool -> str -> list (str * value) -> option (cspec * ans))
    (other_field : bool -> str -> option (cspec * ans))
    (own_elem : nat -> list value -> option (cspec * ans)) : option (cspec * ans) :=
  match mark_of ms j with
  | M_none => Some ((e, ms), A_err invalid_argument)
  | M_stale => None
  | M_at y p keys =>
      match val e x, val e y with
      | VObj fs, VObj gs =>
          match nth_error gs p with
          | None => None
          | Some (k, _) => if Nat.eqb x y then own_field p keys k fs else other_field keys k
          end
      | VArr vs, VArr _ => if Nat.eqb x y then own_elem p vs else None
      | _, _ => Some ((e, ms), A_err type_error)
      end
  end.

Definition c_step (st : cspec) (o : instr) : option (cspec * ans) :=
  let '(e, ms) := st in
  match o with
  | Call o => let '(e', a) := v_exec e o in Some ((e', upset (changes o) ms), a)
  | Begin keys i x =>
      Some (match members keys (val e x) with
            | Some _ => ((e, list_set i (M_at x 0 keys) ms), A_unit)
            | None => (st, A_err type_error)
            end)
  | End_ keys i x =>
      Some (match members keys (val e x) with
            | Some l => ((e, list_set i (M_at x (length l) keys) ms), A_unit)
            | None => (st, A_err type_error)
            end)
  | Find_ keys i x k =>
      Some (match val e x with
            | VObj fs => ((e, list_set i (M_at x (index_of k fs) keys) ms), A_unit)
            | _ => (st, A_err type_error)
            end)
  | Next i =>
      match mark_of ms i with
      | M_at x p keys =>
          match members keys (val e x) with
          | Some l => if (p <? length l)%nat then Some ((e, list_set i (M_at x (S p) keys) ms), A_unit) else None
          | None => None
          end
      | _ => None
      end
  | Prev i =>
      match mark_of ms i with
      | M_at x (S p) keys => Some ((e, list_set i (M_at x p keys) ms), A_unit)
      | _ => None
      end
  | Load x i =>
      match mark_of ms i with
      | M_at y p keys =>
          match members keys (val e y) with
          | Some l =>
              match nth_error l p with
              | Some v => Some ((list_set x v e, upset [x] ms), A_unit)
              | None => None
              end
          | None => None
          end
      | _ => None
      end
  | Same i j =>
      if Nat.eqb i j then Some (st, A_bool true)
      else
        match mark_of ms i, mark_of ms j with
        | M_none, M_none => Some (st, A_bool true)
        | M_none, M_at _ _ _ | M_at _ _ _, M_none => Some (st, A_bool false)
        | M_at x p _, M_at y q _ => if Nat.eqb x y then Some (st, A_bool (Nat.eqb p q)) else None
        | _, _ => None
        end
  | Holds i => Some (st, A_bool (match mark_of ms i with M_none => false | _ => true end))
  | Assign i j => Some ((e, list_set i (mark_of ms j) ms), A_unit)
  | Take i j => Some ((e, if Nat.eqb i j then ms else list_set i (mark_of ms j) (list_set j M_none ms)), A_unit)
  | Insert_at i x j v =>
      let y := src_value e v in
      edit e ms x j
        (fun p _ k fs => becomes (emptied e v) ms x (VObj (replaced p (k, y) fs)) (moved v) i p false)
        (fun _ k => by_key e ms (O_insert x (VStr k) v) x i k false)
        (fun p vs => becomes (emptied e v) ms x (VArr (added p y vs)) (moved v) i p false)
  | Set_at i x j v =>
      let y := src_value e v in
      edit e ms x j
        (fun p _ k fs => becomes (emptied e v) ms x (VObj (replaced p (k, y) fs)) (moved v) i p false)
        (fun _ k => by_key e ms (O_set x (VStr k) v) x i k false)
        (fun p vs =>
           if (p <? length vs)%nat then becomes (emptied e v) ms x (VArr (replaced p y vs)) (moved v) i p false
           else Some ((e, upset (x :: moved v) ms), A_err out_of_range))
  | Erase_at i x j =>
      edit e ms x j
        (fun p keys k fs => becomes e ms x (VObj (removed p fs)) [] i p keys)
        (fun keys k =>
           match val e x with
           | VObj fs => becomes e ms x (VObj (removed (index_of k fs) fs)) [] i (index_of k fs) keys
           | _ => None
           end)
        (fun p vs => becomes e ms x (VArr (removed p vs)) [] i p false)
  end.

Fixpoint c_steps (st : cspec) (os : list instr) : option (cspec * list ans) :=
  match os with
  | [] => Some (st, [])
  | o :: r =>
      match c_step st o with
      | Some (st1, a) =>
          match c_steps st1 r with Some (st2, l) => Some (st2, a :: l) | None => None end
      | None => None
      end
  end.

Definition start (n m : nat) : cspec := (repeat VNull n, repeat M_none m).

(** Which programs are covered: variables and iterators exist; ordinary calls as in
    C16; no handle is put into itself; a non-const variable is not inserted over an
    existing key; indexes of arrays fit a pointer difference. *)
Definition short (v : value) : Prop := match v with VArr vs => zlen vs < 2 ^ 63 | _ => True end.
Definition fair (n m : nat) (s : state) (st : cspec) (o : instr) : Prop :=
  let '(e, ms) := st in
  match o with
  | Call o => call_ok n o /\ allowed s e o
  | Begin _ i x | End_ _ i x | Find_ _ i x _ | Load x i => (i < m)%nat /\ (x < n)%nat
  | Next i | Prev i | Holds i => (i < m)%nat
  | Same i j | Assign i j | Take i j => (i < m)%nat /\ (j < m)%nat
  | Insert_at i x j v | Set_at i x j v =>
      (i < m)%nat /\ (x < n)%nat /\ (j < m)%nat /\ src_in n v /\ ~ names v x /\ short (val e x) /\
      match o, v, val e x with Insert_at _ _ _ _, Lref _, VObj _ => False | _, _, _ => True end
  | Erase_at i x j => (i < m)%nat /\ (x < n)%nat /\ (j < m)%nat
  end.

Fixpoint careful (n m : nat) (c : cstate) (st : cspec) (os : list instr) : Prop :=
  match os with
  | [] => True
  | o :: r =>
      fair n m (store c) st o /\
      match c_step st o, c_exec c o with
      | Some (st1, _), Ok (c1, _) => careful n m c1 st1 r
      | None, _ => False
      | _, _ => True
      end
  end.

(** A value without the members that satisfy a condition. *)
Definition kept (cond : value -> bool) (v : value) : value :=
  match v with
  | VObj fs => VObj (filter (fun kv => negb (cond (snd kv))) fs)
  | VArr vs => VArr (filter (fun y => negb (cond y)) vs)
  | _ => v
  end.
