(** What a view is worth.  Specification: variables are independent values, as in
    StoreSpec.v; a view of a variable shows what the variable holds now, while it
    holds an aggregate of the same kind; a view of a member inside shows the member's
    value until the variable it was reached through is next changed; a view of a
    scalar or string shows it for ever.  A view made from a temporary, or whose
    variable was changed since, must not be used. *)

From Coq Require Import ZArith List Bool.
From Verif Require Import Base Keys Wire Spec SpecOps HeapOps Store StoreSpec Views Cursor SpecCursor.
Import ListNotations.
Open Scope Z_scope.

Inductive sview : Type :=
| S_val (v : value)
| S_root (x : nat) (obj : bool)
| S_in (x : nat) (v : value)
| S_stale.

Definition vspec := (env * list sview)%type.

Definition kind_is (obj : bool) (v : value) : bool :=
  match v with VObj _ => obj | VArr _ => negb obj | _ => false end.

Definition worth (e : env) (u : sview) : option value :=
  match u with
  | S_val v => Some v
  | S_root x _ => Some (val e x)
  | S_in _ v => Some v
  | S_stale => None
  end.

Definition whole_view (x : nat) (v : value) : sview :=
  match v with VObj _ => S_root x true | VArr _ => S_root x false | _ => S_val v end.
Definition inner_view (u : sview) (m : value) : sview :=
  match m with
  | VObj _ | VArr _ => match u with S_root x _ | S_in x _ => S_in x m | _ => S_stale end
  | _ => S_val m
  end.

(** The variables [xs] have just been changed, giving [e]. *)
Definition outlive (xs : list nat) (e : env) (u : sview) : sview :=
  match u with
  | S_root x obj => if kind_is obj (val e x) then u else S_stale
  | S_in x _ => if existsb (Nat.eqb x) xs then S_stale else u
  | _ => u
  end.

Definition glance_at (v : value) : vans :=
  match v with
  | VObj fs => W_keys (map fst fs)
  | VArr vs => W_len (zlen vs)
  | _ => W_scalar v
  end.

Definition view_at (us : list sview) (u : nat) : sview := nth u us S_stale.

(** [None]: outside what views are for. *)
Definition vs_step (st : vspec) (o : vop) : option (vspec * vans) :=
  let '(e, us) := st in
  match o with
  | Base o => let '(e', a) := v_exec e o in Some ((e', map (outlive (changes o) e') us), W_call a)
  | View w x => Some ((e, list_set w (whole_view x (val e x)) us), W_done)
  | Member w u r =>
      match worth e (view_at us u) with
      | Some v =>
          match v_read v r with
          | Ok m => Some ((e, list_set w (inner_view (view_at us u) m) us), W_done)
          | Throw er => Some (st, W_err er)
          | _ => None
          end
      | None => None
      end
  | Nth w u i =>
      match worth e (view_at us u) with
      | Some v =>
          match members false v with
          | Some l =>
              match nth_error l i with
              | Some m => Some ((e, list_set w (inner_view (view_at us u) m) us), W_done)
              | None => None
              end
          | None => Some (st, W_err type_error)
          end
      | None => None
      end
  | Glance u => option_map (fun v => (st, glance_at v)) (worth e (view_at us u))
  | Copy_view w u => Some ((e, list_set w (view_at us u) us), W_done)
  | Move_view w u =>
      Some ((e, if Nat.eqb w u then us else list_set w (view_at us u) (list_set u (S_val VNull) us)), W_done)
  | Reset w => Some ((e, list_set w (S_val VNull) us), W_done)
  | Own x u =>
      match worth e (view_at us u) with
      | Some v => let e' := list_set x v e in Some ((e', map (outlive [x] e') us), W_done)
      | None => None
      end
  | View_temp w y r =>
      match v_read (val e y) r with
      | Ok m => Some ((e, list_set w (inner_view S_stale m) us), W_done)
      | Throw er => Some (st, W_err er)
      | _ => None
      end
  end.

Fixpoint vs_steps (st : vspec) (os : list vop) : option (vspec * list vans) :=
  match os with
  | [] => Some (st, [])
  | o :: r =>
      match vs_step st o with
      | Some (st1, a) =>
          match vs_steps st1 r with Some (st2, l) => Some (st2, a :: l) | None => None end
      | None => None
      end
  end.

Definition vs_start (n m : nat) : vspec := (repeat VNull n, repeat (S_val VNull) m).

(** Which programs are covered: variables and views exist, calls on variables as in
    C16, indexes are unsigned. *)
Definition reader_ok (r : reader) : Prop :=
  match r with R_get_idx i | R_at_idx i => 0 <= i | _ => True end.
Definition vfair (n m : nat) (s : state) (st : vspec) (o : vop) : Prop :=
  match o with
  | Base o => call_ok n o /\ allowed s (fst st) o
  | View w x => (w < m)%nat /\ (x < n)%nat
  | Member w u r => (w < m)%nat /\ (u < m)%nat /\ reader_ok r
  | Nth w u _ | Copy_view w u | Move_view w u => (w < m)%nat /\ (u < m)%nat
  | Glance u | Reset u => (u < m)%nat
  | Own x u => (x < n)%nat /\ (u < m)%nat
  | View_temp w y r => (w < m)%nat /\ (y < n)%nat /\ reader_ok r
  end.

Fixpoint mindful (n m : nat) (t : vstate) (st : vspec) (os : list vop) : Prop :=
  match os with
  | [] => True
  | o :: r =>
      vfair n m (base t) st o /\
      match vs_step st o, v_exec_op t o with
      | Some (st1, _), Ok (t1, _) => mindful n m t1 st1 r
      | None, _ => False
      | _, _ => True
      end
  end.
