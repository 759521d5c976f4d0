(** How the iterators of the C interface should behave: each walks along the
    members of an aggregate, in order, from first to last.  Specification only. *)

From Coq Require Import ZArith List Bool.
From Verif Require Import Base Keys Wire Spec SpecOps SpecPacket SpecWrap SpecAbi.
Import ListNotations.
Open Scope Z_scope.

(** Iterators, like variables, are numbered in order of declaration. *)
Inductive icall :=
| Plain (c : acall)
| Declare_it
| It_init (i : nat)                              (* dart_iterator_init_err *)
| It_from (keys : bool) (i j : nat)              (* init_from_err, init_key_from_err, from variable j *)
| It_copy (i j : nat) | It_move (i j : nat)      (* into i from j *)
| It_destroy (i : nat)
| It_get (x i : nat)                             (* dart_iterator_get_err, into variable x *)
| It_return (i : nat)                            (* dart_iterator_get, into a new variable *)
| It_next (i : nat)
| It_done (i : nat)
| It_done_destroy (i : nat) (x : option nat).

(** The members of an aggregate, or the names in an object. *)
Definition children (keys : bool) (x : pstate) : option (list pstate) :=
  match keys, fst x with
  | false, VObj fs => Some (map (fun kv => (snd kv, snd x)) fs)
  | false, VArr vs => Some (map (fun v => (v, snd x)) vs)
  | true, VObj fs => Some (map (fun kv => (VStr (fst kv), snd x)) fs)
  | _, _ => None
  end.

(** What is still ahead of an iterator; nothing is known once the variable it walks
    along may have changed.  Finalized aggregates are kept alive by the iterator. *)
Inductive ahead := Ahead (l : list pstate) | Stale.
Definition walker : Type := counter * option nat * ahead.
Definition istate : Type := astate * list (option walker).

(** The variables a call may change. *)
Definition takes_from (m : making) : list nat := match m with Relocate _ j => [j] | _ => [] end.
Definition touches (c : acall) : list nat :=
  match c with
  | Construct i m => i :: takes_from m
  | Return_new m => takes_from m
  | Destroy _ i | Put_value _ _ i _ _ | Remove _ i _ => [i]
  | Put _ _ take i _ j => if take then [i; j] else [i]
  | _ => []
  end.
Definition among (j : nat) (l : list nat) : bool := existsb (Nat.eqb j) l.
Definition upset (l : list nat) (w : option walker) : option walker :=
  match w with
  | Some (n, Some j, a) => Some (n, Some j, if among j l then Stale else a)
  | _ => w
  end.

Section Machine.
  Variable mutable : value -> op -> value * ans.

  Definition istep (st : istate) (c : icall) (a : aans) (st' : istate) : Prop :=
    let '(s, w) := st in
    match c with
    | Plain c => exists s', astep mutable s c a s' /\ st' = (s', map (upset (touches c)) w)
    | Declare_it => a = R_done /\ st' = (s, w ++ [None])
    | It_init i => nth_error w i = Some None /\ a = R_code no_error /\
        st' = (s, put i (Some (Safe, None, Ahead [])) w)
    | It_from keys i j => exists d n x, nth_error w i = Some None /\ usable s Generic j d n x /\
        match children keys x with
        | Some l => a = R_code no_error /\ st' = (s, put i (Some (n, if snd x then None else Some j, Ahead l)) w)
        | None => a = R_code type_code /\ st' = st
        end
    | It_copy i j => exists n o l, nth_error w i = Some None /\ nth_error w j = Some (Some (n, o, Ahead l)) /\
        a = R_code no_error /\ st' = (s, put i (Some (n, o, Ahead l)) w)
    | It_move i j => exists n o l, nth_error w i = Some None /\ nth_error w j = Some (Some (n, o, Ahead l)) /\
        a = R_code no_error /\ st' = (s, put i (Some (n, o, Ahead l)) (put j (Some (n, None, Ahead [])) w))
    | It_destroy i => exists x, nth_error w i = Some (Some x) /\ a = R_code no_error /\ st' = (s, put i None w)
    | It_get x i => exists n o l, nth_error w i = Some (Some (n, o, Ahead l)) /\ nth_error s x = Some (FPacket, None) /\
        match l with
        | y :: _ => a = R_code no_error /\ st' = (put x (FPacket, Some (FPacket, n, y)) s, w)
        | [] => a = R_code runtime_code /\ st' = st
        end
    | It_return i => exists n o l, nth_error w i = Some (Some (n, o, Ahead l)) /\ a = R_done /\
        st' = (s ++ [(FPacket, Some (match l with
                                     | y :: _ => (FPacket, n, y)
                                     | [] => (FPacket, Safe, nothing FPacket)
                                     end))], w)
    | It_next i => exists n o l, nth_error w i = Some (Some (n, o, Ahead l)) /\ a = R_code no_error /\
        st' = (s, put i (Some (n, o, Ahead (tl l))) w)
    | It_done i => exists n o l, nth_error w i = Some (Some (n, o, Ahead l)) /\
        a = R_flag (match l with [] => true | _ => false end) /\ st' = st
    | It_done_destroy i x => exists n o l, nth_error w i = Some (Some (n, o, Ahead l)) /\
        match l with
        | _ :: _ => a = R_flag false /\ st' = st
        | [] => a = R_flag true /\
            match x with
            | Some x => exists b s', astep mutable s (Destroy Generic x) b s' /\ st' = (s', map (upset [x]) (put i None w))
            | None => st' = (s, put i None w)
            end
        end
    end.

  Inductive isteps : istate -> list icall -> list aans -> istate -> Prop :=
  | isteps_nil st : isteps st [] [] st
  | isteps_cons st c a st1 cs l st2 :
      istep st c a st1 -> isteps st1 cs l st2 -> isteps st (c :: cs) (a :: l) st2.
End Machine.

(** ** The client's side of the contract

    Destinations hold nothing live; what is used is live; once a variable may have
    changed, iterators over what it held are only destroyed. *)
Definition walking (w : list (option walker)) (i : nat) : Prop :=
  exists n o l, nth_error w i = Some (Some (n, o, Ahead l)).
Definition iproper (st : istate) (c : icall) : Prop :=
  let '(s, w) := st in
  match c with
  | Plain c => proper s c /\ acall_ok c
  | Declare_it => True
  | It_init i => nth_error w i = Some None
  | It_from _ i j => nth_error w i = Some None /\ live s Generic j
  | It_copy i j | It_move i j => nth_error w i = Some None /\ walking w j
  | It_destroy i => exists x, nth_error w i = Some (Some x)
  | It_get x i => walking w i /\ nth_error s x = Some (FPacket, None)
  | It_return i | It_next i | It_done i => walking w i
  | It_done_destroy i x => walking w i /\
      forall y, x = Some y -> (exists c, nth_error s y = Some (FPacket, c)) /\
        forall n o, nth_error w i = Some (Some (n, o, Ahead [])) -> live s Generic y
  end.

Fixpoint icareful (mutable : value -> op -> value * ans) (st : istate) (cs : list icall) : Prop :=
  match cs with
  | [] => True
  | c :: r => iproper st c /\ forall a st', istep mutable st c a st' -> icareful mutable st' r
  end.

(** Calls that only look. *)
Definition looks (c : acall) : bool :=
  match c with
  | Has_key _ _ _ | Read_err _ _ _ | Read_plain _ _ _ | Count _ _ | Type_of _ _ | Finalized _ => true
  | _ => false
  end.
