(** How the strongly typed wrappers should behave: a packet whose type is known.
    Specification only: the state is the values of the wrappers and of some packets
    beside them. *)

From Coq Require Import ZArith List Bool.
From Verif Require Import Base Keys Dec SpecDec Wire Spec SpecOps SpecPacket SpecConv SpecArith.
Import ListNotations.
Open Scope Z_scope.

(** basic_object, basic_array, basic_string, basic_number, basic_flag, basic_null *)
Inductive kind := KObject | KArray | KString | KNumber | KFlag | KNull.

Definition kind_eqb (a b : kind) : bool :=
  match a, b with
  | KObject, KObject | KArray, KArray | KString, KString | KNumber, KNumber | KFlag, KFlag | KNull, KNull => true
  | _, _ => false
  end.

(** The types a kind stands for. *)
Definition of_kind (k : kind) (t : utype) : Prop :=
  match k with
  | KObject => t = T_object
  | KArray => t = T_array
  | KString => t = T_string
  | KNumber => t = T_integer \/ t = T_decimal
  | KFlag => t = T_boolean
  | KNull => t = T_null
  end.

(** Questions without arguments: is_object() and so on, and the conversion to bool. *)
Inductive question :=
| Is_object | Is_array | Is_aggregate | Is_str | Is_integer | Is_decimal | Is_numeric | Is_boolean | Is_null
| Is_primitive | As_bool.

Definition truth (q : question) (v : value) : bool :=
  match q, v with
  | Is_object, VObj _ | Is_array, VArr _ | Is_aggregate, (VObj _ | VArr _) | Is_str, VStr _ => true
  | Is_integer, VInt _ | Is_decimal, VDec _ | Is_numeric, (VInt _ | VDec _) => true
  | Is_boolean, VBool _ | Is_null, VNull => true
  | Is_primitive, (VObj _ | VArr _) => false
  | Is_primitive, _ => true
  | As_bool, VBool b => b
  | As_bool, VNull => false
  | As_bool, _ => true
  | _, _ => false
  end.

(** The other operand of arithmetic: any integral type, float or double. *)
Inductive number := NInt (z : Z) | NFloat (f : Z) | NDouble (d : Z).

(** A program with packets and wrappers as variables, numbered in order of
    creation.  Every call that makes one makes a new variable. *)
Inductive wcall : Type :=
(* packets *)
| New (v : value)                     (* a mutable packet *)
| On (i : nat) (c : pcall)            (* a call on packet i *)
(* wrappers made without a packet *)
| Make_object | Make_array | Make_string (base app : str) | Make_number (n : number) | Make_flag (b : bool) | Make_null
(* wrappers made from a packet *)
| Wrap (k : kind) (i : nat) | Wrap_move (k : kind) (i : nat)
(* and from wrappers *)
| Copy (i : nat) | Move (i : nat) | View (i : nat)
| Rebase (i : nat) (addr : option Z)  (* onto dart::heap, or onto dart::buffer at [addr] *)
(* assignment *)
| Assign (i j : nat) | Assign_move (i j : nat) | Assign_native (i : nat) (t : cty) (x : cval)
(* members *)
| Member (i : nat) (c : pcall) | Ask (i : nat) (q : question) | Numeric (i : nat)
| Append (i : nat) (s : str) | Update (i : nat) (o : aop) (n : number)
(* out again *)
| Unwrap (i : nat) | Take (i : nat)   (* value_type p = w;  p = std::move(w) *)
| Take_get (i : nat) (key : str) | Take_get_idx (i : nat) (n : Z). (* std::move(w).dynamic().get(k) *)

Inductive wans : Type :=
| W_made | W_done | W_ans (a : pans) | W_flag (b : bool) | W_double (d : Z)
| W_throw (e : err) | W_terminate | W_bad
| W_static.                           (* not a program: no such variable or member *)

(** The members a kind has. *)
Definition has_member (k : kind) (c : pcall) : bool :=
  match k, c with
  | _, Get_type => true
  | KNull, _ => false
  | _, Is_finalized => true
  | KObject, (Empty | Nested _ _ | Finalize _ | Definalize) => true
  | KObject, Do (Insert _ _ | Set_ _ _ | Erase _ | Clear | Get _ | At _ | Has _ | Get_or _ _ | Find _ | Size | Keys | Values | Rvalues) => true
  | KArray, Empty => true
  | KArray, Do (Insert _ _ | Set_ _ _ | Erase _ | Push_front _ | Push_back _ | Pop_front | Pop_back | Resize _ _ | Clear
      | Size | Values | Rvalues | Get_idx _ | At_idx _ | Get_idx_or _ _ | Front | Back | At_front | At_back | Front_or _ | Back_or _) => true
  | KString, (Do Size | Empty | Read T_string) => true
  | KNumber, (Read T_integer | Read T_decimal) => true
  | KFlag, Read T_boolean => true
  | _, _ => false
  end.
(** Those declared noexcept. *)
Definition is_noexcept (c : pcall) : bool :=
  match c with
  | Get_type | Is_finalized | Empty | Do Size | Do (Has _) | Read T_string | Read T_boolean => true
  | _ => false
  end.
Definition accepts (k : kind) (t : cty) : bool :=
  match k, t with
  | KObject, (TMap _ _ _ | TMulti _ _ _) => true
  | KArray, (TSeq _ _ | TSet _ _ _) => true
  | KString, TStr => true
  | KNumber, (TInt _ | TDouble | TFloat) => true
  | KFlag, TBool => true
  | KNull, TNull => true
  | _, _ => false
  end.

(** ** Which wrappers were constructed and not emptied since *)

Fixpoint put {A} (i : nat) (x : A) (l : list A) : list A :=
  match l, i with
  | [], _ => []
  | _ :: r, O => x :: r
  | y :: r, S i' => y :: put i' x r
  end.

Definition lives := list (kind * bool).
Definition mark (i : nat) (b : bool) (l : lives) : lives :=
  match nth_error l i with Some (k, _) => put i (k, b) l | None => l end.
Definition emptied (i : nat) (l : lives) : lives :=
  match nth_error l i with Some (KNull, _) => l | _ => mark i false l end.
Definition alive (i : nat) (l : lives) : bool :=
  match nth_error l i with Some (_, b) => b | None => false end.
Definition again (i : nat) (l : lives) : lives :=
  match nth_error l i with Some x => l ++ [x] | None => l end.

Definition track (l : lives) (c : wcall) (a : wans) : lives :=
  match c, a with
  | Make_object, W_made => l ++ [(KObject, true)]
  | Make_array, W_made => l ++ [(KArray, true)]
  | Make_string _ _, W_made => l ++ [(KString, true)]
  | Make_number _, W_made => l ++ [(KNumber, true)]
  | Make_flag _, W_made => l ++ [(KFlag, true)]
  | Make_null, W_made => l ++ [(KNull, true)]
  | Wrap k _, W_made | Wrap_move k _, W_made => l ++ [(k, true)]
  | Copy i, W_made | Rebase i _, W_made => again i l
  | View i, W_made => match nth_error l i with Some (k, _) => l ++ [(k, true)] | None => l end
  | Move i, W_made => emptied i (again i l)
  | Assign i j, W_done => mark i (alive j l) l
  | Assign_move i j, W_done => if Nat.eqb i j then l else emptied j (mark i (alive j l) l)
  | Assign_native i _ _, W_done => match nth_error l i with Some (KNull, _) => l | _ => mark i true l end
  | Append i _, W_done | Update i _ _, W_done => mark i true l
  | Take i, W_made => emptied i l
  | Take_get i _, W_done | Take_get_idx i _, W_done => mark i false l
  | _, _ => l
  end.
Fixpoint track_all (l : lives) (cs : list wcall) (xs : list wans) : lives :=
  match cs, xs with
  | c :: cs', a :: xs' => track_all (track l c a) cs' xs'
  | _, _ => l
  end.

(** ** The machine *)

Definition worth_number (n : number) (v : value) : Prop :=
  match n with
  | NInt z => exists w, v = VInt w /\ -2 ^ 63 <= w < 2 ^ 63 /\ (z - w) mod 2 ^ 64 = 0
  | NFloat f => exists d, v = VDec d /\ bits64 d /\ denote64 d = denote32 f /\ d_sign d = f_sign f
  | NDouble d => v = VDec d
  end.

(** What numbers are worth as doubles. *)
Definition as_dbl (v : value) (d : Z) : Prop :=
  match v with VInt z => of_int z d | VDec x => d = x | _ => False end.
Definition number_dbl (n : number) (d : Z) : Prop :=
  match n with
  | NInt z => of_int z d
  | NFloat f => bits64 d /\ denote64 d = denote32 f /\ d_sign d = f_sign f
  | NDouble x => d = x
  end.
Definition number_ok (n : number) : Prop :=
  match n with NInt _ => True | NFloat f => 0 <= f < 2 ^ 32 | NDouble d => bits64 d end.

(** What moving leaves behind: a null in the same form. *)
Definition gone (x : pstate) : pstate := (VNull, snd x).
(** A null wrapper has a null of its own. *)
Definition kept (k : kind) (x : pstate) : pstate := match k with KNull => (VNull, false) | _ => x end.
(** Objects and arrays take the packet before looking at its type. *)
Definition takes_first (k : kind) : bool := match k with KObject | KArray => true | _ => false end.
Definition is_error (b : pans) : bool := match b with P_ans (A_err _) => true | _ => false end.

Section Machine.
  (** Mutable packets (C14, C15) and conversions (C36). *)
  Variable mutable : value -> op -> value * ans.
  Variable converted : cty -> cval -> res value.

  Definition wstate : Type := list (kind * pstate) * list pstate.

  Definition wstep (s : wstate) (c : wcall) (a : wans) (s' : wstate) : Prop :=
    let '(ws, vs) := s in
    let stuck := a = W_static /\ s' = s in
    let make k v := a = W_made /\ s' = (ws ++ [(k, (v, false))], vs) in
    let var i (P : pstate -> Prop) := match nth_error vs i with Some x => P x | None => stuck end in
    let wrap i (P : kind -> pstate -> Prop) := match nth_error ws i with Some (k, x) => P k x | None => stuck end in
    match c with
    | New v => a = W_made /\ s' = (ws, vs ++ [(v, false)])
    | On i c => var i (fun x =>
        exists b x', pstep mutable x c b x' /\ a = W_ans b /\ s' = (ws, put i x' vs))
    | Make_object => make KObject (VObj [])
    | Make_array => make KArray (VArr [])
    | Make_string base app => make KString (VStr (base ++ app))
    | Make_number n => exists v, worth_number n v /\ make KNumber v
    | Make_flag b => make KFlag (VBool b)
    | Make_null => make KNull VNull
    | Wrap k i => var i (fun x =>
        (of_kind k (vtype (fst x)) -> a = W_made /\ s' = (ws ++ [(k, kept k x)], vs)) /\
        (~ of_kind k (vtype (fst x)) -> a = W_throw type_error /\ s' = s))
    | Wrap_move k i => var i (fun x =>
        (of_kind k (vtype (fst x)) -> a = W_made /\
           s' = (ws ++ [(k, kept k x)], if kind_eqb k KNull then vs else put i (gone x) vs)) /\
        (~ of_kind k (vtype (fst x)) -> a = W_throw type_error /\
           s' = (ws, if takes_first k then put i (gone x) vs else vs)))
    | Copy i => wrap i (fun k x => a = W_made /\ s' = (ws ++ [(k, x)], vs))
    | Move i => wrap i (fun k x => a = W_made /\ s' = (put i (k, gone x) ws ++ [(k, x)], vs))
    | View i => wrap i (fun k x =>
        (k = KNull \/ of_kind k (vtype (fst x)) -> a = W_made /\ s' = (ws ++ [(k, kept k x)], vs)) /\
        (k <> KNull -> ~ of_kind k (vtype (fst x)) -> a = W_terminate /\ s' = s))
    | Rebase i addr => wrap i (fun k x =>
        if kind_eqb k KNull then a = W_made /\ s' = (ws ++ [(KNull, (VNull, false))], vs) else
        exists b x', pstep mutable x (match addr with Some n => Finalize n | None => Definalize end) b x' /\
          ((b = P_ans A_unit /\ a = W_made /\ s' = (ws ++ [(k, x')], vs)) \/
           (exists e, b = P_ans (A_err e) /\ a = W_throw e /\ s' = s)))
    | Assign i j => wrap i (fun k x => wrap j (fun k' y =>
        if kind_eqb k k' then a = W_done /\ s' = (put i (k, y) ws, vs) else stuck))
    | Assign_move i j => wrap i (fun k x => wrap j (fun k' y =>
        if kind_eqb k k' then
          a = W_done /\ s' = (if Nat.eqb i j then s else (put j (k, gone y) (put i (k, y) ws), vs))
        else stuck))
    | Assign_native i t u => wrap i (fun k x =>
        if accepts k t then
          if kind_eqb k KNull then a = W_done /\ s' = s else
          match converted t u with
          | Ok v => a = W_done /\ s' = (put i (k, (v, false)) ws, vs)
          | Throw e => a = W_throw e /\ s' = s
          | _ => a = W_bad /\ s' = s
          end
        else stuck)
    | Member i c => wrap i (fun k x =>
        if has_member k c then
          exists b x', pstep mutable x c b x' /\
            a = (if is_noexcept c && is_error b then W_terminate else W_ans b) /\ s' = (put i (k, x') ws, vs)
        else stuck)
    | Ask i q => wrap i (fun k x =>
        s' = s /\ (of_kind k (vtype (fst x)) -> a = W_flag (truth q (fst x))))
    | Numeric i => wrap i (fun k x =>
        if kind_eqb k KNumber then
          s' = s /\ ((exists d, as_dbl (fst x) d /\ a = W_double d) \/
                     (~ of_kind KNumber (vtype (fst x)) /\ a = W_terminate))
        else stuck)
    | Append i app => wrap i (fun k x =>
        if kind_eqb k KString then
          match fst x with
          | VStr u => a = W_done /\ s' = (put i (k, (VStr (u ++ app), false)) ws, vs)
          | _ => a = W_terminate /\ s' = s
          end
        else stuck)
    | Update i o n => wrap i (fun k x =>
        if kind_eqb k KNumber then
          if snd x then a = W_terminate /\ s' = s else
          (exists d d' r, as_dbl (fst x) d /\ number_dbl n d' /\ ieee o d d' r /\
             a = W_done /\ s' = (put i (k, (VDec r, false)) ws, vs)) \/
          (~ of_kind KNumber (vtype (fst x)) /\ a = W_terminate /\ s' = s)
        else stuck)
    | Unwrap i => wrap i (fun k x => a = W_made /\ s' = (ws, vs ++ [kept k x]))
    | Take i => wrap i (fun k x =>
        a = W_made /\ s' = (if kind_eqb k KNull then ws else put i (k, gone x) ws, vs ++ [kept k x]))
    | Take_get i key => wrap i (fun k x =>
        exists b x', pstep mutable x (Into key) b x' /\
          ((b = P_ans A_unit /\ a = W_done /\ s' = (put i (k, x') ws, vs)) \/
           (exists e, b = P_ans (A_err e) /\ a = W_throw e /\ s' = s)))
    | Take_get_idx i n => wrap i (fun k x =>
        exists b x', pstep mutable x (Into_idx n) b x' /\
          ((b = P_ans A_unit /\ a = W_done /\ s' = (put i (k, x') ws, vs)) \/
           (exists e, b = P_ans (A_err e) /\ a = W_throw e /\ s' = s)))
    end.

  Inductive wsteps : wstate -> list wcall -> list wans -> wstate -> Prop :=
  | wsteps_nil s : wsteps s [] [] s
  | wsteps_cons s c a s1 cs l s2 :
      wstep s c a s1 -> wsteps s1 cs l s2 -> wsteps s (c :: cs) (a :: l) s2.
End Machine.

(** The arguments the types allow.  What a native container converts to has to be
    something packets can hold, with keys that can be found again (C03). *)
Definition wcall_ok (converted : cty -> cval -> res value) (c : wcall) : Prop :=
  match c with
  | New v => heap_value v /\ good_all v
  | On _ c | Member _ c => pcall_ok c
  | Make_string base app => zlen base + zlen app < 2 ^ 32
  | Make_number n | Update _ _ n => number_ok n
  | Rebase _ (Some addr) => addr mod 8 = 0
  | Assign_native _ t x => match converted t x with Ok v => heap_value v /\ good_all v | _ => True end
  | Take_get_idx _ n => 0 <= n < 2 ^ 64
  | _ => True
  end.
