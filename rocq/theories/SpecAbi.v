(** How programs against the C interface should behave: variables of the three C
    types, live or not, each live one a packet that keeps its reference counter.
    Specification only. *)

From Coq Require Import ZArith List Bool.
From Verif Require Import Base Keys Wire Spec SpecOps SpecPacket SpecWrap.
Import ListNotations.
Open Scope Z_scope.

(** dart_heap_t, dart_buffer_t, dart_packet_t; and the objects that live in them *)
Inductive form := FHeap | FBuffer | FPacket.
(** DART_RC_SAFE, DART_RC_UNSAFE *)
Inductive counter := Safe | Unsafe.
(** dart_heap_f, dart_buffer_f and plain dart_f *)
Inductive family := OfHeap | OfBuffer | Generic.

Definition form_eqb (a b : form) : bool :=
  match a, b with FHeap, FHeap | FBuffer, FBuffer | FPacket, FPacket => true | _, _ => false end.
Definition counter_eqb (a b : counter) : bool :=
  match a, b with Safe, Safe | Unsafe, Unsafe => true | _, _ => false end.

(** The error codes a client sees. *)
Definition no_error := 0.
Definition type_code := 1.
Definition logic_code := 2.
Definition state_code := 3.
Definition parse_code := 4.
Definition runtime_code := 5.
Definition client_code := 6.
Definition err_code (e : err) : Z :=
  match e with
  | type_error => type_code
  | state_error => state_code
  | parse_error => parse_code
  | validation_error => runtime_code
  | out_of_range | invalid_argument | length_error => logic_code
  end.
Definition counter_of (rc : Z) : option counter :=
  if rc =? 1 then Some Safe else if rc =? 2 then Some Unsafe else None.
Definition type_number (t : utype) : Z :=
  match t with
  | T_object => 1 | T_array => 2 | T_string => 3 | T_integer => 4 | T_decimal => 5 | T_boolean => 6 | T_null => 7
  end.

(** A member by name, or an element by its size_t index. *)
Inductive place := Named (k : str) | Index (i : Z).
Definition key_value (p : place) : value :=
  match p with Named k => VStr k | Index i => VInt (if i <? 2 ^ 63 then i else i - 2 ^ 64) end.
Definition into (p : place) : pcall := match p with Named k => Into k | Index i => Into_idx i end.

(** Calls that make an object.  [addr] is where the allocator puts a block. *)
Inductive making :=
| Init (d : form) (rc : Z)
| Seed (d : form) (rc : Z) (v : value)       (* obj_init, arr_init, str_init, int_init, ... *)
| Duplicate (f : family) (j : nat)           (* copy *)
| Relocate (f : family) (j : nat)            (* move *)
| Child (f : family) (j : nat) (p : place)   (* obj_get, arr_get *)
| To_heap (j : nat) | To_buffer (j : nat) (addr : Z)
| Lower (f : family) (j : nat) (addr : Z)    (* lower, finalize *)
| Lift (f : family) (j : nat).               (* lift, definalize *)

(** A program: variables are numbered in order of declaration.  The calls that do
    not copy on write (clear, resize) are not here: they act on storage (C16). *)
Inductive acall :=
| Declare (d : form)
| Construct (i : nat) (m : making)           (* the forms ending in _err, into variable i *)
| Return_new (m : making)                    (* the forms returning by value, into a new variable *)
| Destroy (f : family) (i : nat)
| Put (f : family) (set take : bool) (i : nat) (p : place) (j : nat)
| Put_value (f : family) (set : bool) (i : nat) (p : place) (v : value)
| Remove (f : family) (i : nat) (p : place)  (* erase *)
| Has_key (f : family) (i : nat) (k : str)
| Read_err (f : family) (i : nat) (t : utype)
| Read_plain (f : family) (i : nat) (t : utype)
| Count (f : family) (i : nat)               (* size *)
| Type_of (f : family) (i : nat)
| Finalized (i : nat).

Inductive aans :=
| R_done | R_code (z : Z) | R_value (v : value) | R_nullptr | R_size (z : Z) | R_flag (b : bool) | R_type (z : Z)
| R_bad                                      (* undefined behaviour *)
| R_static.                                  (* not a program: wrong types, no such variable *)

(** The type the by-value form returns, which is that of the destination of the
    other one, except that dart_copy_err and dart_move_err take a void pointer. *)
Definition of_family (f : family) : form := match f with OfHeap => FHeap | OfBuffer => FBuffer | Generic => FPacket end.
Definition returns (m : making) : form :=
  match m with
  | Init d _ | Seed d _ _ => d
  | Duplicate f _ | Relocate f _ | Child f _ _ => of_family f
  | To_heap _ => FHeap
  | To_buffer _ _ => FBuffer
  | Lower f _ _ => match f with Generic => FPacket | _ => FBuffer end
  | Lift f _ => match f with Generic => FPacket | _ => FHeap end
  end.
Definition any_destination (m : making) : bool :=
  match m with Duplicate Generic _ | Relocate Generic _ => true | _ => false end.
(** What the C types of the arguments allow. *)
Definition takes (f : family) (d : form) : bool := match f with Generic => true | _ => form_eqb (of_family f) d end.
(** Only whole families have the call. *)
Definition has_making (m : making) : bool :=
  match m with
  | Seed FBuffer _ _ => false
  | Seed _ _ (VObj (_ :: _)) | Seed _ _ (VArr (_ :: _)) => false
  | Lower OfBuffer _ _ | Lift OfHeap _ => false
  | _ => true
  end.
Definition changes (f : family) : bool := match f with OfBuffer => false | _ => true end.
(** Values that can be written without a handle. *)
Definition plain_value (v : value) : bool :=
  match v with VObj _ | VArr _ => false | _ => true end.
Definition readable (t : utype) : bool :=
  match t with T_string | T_integer | T_decimal | T_boolean => true | _ => false end.

(** ** The machine *)

Definition quiet_nan := 9221120237041090560. (* 0x7FF8000000000000 *)
Definition failure := 2 ^ 64 - 1.            (* DART_FAILURE as a size_t *)

Definition content : Type := form * counter * pstate.
Definition avar : Type := form * option content.
Definition astate : Type := list avar.

Definition nothing (d : form) : pstate := (VNull, match d with FBuffer => true | _ => false end).
Definition code_of (b : pans) : Z := match b with P_ans (A_err e) => err_code e | _ => no_error end.

(** What a call that takes its argument leaves of it.  A finalized one is copied.  A
    mutable packet is emptied even if the call fails, unless the destination is
    finalized.  A heap is emptied if the call succeeds, unless the name is new. *)
Definition left_of (set : bool) (p : place) (dst : pstate) (b : pans) (d : form) (x : pstate) : pstate :=
  if snd x then x else
  match d with
  | FPacket => if snd dst then x else gone x
  | _ =>
      if is_error b then x else
      match set, p, fst dst with
      | false, Named k, VObj fs => match lookup k fs with Some _ => gone x | None => x end
      | _, _, _ => gone x
      end
  end.

Inductive made := Made (d : form) (n : counter) (x : pstate) | Failed (z : Z).

Section Machine.
  Variable mutable : value -> op -> value * ans.

  (** Handle j of the right C type, live and holding what the family expects. *)
  Definition usable (s : astate) (f : family) (j : nat) (d : form) (n : counter) (x : pstate) : Prop :=
    exists t, nth_error s j = Some (t, Some (d, n, x)) /\ takes f t = true /\ takes f d = true.
  Definition update (s : astate) (j : nat) (x : pstate) : astate :=
    match nth_error s j with
    | Some (t, Some (d, n, _)) => put j (t, Some (d, n, x)) s
    | _ => s
    end.

  Definition outcome (b : pans) (d : form) (n : counter) (x : pstate) : made :=
    if is_error b then Failed (code_of b) else Made d n x.

  (** The object a making call makes, and the variables afterwards. *)
  Definition makes (s : astate) (m : making) (r : made) (s1 : astate) : Prop :=
    match m with
    | Init d rc => s1 = s /\
        r = match counter_of rc with Some n => Made d n (nothing d) | None => Failed client_code end
    | Seed d rc v => s1 = s /\
        r = match counter_of rc with Some n => Made d n (v, false) | None => Failed client_code end
    | Duplicate f j => s1 = s /\ exists d n x, usable s f j d n x /\ r = Made d n x
    | Relocate f j => exists d n x, usable s f j d n x /\ r = Made d n x /\ s1 = update s j (gone x)
    | Child f j p => s1 = s /\ exists d n x b x', usable s f j d n x /\
        pstep mutable x (into p) b x' /\ r = outcome b (of_family f) n x'
    | To_heap j => s1 = s /\ exists d n x, usable s Generic j d n x /\ r = Made FHeap n (fst x, false)
    | To_buffer j addr => s1 = s /\ exists d n x b x', usable s Generic j d n x /\
        pstep mutable (fst x, false) (Finalize addr) b x' /\ r = outcome b FBuffer n x'
    | Lower f j addr => s1 = s /\ exists d n x b x', usable s f j d n x /\
        pstep mutable x (Finalize addr) b x' /\ r = outcome b (returns m) n x'
    | Lift f j => s1 = s /\ exists d n x, usable s f j d n x /\ r = Made (returns m) n (fst x, false)
    end.

  (** A call on a live handle; buffers cannot be changed. *)
  Definition asks (s : astate) (f : family) (i : nat) (c : pcall) (P : pans -> Prop) : Prop :=
    exists d n x b x', usable s f i d n x /\ pstep mutable x c b x' /\ P b.
  Definition changed (s : astate) (f : family) (i : nat) (c : pcall) (a : aans) (s' : astate) : Prop :=
    exists d n x, usable s f i d n x /\
      if form_eqb d FBuffer then a = R_code client_code /\ s' = s
      else exists b x', pstep mutable x c b x' /\ a = R_code (code_of b) /\ s' = update s i x'.

  Definition astep (s : astate) (c : acall) (a : aans) (s' : astate) : Prop :=
    match c with
    | Declare d => a = R_done /\ s' = s ++ [(d, None)]
    | Construct i m => exists t r s1, nth_error s i = Some (t, None) /\ makes s m r s1 /\
        match r with
        | Made d n x => a = R_code no_error /\ s' = put i (t, Some (d, n, x)) s1
        | Failed z => a = R_code z /\ s' = s1
        end
    | Return_new m => a = R_done /\ exists r s1, makes s m r s1 /\
        s' = s1 ++ [(returns m, match r, m with
                                | Made d n x, _ => Some (d, n, x)
                                | Failed _, Init _ _ => None
                                | Failed _, _ => Some (returns m, Safe, nothing (returns m))
                                end)]
    | Destroy f i => exists t d n x, nth_error s i = Some (t, Some (d, n, x)) /\ usable s f i d n x /\
        a = R_code no_error /\ s' = put i (t, None) s
    | Put f set take i p j => exists d n x d' n' y, usable s f i d n x /\ usable s f j d' n' y /\
        if form_eqb d FBuffer then a = R_code client_code /\ s' = s
        else if negb (counter_eqb n n') then
          a = R_code (match f with Generic => type_code | _ => client_code end) /\ s' = s
        else exists b x',
          pstep mutable x (Do ((if set then Set_ else Insert) (key_value p) (fst y))) b x' /\
          a = R_code (code_of b) /\
          s' = update (update s i x') j (if take then left_of set p x b d' y else y)
    | Put_value f set i p v => changed s f i (Do ((if set then Set_ else Insert) (key_value p) v)) a s'
    | Remove f i p => changed s f i (Do (Erase (key_value p))) a s'
    | Has_key f i k => s' = s /\ asks s f i (Do (Has k)) (fun b =>
        a = R_flag (match b with P_ans (A_bool q) => q | _ => false end))
    | Read_err f i t => s' = s /\ asks s f i (Read t) (fun b =>
        a = match b with P_ans (A_value v) => R_value v | _ => R_code (code_of b) end)
    | Read_plain f i t => s' = s /\ asks s f i (Read t) (fun b =>
        a = match b, t with
            | P_ans (A_value v), _ => R_value v
            | _, T_integer => R_value (VInt 0)
            | _, T_decimal => R_value (VDec quiet_nan)
            | _, T_boolean => R_value (VBool false)
            | _, _ => R_nullptr
            end)
    | Count f i => s' = s /\ asks s f i (Do Size) (fun b =>
        a = R_size (match b with P_ans (A_size z) => z | _ => failure end))
    | Type_of f i => s' = s /\ asks s f i Get_type (fun b =>
        match b with P_type t => a = R_type (type_number t) | _ => False end)
    | Finalized i => s' = s /\ asks s Generic i Is_finalized (fun b =>
        match b with P_flag q => a = R_flag q | _ => False end)
    end.

  Inductive asteps : astate -> list acall -> list aans -> astate -> Prop :=
  | asteps_nil s : asteps s [] [] s
  | asteps_cons s c a s1 cs l s2 :
      astep s c a s1 -> asteps s1 cs l s2 -> asteps s (c :: cs) (a :: l) s2.
End Machine.

(** ** The client's side of the contract

    Destinations are declared and hold nothing live; everything used is live, of the
    C type the function takes and of the family's own form; dart_copy_err and
    dart_move_err get a destination the object fits in; nothing is inserted into
    itself (C17). *)
Definition live (s : astate) (f : family) (j : nat) : Prop := exists d n x, usable s f j d n x.
Definition fits (t d : form) : bool := match t, d with FBuffer, FBuffer => true | FBuffer, _ => false | _, _ => true end.
Definition source_live (s : astate) (m : making) : Prop :=
  match m with
  | Init _ _ | Seed _ _ _ => True
  | Duplicate f j | Relocate f j | Child f j _ | Lower f j _ | Lift f j => live s f j
  | To_heap j | To_buffer j _ => live s Generic j
  end.
Definition makes_form (s : astate) (m : making) (d : form) : Prop :=
  match m with
  | Duplicate Generic j | Relocate Generic j => exists n x, usable s Generic j d n x
  | _ => d = returns m
  end.
Definition proper (s : astate) (c : acall) : Prop :=
  match c with
  | Declare _ => True
  | Construct i m => has_making m = true /\ source_live s m /\
      exists t, nth_error s i = Some (t, None) /\ (any_destination m = false -> t = returns m) /\
        forall d, makes_form s m d -> fits t d = true
  | Return_new m => has_making m = true /\ source_live s m
  | Destroy f i => live s f i
  | Put f _ _ i _ j => changes f = true /\ i <> j /\ live s f i /\ live s f j
  | Put_value f _ i _ v => changes f = true /\ plain_value v = true /\ live s f i
  | Remove f i _ => changes f = true /\ live s f i
  | Has_key f i _ | Count f i | Type_of f i => live s f i
  | Read_err f i t => readable t = true /\ t <> T_string /\ live s f i
  | Read_plain f i t => readable t = true /\ live s f i
  | Finalized i => live s Generic i
  end.

(** The arguments the C types allow, with keys that can be found again (C03). *)
Definition place_ok (p : place) : Prop := match p with Named k => good_key k /\ zlen k < 2 ^ 32 | Index i => 0 <= i < 2 ^ 64 end.
Definition making_ok (m : making) : Prop :=
  match m with
  | Seed _ _ v => heap_value v /\ good_all v
  | Child _ _ (Index i) => 0 <= i < 2 ^ 64
  | To_buffer _ addr | Lower _ _ addr => addr mod 8 = 0
  | _ => True
  end.
Definition acall_ok (c : acall) : Prop :=
  match c with
  | Construct _ m | Return_new m => making_ok m
  | Put _ _ _ _ p _ => place_ok p
  | Put_value _ _ _ p v => place_ok p /\ heap_value v /\ good_all v
  | Remove _ _ (Index i) => 0 <= i < 2 ^ 64
  | _ => True
  end.

(** A program that keeps to the contract, whatever the calls before answered. *)
Fixpoint careful (mutable : value -> op -> value * ans) (s : astate) (cs : list acall) : Prop :=
  match cs with
  | [] => True
  | c :: r => proper s c /\ acall_ok c /\ forall a s', astep mutable s c a s' -> careful mutable s' r
  end.
