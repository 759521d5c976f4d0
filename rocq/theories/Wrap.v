(** The strongly typed wrappers over dart::packet.  Model only; dart::heap and
    dart::buffer as the base are the packets that stay in one form.

    A wrapper is its member [val]; the static type is the kind next to it. *)

From Coq Require Import ZArith List Bool.
From Verif Require Import Base Keys Dec Wire Ordered Buf SpecOps HeapOps SpecPacket Packet SpecConv Conv Float SpecArith Arith SpecWrap.
Import ListNotations.
Open Scope Z_scope.

(** The defaulted move constructor of a packet moves the heap (heap/api.tcc:13-15) or
    the buffer (buffer/api.tcc:13-19) inside; either leaves a null behind. *)
Definition p_moved (p : packet) : packet :=
  match p with PHeap _ => PHeap VNull | PBuf bs m _ => PBuf bs m (R_null, None) end.

(** The check of the constructors: object.tcc:184-187 (ensure_object), array.tcc:14-18,
    string.tcc:14-16, primitive.tcc:14-17, 23-26, api.tcc:15-18. *)
Definition is_a (k : kind) (p : packet) : bool :=
  match k with
  | KObject => utype_eqb (p_type p) T_object
  | KArray => utype_eqb (p_type p) T_array
  | KString => utype_eqb (p_type p) T_string
  | KNumber => utype_eqb (p_type p) T_integer || utype_eqb (p_type p) T_decimal
  | KFlag => utype_eqb (p_type p) T_boolean
  | KNull => utype_eqb (p_type p) T_null
  end.

(** The wrapper and what is left of the argument, which is an lvalue or, with
    [move], an rvalue.  Objects (object.tcc:29-66) and arrays (array.tcc:12-18)
    initialise [val] and check then; strings (string.tcc:12-17), numbers and flags
    (primitive.tcc:12-28) check and assign then; nulls (dart.h:4723, api.tcc:14-18)
    take a const reference and leave [val] as its own null. *)
Definition w_wrap (k : kind) (move : bool) (p : packet) : res packet * packet :=
  let remains := if move then p_moved p else p in
  match k with
  | KObject | KArray => (if is_a k p then Ok p else Throw type_error, remains)
  | KString | KNumber | KFlag => if is_a k p then (Ok p, remains) else (Throw type_error, p)
  | KNull => (if is_a k p then Ok (PHeap VNull) else Throw type_error, p)
  end.

(** dart.h:3671-3702 (basic_number), through make_integer and make_decimal *)
Definition operand_of (n : number) : operand :=
  match n with NInt z => OInt z | NFloat f => OFloat f | NDouble d => ODouble d end.
Definition w_number (n : number) : value :=
  match n with
  | NInt z => VInt (conv int64 z)
  | NFloat f => VDec (widen f)
  | NDouble d => VDec d
  end.

(** string.tcc:40-42 (strv), noexcept; string.tcc:19-25 (+=) concatenates into a new
    string and assigns. *)
Definition w_append (p : packet) (app : str) : res packet :=
  v <- p_scalar T_string p ;;
  match v with VStr u => Ok (PHeap (VStr (u ++ app))) | _ => Undef end.

(** api.tcc:602-905 (is_object ... is_primitive), 314-342 (operator bool) *)
Definition w_ask (k : kind) (q : question) (p : packet) : res bool :=
  let null := utype_eqb (p_type p) T_null in
  match q, k with
  | Is_object, KObject | Is_aggregate, KObject => Ok (utype_eqb (p_type p) T_object)
  | Is_array, KArray | Is_aggregate, KArray => Ok (utype_eqb (p_type p) T_array)
  | Is_str, KString => Ok (utype_eqb (p_type p) T_string)
  | Is_integer, KNumber => Ok (utype_eqb (p_type p) T_integer)
  | Is_decimal, KNumber => Ok (utype_eqb (p_type p) T_decimal)
  | Is_numeric, KNumber => Ok (negb null)
  | Is_boolean, KFlag => Ok (utype_eqb (p_type p) T_boolean)
  | Is_null, KNull => Ok true
  | Is_null, _ => Ok null
  | Is_primitive, (KObject | KArray) => Ok false
  | Is_primitive, _ => Ok true
  | As_bool, KNull => Ok false
  | As_bool, KFlag =>
      if null then Ok false
      else v <- p_scalar T_boolean p ;; match v with VBool b => Ok b | _ => Undef end
  | As_bool, _ => Ok (negb null)
  | _, _ => Ok false
  end.

(** ** Programs *)

Definition pstate_w : Type := list (kind * packet) * list packet.

(** What a call that throws out of a noexcept function does. *)
Definition quiet {A} (s : pstate_w) (r : res A) (f : A -> pstate_w * wans) : pstate_w * wans :=
  match r with Ok x => f x | Throw _ => (s, W_terminate) | _ => (s, W_bad) end.
Definition loud {A} (s : pstate_w) (r : res A) (f : A -> pstate_w * wans) : pstate_w * wans :=
  match r with Ok x => f x | Throw e => (s, W_throw e) | _ => (s, W_bad) end.

Definition w_call (s : pstate_w) (c : wcall) : pstate_w * wans :=
  let '(ws, vs) := s in
  let stuck := (s, W_static) in
  let make k v := ((ws ++ [(k, PHeap v)], vs), W_made) in
  let var i (f : packet -> pstate_w * wans) := match nth_error vs i with Some p => f p | None => stuck end in
  let wrap i (f : kind -> packet -> pstate_w * wans) := match nth_error ws i with Some (k, p) => f k p | None => stuck end in
  match c with
  | New v => ((ws, vs ++ [PHeap v]), W_made)
  | On i c => var i (fun p => let '(q, b) := p_call p c in ((ws, put i q vs), W_ans b))
  (* dart.h:192-193, 1716-1717, 3102-3171, 4240-4257, 4763-4769 *)
  | Make_object => make KObject (VObj [])
  | Make_array => make KArray (VArr [])
  | Make_string base app => make KString (VStr (base ++ app))
  | Make_number n => make KNumber (w_number n)
  | Make_flag b => make KFlag (VBool b)
  | Make_null => make KNull VNull
  | Wrap k i => var i (fun p =>
      let '(r, _) := w_wrap k false p in loud s r (fun q => ((ws ++ [(k, q)], vs), W_made)))
  | Wrap_move k i => var i (fun p =>
      let '(r, remains) := w_wrap k true p in
      loud (ws, put i remains vs) r (fun q => ((ws ++ [(k, q)], put i remains vs), W_made)))
  (* the defaulted copy and move constructors: dart.h:367-376 and the like *)
  | Copy i => wrap i (fun k p => ((ws ++ [(k, p)], vs), W_made))
  | Move i => wrap i (fun k p => ((put i (k, p_moved p) ws ++ [(k, p)], vs), W_made))
  (* api.tcc:230-258: the view of the packet, wrapped; noexcept *)
  | View i => wrap i (fun k p =>
      match k with
      | KNull => make KNull VNull
      | _ => let '(r, _) := w_wrap k false p in quiet s r (fun q => ((ws ++ [(k, q)], vs), W_made))
      end)
  (* dart.h:324, 358, 1775, 1809, 3229, 3263, 3760, 3794, 4315, 4349 convert the
     packet (conversion_traits.h:83-140); 4713, 4757 ignore it *)
  | Rebase i addr => wrap i (fun k p =>
      match k with
      | KNull => make KNull VNull
      | _ =>
          loud s (match addr with Some n => p_finalize n p | None => p_definalize p end)
            (fun q => ((ws ++ [(k, q)], vs), W_made))
      end)
  (* the defaulted assignments: dart.h:393-408 and the like; heap/api.tcc:17-26 and
     buffer/api.tcc:21-31 leave a packet assigned to itself alone *)
  | Assign i j => wrap i (fun k _ => wrap j (fun k' q =>
      if kind_eqb k k' then ((put i (k, q) ws, vs), W_done) else stuck))
  | Assign_move i j => wrap i (fun k _ => wrap j (fun k' q =>
      if kind_eqb k k' then
        if Nat.eqb i j then (s, W_done) else ((put j (k, p_moved q) (put i (k, q) ws), vs), W_done)
      else stuck))
  (* api.tcc:20-213 *)
  | Assign_native i t x => wrap i (fun k p =>
      if accepts k t then
        match k with
        | KNull => (s, W_done)
        | _ => loud s (to_dart t x) (fun v => ((put i (k, PHeap v) ws, vs), W_done))
        end
      else stuck)
  (* object.tcc:68-182, array.tcc:20-165, api.tcc:445-530, string.tcc:27-42,
     primitive.tcc:86-104, api.tcc:908-937: the same call on [val] *)
  | Member i c => wrap i (fun k p =>
      if has_member k c then
        let '(q, b) := p_call p c in
        ((put i (k, q) ws, vs), if is_noexcept c && is_error b then W_terminate else W_ans b)
      else stuck)
  | Ask i q => wrap i (fun k p => quiet s (w_ask k q p) (fun b => (s, W_flag b)))
  | Numeric i => wrap i (fun k p =>
      if kind_eqb k KNumber then quiet s (p_numeric p) (fun d => (s, W_double d)) else stuck)
  | Append i app => wrap i (fun k p =>
      if kind_eqb k KString then
        quiet s (w_append p app) (fun q => ((put i (k, q) ws, vs), W_done))
      else stuck)
  | Update i o n => wrap i (fun k p =>
      if kind_eqb k KNumber then
        quiet s (n_update o p (operand_of n)) (fun q => ((put i (k, q) ws, vs), W_done))
      else stuck)
  (* api.tcc:260-312 (operator value_type), 550-600 (dynamic); packet/object.tcc:174-177
     and packet/array.tcc:158-161 (get of an rvalue) replace the packet *)
  | Unwrap i => wrap i (fun k p => ((ws, vs ++ [match k with KNull => PHeap VNull | _ => p end]), W_made))
  | Take i => wrap i (fun k p =>
      match k with
      | KNull => ((ws, vs ++ [PHeap VNull]), W_made)
      | _ => ((put i (k, p_moved p) ws, vs ++ [p]), W_made)
      end)
  | Take_get i key => wrap i (fun k p => loud s (p_get p key) (fun q => ((put i (k, q) ws, vs), W_done)))
  | Take_get_idx i n => wrap i (fun k p => loud s (p_get_idx p n) (fun q => ((put i (k, q) ws, vs), W_done)))
  end.

Fixpoint w_run (s : pstate_w) (cs : list wcall) : pstate_w * list wans :=
  match cs with
  | [] => (s, [])
  | c :: r => let '(s1, a) := w_call s c in let '(s2, l) := w_run s1 r in (s2, a :: l)
  end.
