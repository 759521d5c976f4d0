(** The iterators of the C interface: src/helpers.h, src/generic.cc, the loops of
    include/dart/abi.h.  Model only. *)

From Coq Require Import ZArith List Bool.
From Verif Require Import Base Keys Wire Read Buf HeapOps SpecOps SpecPacket Packet Compare SpecWrap Wrap SpecAbi Abi SpecIter.
Import ListNotations.
Open Scope Z_scope.

(** include/dart/abi.h:218-222 (dart_iterator): two C++ iterators side by side, the
    current position and the end.  They are always over the same aggregate, so they
    are modelled together: default constructed or moved from (heap/iterator.tcc:13-17,
    buffer/iterator.tcc:13-18: no value); or two positions.  A heap iterator is an
    STL iterator into storage that variable [src] owns.  A buffer iterator holds its
    own reference to the block.  After any call that may change what [src] holds,
    heap iterators are taken to dangle: this is cautious, as some survive. *)
Inductive range :=
| Valueless
| Walk (src : nat) (keys : bool) (p : packet) (cur stop : Z)
| Dangling.
Record ivar := mkivar { i_tags : option (Z * Z); i_obj : option (form * counter * range) }.
Definition ist : Type := cstate * list ivar.

Definition poison_range (l : list nat) (r : range) : range :=
  match r with
  | Walk src _ (PHeap _) _ _ => if among src l then Dangling else r
  | _ => r
  end.
Definition poison (l : list nat) (v : ivar) : ivar :=
  match i_obj v with
  | Some (d, n, r) => mkivar (i_tags v) (Some (d, n, poison_range l r))
  | None => v
  end.

(** heap/api.tcc:515-590, buffer/api.tcc:368-420, packet/api.tcc:388-430 (begin, end,
    key_begin, key_end) *)
Definition p_begin (keys : bool) (p : packet) : res Z :=
  match p_type p with
  | T_object => Ok 0
  | T_array => if keys then Throw type_error else Ok 0
  | _ => Throw type_error
  end.
Definition p_end (keys : bool) (p : packet) : res Z :=
  match p with
  | PHeap v => n <- (if keys then h_key_end v else h_end v) ;; Ok (Z.of_nat n)
  | PBuf _ m e => if keys then b_key_end m e else b_end m e
  end.
Definition p_star (keys : bool) (p : packet) (i : Z) : res packet :=
  if keys then p_deref_key p i else p_deref p i.

(** heap/iterator.tcc:27-31, buffer/iterator.tcc:29-33, packet/iterator.tcc:13-16 (==)
    with iterator.tcc:15-19, 60-69 *)
Definition at_end (r : range) : res bool :=
  match r with
  | Valueless => Ok true
  | Walk _ _ _ c e => Ok (c =? e)
  | Dangling => Undef
  end.

Definition set_itags (w : list ivar) (i : nat) (t : option (Z * Z)) : list ivar :=
  match nth_error w i with Some v => put i (mkivar t (i_obj v)) w | None => w end.
Definition set_iobj (w : list ivar) (i : nat) (o : option (form * counter * range)) : list ivar :=
  match nth_error w i with Some v => put i (mkivar (i_tags v) o) w | None => w end.
Definition itags_of (w : list ivar) (j : nat) : option (Z * Z) :=
  match nth_error w j with Some v => i_tags v | None => None end.

(** helpers.h:537-573 (iterator_construct): the bytes as the iterators the tags say;
    a lambda for other iterators is not callable (helpers.h:306-320). *)
Definition it_construct (w : list ivar) (i : nat) (d : form) (n : counter) (r : res range) : list ivar * out :=
  tag_switch (w, Code client_code) (w, Bad) Generic (itags_of w i) (fun d' n' =>
    if form_eqb d d' && counter_eqb n n' then
      match r with
      | Ok x => (set_iobj w i (Some (d, n, x)), Code no_error)
      | Throw e => (w, Thrown e)
      | _ => (w, Bad)
      end
    else (w, Code client_code)).
(** helpers.h:579-582 (iterator_unwrap), 692-695 (iterator_access) *)
Definition it_unwrap {R} (client bad : R) (w : list ivar) (i : nat) (k : form -> counter -> range -> R) : R :=
  match nth_error w i with
  | Some v =>
      tag_switch client bad Generic (i_tags v) (fun d n =>
        match i_obj v with
        | Some (d', n', r) => if form_eqb d d' && counter_eqb n n' then k d n r else bad
        | None => bad
        end)
  | None => bad
  end.
Definition it_access (st : ist) (i : nat) (k : form -> counter -> range -> ist * out) : ist * out :=
  let '(st', o) := it_unwrap (st, Code client_code) (st, Bad) (snd st) i k in (st', err_handler o).
(** The callback returns nothing through iterator_unwrap. *)
Definition it_dropped (r : ist * out) : ist * out :=
  match r with (st, Code _) => (st, Code no_error) | _ => r end.

(** generic.cc:570-598 (dart_iterator_init_from_err_impl, dart_iterator_init_key_from_err_impl) *)
Definition it_from (st : ist) (keys : bool) (i j : nat) : ist * out :=
  let '(s, w) := st in
  let w := set_itags w i (tags_of s j) in
  let '(st', o) := unwrap ((s, w), Code client_code) ((s, w), Bad) Generic s j (fun d n p =>
    let '(w', o) := it_construct w i d n (b <- p_begin keys p ;; e <- p_end keys p ;; Ok (Walk j keys p b e)) in
    ((s, w'), o)) in
  (st', err_handler o).

(** generic.cc:600-628 (dart_iterator_copy_err_impl, dart_iterator_move_err_impl).
    Copying a dangling STL iterator is undefined. *)
Definition whole (r : range) : res range := match r with Dangling => Undef | _ => Ok r end.
Definition it_copy (st : ist) (take : bool) (i j : nat) : ist * out :=
  let '(s, w) := st in
  let w := set_itags w i (itags_of w j) in
  it_access (s, w) j (fun d n r =>
    let '(w', o) := it_construct w i d n (whole r) in
    it_dropped ((s, match o with
                    | Code _ => if take then set_iobj w' j (Some (d, n, Valueless)) else w'
                    | _ => w'
                    end), o)).

(** generic.cc:630-636 (dart_iterator_destroy_impl) *)
Definition it_destroy (st : ist) (i : nat) : ist * out :=
  it_access st i (fun _ _ _ => ((fst st, set_iobj (snd st) i None), Code no_error)).

(** generic.cc:638-658 (dart_iterator_get_err_impl) *)
Definition it_get (st : ist) (x i : nat) : ist * out :=
  let '(s, w) := st in
  let s := set_tags s x (match itags_of w i with Some (_, rc) => Some (p_id FPacket, rc) | None => None end) in
  it_access (s, w) i (fun d n r =>
    match at_end r, r with
    | Ok true, _ => ((s, w), Code runtime_code)     (* std::runtime_error *)
    | Ok false, Walk _ keys p c _ =>
        let '(s', o) := construct (Some FPacket) s x (fun d' n' => typed_new s x d' n' n (p_star keys p c)) in
        it_dropped ((s', w), o)
    | _, _ => ((s, w), Bad)
    end).

(** generic.cc:660-662 (dart_iterator_next_impl) *)
Definition it_next (st : ist) (i : nat) : ist * out :=
  it_access st i (fun d n r =>
    match at_end r, r with
    | Ok true, _ => (st, Code no_error)
    | Ok false, Walk src keys p c e => ((fst st, set_iobj (snd st) i (Some (d, n, Walk src keys p (c + 1) e))), Code no_error)
    | _, _ => (st, Bad)
    end).

(** generic.cc:664-669 (dart_iterator_done_impl) *)
Definition it_done (st : ist) (i : nat) : res bool :=
  it_unwrap (Ok true) Undef (snd st) i (fun _ _ r => at_end r).

Definition it_coded (r : ist * out) : ist * aans :=
  let '(st, o) := r in (st, match o with Code z => R_code z | _ => R_bad end).
Definition has_it (w : list ivar) (i : nat) : bool := Nat.ltb i (length w).
Definition is_packet (s : cstate) (x : nat) : bool :=
  match nth_error s x with Some v => form_eqb (v_type v) FPacket | None => false end.

Definition icompiles (st : ist) (c : icall) : bool :=
  let '(s, w) := st in
  match c with
  | Plain _ | Declare_it => true
  | It_init i | It_destroy i | It_return i | It_next i | It_done i => has_it w i
  | It_from _ i j => has_it w i && arg_ok s Generic j
  | It_copy i j | It_move i j => has_it w i && has_it w j
  | It_get x i => has_it w i && is_packet s x
  | It_done_destroy i x => has_it w i && match x with Some x => is_packet s x | None => true end
  end.

Definition i_call (st : ist) (c : icall) : ist * aans :=
  let '(s, w) := st in
  if icompiles st c then
    match c with
    | Plain c => let '(s', a) := a_call s c in ((s', map (poison (touches c)) w), a)
    | Declare_it => ((s, w ++ [mkivar None None]), R_done)
    (* generic.cc:1593-1601 *)
    | It_init i =>
        let '(w', o) := it_construct (set_itags w i (Some (3, 1))) i FPacket Safe (Ok Valueless) in
        it_coded ((s, w'), o)
    | It_from keys i j => it_coded (it_from st keys i j)
    | It_copy i j => it_coded (it_copy st false i j)
    | It_move i j => it_coded (it_copy st true i j)
    | It_destroy i => it_coded (it_destroy st i)
    | It_get x i => it_coded (it_get st x i)
    (* generic.cc:1623-1628 (dart_iterator_get) *)
    | It_return i =>
        let x := length s in
        let '((s1, w1), o) := it_get (s ++ [mkvar FPacket None None], w) x i in
        match o with
        | Code 0 => ((s1, w1), R_done)
        | Code _ =>
            let '(s2, o2) := init (put x (mkvar FPacket None None) s1) x FPacket 1 in
            ((s2, w1), match o2 with Code _ => R_done | _ => R_bad end)
        | _ => ((s1, w1), R_bad)
        end
    | It_next i => it_coded (it_next st i)
    | It_done i => (st, match it_done st i with Ok q => R_flag q | _ => R_bad end)
    (* generic.cc:1642-1647 (dart_iterator_done_destroy) *)
    | It_done_destroy i x =>
        match it_done st i with
        | Ok false => (st, R_flag false)
        | Ok true =>
            let '((s1, w1), o) := it_destroy st i in
            match o with
            | Code _ =>
                match x with
                | None => ((s1, w1), R_flag true)
                | Some x =>
                    let '(s2, a) := a_call s1 (Destroy Generic x) in
                    ((s2, map (poison [x]) w1), match a with R_code _ => R_flag true | _ => R_bad end)
                end
            | _ => ((s1, w1), R_bad)
            end
        | _ => (st, R_bad)
        end
    end
  else (st, R_static).

Fixpoint i_run (st : ist) (cs : list icall) : ist * list aans :=
  match cs with
  | [] => (st, [])
  | c :: r => let '(st1, a) := i_call st c in let '(st2, l) := i_run st1 r in (st2, a :: l)
  end.

(** ** Loops

    Both give the state and the answers of all calls, up to the first undefined one. *)

(** include/dart/abi.h:54-61 (DART_FOR_EACH_IMPL): the loop, [e] being the error
    variable *)
Fixpoint for_loop (fuel : nat) (body : list acall) (st : ist) (i x : nat) (e : Z) : ist * list aans :=
  match fuel with
  | O => (st, [])
  | S f =>
      let '(st1, a) := i_call st (It_done_destroy i (Some x)) in
      match a with
      | R_flag false =>
          if e =? no_error then
            let '(st2, l) := i_run st1 (map Plain body ++ [It_next i; Plain (Destroy Generic x); It_get x i]) in
            match last l R_bad with
            | R_code e' => let '(st3, l') := for_loop f body st2 i x e' in (st3, a :: l ++ l')
            | _ => (st2, a :: l)
            end
          else (st1, [a])
      | _ => (st1, [a])
      end
  end.
(** dart_for_each(variable j, variable x) and dart_for_each_key, with the iterator
    the macro declares *)
Definition dart_for_each (fuel : nat) (keys : bool) (body : list acall) (st : ist) (j x : nat) : ist * list aans :=
  let i := length (snd st) in
  let '(st1, l1) := i_run st [Declare_it; It_from keys i j] in
  match last l1 R_bad with
  | R_code 0 =>
      let '(st2, a) := i_call st1 (It_get x i) in
      match a with
      | R_code e => let '(st3, l) := for_loop fuel body st2 i x e in (st3, l1 ++ a :: l)
      | _ => (st2, l1 ++ [a])
      end
  | R_code e => let '(st3, l) := for_loop fuel body st1 i x e in (st3, l1 ++ l)
  | _ => (st1, l1)
  end.

(** The same loop written out with care: while not done, get, use, destroy, next. *)
Fixpoint walk_loop (fuel : nat) (body : list acall) (st : ist) (i x : nat) : ist * list aans :=
  match fuel with
  | O => (st, [])
  | S f =>
      let '(st1, a) := i_call st (It_done i) in
      match a with
      | R_flag false =>
          let '(st2, l) := i_run st1 (It_get x i :: map Plain body ++ [Plain (Destroy Generic x); It_next i]) in
          let '(st3, l') := walk_loop f body st2 i x in (st3, a :: l ++ l')
      | R_flag true => let '(st2, b) := i_call st1 (It_destroy i) in (st2, [a; b])
      | _ => (st1, [a])
      end
  end.
Definition walk_all (fuel : nat) (keys : bool) (body : list acall) (st : ist) (j x : nat) : ist * list aans :=
  let i := length (snd st) in
  let '(st1, l1) := i_run st [Declare_it; It_from keys i j] in
  let '(st2, l) := walk_loop fuel body st1 i x in (st2, l1 ++ l).
