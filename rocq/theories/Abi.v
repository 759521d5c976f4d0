(** The C interface: src/helpers.h, src/generic.cc, src/heap.cc, src/buffer.cc.
    Model only.

    A variable is a C struct: its declared type, the tags in its [rtti] member and
    the C++ object that lives in its bytes, if any.  Functions look at the tags to
    decide which object to expect; expecting another one than lives there is
    undefined.  Returning a struct by value copies its bytes, which is taken to
    move the object.  Errors inside an object (C08, C14) are those of [Packet]. *)

From Coq Require Import ZArith List Bool.
From Verif Require Import Base Keys Wire Read Spec SpecOps HeapOps SpecPacket Packet SpecWrap Wrap SpecAbi.
Import ListNotations.
Open Scope Z_scope.

(** include/dart/abi.h:198-202 (dart_type_id), 241-245, 265-269, 288-292 (dart_heap,
    dart_buffer, dart_packet) *)
Record var := mkvar { v_type : form; v_tags : option (Z * Z); v_obj : option (form * counter * packet) }.
Definition cstate := list var.

(** abi.h:146-151 (dart_packet_type); dart_rc_type is at 168-172 *)
Definition p_id (d : form) : Z := match d with FHeap => 1 | FBuffer => 2 | FPacket => 3 end.

(** What a C++ function body does: return a code, throw, or something undefined. *)
Inductive out := Code (z : Z) | Thrown (e : err) | Bad.

(** common.h:93-107: type_error is a logic_error, the other three are runtime_errors *)
Definition is_logic_error (e : err) : bool :=
  match e with type_error | out_of_range | invalid_argument | length_error => true | _ => false end.
Definition is_runtime_error (e : err) : bool :=
  match e with state_error | parse_error | validation_error => true | _ => false end.
(** helpers.h:587-608 (err_handler): the first clause that matches *)
Definition handle (e : err) : Z :=
  match e with
  | type_error => 1
  | state_error => 3
  | parse_error => 4
  | _ => if is_logic_error e then 2 else if is_runtime_error e then 5 else 7
  end.
Definition err_handler (o : out) : out := match o with Thrown e => Code (handle e) | _ => o end.

(** helpers.h:322-383 (heap_unwrap_impl and the like): only the counter is looked at. *)
Definition rc_switch {R} (client : R) (rc : Z) (k : counter -> R) : R :=
  match rc with 1 => k Safe | 2 => k Unsafe | _ => client end.
(** helpers.h:487-501 (generic_unwrap_impl), 388-463 *)
Definition tag_switch {R} (client bad : R) (f : family) (tags : option (Z * Z)) (k : form -> counter -> R) : R :=
  match tags with
  | None => bad
  | Some (p, rc) =>
      match f with
      | OfHeap => rc_switch client rc (k FHeap)
      | OfBuffer => rc_switch client rc (k FBuffer)
      | Generic =>
          match p with
          | 1 => rc_switch client rc (k FHeap)
          | 2 => rc_switch client rc (k FBuffer)
          | 3 => rc_switch client rc (k FPacket)
          | _ => client
          end
      end
  end.
(** The reinterpret_cast: fine if that is what lives there. *)
Definition seen {R} (bad : R) (v : var) (d : form) (n : counter) (k : packet -> R) : R :=
  match v_obj v with
  | Some (d', n', p) => if form_eqb d d' && counter_eqb n n' then k p else bad
  | None => bad
  end.
Definition unwrap {R} (client bad : R) (f : family) (s : cstate) (i : nat) (k : form -> counter -> packet -> R) : R :=
  match nth_error s i with
  | Some v => tag_switch client bad f (v_tags v) (fun d n => seen bad v d n (k d n))
  | None => bad
  end.

(** helpers.h:612-681 (heap_access, buffer_access, generic_access) *)
Definition access (f : family) (s : cstate) (i : nat) (k : form -> counter -> packet -> cstate * out) : cstate * out :=
  let '(s', o) := unwrap (s, Code client_code) (s, Bad) f s i k in (s', err_handler o).

Definition set_tags (s : cstate) (i : nat) (t : option (Z * Z)) : cstate :=
  match nth_error s i with Some v => put i (mkvar (v_type v) t (v_obj v)) s | None => s end.
Definition set_obj (s : cstate) (i : nat) (o : option (form * counter * packet)) : cstate :=
  match nth_error s i with Some v => put i (mkvar (v_type v) (v_tags v) o) s | None => s end.
Definition store (s : cstate) (i : nat) (p : packet) : cstate :=
  match nth_error s i with
  | Some (mkvar t g (Some (d, n, _))) => put i (mkvar t g (Some (d, n, p))) s
  | _ => s
  end.

(** Placement new at the bytes of variable i: abi.h:36-38 gives the sizes, 32 bytes for
    a buffer and 64 for the others. *)
Definition place_new (s : cstate) (i : nat) (d : form) (n : counter) (r : res packet) : cstate * out :=
  match r, nth_error s i with
  | Ok p, Some v => if fits (v_type v) d then (set_obj s i (Some (d, n, p)), Code no_error) else (s, Bad)
  | Throw e, _ => (s, Thrown e)
  | _, _ => (s, Bad)
  end.
(** helpers.h:400-532 (heap_construct, buffer_construct, packet_construct; and, with
    None, generic_construct): the address as the type the tags say. *)
Definition construct (d : option form) (s : cstate) (i : nat) (k : form -> counter -> cstate * out) : cstate * out :=
  match nth_error s i with
  | Some v =>
      match d with
      | Some d =>
          match v_tags v with
          | Some (_, rc) => rc_switch (s, Code client_code) rc (k d)
          | None => (s, Bad)
          end
      | None => tag_switch (s, Code client_code) (s, Bad) Generic (v_tags v) k
      end
  | None => (s, Bad)
  end.

(** conversion_traits.h:83-193, 1374: to the target's own type *)
Definition cast_to (addr : Z) (d : form) (p : packet) : res packet :=
  match d with FHeap => p_definalize p | FBuffer => p_finalize addr p | FPacket => Ok p end.
(** helpers.h:157-177 (safe_construct): different counters do not convert. *)
Definition safe_construct (addr : Z) (d : form) (n from : counter) (r : res packet) : res packet :=
  p <- r ;; if counter_eqb n from then cast_to addr d p else Throw type_error.
(** The typed lambdas of heap.cc and buffer.cc take one counter only: anything else
    is not callable (helpers.h:306-320). *)
Definition typed_new (s : cstate) (i : nat) (d : form) (n from : counter) (r : res packet) : cstate * out :=
  if counter_eqb n from then place_new s i d n r else (s, Code client_code).

(** The default constructors: dart.h:5203, 7972-7975, 10460 *)
Definition fresh (d : form) : packet := match d with FBuffer => PBuf 0 [] (R_null, None) | _ => PHeap VNull end.

(** generic.cc:18-28 (dart_rtti_propagate, dart_rc_propagate) *)
Definition tags_of (s : cstate) (j : nat) : option (Z * Z) :=
  match nth_error s j with Some v => v_tags v | None => None end.
Definition retag (s : cstate) (d : form) (j : nat) : option (Z * Z) :=
  match tags_of s j with Some (_, rc) => Some (p_id d, rc) | None => None end.

(** generic.cc:695-705 (dart_init_rc_err), heap.cc:556-566, buffer.cc:204-214 *)
Definition init (s : cstate) (i : nat) (d : form) (rc : Z) : cstate * out :=
  let s := set_tags s i (Some (p_id d, rc)) in
  let '(s', o) := construct (Some d) s i (fun d n => place_new s i d n (Ok (fresh d))) in
  (s', err_handler o).

(** packet_unwrap (helpers.h:456-463) for dart_packet_t, heap_unwrap for dart_heap_t *)
Definition unwrap_as (d : form) (s : cstate) (i : nat) (k : packet -> cstate * out) : cstate * out :=
  match nth_error s i with
  | Some v =>
      match v_tags v with
      | Some (_, rc) => rc_switch (s, Code client_code) rc (fun n => seen (s, Bad) v d n k)
      | None => (s, Bad)
      end
  | None => (s, Bad)
  end.

Definition p_place (q : packet) (p : place) : res packet :=
  match p with Named k => p_get q k | Index i => p_get_idx q i end.

(** The value is dropped (heap.cc:1395-1409, buffer.cc:496-510): the lambda returns void. *)
Definition dropped (r : cstate * out) : cstate * out :=
  match r with (s, Code _) => (s, Code no_error) | _ => r end.

Definition make (s : cstate) (i : nat) (m : making) : cstate * out :=
  match m with
  | Init d rc => init s i d rc
  (* helpers.h:626-646 (heap_typed_constructor_access, packet_typed_constructor_access),
     generic.cc:763-773 and the like up to 1080, heap.cc:643-960 *)
  | Seed d rc v =>
      let '(s1, o) := init s i d rc in
      match o with
      | Code 0 => let '(s2, o') := unwrap_as d s1 i (fun _ => (store s1 i (PHeap v), Code no_error)) in (s2, err_handler o')
      | _ => (s1, o)
      end
  (* generic.cc:37-53 (dart_copy_err_impl, dart_move_err_impl) *)
  | Duplicate Generic j =>
      let s := set_tags s i (tags_of s j) in
      access Generic s j (fun d n p =>
        construct None s i (fun d' n' => place_new s i d' n' (safe_construct 0 d' n' n (Ok p))))
  | Relocate Generic j =>
      let s := set_tags s i (tags_of s j) in
      access Generic s j (fun d n p =>
        construct None s i (fun d' n' =>
          let '(s', o) := place_new s i d' n' (safe_construct 0 d' n' n (Ok p)) in
          (match o with Code _ => store s' j (p_moved p) | _ => s' end, o)))
  (* heap.cc:575-612, buffer.cc:223-260 *)
  | Duplicate f j =>
      let s := set_tags s i (tags_of s j) in
      access f s j (fun d n p => construct (Some d) s i (fun d' n' => typed_new s i d' n' n (Ok p)))
  | Relocate f j =>
      let s := set_tags s i (tags_of s j) in
      access f s j (fun d n p => construct (Some d) s i (fun d' n' =>
        let '(s', o) := typed_new s i d' n' n (Ok p) in
        (match o with Code 0 => store s' j (p_moved p) | _ => s' end, o)))
  (* generic.cc:338-364 (dart_obj_get_len_err_impl, dart_arr_get_err_impl) *)
  | Child Generic j p =>
      let s := set_tags s i (retag s FPacket j) in
      access Generic s j (fun d n q =>
        construct (Some FPacket) s i (fun d' n' => place_new s i d' n' (safe_construct 0 d' n' n (p_place q p))))
  (* heap.cc:1192-1237, buffer.cc:299-344 *)
  | Child f j p =>
      let s := set_tags s i (tags_of s j) in
      access f s j (fun d n q => construct (Some d) s i (fun d' n' => typed_new s i d' n' n (p_place q p)))
  (* generic.cc:448-458 (dart_to_heap_err_impl) *)
  | To_heap j =>
      let s := set_tags s i (retag s FHeap j) in
      access Generic s j (fun d n q =>
        construct (Some FHeap) s i (fun d' n' => place_new s i d' n' (safe_construct 0 d' n' n (p_definalize q))))
  (* generic.cc:460-470 (dart_to_buffer_err_impl): it, too, lifts first *)
  | To_buffer j addr =>
      let s := set_tags s i (retag s FBuffer j) in
      access Generic s j (fun d n q =>
        construct (Some FBuffer) s i (fun d' n' => place_new s i d' n' (safe_construct addr d' n' n (p_definalize q))))
  (* generic.cc:472-494 (dart_lower_err_impl, dart_lift_err_impl) *)
  | Lower Generic j addr =>
      let s := set_tags s i (retag s FPacket j) in
      access Generic s j (fun d n q =>
        construct None s i (fun d' n' => place_new s i d' n' (safe_construct addr d' n' n (p_finalize addr q))))
  | Lift Generic j =>
      let s := set_tags s i (retag s FPacket j) in
      access Generic s j (fun d n q =>
        construct None s i (fun d' n' => place_new s i d' n' (safe_construct 0 d' n' n (p_definalize q))))
  (* heap.cc:1395-1409 (dart_heap_lower_err) *)
  | Lower f j addr =>
      let s := set_tags s i (retag s FBuffer j) in
      access f s j (fun d n q =>
        dropped (construct (Some FBuffer) s i (fun d' n' => typed_new s i d' n' n (p_finalize addr q))))
  (* buffer.cc:496-510 (dart_buffer_lift_err) *)
  | Lift f j =>
      let s := set_tags s i (retag s FHeap j) in
      access f s j (fun d n q =>
        dropped (construct (Some FHeap) s i (fun d' n' => typed_new s i d' n' n (p_definalize q))))
  end.

(** What a C++ call that may throw is to the caller. *)
Definition out_of (a : ans) : out :=
  match a with A_err e => Thrown e | A_bad => Bad | _ => Code no_error end.

(** helpers.h:253-267 (mutable_visitor): not callable with buffers.  generic.cc:56-320
    and heap.cc:18-398 share the shape. *)
Definition mutate (f : family) (s : cstate) (i : nat) (o : op) : cstate * out :=
  access f s i (fun d n p =>
    match d with
    | FBuffer => (s, Code client_code)
    | _ => let '(p', a) := p_mutate p o in (store s i p', out_of a)
    end).

(** What std::move(val) leaves: heap/api.tcc:118-150, 167-199 with
    conversion_traits.h:132-145.  [d] is the type of [val]; a heap is bound to a
    reference and moved where the value is stored, a packet is converted first. *)
Definition taken (set : bool) (p : place) (dst : packet) (a : ans) (d : form) (q : packet) : packet :=
  match q with
  | PBuf _ _ _ => q
  | PHeap _ =>
      match d with
      | FPacket => match dst with PHeap _ => p_moved q | PBuf _ _ _ => q end
      | _ =>
          match a with
          | A_err _ => q
          | _ =>
              match set, p, dst with
              | false, Named k, PHeap v =>   (* copied into the pair; moved if the key was there *)
                  match h_has_key v k with Ok false => q | _ => p_moved q end
              | _, _, _ => p_moved q
              end
          end
      end
  end.

(** generic.cc:56-80, 117-141, 189-209, 246-266 (insert, insert_take, set, set_take)
    through helpers.h:179-227 (safe_set, safe_insert); heap.cc:18-47 and the like. *)
Definition put_dart (f : family) (s : cstate) (set take : bool) (i : nat) (p : place) (j : nat) : cstate * out :=
  access f s i (fun d n dst =>
    match d with
    | FBuffer => (s, Code client_code)
    | _ =>
        access f s j (fun d' n' q =>
          if counter_eqb n n' then
            match dst, p_definalize q with
            | PHeap _, Ok (PHeap x) =>
                let '(dst', a) := p_mutate dst ((if set then Set_ else Insert) (key_value p) x) in
                (store (store s i dst') j (if take then taken set p dst a d' q else q), out_of a)
            | PHeap _, Throw e => (s, Thrown e)
            | PHeap _, _ => (s, Bad)
            | PBuf _ _ _, _ => (s, Thrown state_error)   (* packet/detail.tcc:57-66 (get_heap) *)
            end
          else (s, match f with Generic => Thrown type_error | _ => Code client_code end))
    end).

(** Reads, which write their result through a pointer or a captured reference. *)
Inductive got (A : Type) := Got (x : A) | Got_code (z : Z) | Got_bad.
Arguments Got {A}. Arguments Got_code {A}. Arguments Got_bad {A}.
Definition look {A} (f : family) (s : cstate) (i : nat) (g : packet -> res A) : got A :=
  unwrap (Got_code client_code) Got_bad f s i (fun _ _ p =>
    match g p with Ok x => Got x | Throw e => Got_code (handle e) | _ => Got_bad end).
Definition answer {A} (g : got A) (value : A -> aans) (failed : Z -> aans) : aans :=
  match g with Got x => value x | Got_code z => failed z | Got_bad => R_bad end.

Definition coded (r : cstate * out) : cstate * aans :=
  let '(s, o) := r in (s, match o with Code z => R_code z | _ => R_bad end).

(** The C types of the arguments. *)
Definition arg_ok (s : cstate) (f : family) (i : nat) : bool :=
  match nth_error s i with Some v => takes f (v_type v) | None => false end.
Definition source_ok (s : cstate) (m : making) : bool :=
  match m with
  | Init _ _ | Seed _ _ _ => true
  | Duplicate f j | Relocate f j | Child f j _ | Lower f j _ | Lift f j => arg_ok s f j
  | To_heap j | To_buffer j _ => arg_ok s Generic j
  end.
Definition destination_ok (s : cstate) (i : nat) (m : making) : bool :=
  match nth_error s i with Some v => any_destination m || form_eqb (v_type v) (returns m) | None => false end.
Definition compiles (s : cstate) (c : acall) : bool :=
  match c with
  | Declare _ => true
  | Construct i m => has_making m && source_ok s m && destination_ok s i m
  | Return_new m => has_making m && source_ok s m
  | Put f _ _ i _ j => changes f && arg_ok s f i && arg_ok s f j
  | Put_value f _ i _ v => changes f && plain_value v && arg_ok s f i
  | Remove f i _ => changes f && arg_ok s f i
  | Destroy f i | Has_key f i _ | Count f i | Type_of f i => arg_ok s f i
  | Read_err f i t => readable t && negb (utype_eqb t T_string) && arg_ok s f i
  | Read_plain f i t => readable t && arg_ok s f i
  | Finalized i => arg_ok s Generic i
  end.

Definition a_call (s : cstate) (c : acall) : cstate * aans :=
  if compiles s c then
    match c with
    | Declare d => (s ++ [mkvar d None None], R_done)
    | Construct i m => coded (make s i m)
    (* dart_copy and the like: on failure the local is dropped and dart_init() returned;
       dart_init_rc does not look (generic.cc:688-693, heap.cc:549-554, buffer.cc:197-202) *)
    | Return_new m =>
        let i := length s in
        let '(s1, o) := make (s ++ [mkvar (returns m) None None]) i m in
        match o, m with
        | Code 0, _ => (s1, R_done)
        | Code _, Init _ _ => (s1, R_done)
        | Code _, _ =>
            let '(s2, o2) := init (put i (mkvar (returns m) None None) s1) i (returns m) 1 in
            (s2, match o2 with Code _ => R_done | _ => R_bad end)
        | _, _ => (s1, R_bad)
        end
    (* generic.cc:729-743, heap.cc:614-623, buffer.cc:262-271 *)
    | Destroy f i => coded (access f s i (fun _ _ _ => (set_obj s i None, Code no_error)))
    | Put f set take i p j =>
        if Nat.eqb i j then (s, R_bad)      (* aliasing is not modelled here, see C17 *)
        else coded (put_dart f s set take i p j)
    | Put_value f set i p v => coded (mutate f s i ((if set then Set_ else Insert) (key_value p) v))
    | Remove f i p => coded (mutate f s i (Erase (key_value p)))
    (* generic.cc:328-336; heap.cc:410-418; buffer.cc:17-25 *)
    | Has_key f i k => (s, answer (look f s i (fun p => p_has_key p k)) R_flag (fun _ => R_flag false))
    (* generic.cc:377-387; heap.cc:438-469; buffer.cc:45-76 *)
    | Read_err f i t => (s, answer (look f s i (p_scalar t)) R_value R_code)
    (* generic.cc:366-375, 1336-1370; heap.cc:420-436, 1248-1280; buffer.cc:27-42, 356-385 *)
    | Read_plain f i t => (s, answer (look f s i (p_scalar t)) R_value (fun _ =>
        match t with
        | T_integer => R_value (VInt 0)
        | T_decimal => R_value (VDec quiet_nan)
        | T_boolean => R_value (VBool false)
        | _ => R_nullptr
        end))
    (* generic.cc:389-394; heap.cc:471-476; buffer.cc:78-83 *)
    | Count f i => (s, answer (look f s i p_size) R_size (fun _ => R_size (2 ^ 64 - 1)))
    (* generic.cc:417-422, helpers.h:741-762 (abi_type); heap.cc:496-508; buffer.cc:103-115 *)
    | Type_of f i => (s, answer (look f s i (fun p => Ok (p_type p)))
        (fun t => R_type (match t with
                          | T_object => 1 | T_array => 2 | T_string => 3 | T_integer => 4
                          | T_decimal => 5 | T_boolean => 6 | T_null => 7
                          end)) (fun _ => R_type 8))
    (* generic.cc:407-415 *)
    | Finalized i => (s, answer (look Generic s i (fun p => Ok (is_finalized p))) R_flag (fun _ => R_flag false))
    end
  else (s, R_static).

Fixpoint a_run (s : cstate) (cs : list acall) : cstate * list aans :=
  match cs with
  | [] => (s, [])
  | c :: r => let '(s1, a) := a_call s c in let '(s2, l) := a_run s1 r in (s2, a :: l)
  end.
