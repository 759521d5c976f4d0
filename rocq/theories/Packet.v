(** dart::packet: a dart::heap or a dart::buffer behind one interface.  Model only.

    packet/api.tcc, packet/object.tcc, packet/array.tcc, packet/string.tcc and
    packet/primitive.tcc dispatch with shim::visit to the representation held; the
    children of a packet are packets of the same representation. *)

From Coq Require Import ZArith List Bool.
From Verif Require Import Base Keys Dec Wire Read Buf HeapOps Nested SpecOps HeapRun SpecPacket.
Import ListNotations.
Open Scope Z_scope.

Inductive packet : Type :=
| PHeap (v : value)
| PBuf (bs : Z) (m : mem) (e : elem).   (* block [m] at address [bs], element [e] of it *)

(** packet/api.tcc:388-391 (is_finalized), 383-386 (get_type) *)
Definition is_finalized (p : packet) : bool := match p with PHeap _ => false | PBuf _ _ _ => true end.
Definition p_type (p : packet) : utype := match p with PHeap v => h_type v | PBuf _ _ e => b_type e end.

(** packet/detail.tcc:57-66 (get_heap): what a mutating call goes through. *)
Definition get_heap {A} (p : packet) (k : value -> res A) : res A :=
  match p with PHeap v => k v | PBuf _ _ _ => Throw state_error end.

(** The two alternatives of shim::visit, each answering with a packet. *)
Definition visit (p : packet) (h : value -> res value) (b : Z -> mem -> elem -> res elem) : res packet :=
  match p with
  | PHeap v => x <- h v ;; Ok (PHeap x)
  | PBuf bs m e => e' <- b bs m e ;; Ok (PBuf bs m e')
  end.

(** packet/object.tcc:171-173 (get), 208-211 (at), 262-264 (has_key), 196-199 (get_nested) *)
Definition p_get (p : packet) (k : str) : res packet :=
  visit p (fun v => h_get v k) (fun bs m e => b_get bs m e k).
Definition p_at (p : packet) (k : str) : res packet :=
  visit p (fun v => h_at v k) (fun bs m e => b_at bs m e k).
Definition p_has_key (p : packet) (k : str) : res bool :=
  match p with PHeap v => h_has_key v k | PBuf _ m e => b_has_key m e k end.
Definition p_get_nested (p : packet) (path : str) (sep : byte) : res packet :=
  visit p (fun v => h_get_nested v path sep) (fun bs m e => b_get_nested bs m e path sep).

(** packet/object.tcc:188-194 (get_or): written against the packet's own interface *)
Definition p_get_or (p : packet) (k : str) (d : value) : res packet :=
  match p_type p with
  | T_object => q <- p_has_key p k ;; if q : bool then p_get p k else Ok (PHeap d)
  | _ => Ok (PHeap d)
  end.

(** packet/api.tcc:322-325, 327-330 (size, empty) *)
Definition p_size (p : packet) : res Z :=
  match p with PHeap v => h_size v | PBuf _ m e => b_size m e end.
Definition p_empty (p : packet) : res bool := n <- p_size p ;; Ok (n =? 0).

(** packet/array.tcc:149-152 (get), 172-176 (get_or), 189-192 (at) *)
Definition p_get_idx (p : packet) (i : Z) : res packet :=
  visit p (fun v => h_get_idx v i) (fun _ m e => b_get_idx m e i).
Definition p_at_idx (p : packet) (i : Z) : res packet :=
  visit p (fun v => h_at_idx v i) (fun _ m e => b_at_idx m e i).
Definition p_get_idx_or (p : packet) (i : Z) (d : value) : res packet :=
  match p_type p with
  | T_array => n <- p_size p ;; if i <? n then p_get_idx p i else Ok (PHeap d)
  | _ => Ok (PHeap d)
  end.

(** packet/array.tcc:201-204 (at_front), 213-216 (at_back), 225-228 (front),
    243-246 (back) *)
Definition p_front (p : packet) : res packet := visit p h_front (fun _ => b_front).
Definition p_back (p : packet) : res packet := visit p h_back (fun _ => b_back).
Definition p_at_front (p : packet) : res packet := visit p h_at_front (fun _ => b_at_front).
Definition p_at_back (p : packet) : res packet := visit p h_at_back (fun _ => b_at_back).

(** packet/array.tcc:237-241 (front_or), 255-259 (back_or): through get_heap *)
Definition p_front_or (p : packet) (d : value) : res packet :=
  get_heap p (fun v => x <- h_front_or v d ;; Ok (PHeap x)).
Definition p_back_or (p : packet) (d : value) : res packet :=
  get_heap p (fun v => x <- h_back_or v d ;; Ok (PHeap x)).

(** packet/string.tcc:21-23, packet/primitive.tcc:31-71 (strv, integer, decimal,
    boolean) and their [_or] forms through common.h:1353-1362
    (safe_optional_access): the default when the type is another one. *)
Definition p_scalar (t : utype) (p : packet) : res value :=
  match p with PHeap v => h_scalar t v | PBuf _ m e => b_scalar t m e end.
Definition p_scalar_or (t : utype) (p : packet) (d : value) : res value :=
  if utype_eqb (p_type p) t then
    match p_scalar t p with Throw _ => Ok d | r => r end
  else Ok d.

(** packet/api.tcc:401-500 (begin, end, rbegin, key_begin, ...), keys() and
    values() (packet/object.tcc:243-251, packet/api.tcc:287-295): both ask size()
    first, which throws for what is neither aggregate nor string. *)
Definition p_iterate (p : packet) : res (list packet) :=
  match p with
  | PHeap v => l <- h_iterate v ;; Ok (map PHeap l)
  | PBuf bs m e => l <- b_iterate bs m e ;; Ok (map (PBuf bs m) l)
  end.
Definition p_riterate (p : packet) : res (list packet) :=
  match p with
  | PHeap v => l <- h_riterate v ;; Ok (map PHeap l)
  | PBuf bs m e => l <- b_riterate bs m e ;; Ok (map (PBuf bs m) l)
  end.
Definition p_iterate_keys (p : packet) : res (list packet) :=
  match p with
  | PHeap v => l <- h_iterate_keys v ;; Ok (map PHeap l)
  | PBuf bs m e => l <- b_iterate_keys m e ;; Ok (map (PBuf bs m) l)
  end.
Definition p_keys (p : packet) : res (list packet) := _ <- p_size p ;; p_iterate_keys p.
Definition p_values (p : packet) : res (list packet) := _ <- p_size p ;; p_iterate p.

(** packet/api.tcc:195-225 (definalize, finalize): the representation is replaced
    by converting it (conversion_traits.h:83-140); the new block is at [addr]. *)
Definition p_finalize (addr : Z) (p : packet) : res packet :=
  match p with
  | PHeap v => m <- finalize v ;; Ok (PBuf addr m root)
  | PBuf _ _ _ => Ok p
  end.
Definition p_definalize (p : packet) : res packet :=
  match p with
  | PHeap _ => Ok p
  | PBuf bs m e => v <- from_buffer (S (length m)) bs m e ;; Ok (PHeap v)
  end.

(** ** Running calls *)

(** Everything one sees through a packet: a complete walk. *)
Definition p_value (p : packet) : res value :=
  match p with PHeap v => Ok v | PBuf bs m e => b_value bs m e end.
Fixpoint p_show (l : list packet) : res (list value) :=
  match l with
  | [] => Ok []
  | p :: r => v <- p_value p ;; vs <- p_show r ;; Ok (v :: vs)
  end.

(** packet/object.tcc:219-222 (find): the iterator, dereferenced together with the
    key iterator at the same place (find_key, 230-233). *)
Definition p_find (p : packet) (k : str) : res ans :=
  match p with
  | PHeap v => i <- h_find v k ;; Ok (iter_ans v i)
  | PBuf bs m e =>
      i <- b_find m e k ;;
      ke <- b_deref_key m e i ;; x <- b_deref bs m e i ;;
      kv <- b_value bs m ke ;; xv <- b_value bs m x ;;
      Ok (match kv with VStr s => A_pair s xv | _ => A_bad end)
  end.

Definition shown (r : res packet) : res ans := p <- r ;; v <- p_value p ;; Ok (A_value v).
Definition shown_all (r : res (list packet)) : res ans := l <- r ;; vs <- p_show l ;; Ok (A_values vs).

Definition ans_of (r : res ans) : ans :=
  match r with Ok a => a | Throw e => A_err e | _ => A_bad end.

(** A mutating call: get_heap(), then the call on the heap. *)
Definition p_mutate (p : packet) (o : op) : packet * ans :=
  match p with
  | PHeap v => let '(v', a) := run_op v o in (PHeap v', a)
  | PBuf _ _ _ => (p, ans_of (get_heap p (fun _ => Ok A_unit)))
  end.

Definition p_read (p : packet) (o : op) : res ans :=
  match o with
  | Get k => shown (p_get p k)
  | At k => shown (p_at p k)
  | Has k => q <- p_has_key p k ;; Ok (A_bool q)
  | Get_or k d => shown (p_get_or p k d)
  | Find k => p_find p k
  | Size => n <- p_size p ;; Ok (A_size n)
  | Keys => shown_all (p_keys p)
  | Values => shown_all (p_values p)
  | Rvalues => shown_all (p_riterate p)
  | Get_idx i => shown (p_get_idx p i)
  | At_idx i => shown (p_at_idx p i)
  | Get_idx_or i d => shown (p_get_idx_or p i d)
  | Front => shown (p_front p)
  | Back => shown (p_back p)
  | At_front => shown (p_at_front p)
  | At_back => shown (p_at_back p)
  | Front_or d => shown (p_front_or p d)
  | Back_or d => shown (p_back_or p d)
  | _ => Undef    (* the mutating calls: not here *)
  end.

Definition p_do (p : packet) (o : op) : packet * ans :=
  match o with
  | Insert _ _ | Set_ _ _ | Erase _ | Push_front _ | Push_back _ | Pop_front | Pop_back
  | Resize _ _ | Clear => p_mutate p o
  | _ => (p, ans_of (p_read p o))
  end.

(** A call that replaces the packet; it stays as it was when the call throws. *)
Definition p_become (p : packet) (r : res packet) : packet * pans :=
  match r with
  | Ok q => (q, P_ans A_unit)
  | Throw e => (p, P_ans (A_err e))
  | _ => (p, P_ans A_bad)
  end.

Definition p_call (p : packet) (c : pcall) : packet * pans :=
  match c with
  | Do o => let '(q, a) := p_do p o in (q, P_ans a)
  | Get_type => (p, P_type (p_type p))
  | Is_finalized => (p, P_flag (is_finalized p))
  | Empty => (p, match p_empty p with Ok q => P_flag q | Throw e => P_ans (A_err e) | _ => P_ans A_bad end)
  | Read t => (p, P_ans (ans_of (v <- p_scalar t p ;; Ok (A_value v))))
  | Read_or t d => (p, P_ans (ans_of (v <- p_scalar_or t p d ;; Ok (A_value v))))
  | Nested path sep => (p, P_ans (ans_of (shown (p_get_nested p path sep))))
  | Finalize addr => p_become p (p_finalize addr p)
  | Definalize => p_become p (p_definalize p)
  | Into k => p_become p (p_get p k)
  | Into_idx i => p_become p (p_get_idx p i)
  end.

Fixpoint p_run (p : packet) (cs : list pcall) : packet * list pans :=
  match cs with
  | [] => (p, [])
  | c :: r => let '(q, a) := p_call p c in let '(q', l) := p_run q r in (q', a :: l)
  end.
