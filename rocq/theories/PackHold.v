(** Model of who owns what a dart::packet shows: a packet is a dart::heap over
    counted cells (Store.v) or a dart::buffer over counted blocks (BufHold.v), and
    changes from one to the other in place. No proofs here. *)

From Coq Require Import ZArith List Bool.
From Verif Require Import Base Keys Wire Read Buf SpecOps HeapOps Store SpecBufHold SpecPackHold.
From Verif Require BufHold.
Import ListNotations.
Open Scope Z_scope.

(** dart.h:13565-13568 (implementation), a variant of heap and buffer. Packet [x] is variable [x] of
    both stores; [fin] tells which of the two it is, and the other one is null. The
    heap store has one variable more, for the temporary a mutator makes. *)
Record packs : Type := Packs { hs : state; bs : BufHold.bstate; fin : list bool }.
Definition temp (s : packs) : nat := length (fin s).

(** packet/api.tcc:379-381 (is_finalized) *)
Definition finalized (s : packs) (x : nat) : res bool :=
  match nth_error (fin s) x with Some f => Ok f | None => Oob end.

(** The variant takes its alternative [f]; what the other one held is destroyed. *)
Definition becomes (s : packs) (x : nat) (f : bool) : res packs :=
  if f then '(h, _) <- s_exec (hs s) (O_destroy x) ;; Ok (Packs h (bs s) (list_set x true (fin s)))
  else '(b, _) <- BufHold.b_exec (bs s) (M_reset x) ;; Ok (Packs (hs s) b (list_set x false (fin s))).

(** A call answered by the heap or the buffer alternative, whose result, unless it
    throws, packet [x] then holds. *)
Definition via_heap (s : packs) (x : nat) (o : hop) : res (packs * kans) :=
  '(h, a) <- s_exec (hs s) o ;;
  let s1 := Packs h (bs s) (fin s) in
  match a with
  | A_unit => s2 <- becomes s1 x false ;; Ok (s2, Y_unit)
  | A_err e => Ok (s1, Y_err e)
  | _ => Ok (s1, Y_bad)
  end.
Definition via_buf (s : packs) (x : nat) (o : bop) : res (packs * kans) :=
  '(b, a) <- BufHold.b_exec (bs s) o ;;
  let s1 := Packs (hs s) b (fin s) in
  match a with
  | B_unit => s2 <- becomes s1 x true ;; Ok (s2, Y_unit)
  | B_err e => Ok (s1, Y_err e)
  | _ => Ok (s1, Y_bad)
  end.

Definition as_reader (n : way) : reader :=
  match n with
  | By k => R_get k | Must k => R_at k | Nth i => R_get_idx i | Must_nth i => R_at_idx i
  | Front => R_front | Back => R_back
  end.

(** ** From bytes to cells

    conversion_traits.h:83-115 (buffer to heap): the value is read off the bytes
    ([from_buffer], HeapOps.v), and every aggregate gets a cell of its own. The
    members' cells are numbered before that of their container. *)
Fixpoint build (cs : cells) (v : value) : cells * hval :=
  match v with
  | VObj fs =>
      let '(cs1, l) := (fix go cs fs := match fs with
                        | [] => (cs, [])
                        | (k, x) :: r =>
                            let '(cs1, h) := build cs x in
                            let '(cs2, l) := go cs1 r in (cs2, (k, h) :: l)
                        end) cs fs in
      let '(cs2, a) := alloc cs1 (CObj l) in (cs2, HObj a)
  | VArr vs =>
      let '(cs1, l) := (fix go cs vs := match vs with
                        | [] => (cs, [])
                        | x :: r =>
                            let '(cs1, h) := build cs x in
                            let '(cs2, l) := go cs1 r in (cs2, h :: l)
                        end) cs vs in
      let '(cs2, a) := alloc cs1 (CArr l) in (cs2, HArr a)
  | VStr t => (cs, HStr t) | VInt z => (cs, HInt z) | VDec d => (cs, HDec d)
  | VBool f => (cs, HBool f) | VNull => (cs, HNull)
  end.
Definition lifted (s : packs) (y : nat) : res (state * hval) :=
  BufHold.var (bs s) y (fun h =>
    v <- BufHold.look (BufHold.heap (bs s)) (BufHold.raw h) (BufHold.home h)
           (fun a m => from_buffer (S (length m)) a m (BufHold.raw h)) ;;
    let '(cs, g) := build (heap (hs s)) v in Ok (St cs (vars (hs s)), g)).

(** ** Mutators

    conversion_traits.h:142-158 (packet to heap): a mutable packet is copied or
    moved from, a finalized one is lifted, moved or not. *)
Definition cast (s : packs) (a : arg) : res (state * hval) :=
  match a with
  | Plain v => take_copy (hs s) (Lit v)
  | Pkt y => f <- finalized s y ;; if f then lifted s y else take_copy (hs s) (Cref y)
  | Moved y => f <- finalized s y ;; if f then lifted s y else take_move (hs s) (Rref y)
  end.
(** heap/api.tcc:120-126, 172-178: copy_on_write comes first, then the arguments are
    cast - unlike a dart::heap (Store.v), a packet always becomes a temporary - and
    only then are the target's contents looked at. The temporary is destroyed
    whether or not the call throws. *)
Definition with_arg (s : packs) (x : nat) (a : arg) (body : state -> hval -> src -> res (state * ans)) : res (packs * kans) :=
  '(h1, _) <- unshare (hs s) x ;;
  '(h2, hv) <- cast (Packs h1 (bs s) (fin s)) a ;;
  let h3 := set_var h2 (temp s) hv in
  hx <- get_var h3 x ;;
  '(h4, r) <- body h3 hx (Rref (temp s)) ;;
  '(h5, _) <- s_destroy h4 (temp s) ;;
  Ok (Packs h5 (bs s) (fin s), match r with A_unit => Y_unit | A_err e => Y_err e | _ => Y_bad end).

(** packet/detail.tcc:55-59 (get_heap) *)
Definition get_heap (s : packs) (x : nat) (k : res (packs * kans)) : res (packs * kans) :=
  f <- finalized s x ;; if f then Ok (s, Y_err state_error) else k.

Definition p_exec (s : packs) (o : pop) : res (packs * kans) :=
  match o with
  (* packet/object.tcc:12-20, packet/array.tcc:12-20, packet/primitive.tcc: made as heaps *)
  | K_object x => via_heap s x (O_make x New_object)
  | K_array x => via_heap s x (O_make x New_array)
  | K_scalar x v => via_heap s x (O_make x (New_scalar v))
  (* packet/api.tcc:12-17 *)
  | K_assign x v => get_heap s x (via_heap s x (O_make x (New_scalar v)))
  (* dart.h:10634, 10647, defaulted: the variant's own assignments *)
  | K_copy x y => f <- finalized s y ;; if f then via_buf s x (M_copy x y) else via_heap s x (O_copy x y)
  | K_move x y => f <- finalized s y ;; if f then via_buf s x (M_move x y) else via_heap s x (O_move x y)
  | K_reset x => via_heap s x (O_destroy x)
  (* packet/object.tcc:168-170, 210-212, packet/array.tcc:152-154, 189-191, 225-227: visit *)
  | K_read x y n =>
      f <- finalized s y ;;
      if f then via_buf s x (M_member x (as_step n) y) else via_heap s x (O_read x y (as_reader n))
  (* packet/object.tcc:174-177, 216-219, packet/array.tcc:158-161, 195-198, 231-234:
     the alternative is replaced in place *)
  | K_into x y n =>
      f <- finalized s y ;;
      if f then via_buf s x (M_into x (as_step n) y)
      else
        '(s1, a) <- via_heap s y (O_read y y (as_reader n)) ;;
        match a with Y_unit => via_heap s1 x (O_move x y) | _ => Ok (s1, a) end
  (* packet/api.tcc:125-130, 141-145 *)
  | K_insert x k a => get_heap s x (with_arg s x a (fun h hx v => insert_in h hx k v))
  | K_set x k a => get_heap s x (with_arg s x a (fun h hx v => set_in h hx k v))
  (* packet/api.tcc:156-166: the type of the key comes first *)
  | K_erase x k =>
      match k with
      | VStr _ | VInt _ => get_heap s x (via_heap s x (O_erase x k))
      | _ => Ok (s, Y_err type_error)
      end
  (* packet/array.tcc:37-96, heap/array.tcc:49-98 *)
  | K_push_front x a => get_heap s x (with_arg s x a (fun h hx v => insert_in h hx (VInt 0) v))
  | K_push_back x a => get_heap s x (
      n <- s_size (hs s) x ;;
      match n with
      | Some n => with_arg s x a (fun h hx v => insert_in h hx (VInt n) v)
      | None => Ok (s, Y_err type_error)
      end)
  | K_pop_front x => get_heap s x (via_heap s x (O_pop_front x))
  | K_pop_back x => get_heap s x (via_heap s x (O_pop_back x))
  (* packet/api.tcc:209-214, conversion_traits.h:117-140 *)
  | K_finalize x addr =>
      f <- finalized s x ;;
      if f then Ok (s, Y_unit) else v <- show (hs s) x ;; via_buf s x (M_new x v addr)
  (* packet/api.tcc:183-188 *)
  | K_definalize x =>
      f <- finalized s x ;;
      if f then
        '(h1, g) <- lifted s x ;;
        h2 <- overwrite h1 x g ;;
        s1 <- becomes (Packs h2 (bs s) (fin s)) x false ;; Ok (s1, Y_unit)
      else Ok (s, Y_unit)
  | K_show x =>
      f <- finalized s x ;;
      if f then
        '(b, a) <- BufHold.b_exec (bs s) (M_read x) ;;
        Ok (Packs (hs s) b (fin s), match a with B_value v => Y_value v | B_err e => Y_err e | _ => Y_bad end)
      else v <- show (hs s) x ;; Ok (s, Y_value v)
  | K_final x => f <- finalized s x ;; Ok (s, Y_bool f)
  end.

Fixpoint p_run (s : packs) (ops : list pop) : res (packs * list kans) :=
  match ops with
  | [] => Ok (s, [])
  | o :: r => '(s1, a) <- p_exec s o ;; '(s2, l) <- p_run s1 r ;; Ok (s2, a :: l)
  end.

Definition p_start (n : nat) : packs :=
  Packs (init (S n)) (BufHold.b_start n 0 0) (repeat false n).

(** packet/api.tcc:384-387 (refcount) *)
Definition p_count (s : packs) (x : nat) : res Z :=
  f <- finalized s x ;;
  if f then BufHold.var (bs s) x (fun h => BufHold.use_count (BufHold.heap (bs s)) (BufHold.ref h))
  else h <- get_var (hs s) x ;; Ok (refcount (heap (hs s)) h).
