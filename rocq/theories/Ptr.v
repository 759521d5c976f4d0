(** Counted pointers: detail::counted_ptr_base (unsafe_ptr, skinny_ptr) and
    shareable_ptr around one.  Model only.

    Pointers are at addresses: variables, or fields of a pointee.  Touching a freed
    block, or using storage without a live pointer in it, is [Oob].  What a caller
    must not do (use a variable that is gone, dereference null, name a field that
    does not exist) is [Undef] and is decided by [resolve] before anything else
    happens.  Temporaries are variables pushed for the duration of a call.  The count
    is an integer without a bound (in the code int64_t; it is at most the number of
    pointers in memory).  Deleters are the default ones: they destroy the fields of
    the pointee in reverse order and free it. *)

From Coq Require Import ZArith List Bool.
From Verif Require Import Base HeapOps SpecPtr.
Import ListNotations.
Open Scope Z_scope.

Definition read_slot (s : pstate) (a : addr) : res (option nat) :=
  match slot_at s a with Some (Held p) => Ok p | _ => Oob end.

Definition write_slot (s : pstate) (a : addr) (v : slot) : res pstate :=
  match a with
  | AVar x =>
      match nth_error (pvars s) x with
      | Some _ => Ok (PSt (ctls s) (objs s) (list_set x v (pvars s)) (deleted s))
      | None => Oob
      end
  | AFld b i =>
      match obj_of s b with
      | Some fs =>
          match nth_error fs i with
          | Some _ => Ok (PSt (ctls s) (list_set b (Some (list_set i v fs)) (objs s)) (pvars s) (deleted s))
          | None => Oob
          end
      | None => Oob
      end
  end.

Definition ctl_at (s : pstate) (b : nat) : res ctl :=
  match ctl_of s b with Some c => Ok c | None => Oob end.
Definition set_ctl (s : pstate) (b : nat) (c : option ctl) : pstate :=
  PSt (list_set b c (ctls s)) (objs s) (pvars s) (deleted s).

(** ** Destruction

    ptrs.tcc:69-75 (~counted_ptr_base): decrement, and at zero destroy() then
    delete.  ptrs.tcc:24-27 (destroy) calls the deleter, 14-22.  The pointee's
    destructor destroys its fields, which may end other pointees; what is still to
    be done is kept in a list. *)
Inductive task : Type := DSlot (a : addr) | DObj (b : nat) | DCtl (b : nat).

Definition fields (b k : nat) : list task := map (fun i => DSlot (AFld b i)) (rev (seq 0 k)).
Definition destroy (s : pstate) (b : nat) (c : ctl) : res (list task) :=
  if owns c then
    match obj_of s b with
    | Some fs => Ok (fields b (length fs) ++ [DObj b; DCtl b])
    | None => Oob
    end
  else Ok [DObj b; DCtl b].

Fixpoint run (fuel : nat) (s : pstate) (ts : list task) : res pstate :=
  match fuel, ts with
  | _, [] => Ok s
  | O, _ => Fuel
  | S f, DSlot a :: r =>
      p <- read_slot s a ;;
      s1 <- write_slot s a Raw ;;
      match p with
      | None => run f s1 r
      | Some b =>
          c <- ctl_at s1 b ;;
          let c' := Ctl (cnt c - 1) (owns c) in
          let s2 := set_ctl s1 b (Some c') in
          if cnt c' =? 0 then ts' <- destroy s2 b c' ;; run f s2 (ts' ++ r)
          else run f s2 r
      end
  | S f, DObj b :: r =>
      c <- ctl_at s b ;;
      let s1 := PSt (ctls s) (objs s) (pvars s) (b :: deleted s) in
      if owns c then
        match obj_of s b with
        | Some _ => run f (PSt (ctls s) (list_set b None (objs s)) (pvars s) (b :: deleted s)) r
        | None => Oob
        end
      else run f s1 r
  | S f, DCtl b :: r => _ <- ctl_at s b ;; run f (set_ctl s b None) r
  end.

(** Enough for any destruction: each block is ended once. *)
Definition weight (s : pstate) : nat :=
  fold_right (fun b n => match obj_of s b with Some fs => length fs | None => O end + 2 + n)%nat O
    (seq 0 (length (objs s))).
Definition c_dtor (s : pstate) (a : addr) : res pstate := run (S (weight s)) s [DSlot a].

(** ** counted_ptr_base *)

(** ptrs.h:73-74 *)
Definition c_null (s : pstate) (a : addr) : res pstate := write_slot s a (Held None).

(** ptrs.h:75-81, ptrs.tcc:45-57: a new control block with count 1.  [pointee] is
    what the pointer given points to: a record of [n] null pointers, or nothing. *)
Definition c_take (s : pstate) (a : addr) (pointee : option nat) : res pstate :=
  let b := length (ctls s) in
  let s1 := PSt (ctls s ++ [Some (Ctl 1 (match pointee with Some _ => true | None => false end))])
                (objs s ++ [match pointee with Some n => Some (repeat (Held None) n) | None => None end])
                (pvars s) (deleted s) in
  write_slot s1 a (Held (Some b)).

(** ptrs.tcc:29-35, 59-62 *)
Definition c_copy (s : pstate) (a o : addr) : res pstate :=
  p <- read_slot s o ;;
  s1 <- write_slot s a (Held p) ;;
  match p with
  | None => Ok s1
  | Some b => c <- ctl_at s1 b ;; Ok (set_ctl s1 b (Some (Ctl (cnt c + 1) (owns c))))
  end.

(** ptrs.tcc:37-43, 64-67 *)
Definition c_move (s : pstate) (a o : addr) : res pstate :=
  p <- read_slot s o ;;
  s1 <- write_slot s a (Held p) ;;
  write_slot s1 o (Held None).

(** A local variable of a function, destroyed with [dtor] when it returns. *)
Definition with_tmp (dtor : pstate -> addr -> res pstate) (s : pstate) (body : pstate -> addr -> res pstate) : res pstate :=
  let t := AVar (length (pvars s)) in
  s1 <- body (PSt (ctls s) (objs s) (pvars s ++ [Raw]) (deleted s)) t ;;
  s2 <- dtor s1 t ;;
  Ok (PSt (ctls s2) (objs s2) (firstn (length (pvars s)) (pvars s2)) (deleted s2)).

(** ptrs.tcc:112-121 (operator =, move) and 89-100 (from another pointer type) *)
Definition c_move_assign (s : pstate) (a o : addr) : res pstate :=
  if addr_eqb a o then Ok s else s1 <- c_dtor s a ;; c_move s1 a o.
Definition c_move_assign_conv (s : pstate) (a o : addr) : res pstate :=
  p <- read_slot s a ;; q <- read_slot s o ;;
  if match p, q with Some b, Some c => Nat.eqb b c | None, None => true | _, _ => false end then Ok s
  else s1 <- c_dtor s a ;; c_move s1 a o.

(** ptrs.tcc:102-110 (operator =, copy) and 77-87 (from another pointer type) *)
Definition c_copy_assign (s : pstate) (a o : addr) : res pstate :=
  if addr_eqb a o then Ok s
  else with_tmp c_dtor s (fun s1 t => s2 <- c_copy s1 t o ;; c_move_assign s2 a t).
Definition c_copy_assign_conv (s : pstate) (a o : addr) : res pstate :=
  p <- read_slot s a ;; q <- read_slot s o ;;
  if match p, q with Some b, Some c => Nat.eqb b c | None, None => true | _, _ => false end then Ok s
  else with_tmp c_dtor s (fun s1 t => s2 <- c_copy s1 t o ;; c_move_assign_conv s2 a t).

(** ptrs.tcc:197-201 (reset), 203-215 (reset to a new pointee), 123-132 (operator =
    from a unique_ptr, the same steps) *)
Definition c_reset (s : pstate) (a : addr) : res pstate := s1 <- c_dtor s a ;; c_null s1 a.
Definition c_reset_to (s : pstate) (a : addr) (pointee : option nat) : res pstate :=
  with_tmp c_dtor s (fun s1 t => s2 <- c_take s1 t pointee ;; c_move_assign s2 a t).

(** ptrs.tcc:179-195 (get, as the number of the pointee; unique; use_count),
    174-177 (operator bool), 144-147 (operator ==) *)
Definition c_get (s : pstate) (a : addr) : res (option nat) :=
  p <- read_slot s a ;;
  match p with
  | Some b => c <- ctl_at s b ;; Ok (if owns c then Some b else None)
  | None => Ok None
  end.
Definition c_use_count (s : pstate) (a : addr) : res Z :=
  p <- read_slot s a ;;
  match p with Some b => c <- ctl_at s b ;; Ok (cnt c) | None => Ok 0 end.
Definition c_unique (s : pstate) (a : addr) : res bool := n <- c_use_count s a ;; Ok (n =? 1).
Definition c_bool (s : pstate) (a : addr) : res bool :=
  p <- read_slot s a ;; Ok (match p with Some _ => true | None => false end).
Definition c_eq (s : pstate) (a o : addr) : res bool :=
  p <- read_slot s a ;; q <- read_slot s o ;;
  Ok (match p, q with Some b, Some c => Nat.eqb b c | None, None => true | _, _ => false end).

(** ** shareable_ptr, through refcount_traits (refcount_traits.h:55-126: take, copy
    and move construct in place; reset calls reset) *)

(** ptrs.tcc:267-275 *)
Definition sh_dtor (s : pstate) (a : addr) : res pstate := s1 <- c_reset s a ;; c_dtor s1 a.

(** ptrs.tcc:319-328; 294-302 (from a T&&: no check for itself) *)
Definition sh_move_assign (s : pstate) (a o : addr) : res pstate :=
  if addr_eqb a o then Ok s else s1 <- sh_dtor s a ;; c_move s1 a o.
Definition sh_move_assign_raw (s : pstate) (a o : addr) : res pstate :=
  s1 <- sh_dtor s a ;; c_move s1 a o.

(** ptrs.tcc:311-317; 287-292 (from a T const&); 304-309 (nullptr); 277-285 (unique_ptr) *)
Definition sh_copy_assign (s : pstate) (a o : addr) : res pstate :=
  if addr_eqb a o then Ok s
  else with_tmp sh_dtor s (fun s1 t => s2 <- c_copy s1 t o ;; sh_move_assign s2 a t).
Definition sh_copy_assign_raw (s : pstate) (a o : addr) : res pstate :=
  with_tmp sh_dtor s (fun s1 t => s2 <- c_copy s1 t o ;; sh_move_assign s2 a t).
Definition sh_assign_null (s : pstate) (a : addr) : res pstate :=
  with_tmp sh_dtor s (fun s1 t => s2 <- c_null s1 t ;; sh_move_assign s2 a t).
Definition sh_assign_to (s : pstate) (a : addr) (pointee : option nat) : res pstate :=
  with_tmp sh_dtor s (fun s1 t => s2 <- c_take s1 t pointee ;; sh_move_assign s2 a t).

(** ptrs.tcc:414-423 (transfer), 407-412 (share) *)
Definition sh_transfer (s : pstate) (a o : addr) : res pstate := s1 <- c_dtor s a ;; c_move s1 a o.
Definition sh_share (s : pstate) (a o : addr) : res pstate :=
  with_tmp sh_dtor s (fun s1 t => s2 <- c_copy s1 t o ;; sh_transfer s2 a t).

(** ** Histories *)

(** Evaluating an expression (operator ->, ptrs.tcc:139-142). *)
Fixpoint resolve (s : pstate) (l : ploc) : res addr :=
  match l with
  | PVar x => match nth_error (pvars s) x with Some (Held _) => Ok (AVar x) | _ => Undef end
  | PFld l' i =>
      a <- resolve s l' ;; p <- read_slot s a ;;
      match p with
      | None => Undef
      | Some b =>
          c <- ctl_at s b ;;
          if owns c then
            match obj_of s b with
            | Some fs => if (i <? length fs)%nat then Ok (AFld b i) else Undef
            | None => Oob
            end
          else Undef
      end
  end.

Definition at1 (s : pstate) (l : ploc) (f : pstate -> addr -> res pstate) : res pstate :=
  a <- resolve s l ;; f s a.
Definition at2 (s : pstate) (l o : ploc) (f : pstate -> addr -> addr -> res pstate) : res pstate :=
  a <- resolve s l ;; b <- resolve s o ;; f s a b.

Definition pstep (s : pstate) (o : pop) : res pstate :=
  match o with
  | OMake c =>
      let t := AVar (length (pvars s)) in
      let s1 := PSt (ctls s) (objs s) (pvars s ++ [Raw]) (deleted s) in
      match c with
      | CNull => c_null s1 t
      | CTake p => c_take s1 t p
      | CCopy l => at1 s l (fun _ a => c_copy s1 t a)
      | CMove l => at1 s l (fun _ a => c_move s1 t a)
      end
  | ODestroy x => at1 s (PVar x) c_dtor
  | SDestroy x => at1 s (PVar x) sh_dtor
  | OReset l => at1 s l c_reset
  | OResetTo l p => at1 s l (fun s a => c_reset_to s a p)
  | OCopy l o => at2 s l o c_copy_assign
  | OMove l o => at2 s l o c_move_assign
  | OCopyConv l o => at2 s l o c_copy_assign_conv
  | OMoveConv l o => at2 s l o c_move_assign_conv
  | SNull l => at1 s l sh_assign_null
  | STo l p => at1 s l (fun s a => sh_assign_to s a p)
  | SCopy l o => at2 s l o sh_copy_assign
  | SMove l o => at2 s l o sh_move_assign
  | SCopyRaw l o => at2 s l o sh_copy_assign_raw
  | SMoveRaw l o => at2 s l o sh_move_assign_raw
  | SShare l o => at2 s l o sh_share
  | STransfer l o => at2 s l o sh_transfer
  end.

Fixpoint prun (s : pstate) (os : list pop) : res pstate :=
  match os with [] => Ok s | o :: r => s1 <- pstep s o ;; prun s1 r end.
Definition pinit : pstate := PSt [] [] [] [].
