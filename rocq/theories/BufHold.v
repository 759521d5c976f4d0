(** Model of who owns the bytes of finalized buffers: dart::buffer, its iterators
    and buffer views, with their reference counts. No proofs here. *)

From Coq Require Import ZArith List Bool.
From Verif Require Import Base Keys Wire Read Buf HeapOps SpecBufHold.
Import ListNotations.
Open Scope Z_scope.

(** A block of bytes behind a reference counter; freed blocks are [None]. The
    counter cannot overflow here. *)
Record block : Type := Blk { users : Z; base : Z; bytes : mem }.
Definition blocks : Type := list (option block).

(** dart.h:10220-10226, basic_buffer: a raw element - a type tag and a pointer, which
    points into some block - and a counted pointer to a block. That the two blocks
    are the same is not part of the type. *)
Record hold : Type := Hold { raw : elem; home : nat; ref : option nat }.
Definition null_elem : elem := (R_null, None).
Definition null_hold : hold := Hold null_elem O None.

(** A buffer view: the raw element by value, and a pointer to the counted pointer of
    the variable it was taken from (ptrs.h:387-455, view_ptr). *)
Record glance : Type := Glance { g_raw : elem; g_home : nat; g_own : option nat }.
Definition null_glance : glance := Glance null_elem O None.

(** iterator.tcc:9-84: an iterator is a copy of the buffer and an index. *)
Record bstate : Type :=
  BSt { heap : blocks; vars : list hold; iters : list (hold * Z); views : list glance }.

(** Copying and destroying a counted pointer (ptrs.tcc:258-275 through
    refcount_traits); touching a counter that is gone is undefined. *)
Definition retain (r : option nat) (l : blocks) : res blocks :=
  match r with
  | None => Ok l
  | Some d =>
      match nth_error l d with
      | Some (Some b) => Ok (list_set d (Some (Blk (users b + 1) (base b) (bytes b))) l)
      | _ => Undef
      end
  end.
Definition release (r : option nat) (l : blocks) : res blocks :=
  match r with
  | None => Ok l
  | Some d =>
      match nth_error l d with
      | Some (Some b) =>
          Ok (list_set d (if users b - 1 =? 0 then None else Some (Blk (users b - 1) (base b) (bytes b))) l)
      | _ => Undef
      end
  end.

Definition is_null (e : elem) : bool := utype_eqb (b_type e) T_null.

(** Reading through a raw element: nothing is read through a null; what a pointer
    into a freed block shows is undefined. *)
Definition look {A} (l : blocks) (e : elem) (d : nat) (f : Z -> mem -> res A) : res A :=
  if is_null e then f 0 []
  else match nth_error l d with Some (Some b) => f (base b) (bytes b) | _ => Undef end.

(** buffer/object.tcc:131-175, buffer/array.tcc:42-170 *)
Definition b_step (n : step) (e : elem) (bs : Z) (m : mem) : res elem :=
  match n with
  | By_key k => b_get bs m e k
  | Must_key k => b_at bs m e k
  | By_idx i => b_get_idx m e i
  | Must_idx i => b_at_idx m e i
  | First => b_front m e
  | Last => b_back m e
  | Must_first => b_at_front m e
  | Must_last => b_at_back m e
  end.

(** buffer/detail.tcc:12-18: the constructor from an element and a copy of a counted
    pointer drops the copy again when the element is null. *)
Definition adopt (l : blocks) (e : elem) (d : nat) (r : option nat) : res (blocks * hold) :=
  l1 <- retain r l ;;
  if is_null e then l2 <- release r l1 ;; Ok (l2, Hold e d None) else Ok (l1, Hold e d r).

(** buffer/api.tcc:21-31: move assignment from a temporary destroys what the
    variable held and takes the temporary over. *)
Definition put (s : bstate) (l : blocks) (x : nat) (h : hold) : res bstate :=
  match nth_error (vars s) x with
  | Some old =>
      l1 <- release (ref old) l ;;
      Ok (BSt l1 (list_set x h (vars s)) (iters s) (views s))
  | None => Undef
  end.
Definition put_it (s : bstate) (l : blocks) (j : nat) (h : hold) (i : Z) : res bstate :=
  match nth_error (iters s) j with
  | Some (old, _) =>
      l1 <- release (ref old) l ;;
      Ok (BSt l1 (vars s) (list_set j (h, i) (iters s)) (views s))
  | None => Undef
  end.

Definition var {A} (s : bstate) (x : nat) (k : hold -> res A) : res A :=
  match nth_error (vars s) x with Some h => k h | None => Undef end.
Definition itr {A} (s : bstate) (j : nat) (k : hold -> Z -> res A) : res A :=
  match nth_error (iters s) j with Some (h, i) => k h i | None => Undef end.
Definition viw {A} (s : bstate) (w : nat) (k : glance -> res A) : res A :=
  match nth_error (views s) w with Some g => k g | None => Undef end.

(** An exception leaves the variables alone and is what the caller sees. *)
Definition trying {A} (s : bstate) (r : res A) (k : A -> res (bstate * bans)) : res (bstate * bans) :=
  match r with
  | Ok a => k a
  | Throw w => Ok (s, B_err w)
  | Oob => Oob | Undef => Undef | Fuel => Fuel
  end.
Definition done (r : res bstate) : res (bstate * bans) := s <- r ;; Ok (s, B_unit).

(** A new block with one user, given to [x]. *)
Definition fresh (s : bstate) (x : nat) (addr : Z) (m : mem) : res bstate :=
  let d := length (heap s) in
  put s (heap s ++ [Some (Blk 1 addr m)]) x (Hold root d (Some d)).

(** buffer/api.tcc:12-31: move assignment between variables; nothing happens to a
    variable assigned to itself, otherwise the source becomes null. *)
Definition move_var (s : bstate) (x y : nat) : res bstate :=
  if Nat.eqb x y then Ok s
  else var s y (fun h =>
    s1 <- put s (heap s) x h ;;
    Ok (BSt (heap s1) (list_set y null_hold (vars s1)) (iters s1) (views s1))).

(** common.h:1100 (find_sizeof) on the start of the block a counted pointer holds *)
Definition block_size (l : blocks) (r : option nat) : res Z :=
  match r with
  | Some d => match nth_error l d with Some (Some b) => rd_le (bytes b) 0 4 | _ => Undef end
  | None => Oob
  end.

(** use_count (ptrs.tcc:398-401): 0 of a null pointer *)
Definition use_count (l : blocks) (r : option nat) : res Z :=
  match r with
  | None => Ok 0
  | Some d => match nth_error l d with Some (Some b) => Ok (users b) | _ => Undef end
  end.

Definition b_exec (s : bstate) (o : bop) : res (bstate * bans) :=
  match o with
  (* heap/api.tcc lower() / buffer::make_object through buffer_builder *)
  | M_new x v addr => trying s (finalize v) (fun m => done (fresh s x addr m))
  (* dart.h:7969 and the defaulted assignment; ptrs.tcc:312-318 *)
  | M_copy x y => var s y (fun h => done (l <- retain (ref h) (heap s) ;; put s l x h))
  | M_move x y => done (move_var s x y)
  (* buffer/api.tcc:119-122 *)
  | M_reset x => done (put s (heap s) x null_hold)
  (* the const& overloads: object.tcc:131-134, 159-162, array.tcc:47-50, 72-75, 79-135 *)
  | M_member x n y =>
      var s y (fun h =>
        trying s (look (heap s) (raw h) (home h) (b_step n (raw h))) (fun e =>
          done ('(l, t) <- adopt (heap s) e (home h) (ref h) ;; put s l x t)))
  (* the && overloads: the same element, in place; a null gives its reference up *)
  | M_into x n y =>
      var s y (fun h =>
        trying s (look (heap s) (raw h) (home h) (b_step n (raw h))) (fun e =>
          done (
            '(l, t) <- (if is_null e then l <- release (ref h) (heap s) ;; Ok (l, Hold e (home h) None)
                        else Ok (heap s, Hold e (home h) (ref h))) ;;
            move_var (BSt l (list_set y t (vars s)) (iters s) (views s)) x y)))
  | M_read y =>
      var s y (fun h =>
        trying s (look (heap s) (raw h) (home h) (fun bs m => if is_null (raw h) then Ok VNull else b_value bs m (raw h)))
          (fun v => Ok (s, B_value v)))
  (* buffer/api.tcc:357-360 *)
  | M_count y => var s y (fun h => n <- use_count (heap s) (ref h) ;; Ok (s, B_count n))
  (* buffer/api.tcc:256-264, ptrs.tcc:408-423, dart.h:8026-8029 *)
  | M_reopen x y =>
      var s y (fun h =>
        if is_null (raw h) then Ok (s, B_err type_error)
        else done (
          l <- retain (ref h) (heap s) ;;
          _ <- block_size l (ref h) ;;
          match ref h with
          | Some d => put s l x (Hold root d (Some d))
          | None => Oob
          end))
  (* buffer/api.tcc:249-254, 266-282, dart.h:8064-8067 *)
  | M_dup x y addr =>
      var s y (fun h =>
        trying s (look (heap s) (raw h) (home h) (fun _ m => b_get_bytes m (raw h))) (fun bs =>
          done (fresh s x addr bs)))
  (* buffer/api.tcc:362-366 *)
  | W_begin j y =>
      var s y (fun h =>
        match b_type (raw h) with
        | T_object | T_array => done (l <- retain (ref h) (heap s) ;; put_it s l j h 0)
        | _ => Ok (s, B_err type_error)
        end)
  (* iterator.tcc:37-41; incrementing an empty optional *)
  | W_next j =>
      itr s j (fun h i =>
        if is_null (raw h) then Undef
        else Ok (BSt (heap s) (vars s) (list_set j (h, i + 1) (iters s)) (views s), B_unit))
  (* iterator.tcc:65-68 *)
  | W_deref x j =>
      itr s j (fun h i =>
        if is_null (raw h) then Undef
        else trying s (look (heap s) (raw h) (home h) (fun bs m => b_deref bs m (raw h) i)) (fun e =>
          done ('(l, t) <- adopt (heap s) e (home h) (ref h) ;; put s l x t)))
  | W_drop j => done (put_it s (heap s) j null_hold 0)
  (* buffer/api.tcc:54-60 *)
  | P_of w x =>
      var s x (fun h => viw s w (fun _ =>
        Ok (BSt (heap s) (vars s) (iters s) (list_set w (Glance (raw h) (home h) (Some x)) (views s)), B_unit)))
  (* the same code with view_ptr: copying the pointer counts nothing, a null resets it *)
  | P_member w n u =>
      viw s u (fun g => viw s w (fun _ =>
        trying s (look (heap s) (g_raw g) (g_home g) (b_step n (g_raw g))) (fun e =>
          Ok (BSt (heap s) (vars s) (iters s)
                (list_set w (Glance e (g_home g) (if is_null e then None else g_own g)) (views s)), B_unit))))
  | P_read w =>
      viw s w (fun g =>
        trying s (look (heap s) (g_raw g) (g_home g) (fun bs m => if is_null (g_raw g) then Ok VNull else b_value bs m (g_raw g)))
          (fun v => Ok (s, B_value v)))
  (* ptrs.tcc:573-585: at least one unless the view itself is null *)
  | P_count w =>
      viw s w (fun g =>
        match g_own g with
        | None => Ok (s, B_count 0)
        | Some x => var s x (fun h => n <- use_count (heap s) (ref h) ;; Ok (s, B_count (if n =? 0 then 1 else n)))
        end)
  (* buffer/api.tcc:446-453: the raw element kept by the view, with whatever the
     variable's counted pointer holds now *)
  | P_own x w =>
      viw s w (fun g =>
        done (
          r <- match g_own g with Some y => var s y (fun h => Ok (ref h)) | None => Ok None end ;;
          l <- retain r (heap s) ;;
          put s l x (Hold (g_raw g) (g_home g) r)))
  end.

Fixpoint b_run (s : bstate) (ops : list bop) : res (bstate * list bans) :=
  match ops with
  | [] => Ok (s, [])
  | o :: r => '(s1, a) <- b_exec s o ;; '(s2, l) <- b_run s1 r ;; Ok (s2, a :: l)
  end.

Definition b_start (n j w : nat) : bstate :=
  BSt [] (repeat null_hold n) (repeat (null_hold, 0) j) (repeat null_glance w).
