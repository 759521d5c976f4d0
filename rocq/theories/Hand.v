(** Model of how bytes go into and out of the library: the constructors of
    dart::buffer from a span and from a unique_ptr, get_bytes, dup_bytes and
    share_bytes, the C functions over them, and the memory of the client.
    No proofs here. *)

From Coq Require Import ZArith List Bool.
From Verif Require Import Base Keys Wire Read Buf HeapOps SpecBufHold SpecHand BufHold.
From Verif Require SpecAbi Abi.
Import ListNotations.
Open Scope Z_scope.

(** A byte pointer of the client: block, offset and how many bytes it was given with. *)
Notation cptr := (option (nat * Z * Z)).

(** All of memory is in [store], as in BufHold.v; the blocks for which [owned] is true
    are plain allocations with the client as their only user, without a counter. *)
Record hstate : Type := HSt { store : blocks; bufs : list hold; owned : list bool; ptrs : list cptr }.

Definition hput (s : hstate) (l : blocks) (x : nat) (h : hold) : res hstate :=
  match nth_error (bufs s) x with
  | Some old =>
      l1 <- release (ref old) l ;;
      Ok (HSt l1 (list_set x h (bufs s)) (owned s) (ptrs s))
  | None => Undef
  end.
Definition hvar {A} (s : hstate) (x : nat) (k : hold -> res A) : res A :=
  match nth_error (bufs s) x with Some h => k h | None => Undef end.
Definition hptr {A} (s : hstate) (k : nat) (f : cptr -> res A) : res A :=
  match nth_error (ptrs s) k with Some p => f p | None => Undef end.
Definition set_ptr (s : hstate) (k : nat) (p : cptr) : hstate := HSt (store s) (bufs s) (owned s) (list_set k p (ptrs s)).
Definition htrying {A} (s : hstate) (r : res A) (k : A -> res (hstate * hans)) : res (hstate * hans) :=
  match r with
  | Ok a => k a
  | Throw w => Ok (s, H_err w)
  | Oob => Oob | Undef => Undef | Fuel => Fuel
  end.
Definition hdone (a : hans) (r : res hstate) : res (hstate * hans) := s <- r ;; Ok (s, a).

(** common.h:1371-1383 (aligned_alloc): a new block, the library's or the client's. *)
Definition grow (s : hstate) (mine : bool) (addr : Z) (m : mem) : hstate :=
  HSt (store s ++ [Some (Blk 1 addr m)]) (bufs s) (owned s ++ [mine]) (ptrs s).

Definition hfresh (s : hstate) (x : nat) (addr : Z) (m : mem) : res hstate :=
  let d := length (store s) in
  let s1 := grow s false addr m in
  hput s1 (store s1) x (Hold root d (Some d)).
Definition hmove (s : hstate) (x y : nat) : res hstate :=
  if Nat.eqb x y then Ok s
  else hvar s y (fun h =>
    s1 <- hput s (store s) x h ;;
    Ok (HSt (store s1) (list_set y null_hold (bufs s1)) (owned s1) (ptrs s1))).
Definition hgrant (s : hstate) (k : nat) (addr : Z) (m : mem) : hstate :=
  set_ptr (grow s true addr m) k (Some (length (store s), 0, zlen m)).

(** dart.h:8009-8012 and buffer/detail.tcc:20-30: the copying constructor. The counted
    pointer owns a fresh copy, but the raw element is made from the pointer that was
    given. An empty span is refused. *)
Definition hopen (s : hstate) (x : nat) (p : cptr) (addr : Z) : res hstate :=
  match p with
  | None => Undef
  | Some (d, o, n) =>
      if n =? 0 then Throw invalid_argument
      else match nth_error (store s) d with
           | Some (Some b) =>
               m <- rd (bytes b) o n ;;
               let s1 := grow s false addr m in
               hput s1 (store s1) x (Hold (R_object, Some o) d (Some (length (store s))))
           | _ => Undef
           end
  end.

(** dart.h:8064-8109 and buffer/detail.tcc:32-53: the constructors from a unique_ptr.
    A counter made for something that is not an allocation of the client is
    undefined, if only once it runs out. *)
Definition htake (s : hstate) (x : nat) (p : cptr) : res hstate :=
  match p with
  | None => Throw invalid_argument
  | Some (d, o, _) =>
      match nth_error (store s) d with
      | Some (Some b) =>
          if (base b + o) mod 8 =? 0 then
            if nth d (owned s) false && (o =? 0) then
              hput (HSt (store s) (bufs s) (list_set d false (owned s)) (ptrs s)) (store s) x (Hold root d (Some d))
            else Undef
          else Throw invalid_argument
      | _ => Undef
      end
  end.

(** shim.h:157-159 (aligned_free, generic.cc:1653-1655), also through the deleter of the owner the C
    functions make *)
Definition hfree (s : hstate) (p : cptr) : res hstate :=
  match p with
  | None => Ok s
  | Some (d, o, _) =>
      match nth_error (store s) d with
      | Some (Some b) =>
          if nth d (owned s) false && (o =? 0) then
            Ok (HSt (list_set d None (store s)) (bufs s) (list_set d false (owned s)) (ptrs s))
          else Undef
      | _ => Undef
      end
  end.

(** The client's memcpy to its own block. *)
Definition overwrite (o n : Z) (new old : mem) : mem :=
  let k := Z.to_nat o in let l := firstn (Z.to_nat n) new in
  firstn k old ++ firstn (length old - k) (l ++ skipn (k + length l) old).

Definition h_exec (s : hstate) (o : hop) : res (hstate * hans) :=
  match o with
  | H_new x v addr => htrying s (finalize v) (fun m => hdone H_unit (hfresh s x addr m))
  | H_copy x y => hvar s y (fun h => hdone H_unit (l <- retain (ref h) (store s) ;; hput s l x h))
  | H_move x y => hdone H_unit (hmove s x y)
  | H_reset x => hdone H_unit (hput s (store s) x null_hold)
  | H_member x n y =>
      hvar s y (fun h =>
        htrying s (look (store s) (raw h) (home h) (b_step n (raw h))) (fun e =>
          hdone H_unit ('(l, t) <- adopt (store s) e (home h) (ref h) ;; hput s l x t)))
  | H_read y =>
      hvar s y (fun h =>
        htrying s (look (store s) (raw h) (home h) (fun bs m => if is_null (raw h) then Ok VNull else b_value bs m (raw h)))
          (fun v => Ok (s, H_value v)))
  | H_count y => hvar s y (fun h => n <- use_count (store s) (ref h) ;; Ok (s, H_cnt n))
  (* buffer/api.tcc:256-264, ptrs.tcc:408-423, dart.h:8026-8029 *)
  | H_share x y =>
      hvar s y (fun h =>
        if is_null (raw h) then Ok (s, H_err type_error)
        else hdone H_unit (
          l <- retain (ref h) (store s) ;;
          _ <- block_size l (ref h) ;;
          match ref h with
          | Some d => hput s l x (Hold root d (Some d))
          | None => Oob
          end))
  | H_open x k addr => hptr s k (fun p => htrying s (hopen s x p addr) (fun s' => Ok (s', H_unit)))
  (* the unique_ptr is passed by reference and keeps what it has when this throws *)
  | H_take x k => hptr s k (fun p => htrying s (htake s x p) (fun s' => Ok (s', H_unit)))
  | K_load k v addr => htrying s (finalize v) (fun m => hptr s k (fun _ => Ok (hgrant s k addr m, H_unit)))
  (* buffer/api.tcc:249-254 *)
  | K_get k y =>
      hvar s y (fun h => hptr s k (fun _ =>
        htrying s (look (store s) (raw h) (home h) (fun _ m => b_object (raw h) (fun o => n <- rd_le m o 4 ;; Ok (o, n))))
          (fun '(o, n) => Ok (set_ptr s k (Some (home h, o, n)), H_unit))))
  (* buffer/api.tcc:266-282, then release() as in generic.cc:512-539 *)
  | K_dup k y addr =>
      hvar s y (fun h => hptr s k (fun _ =>
        htrying s (look (store s) (raw h) (home h) (fun _ m => b_get_bytes m (raw h)))
          (fun m => Ok (hgrant s k addr m, H_unit))))
  | K_point k j => hptr s k (fun _ => hptr s j (fun p => Ok (set_ptr s k p, H_unit)))
  | K_write k new =>
      hptr s k (fun p =>
        match p with
        | Some (d, o, n) =>
            match nth_error (store s) d with
            | Some (Some b) =>
                if nth d (owned s) false then
                  Ok (HSt (list_set d (Some (Blk (users b) (base b) (overwrite o n new (bytes b)))) (store s))
                        (bufs s) (owned s) (ptrs s), H_unit)
                else Undef
            | _ => Undef
            end
        | None => Undef
        end)
  | K_free k => hptr s k (fun p => hdone H_unit (hfree s p))
  (* generic.cc:541-551, buffer.cc:549-564: an unknown counter is a client error *)
  | A_open rc x k addr =>
      hptr s k (fun p =>
        Abi.rc_switch (Ok (s, H_code SpecAbi.client_code)) rc (fun _ =>
          s1 <- hput s (store s) x null_hold ;;
          match hopen s1 x p addr with
          | Ok s' => Ok (s', H_code SpecAbi.no_error)
          | Throw e => Ok (s1, H_code (Abi.handle e))
          | Oob => Oob | Undef => Undef | Fuel => Fuel
          end))
  (* generic.cc:553-568 makes the owner first, buffer.cc:584-604 looks at the counter
     first; the owner frees what was not taken from it *)
  | A_take pk rc x k =>
      hptr s k (fun p =>
        Abi.rc_switch
          (s' <- (if pk then hfree s p else Ok s) ;; Ok (s', H_code SpecAbi.client_code)) rc (fun _ =>
          s1 <- hput s (store s) x null_hold ;;
          match htake s1 x p with
          | Ok s' => Ok (s', H_code SpecAbi.no_error)
          | Throw e => s' <- hfree s1 p ;; Ok (s', H_code (Abi.handle e))
          | Oob => Oob | Undef => Undef | Fuel => Fuel
          end))
  end.

Fixpoint h_run (s : hstate) (ops : list hop) : res (hstate * list hans) :=
  match ops with
  | [] => Ok (s, [])
  | o :: r => '(s1, a) <- h_exec s o ;; '(s2, l) <- h_run s1 r ;; Ok (s2, a :: l)
  end.

Definition h_start (n k : nat) : hstate := HSt [] (repeat null_hold n) [] (repeat None k).
