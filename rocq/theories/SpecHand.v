(** What programs that hand bytes to the library and get bytes from it should
    observe: memory in numbered regions, each owned by exactly one side at a time,
    and handles that each show one value of one document.
    Specification only; nothing here knows about bytes, counters or addresses. *)

From Coq Require Import ZArith List Bool.
From Verif Require Import Base Keys Wire Spec SpecPacket SpecBufHold SpecAbi.
Import ListNotations.
Open Scope Z_scope.

(** Programs over variables [x y] of type dart::buffer and byte pointers [k j] of the
    client; [addr] is where an allocator puts a block. *)
Inductive hop : Type :=
| H_new (x : nat) (v : value) (addr : Z)    (* x = the finalized form of the object v *)
| H_copy (x y : nat)                        (* x = y *)
| H_move (x y : nat)                        (* x = std::move(y) *)
| H_reset (x : nat)                         (* x = buffer::make_null() *)
| H_member (x : nat) (n : step) (y : nat)   (* x = y[...] *)
| H_read (y : nat)                          (* everything reachable through y *)
| H_count (y : nat)                         (* y.refcount() *)
| H_share (x y : nat)                       (* y.share_bytes(p); x = buffer(p) *)
| H_open (x k : nat) (addr : Z)             (* x = buffer(span): the copying constructor *)
| H_take (x k : nat)                        (* x = buffer(std::unique_ptr(k)) *)
| K_load (k : nat) (v : value) (addr : Z)   (* the client allocates a block and receives the bytes of v in it *)
| K_get (k y : nat)                         (* k = y.get_bytes() *)
| K_dup (k y : nat) (addr : Z)              (* k = y.dup_bytes().release() *)
| K_point (k j : nat)                       (* k = j *)
| K_write (k : nat) (l : list Byte.byte)    (* as much of l as fits is written to k's block *)
| K_free (k : nat)                          (* dart_aligned_free(k) *)
| A_open (rc : Z) (x k : nat) (addr : Z)    (* dart_from_bytes_rc_err, dart_buffer_from_bytes_rc_err *)
| A_take (packet : bool) (rc : Z) (x k : nat). (* dart_take_bytes_rc_err, dart_buffer_take_bytes_rc_err *)

Inductive hans : Type := H_unit | H_value (v : value) | H_cnt (n : Z) | H_err (w : err) | H_code (z : Z).

(** A region of memory belongs to the library, which keeps an immutable document in
    it as long as something holds it; or to the client, who may have put it at an
    aligned address or not, may change it, and must free it; or to nobody any more. *)
Inductive region : Type := Counted (v : value) | Mine (aligned : bool) | Spoilt | Gone.

(** A handle shows nothing (null), or a value of the document it holds. Its bytes are
    in the region [via]. *)
Notation glimpse := (option (nat * (value * nat))).
(** A pointer: into which region, at the bytes of which object, and whether it is the
    start of the region's allocation. *)
Notation pointer := (option (nat * value * bool)).

Record hspec : Type := HS { regions : list region; shows : list glimpse; points : list pointer }.

Definition show (s : hspec) (x : nat) : glimpse := nth x (shows s) None.
Definition point (s : hspec) (k : nat) : pointer := nth k (points s) None.
Definition zone (s : hspec) (r : nat) : region := nth r (regions s) Gone.
Definition glimpsed (h : glimpse) : value := match h with Some (_, (v, _)) => v | None => VNull end.
Definition in_doc (d : nat) (v : value) (via : nat) : glimpse :=
  match v with VNull => None | _ => Some (d, (v, via)) end.
Definition sharing (s : hspec) (d : nat) : nat := length (filter (holds_doc d) (shows s)).

Definition set_show (s : hspec) (x : nat) (h : glimpse) : hspec := HS (regions s) (put_at (shows s) x h) (points s).
Definition set_point (s : hspec) (k : nat) (p : pointer) : hspec := HS (regions s) (shows s) (put_at (points s) k p).
Definition set_zone (s : hspec) (r : nat) (z : region) : hspec := HS (put_at (regions s) r z) (shows s) (points s).
Definition add_zone (s : hspec) (z : region) : hspec := HS (regions s ++ [z]) (shows s) (points s).

(** A new document of the library, held by [x]; its bytes are in region [via], or in
    its own. *)
Definition own_doc (s : hspec) (x : nat) (v : value) : hspec :=
  set_show (add_zone s (Counted v)) x (Some (length (regions s), (v, length (regions s)))).
Definition opened (s : hspec) (x : nat) (p : pointer) : hspec :=
  match p with
  | Some (r, v, _) => set_show (add_zone s (Counted v)) x (Some (length (regions s), (v, r)))
  | None => s
  end.
(** A new region of the client, at whose start [k] points. *)
Definition own_region (s : hspec) (k : nat) (v : value) (aligned : bool) : hspec :=
  set_point (add_zone s (Mine aligned)) k (Some (length (regions s), v, true)).
(** The client's region becomes a document, or stays the client's with an exception. *)
Definition taken (s : hspec) (x : nat) (p : pointer) : hspec + err :=
  match p with
  | Some (r, v, _) =>
      match zone s r with
      | Mine true => inl (set_show (set_zone s r (Counted v)) x (Some (r, (v, r))))
      | _ => inr invalid_argument
      end
  | None => inr invalid_argument
  end.
Definition freed (s : hspec) (p : pointer) : hspec :=
  match p with Some (r, _, _) => set_zone s r Gone | None => s end.

Definition h_does (s : hspec) (o : hop) : hspec * hans :=
  match o with
  | H_new x v _ => (own_doc s x v, H_unit)
  | H_copy x y => (set_show s x (show s y), H_unit)
  | H_move x y => (if Nat.eqb x y then s else set_show (set_show s x (show s y)) y None, H_unit)
  | H_reset x => (set_show s x None, H_unit)
  | H_member x n y =>
      match reached n (glimpsed (show s y)) with
      | inl v => (match show s y with
                  | Some (d, (_, via)) => set_show s x (in_doc d v via)
                  | None => set_show s x None
                  end, H_unit)
      | inr e => (s, H_err e)
      end
  | H_read y => (s, H_value (glimpsed (show s y)))
  | H_count y => (s, H_cnt (match show s y with Some (d, _) => Z.of_nat (sharing s d) | None => 0 end))
  | H_share x y =>
      match show s y with
      | Some (d, _) =>
          (match zone s d with Counted v => set_show s x (Some (d, (v, d))) | _ => s end, H_unit)
      | None => (s, H_err type_error)
      end
  | H_open x k _ => (opened s x (point s k), H_unit)
  | H_take x k => match taken s x (point s k) with inl s' => (s', H_unit) | inr e => (s, H_err e) end
  | K_load k v addr => (own_region s k v (addr mod 8 =? 0), H_unit)
  | K_get k y =>
      match show s y with
      | Some (_, (VObj fs, via)) => (set_point s k (Some (via, VObj fs, false)), H_unit)
      | _ => (s, H_err type_error)
      end
  | K_dup k y _ =>
      match glimpsed (show s y) with
      | VObj fs => (own_region s k (VObj fs) true, H_unit)
      | _ => (s, H_err type_error)
      end
  | K_point k j => (set_point s k (point s j), H_unit)
  | K_write k _ => (match point s k with Some (r, _, _) => set_zone s r Spoilt | None => s end, H_unit)
  | K_free k => (freed s (point s k), H_unit)
  | A_open rc x k _ =>
      match counter_of rc with
      | Some _ => (opened s x (point s k), H_code no_error)
      | None => (s, H_code client_code)
      end
  (* with an unknown counter, or a pointer that is not aligned, nothing is taken. The
     packet function frees the region all the same, the buffer function only in the
     second case. *)
  | A_take pk rc x k =>
      match counter_of rc with
      | Some _ =>
          match taken s x (point s k) with
          | inl s' => (s', H_code no_error)
          | inr e => (freed s (point s k), H_code (err_code e))
          end
      | None => (if pk then freed s (point s k) else s, H_code client_code)
      end
  end.

Fixpoint h_story (s : hspec) (ops : list hop) : hspec * list hans :=
  match ops with
  | [] => (s, [])
  | o :: r => let '(s1, a) := h_does s o in let '(s2, l) := h_story s1 r in (s2, a :: l)
  end.

(** What the documentation asks of the caller: variables exist, objects are small
    enough to finalize and their keys ordinary, indices are numbers, the allocator of
    the library aligns; and of the client's memory what C asks: bytes are handed over
    while they are there, only the client's own memory is written, freed or given
    away, and only by a pointer to its start; the C functions construct their
    destination, which must not hold anything. *)
Definition there (s : hspec) (r : nat) : Prop :=
  match zone s r with Counted _ => (0 < sharing s r)%nat | Mine _ => True | _ => False end.
Definition to_give (s : hspec) (p : pointer) : Prop :=
  match p with
  | Some (r, _, start) => start = true /\ match zone s r with Mine _ => True | _ => False end
  | None => True
  end.
Definition to_free (s : hspec) (p : pointer) : Prop :=
  match p with
  | Some (r, _, start) => start = true /\ match zone s r with Mine _ | Spoilt => True | _ => False end
  | None => True
  end.
Definition small_object (v : value) : Prop := vtype v = T_object /\ heap_value v /\ good_all v /\ room v < 2 ^ 32.
Definition h_owes (s : hspec) (o : hop) : Prop :=
  let var x := (x < length (shows s))%nat in
  let ptr k := (k < length (points s))%nat in
  match o with
  | H_new x v addr => var x /\ addr mod 8 = 0 /\ small_object v
  | H_copy x y | H_move x y | H_share x y => var x /\ var y
  | H_reset x => var x
  | H_member x n y => var x /\ var y /\ step_ok n
  | H_read y | H_count y => var y
  | H_open x k addr => var x /\ ptr k /\ addr mod 8 = 0 /\
      match point s k with Some (r, _, _) => there s r | None => False end
  | H_take x k => var x /\ ptr k /\ to_give s (point s k)
  | K_load k v addr => ptr k /\ small_object v
  | K_get k y => ptr k /\ var y
  | K_dup k y addr => ptr k /\ var y /\ addr mod 8 = 0
  | K_point k j => ptr k /\ ptr j
  | K_write k _ => ptr k /\
      match point s k with
      | Some (r, _, _) => match zone s r with Mine _ | Spoilt => True | _ => False end
      | None => False
      end
  | K_free k => ptr k /\ to_free s (point s k)
  | A_open rc x k addr => var x /\ show s x = None /\ ptr k /\ addr mod 8 = 0 /\
      match point s k with Some (r, _, _) => there s r | None => False end
  | A_take pk rc x k => var x /\ show s x = None /\ ptr k /\ to_give s (point s k)
  end.

(** What it does not ask, and the copying constructor makes necessary: whenever
    something is read through a handle, the region its bytes are in is still there,
    unchanged, and aligned. *)
Definition clear (s : hspec) (h : glimpse) : Prop :=
  match h with
  | Some (_, (_, via)) =>
      match zone s via with Counted _ => (0 < sharing s via)%nat | Mine a => a = true | _ => False end
  | None => True
  end.
Definition h_clear (s : hspec) (o : hop) : Prop :=
  match o with
  | H_member _ _ y | H_read y | K_get _ y | K_dup _ y _ => clear s (show s y)
  | _ => True
  end.

Fixpoint h_owes_all (s : hspec) (ops : list hop) : Prop :=
  match ops with
  | [] => True
  | o :: r => h_owes s o /\ h_owes_all (fst (h_does s o)) r
  end.
Fixpoint h_clear_all (s : hspec) (ops : list hop) : Prop :=
  match ops with
  | [] => True
  | o :: r => h_clear s o /\ h_clear_all (fst (h_does s o)) r
  end.

(** Before anything happened: [n] null buffers and [k] null pointers. *)
Definition h_blank (n k : nat) : hspec := HS [] (repeat None n) (repeat None k).

(** Programs in which every use of the copying constructor is followed at once by
    opening the shared bytes of the result. *)
Definition is_open (o : hop) : bool := match o with H_open _ _ _ | A_open _ _ _ _ => true | _ => false end.
Inductive chunk : Type :=
| Plain (o : hop)                           (* anything but the copying constructor *)
| Copied (x k : nat) (addr : Z).            (* x = buffer(span); x.share_bytes(p); x = buffer(p) *)
Definition expand (c : chunk) : list hop :=
  match c with Plain o => [o] | Copied x k addr => [H_open x k addr; H_share x x] end.
Definition plain (c : chunk) : Prop := match c with Plain o => is_open o = false | Copied _ _ _ => True end.
