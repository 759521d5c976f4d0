(** What programs that pass finalized buffers around should observe: documents
    that never change, handles that each show one value of one document, and a
    document that exists exactly as long as something holds it.
    Specification only; nothing here knows about bytes, counters or pointers. *)

From Coq Require Import ZArith List Bool.
From Verif Require Import Base Keys Wire Spec SpecPacket.
Import ListNotations.
Open Scope Z_scope.

(** The ways to reach a member of a buffer. *)
Inductive step : Type :=
| By_key (k : str) | Must_key (k : str)      (* operator[] and get; at *)
| By_idx (i : Z) | Must_idx (i : Z)
| First | Last | Must_first | Must_last.     (* front, back, at_front, at_back *)

(** Programs over variables [x y] of type dart::buffer, iterators [j] and views [w];
    [addr] is where the allocator puts a block. *)
Inductive bop : Type :=
| M_new (x : nat) (v : value) (addr : Z)  (* x = the finalized form of the object v *)
| M_copy (x y : nat)                      (* x = y *)
| M_move (x y : nat)                      (* x = std::move(y) *)
| M_reset (x : nat)                       (* x = buffer::make_null() *)
| M_member (x : nat) (n : step) (y : nat) (* x = y[...] *)
| M_into (x : nat) (n : step) (y : nat)   (* x = std::move(y)[...] *)
| M_read (y : nat)                        (* everything reachable through y *)
| M_count (y : nat)                       (* y.refcount() *)
| M_reopen (x y : nat)                    (* y.share_bytes(p); x = buffer(p) *)
| M_dup (x y : nat) (addr : Z)            (* x = buffer(y.dup_bytes()) *)
| W_begin (j y : nat)                     (* j = y.begin() *)
| W_next (j : nat)                        (* ++j *)
| W_deref (x j : nat)                     (* x = *j *)
| W_drop (j : nat)                        (* j = iterator() *)
| P_of (w x : nat)                        (* w = view of x *)
| P_member (w : nat) (n : step) (u : nat) (* w = u[...] *)
| P_read (w : nat)
| P_count (w : nat)                       (* w.refcount() *)
| P_own (x w : nat).                      (* x = w.as_owner() *)

Inductive bans : Type := B_unit | B_value (v : value) | B_count (n : Z) | B_err (w : err).

(** Which value a step reaches, or which exception it throws. *)
Definition size_of (v : value) : option nat :=
  match v with
  | VObj fs => Some (length fs) | VArr vs => Some (length vs) | VStr s => Some (length s)
  | _ => None
  end.
Definition end_of (pick : list value -> value) (v : value) : value + err :=
  match v with VArr vs => inl (pick vs) | _ => inr type_error end.
Definition reached (n : step) (v : value) : value + err :=
  match n, v with
  | By_key k, VObj fs => inl (match lookup k fs with Some x => x | None => VNull end)
  | Must_key k, VObj fs => match lookup k fs with Some x => inl x | None => inr out_of_range end
  | By_idx i, VArr vs => inl (match nth_error vs (Z.to_nat i) with Some x => x | None => VNull end)
  | Must_idx i, VArr vs => match nth_error vs (Z.to_nat i) with Some x => inl x | None => inr out_of_range end
  | First, _ => end_of (hd VNull) v
  | Last, _ => end_of (fun vs => last vs VNull) v
  | Must_first, _ =>
      match size_of v with None => inr type_error | Some O => inr out_of_range | _ => end_of (hd VNull) v end
  | Must_last, _ =>
      match size_of v with None => inr type_error | Some O => inr out_of_range | _ => end_of (fun vs => last vs VNull) v end
  | _, _ => inr type_error
  end.

(** A handle shows nothing (null), or a value within a numbered document. *)
Definition shown : Type := option (nat * value).
Definition within (d : nat) (v : value) : shown := match v with VNull => None | _ => Some (d, v) end.
Definition seen (h : shown) : value := match h with Some (_, v) => v | None => VNull end.

(** An iterator: the document it walks and the members still ahead. *)
Definition walk : Type := option (nat * list value).
(** A view: what it shows, and the variable it was taken from (none once it is null). *)
Definition peek : Type := shown * option nat.

Record bspec : Type := BS { docs : list value; handles : list shown; walks : list walk; peeks : list peek }.

Definition holds_doc {A} (d : nat) (h : option (nat * A)) : bool :=
  match h with Some (e, _) => Nat.eqb d e | None => false end.
(** How many variables and iterators hold document [d]. *)
Definition holders (s : bspec) (d : nat) : nat :=
  length (filter (holds_doc d) (handles s)) + length (filter (holds_doc d) (walks s)).

Definition put_at {A} (l : list A) (i : nat) (x : A) : list A := firstn i l ++ x :: skipn (S i) l.
Definition handle (s : bspec) (x : nat) : shown := nth x (handles s) None.
Definition set_handle (s : bspec) (x : nat) (h : shown) : bspec := BS (docs s) (put_at (handles s) x h) (walks s) (peeks s).
Definition set_walk (s : bspec) (j : nat) (k : walk) : bspec := BS (docs s) (handles s) (put_at (walks s) j k) (peeks s).
Definition set_peek (s : bspec) (w : nat) (p : peek) : bspec := BS (docs s) (handles s) (walks s) (put_at (peeks s) w p).
(** A new document, held by [x]. *)
Definition new_doc (s : bspec) (x : nat) (v : value) : bspec :=
  BS (docs s ++ [v]) (put_at (handles s) x (Some (length (docs s), v))) (walks s) (peeks s).

Definition count_of (s : bspec) (h : shown) : Z :=
  match h with Some (d, _) => Z.of_nat (holders s d) | None => 0 end.
Definition doc_of (h : shown) : nat := match h with Some (d, _) => d | None => O end.

Definition b_does (s : bspec) (o : bop) : bspec * bans :=
  match o with
  | M_new x v _ => (new_doc s x v, B_unit)
  | M_copy x y => (set_handle s x (handle s y), B_unit)
  | M_move x y =>
      (if Nat.eqb x y then s else set_handle (set_handle s x (handle s y)) y None, B_unit)
  | M_reset x => (set_handle s x None, B_unit)
  | M_member x n y =>
      match reached n (seen (handle s y)) with
      | inl v => (set_handle s x (within (doc_of (handle s y)) v), B_unit)
      | inr e => (s, B_err e)
      end
  | M_into x n y =>
      match reached n (seen (handle s y)) with
      | inl v => let h := within (doc_of (handle s y)) v in
                 (if Nat.eqb x y then set_handle s x h else set_handle (set_handle s x h) y None, B_unit)
      | inr e => (s, B_err e)
      end
  | M_read y => (s, B_value (seen (handle s y)))
  | M_count y => (s, B_count (count_of s (handle s y)))
  | M_reopen x y =>
      match handle s y with
      | Some (d, _) => (set_handle s x (Some (d, nth d (docs s) VNull)), B_unit)
      | None => (s, B_err type_error)
      end
  | M_dup x y _ =>
      match seen (handle s y) with
      | VObj fs => (new_doc s x (VObj fs), B_unit)
      | _ => (s, B_err type_error)
      end
  | W_begin j y =>
      match handle s y with
      | Some (d, VObj fs) => (set_walk s j (Some (d, map snd fs)), B_unit)
      | Some (d, VArr vs) => (set_walk s j (Some (d, vs)), B_unit)
      | _ => (s, B_err type_error)
      end
  | W_next j =>
      match nth j (walks s) None with
      | Some (d, l) => (set_walk s j (Some (d, tl l)), B_unit)
      | None => (s, B_unit)
      end
  | W_deref x j =>
      match nth j (walks s) None with
      | Some (d, l) => (set_handle s x (within d (hd VNull l)), B_unit)
      | None => (s, B_unit)
      end
  | W_drop j => (set_walk s j None, B_unit)
  | P_of w x => (set_peek s w (handle s x, Some x), B_unit)
  | P_member w n u =>
      let '(h, from) := nth u (peeks s) (None, None) in
      match reached n (seen h) with
      | inl v => (set_peek s w (within (doc_of h) v, match v with VNull => None | _ => from end), B_unit)
      | inr e => (s, B_err e)
      end
  | P_read w => (s, B_value (seen (fst (nth w (peeks s) (None, None)))))
  | P_count w =>
      (s, B_count (match snd (nth w (peeks s) (None, None)) with
                   | Some x => Z.max 1 (count_of s (handle s x))
                   | None => 0
                   end))
  | P_own x w => (set_handle s x (fst (nth w (peeks s) (None, None))), B_unit)
  end.

Fixpoint b_story (s : bspec) (ops : list bop) : bspec * list bans :=
  match ops with
  | [] => (s, [])
  | o :: r => let '(s1, a) := b_does s o in let '(s2, l) := b_story s1 r in (s2, a :: l)
  end.

(** What the caller owes. Of owning buffers and their iterators only what every C++
    program owes: variables exist, objects are small enough to finalize and their
    keys ordinary, indices are numbers, no iterator is dereferenced at the end or
    used before it is given a value. Of views: that somebody still holds the
    document when they are read, and, for as_owner, that the variable the view was
    taken from still shows (something of) the same document. *)
Definition shown_alive (s : bspec) (h : shown) : Prop :=
  match h with Some (d, _) => (0 < holders s d)%nat | None => True end.
Definition same_doc (h g : shown) : Prop :=
  match h, g with Some (d, _), Some (e, _) => d = e | None, None => True | _, _ => False end.
Definition step_ok (n : step) : Prop :=
  match n with By_idx i | Must_idx i => 0 <= i < 2 ^ 64 | _ => True end.
Definition b_fair (s : bspec) (o : bop) : Prop :=
  let var x := (x < length (handles s))%nat in
  let it j := (j < length (walks s))%nat in
  let vw w := (w < length (peeks s))%nat in
  match o with
  | M_new x v addr =>
      var x /\ addr mod 8 = 0 /\ vtype v = T_object /\ heap_value v /\ good_all v /\ room v < 2 ^ 32
  | M_copy x y | M_move x y | M_reopen x y => var x /\ var y
  | M_reset x => var x
  | M_member x n y | M_into x n y => var x /\ var y /\ step_ok n
  | M_read y | M_count y => var y
  | M_dup x y addr => var x /\ var y /\ addr mod 8 = 0
  | W_begin j y => it j /\ var y
  | W_next j => it j /\ nth j (walks s) None <> None
  | W_deref x j => var x /\ it j /\ match nth j (walks s) None with Some (_, _ :: _) => True | _ => False end
  | W_drop j => it j
  | P_of w x => vw w /\ var x
  | P_member w n u => vw w /\ vw u /\ step_ok n /\ shown_alive s (fst (nth u (peeks s) (None, None)))
  | P_read w => vw w /\ shown_alive s (fst (nth w (peeks s) (None, None)))
  | P_count w => vw w
  | P_own x w => var x /\ vw w /\
      match nth w (peeks s) (None, None) with
      | (h, Some y) => same_doc h (handle s y)
      | (h, None) => True
      end
  end.
Fixpoint b_fair_all (s : bspec) (ops : list bop) : Prop :=
  match ops with
  | [] => True
  | o :: r => b_fair s o /\ b_fair_all (fst (b_does s o)) r
  end.

(** Before anything happened: [n] null buffers, [j] iterators, [w] null views. *)
Definition b_blank (n j w : nat) : bspec := BS [] (repeat None n) (repeat None j) (repeat (None, None) w).
