(** dart_heap_t and the crossing between the C and the C++ interface, with the storage
    behind them: api_swap.h, heap.cc, helpers.h:306-417.  Model only.

    A dart_heap_t is a tag and raw bytes.  Initialising one constructs a dart::heap, or a
    dart::unsafe_heap, in the bytes; what they held before is not looked at.  Using one
    reads the tag and takes the bytes for what it says; [Undef] where that is not what
    they hold.  Storage of the two reference counters is apart (Store.v twice); the bytes
    of slot [j] are variable [n + j] of either, null unless the slot holds that counter. *)

From Coq Require Import ZArith List Bool.
From Verif Require Import Base Keys Wire SpecOps HeapOps Store.
Import ListNotations.
Open Scope Z_scope.

Inductive counter : Type := Safe | Unsafe.
Definition counter_eqb (c d : counter) : bool :=
  match c, d with Safe, Safe | Unsafe, Unsafe => true | _, _ => false end.

(** abi.h (dart_heap): the tag, none before it is first written; and what object lives in
    the bytes. *)
Record slot : Type := Slot { tag : option counter; held : option counter }.

(** The value of an argument: converted, a const dart_heap_t or one to be emptied. *)
Inductive csrc : Type := Val (v : value) | Const (i : nat) | Take (i : nat).

Inductive call : Type :=
| Cpp (c : counter) (o : hop)                       (* on C++ variables of that counter *)
| C_init (j : nat) (c : counter) (f : fresh)
| C_copy (j i : nat) | C_move (j i : nat) | C_destroy (j : nat)
| C_get (j i : nat) (k : str + Z)
| C_insert (j : nat) (k : str + Z) (v : csrc) | C_set (j : nat) (k : str + Z) (v : csrc)
| C_erase (j : nat) (k : str + Z) | C_clear (j : nat) | C_resize (j : nat) (n : Z)
| To_c (c : counter) (j x : nat) (moved : bool)
| To_cpp (c : counter) (x j : nat).

(** What comes back: an answer, or DART_CLIENT_ERROR with nothing done. *)
Inductive reply : Type := Done (a : ans) | Client.

(** The key or index of a call. *)
Definition place_of (k : str + Z) : value := match k with inl s => VStr s | inr i => VInt i end.

Section Swap.
  (** The storage of one counter, its calls, and the bytes of a variable reused without
      destroying what is in them.  Storage is Store.v's; the same machine over
      independent values is what it is compared with. *)
  Context {S : Type} (exec : S -> hop -> res (S * ans)) (forget : S -> nat -> S).
  Variable n : nat.   (* C++ variables *)

  Record world : Type := World { safe : S; loose : S; slots : list slot }.
  Definition store (c : counter) (w : world) : S := match c with Safe => safe w | Unsafe => loose w end.
  Definition with_store (c : counter) (s : S) (w : world) : world :=
    match c with Safe => World s (loose w) (slots w) | Unsafe => World (safe w) s (slots w) end.
  Definition set_slot (j : nat) (t : slot) (w : world) : world := World (safe w) (loose w) (list_set j t (slots w)).
  Definition slot_at (w : world) (j : nat) : res slot :=
    match nth_error (slots w) j with Some t => Ok t | None => Oob end.

  (** helpers.h:322-344, 388-395 (heap_unwrap): by the tag *)
  Definition use (w : world) (j : nat) : res counter :=
    t <- slot_at w j ;;
    match tag t, held t with
    | Some c, Some d => if counter_eqb c d then Ok c else Undef
    | _, _ => Undef
    end.

  (** A call of the library on storage [c]. *)
  Definition on (w : world) (c : counter) (o : hop) : res (world * reply) :=
    '(s, a) <- exec (store c w) o ;; Ok (with_store c s w, Done a).

  (** The tag is written, then an object is constructed in the bytes
      (heap.cc:556-566, 575-612, 1192-1240; helpers.h:397-417, heap_construct).  When making it
      throws, the tag stays written. *)
  Definition construct (w : world) (j : nat) (c : counter) (o : hop) : res (world * reply) :=
    t <- slot_at w j ;;
    let w0 := match held t with Some d => with_store d (forget (store d w) (n + j)) w | None => w end in
    '(s, a) <- exec (store c w0) o ;;
    match a with
    | A_err _ => Ok (set_slot j (Slot (Some c) (held t)) w, Done a)
    | _ => Ok (set_slot j (Slot (Some c) (Some c)) (with_store c s w0), Done a)
    end.

  (** The value argument, for a target of counter [c]: none when its counter is the other
      (heap.cc:18-45; helpers.h:306-320, safe_call). *)
  Definition arg (w : world) (c : counter) (v : csrc) : res (option src) :=
    match v with
    | Val v => Ok (Some (Lit v))
    | Const i => d <- use w i ;; Ok (if counter_eqb c d then Some (Cref (n + i)) else None)
    | Take i => d <- use w i ;; Ok (if counter_eqb c d then Some (Rref (n + i)) else None)
    end.
  Definition with_arg (w : world) (j : nat) (v : csrc) (o : src -> hop) : res (world * reply) :=
    c <- use w j ;; a <- arg w c v ;;
    match a with Some v => on w c (o v) | None => Ok (w, Client) end.

  Definition run1 (w : world) (o : call) : res (world * reply) :=
    match o with
    | Cpp c o => on w c o
    (* heap.cc:556-566, 643-653 and the initialisers of scalars *)
    | C_init j c f => construct w j c (O_make (n + j) f)
    (* heap.cc:575-589, 598-612; in the same bytes the source is gone before it is read *)
    | C_copy j i => c <- use w i ;; if Nat.eqb j i then Undef else construct w j c (O_copy (n + j) (n + i))
    | C_move j i => c <- use w i ;; if Nat.eqb j i then Undef else construct w j c (O_move (n + j) (n + i))
    (* heap.cc:614-623: the tag stays *)
    | C_destroy j =>
        c <- use w j ;; '(w1, r) <- on w c (O_destroy (n + j)) ;; Ok (set_slot j (Slot (Some c) None) w1, r)
    (* heap.cc:1192-1210, 1220-1238 *)
    | C_get j i k =>
        c <- use w i ;;
        if Nat.eqb j i then Undef
        else construct w j c (O_read (n + j) (n + i) (match k with inl s => R_get s | inr i => R_get_idx i end))
    (* heap.cc:18-45, 203-231 and those that follow *)
    | C_insert j k v => with_arg w j v (O_insert (n + j) (place_of k))
    | C_set j k v => with_arg w j v (O_set (n + j) (place_of k))
    (* heap.cc:188-201 and the same for arrays *)
    | C_erase j k => c <- use w j ;; on w c (O_erase (n + j) (place_of k))
    | C_clear j => c <- use w j ;; on w c (O_clear (n + j))
    | C_resize j m => c <- use w j ;; on w c (O_resize (n + j) m (Lit VNull))
    (* api_swap.h:33-72, 195-234 *)
    | To_c c j x moved => construct w j c (if moved then O_move (n + j) x else O_copy (n + j) x)
    (* api_swap.h:320-333, 430-443: copy assignment; the tag of the counter is checked,
       which throws *)
    | To_cpp c x j =>
        t <- slot_at w j ;;
        match tag t with
        | None => Undef
        | Some d => if counter_eqb c d then d <- use w j ;; on w c (O_copy x (n + j)) else Ok (w, Done (A_err type_error))
        end
    end.

  Fixpoint run (w : world) (p : list call) : res (world * list reply) :=
    match p with
    | [] => Ok (w, [])
    | o :: r => '(w1, a) <- run1 w o ;; '(w2, l) <- run w1 r ;; Ok (w2, a :: l)
    end.
End Swap.

(** Bytes reused: nobody releases what they referred to. *)
Definition abandon (s : state) (x : nat) : state := set_var s x HNull.

(** [n] C++ variables of each counter, [k] slots with nothing in them yet. *)
Definition fresh_world (n k : nat) : world (S := state) :=
  World (init (n + k)) (init (n + k)) (repeat (Slot None None) k).
Definition w_run (n k : nat) (p : list call) : res (world * list reply) := run s_exec abandon n (fresh_world n k) p.
