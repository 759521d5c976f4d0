(** Counted pointers to one value, held by several threads.  Model only.

    A thread holds some pointers of its own to the value and works through a program.
    Pointers themselves are not shared between threads: one is handed over by [Give].
    Steps are interleaved in any order.  With a [std::atomic<int64_t>] counter
    (skinny_ptr, ptrs.h:481-489) an increment or decrement is one step and the
    default order, seq_cst, makes interleaving the right notion for it; everything
    else a thread does to the value is ordered by those steps or happens while it
    holds a pointer.  With an [int64_t] counter (unsafe_ptr, ptrs.h:461-469) it is a
    read and, later, a write.  [Oob] is the use of freed memory; acting on a pointer
    the thread does not have is the program's mistake and is [Undef]. *)

From Coq Require Import ZArith List Bool.
From Verif Require Import Base HeapOps.
Import ListNotations.
Open Scope Z_scope.

Inductive act : Type :=
| Copy                    (* copy one of its pointers, ptrs.tcc:59-62 *)
| Drop                    (* destroy one of its pointers, ptrs.tcc:69-75 *)
| Use                     (* read the value, ptrs.tcc:134-142 *)
| Look                    (* use_count, ptrs.tcc:191-195 *)
| Give (t : nat).         (* move one of its pointers to another thread, ptrs.tcc:64-67 *)

(** Where a thread is inside an operation: between the read and the write of a plain
    counter, before destroy() and before the delete after it (ptrs.tcc:71-73). *)
Inductive inside : Type := Idle | Adding (v : Z) | Subbing (v : Z) | Destroying | Deleting.

Record thread : Type := Th { has : nat; at_ : inside; prog : list act }.
Record shared : Type := Sh {
  count : option Z;       (* the control block, None once deleted *)
  value : bool;           (* the value is there *)
  ended : nat;            (* times it was destroyed *)
  threads : list thread }.

Definition with_count (s : shared) (f : Z -> res shared) : res shared :=
  match count s with Some n => f n | None => Oob end.
Definition put (s : shared) (c : option Z) (v : bool) (e : nat) (t : nat) (th : thread) : shared :=
  Sh c v e (list_set t th (threads s)).

(** After the counter was brought down to [n]. *)
Definition after (n : Z) : inside := if n =? 0 then Destroying else Idle.

(** One step of thread [t]; a thread that is done does nothing. *)
Definition tstep (atomic : bool) (s : shared) (t : nat) : res shared :=
  match nth_error (threads s) t with
  | None => Ok s
  | Some th =>
      match at_ th with
      | Adding v => with_count s (fun _ => Ok (put s (Some (v + 1)) (value s) (ended s) t (Th (S (has th)) Idle (prog th))))
      | Subbing v => with_count s (fun _ => Ok (put s (Some (v - 1)) (value s) (ended s) t (Th (has th) (after (v - 1)) (prog th))))
      | Destroying =>
          with_count s (fun n =>
            if value s then Ok (put s (Some n) false (S (ended s)) t (Th (has th) Deleting (prog th))) else Oob)
      | Deleting => with_count s (fun n => Ok (put s None (value s) (ended s) t (Th (has th) Idle (prog th))))
      | Idle =>
          match prog th, has th with
          | [], _ => Ok s
          | _, O => Undef
          | Copy :: r, S k =>
              with_count s (fun n =>
                if atomic then Ok (put s (Some (n + 1)) (value s) (ended s) t (Th (S (S k)) Idle r))
                else Ok (put s (Some n) (value s) (ended s) t (Th (S k) (Adding n) r)))
          | Drop :: r, S k =>
              with_count s (fun n =>
                if atomic then Ok (put s (Some (n - 1)) (value s) (ended s) t (Th k (after (n - 1)) r))
                else Ok (put s (Some n) (value s) (ended s) t (Th k (Subbing n) r)))
          | Use :: r, S k =>
              with_count s (fun n => if value s then Ok (put s (Some n) true (ended s) t (Th (S k) Idle r)) else Oob)
          | Look :: r, S k => with_count s (fun n => Ok (put s (Some n) (value s) (ended s) t (Th (S k) Idle r)))
          | Give u :: r, S k =>
              let s1 := put s (count s) (value s) (ended s) t (Th k Idle r) in
              match nth_error (threads s1) u with
              | Some th' => Ok (put s1 (count s1) (value s1) (ended s1) u (Th (S (has th')) (at_ th') (prog th')))
              | None => Undef
              end
          end
      end
  end.

(** Any schedule. *)
Fixpoint trun (atomic : bool) (s : shared) (sched : list nat) : res shared :=
  match sched with [] => Ok s | t :: r => s1 <- tstep atomic s t ;; trun atomic s1 r end.
