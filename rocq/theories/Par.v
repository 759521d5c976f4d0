(** dart::heap values that share storage, used by several threads.  Model only.

    Each thread has variables of its own; what they share is containers with counts
    (Store.v).  A call is broken into the accesses it makes to memory that other
    threads may see: loads and updates of a count, which are atomic, and reads and
    writes of containers, which are not.  Between any two accesses other threads may
    run.  Two accesses to the same place conflict if one of them writes and they are
    not both atomic; they must then be ordered by happens-before, or the behaviour is
    undefined ([intro.races] in the C++ standard).  Happens-before is tracked by vector
    clocks: [sync a] is what a thread learns from the count of [a] when it acquires.

    Counts go up without synchronisation and down with release, the last one also
    acquires, as with std::shared_ptr and std::atomic (support/ptrs.tcc:59-75).
    Whether reading a count acquires is a parameter: use_count() of skinny_ptr is a
    seq_cst load (ptrs.tcc:191-195, does acquire), that of std::shared_ptr has no
    synchronisation ([util.smartptr.shared.obs], does not); dart::heap uses the
    latter (dart.h:13603).  The last decrement and the destruction of the container
    are one step. *)

From Coq Require Import ZArith List Bool Arith.
From Verif Require Import Base Keys Wire SpecOps HeapOps Store.
Import ListNotations.
Open Scope Z_scope.

(** ** Accesses of a call *)
Inductive act : Type :=
| Count (a : nat)                 (* load the count *)
| Inc (h : hval)                  (* copy a handle *)
| Read (a : nat)                  (* look into a container *)
| Write (a : nat) (c : cell)      (* change it in place *)
| New (c : cell)                  (* a new one, with the handles at hand *)
| Toss (h : hval).                (* destroy a handle *)
Inductive resp : Type := R_unit | R_count (n : Z) | R_cell (c : cell) | R_addr (a : nat).

(** A call under way: it returns the thread's variables and the answer. *)
Inductive prog : Type :=
| Ret (vs : list hval) (r : ans)
| Stuck
| Do (x : act) (k : resp -> prog).

Definition p_get (vs : list hval) (x : nat) (k : hval -> prog) : prog :=
  match nth_error vs x with Some h => k h | None => Stuck end.
Definition p_inc (h : hval) (k : prog) : prog :=
  match href h with Some _ => Do (Inc h) (fun _ => k) | None => k end.
Fixpoint p_inc_all (hs : list hval) (k : prog) : prog :=
  match hs with [] => k | h :: r => p_inc h (p_inc_all r k) end.
Definition p_toss (h : hval) (k : prog) : prog :=
  match href h with Some _ => Do (Toss h) (fun _ => k) | None => k end.
Fixpoint p_tosses (hs : list hval) (k : prog) : prog :=
  match hs with [] => k | h :: r => p_toss h (p_tosses r k) end.
Definition p_read (a : nat) (k : cell -> prog) : prog :=
  Do (Read a) (fun r => match r with R_cell c => k c | _ => Stuck end).
Definition p_write (a : nat) (c : cell) (k : prog) : prog := Do (Write a c) (fun _ => k).
Definition p_new (c : cell) (k : nat -> prog) : prog :=
  Do (New c) (fun r => match r with R_addr a => k a | _ => Stuck end).
Definition same_kind (h : hval) (a : nat) : hval :=
  match h with HObj _ => HObj a | HArr _ => HArr a | _ => h end.

(** heap/detail.tcc:54-60 (copy_on_write) *)
Definition p_unshare (vs : list hval) (x : nat) (k : list hval -> hval -> prog) : prog :=
  p_get vs x (fun h =>
  match href h with
  | None => k vs h
  | Some a =>
      Do (Count a) (fun r =>
        match r with
        | R_count n =>
            if 1 <? n then
              p_read a (fun c => p_inc_all (kids c) (p_new c (fun a' =>
                p_toss h (k (list_set x (same_kind h a') vs) (same_kind h a')))))
            else k vs h
        | _ => Stuck
        end)
  end).

(** The argument: copied, moved from, or forwarded (Store.v, [take_copy] and so on). *)
Definition p_copy (vs : list hval) (v : src) (k : list hval -> hval -> prog) : prog :=
  match v with
  | Lit l => match lit_h l with Some h => k vs h | None => Stuck end
  | Cref y | Lref y | Rref y => p_get vs y (fun h => p_inc h (k vs h))
  end.
Definition p_move (vs : list hval) (v : src) (k : list hval -> hval -> prog) : prog :=
  match v with
  | Lref y | Rref y => p_get vs y (fun h => k (list_set y HNull vs) h)
  | _ => p_copy vs v k
  end.
Definition p_forward (vs : list hval) (v : src) (k : list hval -> hval -> prog) : prog :=
  match v with Rref _ => p_move vs v k | _ => p_copy vs v k end.

Definition p_fields (h : hval) (k : option (nat * list (str * hval)) -> prog) : prog :=
  match h with
  | HObj a => p_read a (fun c => match c with CObj fs => k (Some (a, fs)) | _ => Stuck end)
  | _ => k None
  end.
Definition p_elements (h : hval) (k : option (nat * list hval) -> prog) : prog :=
  match h with
  | HArr a => p_read a (fun c => match c with CArr ms => k (Some (a, ms)) | _ => Stuck end)
  | _ => k None
  end.
Definition p_assign_field (vs : list hval) (a : nat) (fs : list (str * hval)) (j : nat) (h : hval) : prog :=
  match nth_error fs j with
  | Some (k, old) => p_write a (CObj (list_set j (k, h) fs)) (p_toss old (Ret vs A_unit))
  | None => Stuck
  end.
Definition p_assign_element (vs : list hval) (a : nat) (ms : list hval) (j : nat) (h : hval) : prog :=
  match nth_error ms j with
  | Some old => p_write a (CArr (list_set j h ms)) (p_toss old (Ret vs A_unit))
  | None => Stuck
  end.

(** heap/api.tcc:112-153 (insert), see [s_insert] *)
Definition p_insert (vs : list hval) (x : nat) (k : value) (v : src) : prog :=
  p_unshare vs x (fun vs h =>
  match k with
  | VStr key =>
      if 65535 <? zlen key then Ret vs (A_err invalid_argument)
      else
        p_fields h (fun f =>
        match f with
        | None => Ret vs (A_err type_error)
        | Some (a, fs) =>
            match map_find key fs with
            | None => p_copy vs v (fun vs hv => p_write a (CObj (list_insert (map_lower_bound key fs) (key, hv) fs)) (Ret vs A_unit))
            | Some j => p_move vs v (fun vs hv => p_assign_field vs a fs j hv)
            end
        end)
  | VInt z =>
      p_elements h (fun e =>
      match e with
      | None => Ret vs (A_err type_error)
      | Some (a, ms) =>
          let pos := z mod 2 ^ 64 in
          if zlen ms <? pos then Ret vs (A_err out_of_range)
          else p_forward vs v (fun vs hv => p_write a (CArr (list_insert (Z.to_nat pos) hv ms)) (Ret vs A_unit))
      end)
  | _ => Ret vs (A_err type_error)
  end).

(** heap/api.tcc:165-198 (set) *)
Definition p_set (vs : list hval) (x : nat) (k : value) (v : src) : prog :=
  p_unshare vs x (fun vs h =>
  match k with
  | VStr key =>
      if 65535 <? zlen key then Ret vs (A_err invalid_argument)
      else
        p_fields h (fun f =>
        match f with
        | None => Ret vs (A_err type_error)
        | Some (a, fs) =>
            match map_find key fs with
            | None => Ret vs (A_err out_of_range)
            | Some j => p_forward vs v (fun vs hv => p_assign_field vs a fs j hv)
            end
        end)
  | VInt z =>
      p_elements h (fun e =>
      match e with
      | None => Ret vs (A_err type_error)
      | Some (a, ms) =>
          let pos := z mod 2 ^ 64 in
          if zlen ms <=? pos then Ret vs (A_err out_of_range)
          else p_forward vs v (fun vs hv => p_assign_element vs a ms (Z.to_nat pos) hv)
      end)
  | _ => Ret vs (A_err type_error)
  end).

(** heap/api.tcc:215-225 (erase), heap/object.tcc:304-322, heap/array.tcc:106-117 *)
Definition p_erase_key (vs : list hval) (x : nat) (key : str) : prog :=
  p_unshare vs x (fun vs h =>
  p_fields h (fun f =>
  match f with
  | None => Ret vs (A_err type_error)
  | Some (a, fs) =>
      match map_find key fs with
      | None => Ret vs A_unit
      | Some j =>
          match nth_error fs j with
          | Some (_, old) => p_write a (CObj (list_erase j fs)) (p_toss old (Ret vs A_unit))
          | None => Stuck
          end
      end
  end)).
Definition p_erase_idx (vs : list hval) (x : nat) (pos : Z) : prog :=
  p_unshare vs x (fun vs h =>
  p_elements h (fun e =>
  match e with
  | None => Ret vs (A_err type_error)
  | Some (a, ms) =>
      if zlen ms <=? pos then Ret vs A_unit
      else
        match nth_error ms (Z.to_nat pos) with
        | Some old => p_write a (CArr (list_erase (Z.to_nat pos) ms)) (p_toss old (Ret vs A_unit))
        | None => Stuck
        end
  end)).
Definition p_erase (vs : list hval) (x : nat) (k : value) : prog :=
  match k with
  | VStr key => p_erase_key vs x key
  | VInt z => p_erase_idx vs x (z mod 2 ^ 64)
  | _ => Ret vs (A_err type_error)
  end.

(** heap/api.tcc:256-261 (clear), heap/array.tcc:125-129 (resize): in place, without
    copy_on_write *)
Definition p_clear (vs : list hval) (x : nat) : prog :=
  p_get vs x (fun h =>
  match h with
  | HObj a => p_fields h (fun f => match f with
      | Some (_, fs) => p_write a (CObj []) (p_tosses (map snd fs) (Ret vs A_unit)) | None => Stuck end)
  | HArr a => p_elements h (fun e => match e with
      | Some (_, ms) => p_write a (CArr []) (p_tosses ms (Ret vs A_unit)) | None => Stuck end)
  | _ => Ret vs (A_err type_error)
  end).
Definition p_resize (vs : list hval) (x : nat) (n : Z) (v : src) : prog :=
  p_get vs x (fun h =>
  p_elements h (fun e =>
  match e with
  | None => Ret vs (A_err type_error)
  | Some (a, ms) =>
      let n := Z.to_nat n in
      p_copy vs v (fun vs hv =>
      p_inc_all (repeat hv (n - length ms))
        (p_write a (CArr (firstn n ms ++ repeat hv (n - length ms))) (p_tosses (hv :: skipn n ms) (Ret vs A_unit))))
  end)).

(** heap/array.tcc:49-98 (push, pop) *)
Definition p_size (vs : list hval) (x : nat) (k : option Z -> prog) : prog :=
  p_get vs x (fun h =>
  match h with
  | HObj a => p_read a (fun c => match c with CObj fs => k (Some (zlen fs)) | _ => Stuck end)
  | HArr a => p_read a (fun c => match c with CArr ms => k (Some (zlen ms)) | _ => Stuck end)
  | HStr t => k (Some (zlen t))
  | _ => k None
  end).
Definition p_push_back (vs : list hval) (x : nat) (v : src) : prog :=
  p_size vs x (fun n => match n with Some n => p_insert vs x (VInt n) v | None => Ret vs (A_err type_error) end).
Definition p_pop_back (vs : list hval) (x : nat) : prog :=
  p_size vs x (fun n => match n with Some n => p_erase_idx vs x ((n - 1) mod 2 ^ 64) | None => Ret vs (A_err type_error) end).

(** Construction, copy, move, destruction, reading (Store.v, same citations) *)
Definition p_overwrite (vs : list hval) (x : nat) (h : hval) : prog :=
  p_get vs x (fun old => p_toss old (Ret (list_set x h vs) A_unit)).
Definition p_make (vs : list hval) (x : nat) (f : fresh) : prog :=
  match f with
  | New_object => p_new (CObj []) (fun a => p_overwrite vs x (HObj a))
  | New_array => p_new (CArr []) (fun a => p_overwrite vs x (HArr a))
  | New_scalar v => match lit_h v with Some h => p_overwrite vs x h | None => Stuck end
  end.
Definition p_member (h : hval) (r : reader) (k : err + hval -> prog) : prog :=
  match r with
  | R_get key | R_at key =>
      p_fields h (fun f =>
      match f with
      | None => k (inl type_error)
      | Some (_, fs) =>
          match map_find key fs with
          | Some j => match nth_error fs j with Some (_, m) => k (inr m) | None => Stuck end
          | None => match r with R_at _ => k (inl out_of_range) | _ => k (inr HNull) end
          end
      end)
  | R_get_idx i =>
      p_elements h (fun e =>
      match e with
      | None => k (inl type_error)
      | Some (_, ms) =>
          if i <? zlen ms then match nth_error ms (Z.to_nat i) with Some m => k (inr m) | None => Stuck end
          else k (inr HNull)
      end)
  | R_at_idx i =>
      match h with
      | HArr a =>
          p_elements h (fun e =>
          match e with
          | None => Stuck
          | Some (_, ms) =>
              if i <? zlen ms then match nth_error ms (Z.to_nat i) with Some m => k (inr m) | None => Stuck end
              else k (inl out_of_range)
          end)
      | HObj a =>
          p_fields h (fun f =>
          match f with
          | None => Stuck
          | Some (_, fs) => k (inl (if i <? zlen fs then type_error else out_of_range))
          end)
      | HStr t => k (inl (if i <? zlen t then type_error else out_of_range))
      | _ => k (inl type_error)
      end
  | R_front =>
      p_elements h (fun e =>
      match e with
      | None => k (inl type_error)
      | Some (_, ms) => k (inr (match ms with [] => HNull | m :: _ => m end))
      end)
  | R_back =>
      p_elements h (fun e =>
      match e with
      | None => k (inl type_error)
      | Some (_, []) => k (inr HNull)
      | Some (_, ms) => match nth_error ms (length ms - 1) with Some m => k (inr m) | None => Stuck end
      end)
  end.
Definition p_load (vs : list hval) (x y : nat) (r : reader) : prog :=
  p_get vs y (fun h => p_member h r (fun m =>
  match m with
  | inl e => Ret vs (A_err e)
  | inr hm => p_inc hm (p_overwrite vs x hm)
  end)).

Definition p_exec (vs : list hval) (o : hop) : prog :=
  match o with
  | O_make x f => p_make vs x f
  | O_copy x y => p_copy vs (Cref y) (fun vs h => p_overwrite vs x h)
  | O_move x y => if Nat.eqb x y then Ret vs A_unit else p_move vs (Rref y) (fun vs h => p_overwrite vs x h)
  | O_destroy x => p_overwrite vs x HNull
  | O_read x y r => p_load vs x y r
  | O_insert x k v => p_insert vs x k v
  | O_set x k v => p_set vs x k v
  | O_erase x k => p_erase vs x k
  | O_push_front x v => p_insert vs x (VInt 0) v
  | O_push_back x v => p_push_back vs x v
  | O_pop_front x => p_erase_idx vs x 0
  | O_pop_back x => p_pop_back vs x
  | O_clear x => p_clear vs x
  | O_resize x n v => p_resize vs x n v
  end.

(** ** Clocks and accesses *)
Definition clock := nat -> nat.
Definition join (u v : clock) : clock := fun t => Nat.max (u t) (v t).
Definition tick (t : nat) (v : clock) : clock := fun u => if Nat.eqb u t then S (v u) else v u.
Definition zero : clock := fun _ => 0%nat.

Inductive kind : Type := K_new | K_read | K_write | K_count | K_free.
(** A place is the container and, apart from it, the count. *)
Definition conflict (k earlier : kind) : bool :=
  match k, earlier with
  | K_free, _ | _, K_new | _, K_free | K_new, _ => true
  | K_read, K_write | K_write, K_read | K_write, K_write => true
  | _, _ => false
  end.
Record access : Type := Acc { how : kind; who : nat; when : nat }.
Definition before (x : access) (v : clock) : bool := (when x <=? v (who x))%nat.

Record mem : Type := Mem { cs : cells; sync : nat -> clock; hist : nat -> list access }.
Definition upd {A} (a : nat) (y : A) (f : nat -> A) : nat -> A := fun b => if Nat.eqb b a then y else f b.

(** Thread [t] touches cell [a]: a race is undefined behaviour. *)
Definition touch (t : nat) (k : kind) (a : nat) (v : clock) (m : mem) : res mem :=
  if forallb (fun x => implb (conflict k (how x)) (before x v)) (hist m a)
  then Ok (Mem (cs m) (sync m) (upd a (Acc k t (v t) :: hist m a) (hist m)))
  else Undef.

(** One access of a call.  Destroying a handle is left to the thread, see [g_step]. *)
Definition perform (acquire : bool) (t : nat) (x : act) (v : clock) (m : mem) : res (resp * clock * mem) :=
  match x with
  | Count a =>
      match cell_at (cs m) a with
      | Some (n, _) =>
          let v1 := if acquire then join v (sync m a) else v in
          m1 <- touch t K_count a v1 m ;; Ok (R_count n, v1, m1)
      | None => Oob
      end
  | Inc h =>
      match href h with
      | Some a => m1 <- touch t K_count a v m ;; c <- inc (cs m) h ;; Ok (R_unit, v, Mem c (sync m1) (hist m1))
      | None => Ok (R_unit, v, m)
      end
  | Read a =>
      match cell_at (cs m) a with
      | Some (_, c) => m1 <- touch t K_read a v m ;; Ok (R_cell c, v, m1)
      | None => Oob
      end
  | Write a c =>
      m1 <- touch t K_write a v m ;; c1 <- put (cs m) a c ;; Ok (R_unit, v, Mem c1 (sync m1) (hist m1))
  | New c =>
      let '(c1, a) := alloc (cs m) c in
      m1 <- touch t K_new a v m ;; Ok (R_addr a, v, Mem c1 (sync m1) (hist m1))
  | Toss _ => Ok (R_unit, v, m)
  end.

(** ** Threads *)
Record thread : Type := Th {
  vars_ : list hval;         (* between calls *)
  code : option prog;        (* the call under way *)
  junk : list hval;          (* handles being destroyed *)
  todo : list hop;
  out : list ans;
  clk : clock }.
Record global : Type := Gl { mem_ : mem; threads : list thread }.

(** Destroying the next handle: release, and if it was the last one acquire, destroy
    the container and go on with its handles (support/ptrs.tcc:69-75). *)
Definition drop_one (t : nat) (h : hval) (r : list hval) (v : clock) (m : mem) : res (list hval * clock * mem) :=
  match href h with
  | None => Ok (r, v, m)
  | Some a =>
      match cell_at (cs m) a with
      | None => Oob
      | Some (n, c) =>
          m1 <- touch t K_count a v m ;;
          let sy := upd a (join (sync m a) v) (sync m) in
          if n =? 1 then
            let v1 := join v (sync m a) in
            m2 <- touch t K_free a v1 m1 ;;
            Ok (kids c ++ r, v1, Mem (list_set a None (cs m)) sy (hist m2))
          else Ok (r, v, Mem (list_set a (Some (n - 1, c)) (cs m)) sy (hist m1))
      end
  end.

Definition g_step (acquire : bool) (g : global) (t : nat) : res global :=
  match nth_error (threads g) t with
  | None => Ok g
  | Some th =>
      let back m th := Ok (Gl m (list_set t th (threads g))) in
      match junk th with
      | h :: r =>
          '(r1, v1, m1) <- drop_one t h r (clk th) (mem_ g) ;;
          back m1 (Th (vars_ th) (code th) r1 (todo th) (out th) (tick t v1))
      | [] =>
          match code th with
          | Some (Do x k) =>
              '(y, v1, m1) <- perform acquire t x (clk th) (mem_ g) ;;
              back m1 (Th (vars_ th) (Some (k y)) (match x with Toss h => [h] | _ => [] end) (todo th) (out th) (tick t v1))
          | Some (Ret vs a) => back (mem_ g) (Th vs None [] (todo th) (out th ++ [a]) (clk th))
          | Some Stuck => Oob
          | None =>
              match todo th with
              | [] => Ok g
              | o :: r => back (mem_ g) (Th (vars_ th) (Some (p_exec (vars_ th) o)) [] r (out th) (clk th))
              end
          end
      end
  end.

(** Any schedule. *)
Fixpoint g_run (acquire : bool) (g : global) (sched : list nat) : res global :=
  match sched with [] => Ok g | t :: r => g1 <- g_step acquire g t ;; g_run acquire g1 r end.

(** The variables of a program are dealt out to threads, so many to each; starting a
    thread orders everything before it. *)
Fixpoint deal (t : nat) (jobs : list (nat * list hop)) (vs : list hval) : list thread :=
  match jobs with
  | [] => []
  | (n, os) :: r => Th (firstn n vs) None [] os [] (tick t zero) :: deal (S t) r (skipn n vs)
  end.
Definition fork (s : state) (jobs : list (nat * list hop)) : global :=
  Gl (Mem (heap s) (fun _ => zero) (fun _ => [])) (deal 0 jobs (vars s)).

Definition finished (th : thread) : bool :=
  match code th, junk th, todo th with None, [], [] => true | _, _, _ => false end.
