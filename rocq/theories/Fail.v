(** Calls on dart::heap handles when the memory asked for may not be there.
    Model only.

    Every place of Store.v's calls that allocates asks first: the answers to come
    are a list of booleans, and once it is used up memory is there.  A call that is
    refused memory ends by std::bad_alloc ([None]); what it had made so far is
    destroyed by the unwinding, as the code has it.  Reading the code's allocations
    too often does no harm to what is said of all lists of answers: a place that is
    passed without asking is one that was answered [true]. *)

From Coq Require Import ZArith List Bool.
From Verif Require Import Base Keys Wire Read Buf SpecOps HeapOps Store.
Import ListNotations.
Open Scope Z_scope.

(** The counted pointers of dart::heap and of dart::unsafe_heap (dart.h:13603-13609). *)
Inductive counter : Type := Std_shared | Dart_unsafe.

Definition memory := list bool.
Definition ask (m : memory) : bool * memory := match m with [] => (true, []) | g :: r => (g, r) end.
(** [n] blocks, one after the other, until one is refused. *)
Fixpoint ask_n (n : nat) (m : memory) : bool * memory :=
  match n with
  | O => (true, m)
  | S n' => let '(g, m1) := ask m in if g then ask_n n' m1 else (false, m1)
  end.

(** std::map's copy constructor: one node for every field, filled with copies of
    its two handles; when a node is refused those made so far are destroyed. *)
Fixpoint copy_nodes (m : memory) (cs : cells) (hs made : list hval) : res (memory * cells * bool) :=
  match hs with
  | [] => Ok (m, cs, true)
  | h :: r =>
      let '(g, m1) := ask m in
      if g then cs1 <- inc cs h ;; copy_nodes m1 cs1 r (h :: made)
      else cs1 <- drop cs made ;; Ok (m1, cs1, false)
  end.
(** std::vector's: one block for all. *)
Definition copy_kids (m : memory) (cs : cells) (c : cell) : res (memory * cells * bool) :=
  match c with
  | CObj fs => copy_nodes m cs (map snd fs) []
  | CArr vs =>
      let '(g, m1) := ask m in
      if g then cs1 <- inc_all cs vs ;; Ok (m1, cs1, true) else Ok (m1, cs, false)
  end.

(** heap/detail.tcc:54-60 (copy_on_write), [over] the number of handles that do not
    make a container shared: the container, what it holds, then the
    counter, which shareable_ptr(U* ) asks for (support/ptrs.tcc:235-241,
    refcount_traits.h:55-68).  std::shared_ptr destroys the container it was given
    when its counter is refused; dart's own pointers (support/ptrs.h:75-82) do not,
    and nothing else refers to it: such a container is the last component. *)
Definition cow_may_over (over : Z) (p : counter) (m : memory) (cs : cells) (h : hval)
  : res (memory * cells * option hval * list cell) :=
  match h with
  | HObj a | HArr a =>
      if over <? refcount cs h then
        match cell_at cs a with
        | Some (_, c) =>
            let '(g, m1) := ask m in
            if negb g then Ok (m1, cs, None, [])
            else
              '(m2, cs1, ok) <- copy_kids m1 cs c ;;
              if negb ok then Ok (m2, cs1, None, [])
              else
                let '(g, m3) := ask m2 in
                if g then
                  let '(cs2, a') := alloc cs1 c in
                  cs3 <- drop cs2 [h] ;;
                  Ok (m3, cs3, Some (match h with HObj _ => HObj a' | _ => HArr a' end), [])
                else
                  match p with
                  | Std_shared => cs2 <- drop cs1 (kids c) ;; Ok (m3, cs2, None, [])
                  | Dart_unsafe => Ok (m3, cs1, None, [c])
                  end
        | None => Oob
        end
      else Ok (m, cs, Some h, [])
  | _ => Ok (m, cs, Some h, [])
  end.
Definition cow_may : counter -> memory -> cells -> hval -> res (memory * cells * option hval * list cell) := cow_may_over 1.

(** What a call leaves: the answers still to come, the variables, what it answered
    unless it was refused memory, and the containers it lost. *)
Definition aftermath : Type := (memory * state * option ans * list cell)%type.

(** [n] blocks asked for, then the rest of the call, which asks for none. *)
Definition may (m : memory) (n : nat) (s : state) (rest : res (state * ans)) : res aftermath :=
  let '(g, m1) := ask_n n m in
  if g then '(s1, a) <- rest ;; Ok (m1, s1, Some a, []) else Ok (m1, s, None, []).
(** copy_on_write on variable [x], then the rest. *)
Definition after_cow (p : counter) (m : memory) (s : state) (x : nat)
    (n : state -> hval -> nat) (rest : state -> hval -> res (state * ans)) : res aftermath :=
  h <- get_var s x ;;
  '(m1, cs, o, l) <- cow_may p m (heap s) h ;;
  match o with
  | None => Ok (m1, St cs (vars s), None, l)
  | Some h' =>
      let s1 := St cs (list_set x h' (vars s)) in
      may m1 (n s1 h') s1 (rest s1 h')
  end.

(** heap/string.tcc:47-66, common.h:307-330: a string that does not fit the handle
    asks for its characters and for a counter; std::shared_ptr destroys the
    characters when the counter is refused. *)
Definition inline_bytes : Z := 23.
Definition value_blocks (v : value) : nat :=
  match v with VStr t => if inline_bytes <? zlen t then 2 else 0 | _ => 0 end.
Definition src_blocks (v : src) : nat := match v with Lit l => value_blocks l | _ => 0 end.

(** heap/api.tcc:112-153 (insert): a node of the map, asked for before the key is
    looked for, or a larger block for the vector.  std::map and std::vector are left
    as they were when it is refused, and the argument is not moved from. *)
Definition place_blocks (s : state) (h : hval) (k : value) : nat :=
  match h, k with
  | HObj _, VStr key => if 65535 <? zlen key then 0 else 1
  | HArr a, VInt z =>
      match cell_at (heap s) a with
      | Some (_, CArr vs) => if zlen vs <? z mod 2 ^ 64 then 0 else 1
      | _ => 0
      end
  | _, _ => 0
  end.
Definition m_insert (p : counter) (m : memory) (s : state) (x : nat) (k : value) (v : src) : res aftermath :=
  after_cow p m s x (fun s1 h => value_blocks k + src_blocks v + place_blocks s1 h k)%nat
    (fun s1 h => insert_in s1 h k v).
(** heap/api.tcc:165-198 (set) *)
Definition m_set (p : counter) (m : memory) (s : state) (x : nat) (k : value) (v : src) : res aftermath :=
  after_cow p m s x (fun _ _ => value_blocks k + src_blocks v)%nat (fun s1 h => set_in s1 h k v).

(** heap/object.tcc:304-322, heap/array.tcc:106-117: what follows copy_on_write. *)
Definition erase_key_in (s : state) (h : hval) (key : str) : res (state * ans) :=
  f <- fields_of s h ;;
  match f with
  | None => Ok (s, A_err type_error)
  | Some (a, fs) =>
      match map_find key fs with
      | None => Ok (s, A_unit)
      | Some j =>
          match nth_error fs j with
          | Some (_, old) =>
              s1 <- put_s s a (CObj (list_erase j fs)) ;; s2 <- drop_s s1 [old] ;; Ok (s2, A_unit)
          | None => Oob
          end
      end
  end.
Definition erase_idx_in (s : state) (h : hval) (pos : Z) : res (state * ans) :=
  e <- elements_of s h ;;
  match e with
  | None => Ok (s, A_err type_error)
  | Some (a, vs) =>
      if zlen vs <=? pos then Ok (s, A_unit)
      else
        match nth_error vs (Z.to_nat pos) with
        | Some old =>
            s1 <- put_s s a (CArr (list_erase (Z.to_nat pos) vs)) ;; s2 <- drop_s s1 [old] ;; Ok (s2, A_unit)
        | None => Oob
        end
  end.
Definition m_erase_idx (p : counter) (m : memory) (s : state) (x : nat) (pos : Z) : res aftermath :=
  after_cow p m s x (fun _ _ => O) (fun s1 h => erase_idx_in s1 h pos).
(** heap/api.tcc:215-225 (erase) *)
Definition m_erase (p : counter) (m : memory) (s : state) (x : nat) (k : value) : res aftermath :=
  match k with
  | VStr key => after_cow p m s x (fun _ _ => O) (fun s1 h => erase_key_in s1 h key)
  | VInt z => m_erase_idx p m s x (z mod 2 ^ 64)
  | _ => may m 0 s (s_erase s x k)
  end.

(** dart.h:7730-7735: make_shareable, one block with std::make_shared, two with
    dart's own pointers, where the first is freed when the second is refused
    (refcount_traits.h:26-53). *)
Definition fresh_blocks (p : counter) (f : fresh) : nat :=
  match f with
  | New_scalar v => value_blocks v
  | _ => match p with Std_shared => 1 | Dart_unsafe => 2 end
  end.
(** heap/array.tcc:125-129 (resize): the vector asks for room when it grows. *)
Definition resize_blocks (s : state) (x : nat) (n : Z) (v : src) : nat :=
  match nth_error (vars s) x with
  | Some (HArr a) =>
      match cell_at (heap s) a with
      | Some (_, CArr vs) => src_blocks v + (if zlen vs <? n then 1 else 0)
      | _ => 0
      end
  | _ => 0
  end.

Definition m_exec (p : counter) (m : memory) (s : state) (o : hop) : res aftermath :=
  match o with
  | O_make x f => may m (fresh_blocks p f) s (s_make s x f)
  | O_insert x k v => m_insert p m s x k v
  | O_set x k v => m_set p m s x k v
  | O_erase x k => m_erase p m s x k
  | O_push_front x v => m_insert p m s x (VInt 0) v
  | O_push_back x v =>
      n <- s_size s x ;;
      match n with
      | Some n => m_insert p m s x (VInt n) v
      | None => may m 0 s (s_push_back s x v)
      end
  | O_pop_front x => m_erase_idx p m s x 0
  | O_pop_back x =>
      n <- s_size s x ;;
      match n with
      | Some n => m_erase_idx p m s x ((n - 1) mod 2 ^ 64)
      | None => may m 0 s (s_pop_back s x)
      end
  | O_resize x n v => may m (resize_blocks s x n v) s (s_resize s x n v)
  | O_copy _ _ | O_move _ _ | O_destroy _ | O_read _ _ _ | O_clear _ => may m 0 s (s_exec s o)
  end.

(** A history: a refused call is caught and the program goes on. *)
Fixpoint m_run (p : counter) (m : memory) (s : state) (os : list hop)
  : res (memory * state * list (option ans) * list cell) :=
  match os with
  | [] => Ok (m, s, [], [])
  | o :: r =>
      '(m1, s1, a, l) <- m_exec p m s o ;;
      '(m2, s2, as_, l2) <- m_run p m1 s1 r ;; Ok (m2, s2, a :: as_, l ++ l2)
  end.
