(** How a dart::packet should behave, whichever representation it holds.
    Specification only: the state is a value and whether it is finalized. *)

From Coq Require Import ZArith List Bool.
From Verif Require Import Base Keys Wire Spec SpecOps.
Import ListNotations.
Open Scope Z_scope.

(** The calls of the dart::packet interface: those shared with dart::heap (on the
    packet as a whole), the ones only packets have, and those that replace a packet
    by one of its children. *)
Inductive pcall : Type :=
| Do (o : op)
| Get_type | Is_finalized | Empty
| Read (t : utype)                 (* strv / integer / decimal / boolean *)
| Read_or (t : utype) (d : value)  (* the same with a default *)
| Nested (path : str) (sep : byte) (* get_nested *)
| Finalize (addr : Z)              (* [addr] is where the allocator puts the block *)
| Definalize
| Into (k : str) | Into_idx (i : Z). (* packet = std::move(packet).get(...) *)

Inductive pans : Type :=
| P_ans (a : ans) | P_type (t : utype) | P_flag (b : bool).

(** Is the call one that would change contents? *)
Definition mutates (o : op) : bool :=
  match o with
  | Insert _ _ | Set_ _ _ | Erase _ | Push_front _ | Push_back _ | Pop_front | Pop_back
  | Resize _ _ | Clear => true
  | _ => false
  end.

(** The reads whose answer may depend on the representation (findings, see
    DESIGN.md): front_or and back_or insist on a mutable packet; find of an absent
    key is undefined on a finalized one; at(index) on what is not an array throws
    one of two exceptions. *)
Definition depends_on_form (v : value) (o : op) : bool :=
  match o with
  | Front_or _ | Back_or _ => true
  | Find k => match v with VObj fs => match lookup k fs with Some _ => false | None => true end | _ => false end
  | At_idx _ => match v with VArr _ => false | _ => true end
  | _ => false
  end.

(** A generous estimate of the room a value takes when finalized. *)
Fixpoint room (v : value) : Z :=
  match v with
  | VObj fs => 32 + fold_right (fun kv n => zlen (fst kv) + 24 + room (snd kv) + n) 0 fs
  | VArr vs => 32 + fold_right (fun x n => 16 + room x + n) 0 vs
  | VStr s => zlen s + 8
  | _ => 8
  end.

Definition scalar_type (t : utype) : bool :=
  match t with T_string | T_integer | T_decimal | T_boolean => true | _ => false end.

(** The arguments the types allow; the allocator returns 8-aligned addresses. *)
Definition op_values (P : value -> Prop) (o : op) : Prop :=
  match o with
  | Insert k x | Set_ k x => P k /\ P x
  | Push_front x | Push_back x | Resize _ x => P x
  | Get_or _ x | Get_idx_or _ x | Front_or x | Back_or x => P x
  | _ => True
  end.
Definition pcall_ok (c : pcall) : Prop :=
  match c with
  | Do o => op_ok o /\ op_values heap_value o /\ op_values good_all o /\
            match o with Insert (VStr k) _ => good_key k | _ => True end
  | Read t | Read_or t _ => scalar_type t = true
  | Finalize addr => addr mod 8 = 0
  | Into_idx i => 0 <= i < 2 ^ 64
  | _ => True
  end.

Section Machine.
  (** What a mutable object or array answers (C14, C15): state and answer. *)
  Variable mutable : value -> op -> value * ans.

  Definition pstate : Type := value * bool.

  Definition pstep (s : pstate) (c : pcall) (a : pans) (s' : pstate) : Prop :=
    let '(v, fin) := s in
    match c with
    | Do o =>
        if fin then
          s' = s /\
          (if mutates o then a = P_ans (A_err state_error)
           else depends_on_form v o = false -> a = P_ans (snd (mutable v o)))
        else s' = (fst (mutable v o), false) /\ a = P_ans (snd (mutable v o))
    | Get_type => s' = s /\ a = P_type (vtype v)
    | Is_finalized => s' = s /\ a = P_flag fin
    | Empty => s' = s /\
        a = match vsize v with Some n => P_flag (n =? 0) | None => P_ans (A_err type_error) end
    | Read t => s' = s /\
        a = P_ans (if utype_eqb (vtype v) t then A_value v else A_err type_error)
    | Read_or t d => s' = s /\ a = P_ans (A_value (if utype_eqb (vtype v) t then v else d))
    | Nested path sep => s' = s /\ exists x, a = P_ans (A_value x) /\
        (path = [] -> x = v) /\
        (forall ks trailing, path = join sep ks ++ trailing -> Forall (fun k => ~ In sep k) ks -> ks <> [] ->
           (trailing = [sep] \/ (trailing = [] /\ last ks [] <> [])) -> x = follow v ks)
    | Finalize _ =>
        match v with
        | VObj _ => (s' = (v, true) /\ a = P_ans A_unit) \/
                    (fin = false /\ 2 ^ 32 <= room v /\ s' = s /\ a = P_ans (A_err length_error))
        | _ => if fin then s' = s /\ a = P_ans A_unit else s' = s /\ a = P_ans (A_err type_error)
        end
    | Definalize => s' = (v, false) /\ a = P_ans A_unit
    | Into k =>
        match v with
        | VObj fs => s' = (match lookup k fs with Some x => x | None => VNull end, fin) /\ a = P_ans A_unit
        | _ => s' = s /\ a = P_ans (A_err type_error)
        end
    | Into_idx i =>
        match v with
        | VArr vs => s' = (match nth_error vs (Z.to_nat i) with Some x => x | None => VNull end, fin) /\ a = P_ans A_unit
        | _ => s' = s /\ a = P_ans (A_err type_error)
        end
    end.

  Inductive psteps : pstate -> list pcall -> list pans -> pstate -> Prop :=
  | psteps_nil s : psteps s [] [] s
  | psteps_cons s c a s1 cs l s2 :
      pstep s c a s1 -> psteps s1 cs l s2 -> psteps s (c :: cs) (a :: l) s2.
End Machine.

(** Reading calls whose answers should not depend on the representation, followed
    along a history: [after] is the value the packet stands for next. *)
Definition after (v : value) (c : pcall) : value :=
  match c, v with
  | Into k, VObj fs => match lookup k fs with Some x => x | None => VNull end
  | Into_idx i, VArr vs => match nth_error vs (Z.to_nat i) with Some x => x | None => VNull end
  | _, _ => v
  end.
Definition only_reads (v : value) (c : pcall) : bool :=
  match c with
  | Do o => negb (mutates o) && negb (depends_on_form v o)
  | Is_finalized | Finalize _ | Definalize => false
  | _ => true
  end.
Fixpoint only_reads_all (v : value) (cs : list pcall) : Prop :=
  match cs with
  | [] => True
  | c :: r => only_reads v c = true /\ only_reads_all (after v c) r
  end.
