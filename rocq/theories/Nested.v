(** get_nested.  Model only. *)

From Coq Require Import ZArith List Bool.
From Verif Require Import Base Keys Wire Read Buf HeapOps.
Import ListNotations.
Open Scope Z_scope.

(** std::find(start, needle.end(), separator): the token before the separator
    and the rest starting at it. *)
Fixpoint take_tok (sep : byte) (s : str) : str * str :=
  match s with
  | [] => ([], [])
  | c :: r => if Byte.eqb c sep then ([], s) else let '(t, r') := take_tok sep r in (c :: t, r')
  end.

(** common.h:1576-1594 (get_nested_impl), a template over the packet type: [T]
    with its is_object, operator[] and null. *)
Section Template.
  Context {T : Type} (is_obj : T -> bool) (get : T -> str -> res T) (null : T).

  Fixpoint nested_loop (fuel : nat) (start : str) (sep : byte) (curr : T) : res T :=
    match fuel with
    | O => Fuel
    | S fuel' =>
        match start with
        | [] => Ok curr
        | _ :: _ =>
            if is_obj curr then
              let '(tok, stop) := take_tok sep start in
              curr' <- get curr tok ;;
              nested_loop fuel' (match stop with [] => [] | _ :: r => r end) sep curr'
            else Ok null
        end
    end.

  Definition get_nested (haystack : T) (needle : str) (sep : byte) : res T :=
    nested_loop (S (length needle)) needle sep haystack.
End Template.

(** buffer/object.tcc:148-151 and heap/object.tcc:197-199 (get_nested) *)
Definition b_get_nested (bs : Z) (m : mem) (e : elem) (path : str) (sep : byte) : res elem :=
  get_nested (fun e => utype_eqb (b_type e) T_object) (b_get bs m) (R_null, None) e path sep.
Definition h_get_nested (v : value) (path : str) (sep : byte) : res value :=
  get_nested (fun v => utype_eqb (h_type v) T_object) h_get VNull v path sep.
