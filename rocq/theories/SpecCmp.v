(** When two values should compare equal.  Specification only. *)

From Coq Require Import ZArith List.
From Verif Require Import Base Keys Wire Spec SpecDec.
Import ListNotations.
Open Scope Z_scope.

(** Equal contents: objects as finite maps, arrays elementwise, decimals as
    numbers (so 0 and -0 are equal and NaN is equal to nothing). *)
Inductive content_eq : value -> value -> Prop :=
| ce_obj fs gs :
    (forall k x, lookup k fs = Some x -> exists y, lookup k gs = Some y /\ content_eq x y) ->
    (forall k, lookup k fs = None -> lookup k gs = None) ->
    content_eq (VObj fs) (VObj gs)
| ce_arr vs ws : Forall2 content_eq vs ws -> content_eq (VArr vs) (VArr ws)
| ce_str s : content_eq (VStr s) (VStr s)
| ce_int z : content_eq (VInt z) (VInt z)
| ce_dec d d' : denote64 d = denote64 d' -> denote64 d <> FNaN -> content_eq (VDec d) (VDec d')
| ce_bool b : content_eq (VBool b) (VBool b)
| ce_null : content_eq VNull VNull.

(** Restrictions used by the properties. *)
Definition nul_free : value -> Prop :=
  every (fun k => ~ In x00 k) (fun n => match n with VStr s => ~ In x00 s | _ => True end).
Definition nan_free : value -> Prop :=
  every (fun _ => True) (fun n => match n with VDec d => denote64 d <> FNaN | _ => True end).
(** No decimal is the negative zero, the one number with two representations. *)
Definition one_zero : value -> Prop :=
  every (fun _ => True) (fun n => match n with VDec d => d <> 2 ^ 63 | _ => True end).
Definition no_null_members : value -> Prop :=
  every (fun _ => True) (fun n => match n with VObj fs => ~ In VNull (map snd fs) | _ => True end).
