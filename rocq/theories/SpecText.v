(** JSON texts without the extensions of the parse flags (RFC 8259), and which
    document each of them is.  Specification only.

    Strings and whole numbers are those of SpecJson.v.  Which double a number with a
    fraction or an exponent is, is a parameter: [rd] is what the reader makes of the
    text.  A zero byte ends a text. *)

From Coq Require Import ZArith List Bool String.
From Verif Require Import Base Keys Wire Spec SpecDec SpecJson.
Import ListNotations.
Open Scope list_scope.
Open Scope Z_scope.

Definition white (w : str) : Prop := Forall is_space w.

(** A number that is not a whole one. *)
Definition double_text (t : str) : Prop :=
  exists i z f e, int_text i z /\ fraction f /\ exponent e /\ f ++ e <> [] /\ t = i ++ f ++ e.

Section Reader.
  Variable rd : str -> Z.

  Inductive strict : str -> jdoc -> Prop :=
  | strict_no_members w : white w -> strict (x7b :: w ++ [x7d]) (JObj [])
  | strict_object t ms : strict_members t ms -> strict (x7b :: t ++ [x7d]) (JObj ms)
  | strict_no_elements w : white w -> strict (x5b :: w ++ [x5d]) (JArr [])
  | strict_array t ds : strict_elements t ds -> strict (x5b :: t ++ [x5d]) (JArr ds)
  | strict_string t s : string_text t s -> strict t (JStr s)
  | strict_int t z : int_text t z -> - 2 ^ 63 <= z < 2 ^ 63 -> strict t (JInt z)
  | strict_uint t z : int_text t z -> 2 ^ 63 <= z < 2 ^ 64 -> strict t (JUint z)
  | strict_huge t z : int_text t z -> ~ (- 2 ^ 63 <= z < 2 ^ 64) -> strict t (JDec (rd t))
  | strict_double t : double_text t -> strict t (JDec (rd t))
  | strict_true : strict (lit "true"%string) (JBool true)
  | strict_false : strict (lit "false"%string) (JBool false)
  | strict_null : strict (lit "null"%string) JNull
  with strict_members : str -> list (str * jdoc) -> Prop :=
  | strict_member w1 kt k w2 w3 t d w4 :
      white w1 -> string_text kt k -> white w2 -> white w3 -> strict t d -> white w4 ->
      strict_members (w1 ++ kt ++ w2 ++ x3a :: w3 ++ t ++ w4) [(k, d)]
  | strict_more_members w1 kt k w2 w3 t d w4 r ms :
      white w1 -> string_text kt k -> white w2 -> white w3 -> strict t d -> white w4 -> strict_members r ms ->
      strict_members (w1 ++ kt ++ w2 ++ x3a :: w3 ++ t ++ w4 ++ x2c :: r) ((k, d) :: ms)
  with strict_elements : str -> list jdoc -> Prop :=
  | strict_element w1 t d w2 : white w1 -> strict t d -> white w2 -> strict_elements (w1 ++ t ++ w2) [d]
  | strict_more_elements w1 t d w2 r ds :
      white w1 -> strict t d -> white w2 -> strict_elements r ds -> strict_elements (w1 ++ t ++ w2 ++ x2c :: r) (d :: ds).

  (** A whole text. *)
  Definition json_document (t : str) (d : jdoc) : Prop :=
    exists w1 u w2, white w1 /\ strict u d /\ white w2 /\
      (t = w1 ++ u ++ w2 \/ exists rest, t = w1 ++ u ++ w2 ++ x00 :: rest).
End Reader.

(** The value with other decimals. *)
Fixpoint redec (f : Z -> Z) (v : value) : value :=
  match v with
  | VObj fs => VObj (map (fun kv => (fst kv, redec f (snd kv))) fs)
  | VArr vs => VArr (map (redec f) vs)
  | VDec d => VDec (f d)
  | _ => v
  end.

(** The document of a value: members in the order of the keys. *)
Inductive of_value : value -> jdoc -> Prop :=
| of_obj fs ms : Forall2 (fun kv m => fst m = fst kv /\ of_value (snd kv) (snd m)) fs ms -> of_value (VObj fs) (JObj ms)
| of_arr vs ds : Forall2 of_value vs ds -> of_value (VArr vs) (JArr ds)
| of_str s : of_value (VStr s) (JStr s)
| of_int z : of_value (VInt z) (JInt z)
| of_dec d : of_value (VDec d) (JDec d)
| of_bool b : of_value (VBool b) (JBool b)
| of_null : of_value VNull JNull.

(** What prints a double: any text that is one, for the finite ones. *)
Definition prints (dt : Z -> str) : Prop := forall d k, denote64 d = FFin k -> double_text (dt d).
(** The reader gets doubles out of numbers. *)
Definition gives_doubles (rd : str -> Z) : Prop := forall t, 0 <= rd t < 2 ^ 64.
(** Reading what was printed gives the double back. *)
Definition faithful (rd : str -> Z) (dt : Z -> str) : Prop := forall d k, 0 <= d < 2 ^ 64 -> denote64 d = FFin k -> rd (dt d) = d.

(** Nothing below a space: no zero byte and no line break, among others. *)
Definition one_line (t : str) : Prop := Forall (fun c => 32 <= b2z c) t.

(** Memory that begins with the zero-terminated text [t]. *)
Definition terminated (m t : str) : Prop := ~ In x00 t /\ exists rest, m = t ++ x00 :: rest.
