(** JSON: what a text says.  Specification only.

    The parsers are third-party and not in /repo; what is written here is the JSON
    grammar (RFC 8259), with the extensions the parse flags can switch on, and the
    documents the parsers hand to the library. *)

From Coq Require Import ZArith List Bool Sorted Permutation String.
From Verif Require Import Base Keys Wire Spec SpecDec.
Import ListNotations.
Open Scope list_scope.
Open Scope Z_scope.

(** A parsed document: members in the order of the text, duplicates included;
    integers that fit int64_t, integers that fit only uint64_t, and every other
    number as the double it was rounded to. *)
Inductive jdoc : Type :=
| JObj (ms : list (str * jdoc))
| JArr (ds : list jdoc)
| JStr (s : str)
| JInt (z : Z)
| JUint (z : Z)
| JDec (d : Z)
| JBool (b : bool)
| JNull.

(** ** Text *)
Definition lit (s : string) : str := list_byte_of_string s.
Definition quote : byte := x22.
Definition backslash : byte := x5c.

(** White space, and comments when they are allowed. *)
Definition is_space (c : byte) : Prop := In c [x20; x09; x0a; x0d].
Inductive blank : str -> Prop :=
| blank_nil : blank []
| blank_space c t : is_space c -> blank t -> blank (c :: t)
| blank_line c t : ~ In x0a c -> blank t -> blank (lit "//" ++ c ++ x0a :: t)
| blank_block c t : blank t -> blank (lit "/*" ++ c ++ lit "*/" ++ t).

(** Strings: the characters between the quotes and the bytes they stand for. *)
Definition hex (c : byte) : option Z :=
  let z := b2z c in
  if (48 <=? z) && (z <=? 57) then Some (z - 48)
  else if (65 <=? z) && (z <=? 70) then Some (z - 55)
  else if (97 <=? z) && (z <=? 102) then Some (z - 87)
  else None.
Definition hex4 (t : str) (z : Z) : Prop :=
  exists a b c d x y u v, t = [a; b; c; d] /\ hex a = Some x /\ hex b = Some y /\ hex c = Some u /\ hex d = Some v /\
    z = ((x * 16 + y) * 16 + u) * 16 + v.

Definition escape (c : byte) : option byte :=
  if byte_eqb c quote then Some quote else if byte_eqb c backslash then Some backslash
  else if byte_eqb c x2f then Some x2f            (* / *)
  else if byte_eqb c x62 then Some x08            (* b *)
  else if byte_eqb c x66 then Some x0c            (* f *)
  else if byte_eqb c x6e then Some x0a            (* n *)
  else if byte_eqb c x72 then Some x0d            (* r *)
  else if byte_eqb c x74 then Some x09            (* t *)
  else None.

Definition utf8 (z : Z) : str :=
  if z <? 128 then [z2b z]
  else if z <? 2048 then [z2b (192 + z / 64); z2b (128 + z mod 64)]
  else if z <? 65536 then [z2b (224 + z / 4096); z2b (128 + z / 64 mod 64); z2b (128 + z mod 64)]
  else [z2b (240 + z / 262144); z2b (128 + z / 4096 mod 64); z2b (128 + z / 64 mod 64); z2b (128 + z mod 64)].

Inductive chars : str -> str -> Prop :=
| ch_nil : chars [] []
| ch_plain c t s : c <> quote -> c <> backslash -> 32 <= b2z c -> chars t s -> chars (c :: t) (c :: s)
| ch_escape e c t s : escape e = Some c -> chars t s -> chars (backslash :: e :: t) (c :: s)
| ch_unicode h z t s : hex4 h z -> ~ (55296 <= z < 57344) -> chars t s ->
    chars (lit "\u" ++ h ++ t) (utf8 z ++ s)
| ch_pair h l y z t s : hex4 h y -> hex4 l z -> 55296 <= y < 56320 -> 56320 <= z < 57344 -> chars t s ->
    chars (lit "\u" ++ h ++ lit "\u" ++ l ++ t) (utf8 (65536 + (y - 55296) * 1024 + (z - 56320)) ++ s).

Definition string_text (t s : str) : Prop := exists c, t = quote :: c ++ [quote] /\ chars c s.

(** Numbers.  How a fraction or an exponent rounds is left open: any double. *)
Definition digit (c : byte) : Prop := 48 <= b2z c <= 57.
Definition digits (t : str) : Prop := t <> [] /\ Forall digit t.
Definition nat_text (t : str) : Prop := digits t /\ (forall c r, t = x30 :: c :: r -> False).
Fixpoint number_of (acc : Z) (t : str) : Z :=
  match t with [] => acc | c :: r => number_of (acc * 10 + (b2z c - 48)) r end.

Inductive int_text : str -> Z -> Prop :=
| int_pos t : nat_text t -> int_text t (number_of 0 t)
| int_neg t : nat_text t -> int_text (x2d :: t) (- number_of 0 t).

Definition fraction (t : str) : Prop := t = [] \/ exists r, t = x2e :: r /\ digits r.
Definition exponent (t : str) : Prop :=
  t = [] \/ exists e s r, t = e :: s ++ r /\ In e [x65; x45] /\ In s [[]; [x2b]; [x2d]] /\ digits r.

Inductive number_text : str -> jdoc -> Prop :=
| num_int t z : int_text t z -> - 2 ^ 63 <= z < 2 ^ 63 -> number_text t (JInt z)
| num_uint t z : int_text t z -> 2 ^ 63 <= z < 2 ^ 64 -> number_text t (JUint z)
| num_huge t z d : int_text t z -> ~ (- 2 ^ 63 <= z < 2 ^ 64) -> 0 <= d < 2 ^ 64 -> number_text t (JDec d)
| num_dec i z f e d : int_text i z -> fraction f -> exponent e -> f ++ e <> [] -> 0 <= d < 2 ^ 64 ->
    number_text (i ++ f ++ e) (JDec d)
| num_special t d : In t [lit "NaN"; lit "Inf"; lit "-Inf"; lit "Infinity"; lit "-Infinity"] -> 0 <= d < 2 ^ 64 ->
    number_text t (JDec d).

(** Documents; a comma behind the last member is among the extensions. *)
Inductive doc_text : str -> jdoc -> Prop :=
| text_object t ms : members_text t ms -> doc_text (x7b :: t ++ [x7d]) (JObj ms)
| text_array t ds : elements_text t ds -> doc_text (x5b :: t ++ [x5d]) (JArr ds)
| text_string t s : string_text t s -> doc_text t (JStr s)
| text_number t d : number_text t d -> doc_text t d
| text_true : doc_text (lit "true") (JBool true)
| text_false : doc_text (lit "false") (JBool false)
| text_null : doc_text (lit "null") JNull
with members_text : str -> list (str * jdoc) -> Prop :=
| members_none w : blank w -> members_text w []
| members_one kt k w1 w2 w3 w4 t d :
    blank w1 -> string_text kt k -> blank w2 -> blank w3 -> doc_text t d -> blank w4 ->
    members_text (w1 ++ kt ++ w2 ++ x3a :: w3 ++ t ++ w4) [(k, d)]
| members_more kt k w1 w2 w3 w4 t d r ms :
    blank w1 -> string_text kt k -> blank w2 -> blank w3 -> doc_text t d -> blank w4 -> members_text r ms ->
    members_text (w1 ++ kt ++ w2 ++ x3a :: w3 ++ t ++ w4 ++ x2c :: r) ((k, d) :: ms)
with elements_text : str -> list jdoc -> Prop :=
| elements_none w : blank w -> elements_text w []
| elements_one w1 w2 t d : blank w1 -> doc_text t d -> blank w2 -> elements_text (w1 ++ t ++ w2) [d]
| elements_more w1 w2 t d r ds :
    blank w1 -> doc_text t d -> blank w2 -> elements_text r ds -> elements_text (w1 ++ t ++ w2 ++ x2c :: r) (d :: ds).

(** A whole text; whatever follows the document is ignored if a flag says so. *)
Definition json_text (t : str) (d : jdoc) : Prop :=
  exists w u rest, t = w ++ u ++ rest /\ blank w /\ doc_text u d.

(** ** Documents *)

(** Every key satisfies [K], every node satisfies [L]. *)
Inductive everyj (K : str -> Prop) (L : jdoc -> Prop) : jdoc -> Prop :=
| everyj_obj ms : L (JObj ms) -> Forall (fun kv => K (fst kv) /\ everyj K L (snd kv)) ms -> everyj K L (JObj ms)
| everyj_arr ds : L (JArr ds) -> Forall (everyj K L) ds -> everyj K L (JArr ds)
| everyj_leaf d : match d with JObj _ | JArr _ => False | _ => True end -> L d -> everyj K L d.

(** What the parsers' types allow: lengths are 32-bit, numbers 64-bit. *)
Definition doc_node (d : jdoc) : Prop :=
  match d with
  | JObj ms => zlen ms < 2 ^ 32
  | JArr ds => zlen ds < 2 ^ 32
  | JStr s => zlen s < 2 ^ 32
  | JInt z => - 2 ^ 63 <= z < 2 ^ 63
  | JUint z => 2 ^ 63 <= z < 2 ^ 64
  | JDec d => 0 <= d < 2 ^ 64
  | _ => True
  end.
Definition document : jdoc -> Prop := everyj (fun k => zlen k < 2 ^ 32) doc_node.

Definition short_keys : jdoc -> Prop := everyj (fun k => zlen k <= 65535) (fun _ => True).
Definition small_integers : jdoc -> Prop :=
  everyj (fun _ => True) (fun d => match d with JUint _ => False | _ => True end).
Definition distinct_keys : jdoc -> Prop :=
  everyj (fun _ => True) (fun d => match d with JObj ms => NoDup (map fst ms) | _ => True end).

Definition is_container (d : jdoc) : Prop := match d with JObj _ | JArr _ => True | _ => False end.

(** The value a document means: of members with one key the last counts. *)
Definition last_member {A} (k : str) (ms : list (str * A)) : option A := lookup k (rev ms).

Inductive means : jdoc -> value -> Prop :=
| means_obj ms fs :
    StronglySorted key_lt (map fst fs) ->
    (forall k, last_member k ms = None <-> lookup k fs = None) ->
    (forall k d v, last_member k ms = Some d -> lookup k fs = Some v -> means d v) ->
    means (JObj ms) (VObj fs)
| means_arr ds vs : Forall2 means ds vs -> means (JArr ds) (VArr vs)
| means_str s : means (JStr s) (VStr s)
| means_int z : means (JInt z) (VInt z)
| means_dec d : means (JDec d) (VDec d)
| means_bool b : means (JBool b) (VBool b)
| means_null : means JNull VNull.

(** What sorting members by key may do: any order of the members in which no key
    comes before a smaller one. *)
Definition sorts_members (sorter : forall A, list (str * A) -> list (str * A)) : Prop :=
  forall A (l : list (str * A)),
    Permutation l (sorter A l) /\ StronglySorted (fun a b => ~ key_lt b a) (map fst (sorter A l)).

(** JSON has no spelling for infinities and NaN. *)
Definition finite_decimals : value -> Prop :=
  every (fun _ => True) (fun n => match n with VDec d => exists k, denote64 d = FFin k | _ => True end).
(** The parsers count members and elements with 32 bits. *)
Definition countable : value -> Prop :=
  every (fun _ => True) (fun n => match n with VObj fs => zlen fs < 2 ^ 32 | VArr vs => zlen vs < 2 ^ 32 | _ => True end).
