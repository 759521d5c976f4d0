(** What parsing YAML should give.  Specification only.

    libyaml is taken by contract: a text is a stream of events, and the events of a
    document are those of a tree.  Of styles only whether a scalar is plain counts; anchors
    and tags do not. *)

From Coq Require Import ZArith List Bool String Sorted Lia.
From Verif Require Import Base Keys Wire Spec SpecDec SpecArith SpecJson.
Import Init.Byte.
Import ListNotations.
Open Scope Z_scope.

Inductive ynode :=
| YScalar (plain : bool) (s : str)
| YAlias
| YMap (ps : list (ynode * ynode))
| YSeq (xs : list ynode).

Inductive yevent :=
| Stream_start | Stream_end | Document_start | Document_end
| Mapping_start | Mapping_end | Sequence_start | Sequence_end
| Scalar (plain : bool) (s : str) | Alias
| Other_event.

Fixpoint node_events (n : ynode) : list yevent :=
  match n with
  | YScalar p s => [Scalar p s]
  | YAlias => [Alias]
  | YMap ps => [Mapping_start] ++ flat_map (fun p => match p with (k, x) => node_events k ++ node_events x end) ps ++ [Mapping_end]
  | YSeq xs => [Sequence_start] ++ flat_map node_events xs ++ [Sequence_end]
  end.
Definition document_events (n : ynode) : list yevent := [Stream_start; Document_start] ++ node_events n ++ [Document_end].

(** ** Scalars: the literals of C *)

Inductive numeral (base : Z) : str -> Z -> Prop :=
| numeral_one c d : hex c = Some d -> d < base -> numeral base [c] d
| numeral_more t z c d : numeral base t z -> hex c = Some d -> d < base -> numeral base (t ++ [c]) (z * base + d).

Inductive sign_text : str -> bool -> Prop :=
| sign_none : sign_text [] false
| sign_plus : sign_text [x2b] false
| sign_minus : sign_text [x2d] true.
Definition signed (neg : bool) (m : Z) : Z := if neg then - m else m.

Definition leading_zero (t : str) : Prop := exists r, t = x30 :: r.
Definition hex_mark (t : str) : Prop := t = [x30; x78] \/ t = [x30; x58].

(** Base 16 after 0x, base 8 after 0, else base 10. *)
Inductive whole_number : str -> Z -> Prop :=
| whole_hex p t m : hex_mark p -> numeral 16 t m -> whole_number (p ++ t) m
| whole_octal t m : leading_zero t -> numeral 8 t m -> whole_number t m
| whole_decimal t m : ~ leading_zero t -> numeral 10 t m -> whole_number t m.
Definition int_literal (s : str) (z : Z) : Prop :=
  exists g t neg m, s = g ++ t /\ sign_text g neg /\ whole_number t m /\ z = signed neg m.

(** An exponent, perhaps absent; a fraction, perhaps absent. *)
Inductive exponent_text (marks : list byte) : str -> Z -> Prop :=
| exponent_none : exponent_text marks [] 0
| exponent_some c g t neg m : In c marks -> sign_text g neg -> numeral 10 t m -> exponent_text marks (c :: g ++ t) (signed neg m).
Inductive fraction_text : str -> str -> Prop :=
| fraction_none : fraction_text [] []
| fraction_some t : fraction_text (x2e :: t) t.

(** num/den *)
Definition power (base k : Z) (num den : Z) : Prop := num = base ^ Z.max 0 k /\ den = base ^ Z.max 0 (- k).
(** What comes before the point or the exponent must be a whole number too: 0 starts a
    number in base 8.  A hexadecimal number needs its point. *)
Inductive float_body : str -> Z -> Z -> Prop :=
| float_decimal i f fd e x m num den :
    (leading_zero i -> exists z, numeral 8 i z) -> (exists z, numeral 10 i z) ->
    fraction_text f fd -> exponent_text [x65; x45] e x -> f ++ e <> [] ->
    numeral 10 (i ++ fd) m -> power 10 (x - zlen fd) num den ->
    float_body (i ++ f ++ e) (m * num) den
| float_hex p i fd e x m num den :
    hex_mark p -> (exists z, numeral 16 i z) -> exponent_text [x70; x50] e x ->
    numeral 16 (i ++ fd) m -> power 2 (x - 4 * zlen fd) num den ->
    float_body (p ++ i ++ x2e :: fd ++ e) (m * num) den.
Definition float_literal (s : str) (neg : bool) (num den : Z) : Prop :=
  exists g t, s = g ++ t /\ sign_text g neg /\ float_body t num den.

(** Too large for a double, or below the smallest normal one. *)
Definition too_large (num den : Z) : Prop := limit64 * den <= num * 2 ^ 1074.
Definition tiny (num den : Z) : Prop := 0 < num /\ num * 2 ^ 1022 < den.
Definition word (w : string) (s : str) : Prop := s = lit w.

(** A plain scalar.  Literals out of range are strings.  What is tiny may be either. *)
Inductive scalar_value : str -> value -> Prop :=
| scalar_null : scalar_value (lit "null") VNull
| scalar_true : scalar_value (lit "true") (VBool true)
| scalar_false : scalar_value (lit "false") (VBool false)
| scalar_int s z : int_literal s z -> - 2 ^ 63 <= z < 2 ^ 63 -> scalar_value s (VInt z)
| scalar_dec s neg num den d : float_literal s neg num den -> ~ too_large num den ->
    rounded (signed neg num * 2 ^ 1074) den neg d -> scalar_value s (VDec d)
| scalar_str s : s <> lit "null" -> s <> lit "true" -> s <> lit "false" ->
    (forall z, int_literal s z -> ~ (- 2 ^ 63 <= z < 2 ^ 63)) ->
    (forall neg num den, float_literal s neg num den -> too_large num den \/ tiny num den) ->
    scalar_value s (VStr s).

(** ** Documents *)

(** A quoted scalar is a string.  Of pairs with one key the last counts. *)
Inductive ymeans : ynode -> value -> Prop :=
| ymeans_plain s v : scalar_value s v -> ymeans (YScalar true s) v
| ymeans_quoted s : ymeans (YScalar false s) (VStr s)
| ymeans_seq xs vs : Forall2 ymeans xs vs -> ymeans (YSeq xs) (VArr vs)
| ymeans_map ps ms fs :
    Forall2 (fun p m => (exists q, fst p = YScalar q (fst m)) /\ snd p = snd m) ps ms ->
    StronglySorted key_lt (map fst fs) ->
    (forall k, last_member k ms = None <-> lookup k fs = None) ->
    (forall k n v, last_member k ms = Some n -> lookup k fs = Some v -> ymeans n v) ->
    ymeans (YMap ps) (VObj fs).

(** Keys are scalars that can be names.  Leaves are plain and have no zero byte, or
    are quoted and would be strings anyway. *)
Inductive supported : ynode -> Prop :=
| supported_plain s : ~ In x00 s -> supported (YScalar true s)
| supported_quoted s : ~ In x00 s -> (forall v, scalar_value s v -> v = VStr s) -> supported (YScalar false s)
| supported_seq xs : zlen xs <= 2 ^ 32 -> Forall supported xs -> supported (YSeq xs)
| supported_map ps : Forall (fun p => (exists q k, fst p = YScalar q k /\ zlen k <= 65535) /\ supported (snd p)) ps -> supported (YMap ps).
(** Keys are scalars: nothing else is asked. *)
Inductive scalar_keys : ynode -> Prop :=
| scalar_keys_scalar q s : scalar_keys (YScalar q s)
| scalar_keys_alias : scalar_keys YAlias
| scalar_keys_seq xs : zlen xs <= 2 ^ 32 -> Forall scalar_keys xs -> scalar_keys (YSeq xs)
| scalar_keys_map ps : Forall (fun p => (exists q k, fst p = YScalar q k) /\ scalar_keys (snd p)) ps -> scalar_keys (YMap ps).
(** No aliases, and keys that can be names. *)
Inductive clean : ynode -> Prop :=
| clean_scalar q s : clean (YScalar q s)
| clean_seq xs : Forall clean xs -> clean (YSeq xs)
| clean_map ps : Forall (fun p => (forall q k, fst p = YScalar q k -> zlen k <= 65535) /\ clean (snd p)) ps -> clean (YMap ps).
Definition is_aggregate (n : ynode) : Prop := match n with YMap _ | YSeq _ => True | _ => False end.
(** Scalars short enough for the wire format. *)
Inductive storable : ynode -> Prop :=
| storable_scalar q s : zlen s < 2 ^ 32 -> storable (YScalar q s)
| storable_seq xs : Forall storable xs -> storable (YSeq xs)
| storable_map ps : Forall (fun p => storable (snd p)) ps -> storable (YMap ps).
