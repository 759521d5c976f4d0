(** Vocabulary of the specifications: what the properties are stated with.  Kept
    apart from the model; nothing here mentions how the library works. *)

From Coq Require Import ZArith List Bool Sorted.
From Verif Require Import Base Keys Wire.
Import ListNotations.
Open Scope Z_scope.

(** The documented key order: shorter keys first, keys of one length in
    lexicographic order of their bytes taken as unsigned numbers. *)
Inductive lex_lt : str -> str -> Prop :=
| lex_here a b x y : b2z a < b2z b -> lex_lt (a :: x) (b :: y)
| lex_next a x y : lex_lt x y -> lex_lt (a :: x) (a :: y).

Definition key_lt (a b : str) : Prop :=
  (length a < length b)%nat \/ (length a = length b /\ lex_lt a b).

(** Every key inside [v] satisfies [K] and every node of [v] satisfies [L]. *)
Inductive every (K : str -> Prop) (L : value -> Prop) : value -> Prop :=
| every_obj fs :
    L (VObj fs) -> Forall (fun kv => K (fst kv) /\ every K L (snd kv)) fs -> every K L (VObj fs)
| every_arr vs : L (VArr vs) -> Forall (every K L) vs -> every K L (VArr vs)
| every_str s : L (VStr s) -> every K L (VStr s)
| every_int z : L (VInt z) -> every K L (VInt z)
| every_dec d : L (VDec d) -> every K L (VDec d)
| every_bool b : L (VBool b) -> every K L (VBool b)
| every_null : L VNull -> every K L VNull.

(** The values a dart::heap can hold: 64-bit integers, 64-bit double patterns,
    objects in map order without duplicates, keys within the documented limit of
    65535 bytes.  Strings are limited to less than 4 GiB: the documented wire
    format has no room for longer ones (see C02). *)
Definition heap_node (n : value) : Prop :=
  match n with
  | VObj fs => StronglySorted key_lt (map fst fs)
  | VStr s => zlen s < 2 ^ 32
  | VInt z => - 2 ^ 63 <= z < 2 ^ 63
  | VDec d => 0 <= d < 2 ^ 64
  | _ => True
  end.

Definition heap_value : value -> Prop := every (fun k => zlen k <= 65535) heap_node.

(** The value stored under a key: the meaning of an object as a finite map. *)
Fixpoint lookup {A} (k : str) (fs : list (str * A)) : option A :=
  match fs with
  | [] => None
  | (k', x) :: r => if list_eq_dec Byte.byte_eq_dec k k' then Some x else lookup k r
  end.

(** Lexicographic order on strings of any length: a proper prefix comes first. *)
Inductive str_lt : str -> str -> Prop :=
| str_lt_nil b y : str_lt [] (b :: y)
| str_lt_here a b x y : b2z a < b2z b -> str_lt (a :: x) (b :: y)
| str_lt_next a x y : str_lt x y -> str_lt (a :: x) (a :: y).

(** The keys lookup in finalized objects is reliable for: no NUL byte, no byte
    above 127 among the first two, length other than 255. *)
Definition good_key (k : str) : Prop :=
  ~ In x00 k /\ Forall (fun b => b2z b < 128) (firstn 2 k) /\ zlen k <> 255.

Definition good_all : value -> Prop := every good_key (fun _ => True).

(** The user-visible type of a value. *)
Definition vtype (v : value) : utype :=
  match v with
  | VObj _ => T_object | VArr _ => T_array | VStr _ => T_string | VInt _ => T_integer
  | VDec _ => T_decimal | VBool _ => T_boolean | VNull => T_null
  end.

(** The size of an aggregate or string. *)
Definition vsize (v : value) : option Z :=
  match v with
  | VObj fs => Some (zlen fs)
  | VArr vs => Some (zlen vs)
  | VStr s => Some (zlen s)
  | _ => None
  end.

(** Children in order. *)
Definition members (v : value) : list value :=
  match v with VObj fs => map snd fs | VArr vs => vs | _ => [] end.

(** Same contents: the same finite map from keys to values, whatever order the
    pairs were given in. *)
Inductive same : value -> value -> Prop :=
| same_obj fs gs :
    (forall k x, lookup k fs = Some x -> exists y, lookup k gs = Some y /\ same x y) ->
    (forall k, lookup k fs = None -> lookup k gs = None) ->
    same (VObj fs) (VObj gs)
| same_arr vs ws : Forall2 same vs ws -> same (VArr vs) (VArr ws)
| same_str s : same (VStr s) (VStr s)
| same_int z : same (VInt z) (VInt z)
| same_dec d : same (VDec d) (VDec d)
| same_bool b : same (VBool b) (VBool b)
| same_null : same VNull VNull.

(** The value at a position: a path of member numbers. *)
Fixpoint sub_value (v : value) (path : list nat) : option value :=
  match path with
  | [] => Some v
  | i :: r => match nth_error (members v) i with Some x => sub_value x r | None => None end
  end.

(** Following a path of keys through values. *)
Fixpoint follow (v : value) (path : list str) : value :=
  match path with
  | [] => v
  | k :: r =>
      match v with
      | VObj fs => follow (match lookup k fs with Some x => x | None => VNull end) r
      | _ => VNull
      end
  end.

(** The text of a path. *)
Fixpoint join (sep : byte) (path : list str) : str :=
  match path with
  | [] => []
  | [k] => k
  | k :: r => k ++ sep :: join sep r
  end.
