(** C++ types and values that convert to and from packets, and what the conversions
    should do.  Specification only. *)

From Coq Require Import ZArith List Bool Sorting.Sorted Sorting.Permutation.
From Verif Require Import Base Keys Wire Spec SpecDec Ordered.
Import ListNotations.
Open Scope Z_scope.

(** ** Values.  A hashed container is any list in which it could be iterated. *)
Inductive cval : Type :=
| CNull | CBool (b : bool) | CInt (z : Z)
| CDouble (d : Z) | CFloat (f : Z)                 (* bit patterns *)
| CStr (s : str)
| CList (l : list cval)                            (* sequences, sets, pairs, tuples *)
| CMap (l : list (cval * cval))
| COpt (o : option cval)
| CVar (i : nat) (c : cval).                       (* variants: the alternative held *)

(** ** Types *)
Inductive seqk : Type := Vec | Deq | Lst | Fwd | Arr (n : nat).

(** What keys are compared with: the comparator of an ordered container; the
    equality of a hashed one, beside the operator == of the key type. *)
Inductive order : Type :=
| Ordered (lt : cval -> cval -> bool)
| Hashed (keq eqeq : cval -> cval -> bool).

Inductive cty : Type :=
| TNull | TBool | TInt (t : ity) | TDouble | TFloat | TStr
| TSeq (k : seqk) (a : cty)
| TSet (o : order) (multi : bool) (a : cty)
| TMap (o : order) (k v : cty)
| TMulti (o : order) (k v : cty)
| TOpt (a : cty) | TPair (a b : cty) | TTup (ts : list cty) | TVar (ts : list cty).

Definition equiv (o : order) (x y : cval) : bool :=
  match o with Ordered lt => negb (lt x y) && negb (lt y x) | Hashed keq _ => keq x y end.

(** The keys of a container in the order of iteration: sorted, or any order when
    hashed.  With [multi] equivalent ones are next to each other; without, no two are
    equivalent. *)
Definition adjacent (o : order) (l : list cval) : Prop :=
  forall i j k x y z, (i < j < k)%nat -> nth_error l i = Some x -> nth_error l j = Some y -> nth_error l k = Some z ->
    equiv o x z = true -> equiv o x y = true.
Definition arranged (o : order) (multi : bool) (l : list cval) : Prop :=
  match o with
  | Ordered lt =>
      StronglySorted (fun x y => lt y x = false /\ (multi = false -> lt x y = true)) l /\
      Forall (fun x => lt x x = false) l
  | Hashed keq _ => multi = false -> ForallOrdPairs (fun x y => keq x y = false /\ keq y x = false) l
  end /\ (multi = true -> adjacent o l).

(** Element by element, and one chosen. *)
Definition zip2 {A B} (f : A -> B -> Prop) := fix go (l : list A) (r : list B) : Prop :=
  match l, r with
  | [], [] => True
  | a :: l', b :: r' => f a b /\ go l' r'
  | _, _ => False
  end.
Definition zip3 {A B C} (f : A -> B -> C -> Prop) := fix go (l : list A) (r : list B) (s : list C) : Prop :=
  match l, r, s with
  | [], [], [] => True
  | a :: l', b :: r', c :: s' => f a b c /\ go l' r' s'
  | _, _, _ => False
  end.
Definition pick {A} (f : A -> Prop) := fix go (l : list A) (i : nat) : Prop :=
  match l, i with
  | a :: _, O => f a
  | _ :: l', S i' => go l' i'
  | [], _ => False
  end.
Definition all {A} (f : A -> Prop) := fix go (l : list A) : Prop :=
  match l with [] => True | a :: l' => f a /\ go l' end.
Definition any {A} (f : A -> Prop) := fix go (l : list A) : Prop :=
  match l with [] => False | a :: l' => f a \/ go l' end.

(** Being a value of a type.  No container is larger than a size can say. *)
Fixpoint has (t : cty) (c : cval) {struct t} : Prop :=
  match t with
  | TNull => c = CNull
  | TBool => exists b, c = CBool b
  | TInt i => exists z, c = CInt z /\ in_range i z /\ (1 <= it_bytes i <= 8)%nat
  | TDouble => exists d, c = CDouble d /\ 0 <= d < 2 ^ 64
  | TFloat => exists f, c = CFloat f /\ 0 <= f < 2 ^ 32
  | TStr => exists s, c = CStr s
  | TSeq k a =>
      exists l, c = CList l /\ zlen l < 2 ^ 63 /\ Forall (has a) l /\
        match k with Arr n => length l = n /\ n <> O | _ => True end
  | TSet o m a => exists l, c = CList l /\ zlen l < 2 ^ 63 /\ Forall (has a) l /\ arranged o m l
  | TMap o k v =>
      exists l, c = CMap l /\ zlen l < 2 ^ 63 /\ Forall (fun p => has k (fst p) /\ has v (snd p)) l /\ arranged o false (map fst l)
  | TMulti o k v =>
      exists l, c = CMap l /\ zlen l < 2 ^ 63 /\ Forall (fun p => has k (fst p) /\ has v (snd p)) l /\ arranged o true (map fst l)
  | TOpt a => c = COpt None \/ exists x, c = COpt (Some x) /\ has a x
  | TPair a b => exists x y, c = CList [x; y] /\ has a x /\ has b y
  | TTup ts => exists l, c = CList l /\ zlen l < 2 ^ 63 /\ zip2 has ts l
  | TVar ts => exists i x, c = CVar i x /\ pick (fun a => has a x) ts i
  end.

(** ** The same value.  Bit patterns of NaN are not told apart in single precision,
    nor the iteration orders of hashed containers. *)
Definition alike_entry (f g : cval -> cval -> Prop) (p q : cval * cval) : Prop :=
  f (fst p) (fst q) /\ g (snd p) (snd q).

Fixpoint alike (t : cty) (c c' : cval) {struct t} : Prop :=
  match t with
  | TNull | TBool | TInt _ | TDouble | TStr => c = c'
  | TFloat =>
      c = c' \/ exists f f', c = CFloat f /\ c' = CFloat f' /\ denote32 f = FNaN /\ denote32 f' = FNaN
  | TSeq _ a | TSet (Ordered _) _ a =>
      exists l l', c = CList l /\ c' = CList l' /\ Forall2 (alike a) l l'
  | TSet (Hashed _ _) _ a =>
      exists l l' m, c = CList l /\ c' = CList l' /\ Forall2 (alike a) l m /\ Permutation m l'
  | TMap (Ordered _) k v | TMulti (Ordered _) k v =>
      exists l l', c = CMap l /\ c' = CMap l' /\ Forall2 (alike_entry (alike k) (alike v)) l l'
  | TMap (Hashed _ _) k v | TMulti (Hashed _ _) k v =>
      exists l l' m, c = CMap l /\ c' = CMap l' /\ Forall2 (alike_entry (alike k) (alike v)) l m /\ Permutation m l'
  | TOpt a =>
      c = COpt None /\ c' = COpt None \/
      exists x x', c = COpt (Some x) /\ c' = COpt (Some x') /\ alike a x x'
  | TPair a b => exists x y x' y', c = CList [x; y] /\ c' = CList [x'; y'] /\ alike a x x' /\ alike b y y'
  | TTup ts => exists l l', c = CList l /\ c' = CList l' /\ zip3 alike ts l l'
  | TVar ts => exists i x x', c = CVar i x /\ c' = CVar i x' /\ pick (fun a => alike a x x') ts i
  end.

(** ** What a value is kept as.  A multimap is kept as an object that has, under the
    text of a key, the array of everything that has that key, in order. *)
Fixpoint stored (t : cty) (c : cval) (v : value) {struct t} : Prop :=
  match t with
  | TNull => c = CNull /\ v = VNull
  | TBool => exists b, c = CBool b /\ v = VBool b
  | TInt _ => exists z z', c = CInt z /\ v = VInt z' /\ - 2 ^ 63 <= z' < 2 ^ 63 /\ (z' - z) mod 2 ^ 64 = 0
  | TDouble => exists d, c = CDouble d /\ v = VDec d
  | TFloat => exists f d, c = CFloat f /\ v = VDec d /\ denote64 d = denote32 f
  | TStr => exists s, c = CStr s /\ v = VStr s
  | TSeq _ a | TSet _ _ a => exists l ws, c = CList l /\ v = VArr ws /\ Forall2 (stored a) l ws
  | TMap _ k x =>
      exists l fs, c = CMap l /\ v = VObj fs /\ length fs = length l /\
        (forall s w, lookup s fs = Some w -> exists p, In p l /\ stored k (fst p) (VStr s) /\ stored x (snd p) w) /\
        (forall p, In p l -> exists s w, stored k (fst p) (VStr s) /\ stored x (snd p) w /\ lookup s fs = Some w)
  | TMulti _ k x =>
      exists l fs, c = CMap l /\ v = VObj fs /\
        (forall s w, lookup s fs = Some w ->
           exists sel ws, w = VArr ws /\ ws <> [] /\
             (forall p, In p l -> (sel p = true <-> stored k (fst p) (VStr s))) /\
             Forall2 (fun p => stored x (snd p)) (filter sel l) ws) /\
        (forall p, In p l -> exists s w, stored k (fst p) (VStr s) /\ lookup s fs = Some w)
  | TOpt a => c = COpt None /\ v = VNull \/ exists x, c = COpt (Some x) /\ stored a x v
  | TPair a b => exists x y w u, c = CList [x; y] /\ v = VArr [w; u] /\ stored a x w /\ stored b y u
  | TTup ts => exists l ws, c = CList l /\ v = VArr ws /\ zip3 stored ts l ws
  | TVar ts => exists i x, c = CVar i x /\ pick (fun a => stored a x v) ts i
  end.

(** ** Which values a type can be read from *)
Fixpoint reads (t : cty) (v : value) {struct t} : Prop :=
  match t with
  | TNull => v = VNull
  | TBool => True
  | TInt _ => exists z, v = VInt z
  | TDouble | TFloat => exists d, v = VDec d
  | TStr => exists s, v = VStr s
  | TSeq (Arr n) a => exists ws, v = VArr ws /\ length ws = n /\ Forall (reads a) ws
  | TSeq _ a | TSet _ _ a => exists ws, v = VArr ws /\ Forall (reads a) ws
  | TMap _ k x => exists fs, v = VObj fs /\ Forall (fun p => reads k (VStr (fst p)) /\ reads x (snd p)) fs
  | TMulti _ k x =>
      exists fs, v = VObj fs /\
        Forall (fun p => reads k (VStr (fst p)) /\
                         match snd p with VArr ws => Forall (reads x) ws | w => reads x w end) fs
  | TOpt a => v = VNull \/ reads a v
  | TPair a b => exists w u, v = VArr [w; u] /\ reads a w /\ reads b u
  | TTup ts => exists ws, v = VArr ws /\ zip2 reads ts ws
  | TVar ts => any (fun a => reads a v) ts
  end.

(** ** Restrictions: something holds of a value and of everything inside it. *)
Fixpoint everywhere (P : cty -> cval -> Prop) (t : cty) (c : cval) {struct t} : Prop :=
  P t c /\
  match t with
  | TSeq _ a | TSet _ _ a => forall l, c = CList l -> Forall (everywhere P a) l
  | TMap _ k v | TMulti _ k v =>
      forall l, c = CMap l -> Forall (fun p => everywhere P k (fst p) /\ everywhere P v (snd p)) l
  | TOpt a => forall x, c = COpt (Some x) -> everywhere P a x
  | TPair a b => forall x y, c = CList [x; y] -> everywhere P a x /\ everywhere P b y
  | TTup ts => forall l, c = CList l -> zip2 (everywhere P) ts l
  | TVar ts => forall i x, c = CVar i x -> pick (fun a => everywhere P a x) ts i
  | _ => True
  end.

(** A text is the text of one key only; in a multimap, of the keys that are equivalent
    to the comparator. *)
Definition keyed (t : cty) (c : cval) : Prop :=
  match t with
  | TMap o k _ =>
      forall l, c = CMap l -> ForallOrdPairs (fun p q => forall s, ~ (stored k (fst p) (VStr s) /\ stored k (fst q) (VStr s))) l
  | TMulti o k _ =>
      forall l, c = CMap l -> forall p q, In p l -> In q l ->
        (equiv o (fst p) (fst q) = true <-> exists s, stored k (fst p) (VStr s) /\ stored k (fst q) (VStr s))
  | _ => True
  end.

(** Every key has a text, within the limit for keys. *)
Definition texted (t : cty) (c : cval) : Prop :=
  match t with
  | TMap _ k _ | TMulti _ k _ =>
      forall l, c = CMap l -> Forall (fun p => exists s, stored k (fst p) (VStr s) /\ zlen s <= 65535) l
  | _ => True
  end.

(** Nothing that is kept as null is inside an optional, and nothing is in a variant
    that an earlier alternative could be read from. *)
Definition told_apart (t : cty) (c : cval) : Prop :=
  match t with
  | TOpt a => forall x, c = COpt (Some x) -> ~ stored a x VNull
  | TVar ts =>
      forall i x a v, c = CVar i x -> nth_error ts i = Some a -> stored a x v ->
        forall j b, (j < i)%nat -> nth_error ts j = Some b -> ~ reads b v
  | _ => True
  end.

(** No NaN; and the key type's == is the equality of a hashed multimap. *)
Definition self_equal (t : cty) (c : cval) : Prop :=
  match t with
  | TDouble => forall d, c = CDouble d -> denote64 d <> FNaN
  | TFloat => forall f, c = CFloat f -> denote32 f <> FNaN
  | TMulti (Hashed keq eqeq) _ _ =>
      forall l, c = CMap l -> forall p q, In p l -> In q l -> eqeq (fst p) (fst q) = keq (fst p) (fst q)
  | _ => True
  end.

(** Comparators of sets do not see the differences that [alike] ignores. *)
Fixpoint sound (t : cty) : Prop :=
  match t with
  | TSeq _ a | TOpt a => sound a
  | TSet o _ a =>
      sound a /\
      match o with
      | Ordered lt => forall x x' y y', alike a x x' -> alike a y y' -> lt x y = lt x' y'
      | Hashed keq _ => forall x x' y y', alike a x x' -> alike a y y' -> keq x y = keq x' y'
      end
  | TMap _ a b | TMulti _ a b | TPair a b => sound a /\ sound b
  | TTup ts | TVar ts => all sound ts
  | _ => True
  end.

(** ** Comparison *)

(** Types whose comparison is meant to be exact: no forward lists, sets or multimaps. *)
Fixpoint exact (t : cty) : Prop :=
  match t with
  | TSeq Fwd _ | TSet _ _ _ | TMulti _ _ _ => False
  | TSeq _ a | TOpt a => exact a
  | TMap _ a b => a = TStr /\ exact b
  | TPair a b => exact a /\ exact b
  | TTup ts | TVar ts => all exact ts
  | _ => True
  end.

(** Nowhere does one of two values have an integer and the other a decimal. *)
Inductive unmixed : value -> value -> Prop :=
| um_arr vs ws :
    (forall i x y, nth_error vs i = Some x -> nth_error ws i = Some y -> unmixed x y) -> unmixed (VArr vs) (VArr ws)
| um_obj fs gs :
    (forall k x y, lookup k fs = Some x -> lookup k gs = Some y -> unmixed x y) -> unmixed (VObj fs) (VObj gs)
| um_other v w :
    (forall z d, ~ (v = VInt z /\ w = VDec d) /\ ~ (v = VDec d /\ w = VInt z)) ->
    (forall a b, ~ (v = VArr a /\ w = VArr b)) -> (forall a b, ~ (v = VObj a /\ w = VObj b)) -> unmixed v w.
