(** conversion_traits.h and conversions.h: C++ values to packets, packets to C++
    values, and comparing the two.  Model only.

    Conversion is by type, as template instantiation is.  A packet is its value
    (that both forms of a packet read as their value is C30).  Copying and moving
    conversions do the same.  Not modelled: dart types and wrappers inside containers
    (converted by copying or forwarding; compared by C22, C23, C44), gsl::span
    (a vector that can only be converted from), time_point (Time.v), integral_constant,
    long double.  [Undef] is a value that is not of the type. *)

From Coq Require Import ZArith List Bool Floats.SpecFloat.
From Verif Require Import Base Keys Dec Float Wire Ordered HeapOps Compare SpecConv.
Import ListNotations.
Open Scope Z_scope.

Definition int64 : ity := mk_ity 8 true.

(** ** Into a packet *)

(** A loop that pushes every converted element: conversions.h:186-197, 228-233,
    321-326, 388-393, 462-467, 536-540 (sequences), 934-939, 1003-1008, 1072-1077,
    1144-1149 (sets); make_array (heap/array.tcc:14-22) for pairs and tuples. *)
Fixpoint push_all (l : list (res value)) (arr : value) : res value :=
  match l with
  | [] => Ok arr
  | e :: r => x <- e ;; arr <- h_push_back arr x ;; push_all r arr
  end.

(** add_field for every pair (heap/object.tcc:50-53, heap/api.tcc:117-148: the key is
    converted, then the value): conversions.h:611-615, 692-696. *)
Fixpoint add_fields (l : list (res value * res value)) (obj : value) : res value :=
  match l with
  | [] => Ok obj
  | (ek, ev) :: r =>
      k <- ek ;; x <- ev ;;
      '(obj, _) <- h_insert obj k x ;; add_fields r obj
  end.

(** std::map<Key, array>::operator [] and push_back: conversions.h:773-777, 855-859.
    The pairs come in the order of the multimap, so a new key goes to the end. *)
Fixpoint accum_add (o : order) (k : cval) (x : res value) (acc : list (cval * list (res value)))
  : list (cval * list (res value)) :=
  match acc with
  | [] => [(k, [x])]
  | (k', xs) :: r => if equiv o k k' then (k', xs ++ [x]) :: r else (k', xs) :: accum_add o k x r
  end.
Definition accum_all (o : order) (conv : cval -> res value) (l : list (cval * cval)) :=
  fold_left (fun acc p => accum_add o (fst p) (conv (snd p)) acc) l [].

Definition zip_with {A B C} (f : A -> B -> C) := fix go (l : list A) (r : list B) : list C :=
  match l, r with a :: l', b :: r' => f a b :: go l' r' | _, _ => [] end.
Definition pick_res {A B} (f : A -> res B) := fix go (l : list A) (i : nat) : res B :=
  match l, i with
  | a :: _, O => f a
  | _ :: l', S i' => go l' i'
  | [], _ => Undef
  end.

(** conversion_traits.h:816-857 (incoming_caster); conversions.h:1214-1217 (optional),
    1286-1288 (variant), 1337-1339, 1371-1373 (tuple), 1435-1437 (pair) *)
Fixpoint to_dart (t : cty) (c : cval) {struct t} : res value :=
  match t, c with
  | TNull, CNull => Ok VNull
  | TBool, CBool b => Ok (VBool b)
  | TInt _, CInt z => Ok (VInt (conv int64 z))
  | TDouble, CDouble d => Ok (VDec d)
  | TFloat, CFloat f => Ok (VDec (widen f))
  | TStr, CStr s => Ok (VStr s)
  | TSeq _ a, CList l => push_all (map (to_dart a) l) (VArr [])
  | TSet _ _ a, CList l => push_all (map (to_dart a) l) (VArr [])
  | TMap _ k v, CMap l => add_fields (map (fun p => (to_dart k (fst p), to_dart v (snd p))) l) (VObj [])
  | TMulti o k v, CMap l =>
      add_fields (map (fun p => (to_dart k (fst p), push_all (snd p) (VArr []))) (accum_all o (to_dart v) l)) (VObj [])
  | TOpt a, COpt o => match o with Some x => to_dart a x | None => Ok VNull end
  | TPair a b, CList [x; y] => push_all [to_dart a x; to_dart b y] (VArr [])
  | TTup ts, CList l => push_all (zip_with to_dart ts l) (VArr [])
  | TVar ts, CVar i x => pick_res (fun a => to_dart a x) ts i
  | _, _ => Undef
  end.

(** ** Out of a packet *)

Fixpoint collect {A} (l : list (res A)) : res (list A) :=
  match l with [] => Ok [] | e :: r => x <- e ;; xs <- collect r ;; Ok (x :: xs) end.

(** Iterating backwards and putting each in front: conversions.h:546-560
    (forward_list), 298-315 (array: the arguments of build_array_impl), 1341-1350
    (tuple); arrays and tuples are converted only then. *)
Fixpoint put_in_front {A} (l : list (res A)) (acc : list A) : res (list A) :=
  match l with [] => Ok acc | e :: r => x <- e ;; put_in_front r (x :: acc) end.
Fixpoint gather {A} (l acc : list A) : list A :=
  match l with [] => acc | x :: r => gather r (x :: acc) end.

(** emplace, by the standard's contract: at the upper bound; when hashed, after the
    last equal one.  Without [multi] nothing happens if there is an equal one. *)
Fixpoint emplace_at {A} (key : A -> cval) (lt : cval -> cval -> bool) (x : A) (l : list A) : list A :=
  match l with
  | [] => [x]
  | y :: r => if lt (key x) (key y) then x :: l else y :: emplace_at key lt x r
  end.
Fixpoint emplace_hashed {A} (key : A -> cval) (keq : cval -> cval -> bool) (x : A) (l : list A) : list A :=
  match l with
  | [] => [x]
  | y :: r =>
      if keq (key x) (key y) && negb (existsb (fun z => keq (key x) (key z)) r) then y :: x :: r
      else y :: emplace_hashed key keq x r
  end.
Definition emplace {A} (key : A -> cval) (o : order) (multi : bool) (x : A) (l : list A) : list A :=
  if negb multi && existsb (fun y => equiv o (key x) (key y)) l then l
  else match o with
       | Ordered lt => emplace_at key lt x l
       | Hashed keq _ => emplace_hashed key keq x l
       end.
Definition emplace_all {A} (key : A -> cval) (o : order) (multi : bool) (l : list A) : list A :=
  fold_left (fun acc x => emplace key o multi x acc) l [].

(** The loop over the members of an object: conversions.h:623-637, 704-718 (maps),
    785-805, 867-887 (multimaps: an array is several values). *)
Definition pair_of (k v : res cval) : res (cval * cval) := a <- k ;; b <- v ;; Ok (a, b).
Fixpoint collect_groups (l : list (res cval * list (res cval))) : res (list (cval * cval)) :=
  match l with
  | [] => Ok []
  | (ek, es) :: r => k <- ek ;; xs <- collect es ;; rest <- collect_groups r ;; Ok (map (pair k) xs ++ rest)
  end.

(** Trying the alternatives of a variant; anything thrown is caught:
    conversions.h:1256-1282. *)
Definition first_ok (f : cty -> res cval) := fix go (ts : list cty) (i : nat) : res cval :=
  match ts with
  | [] => Throw type_error
  | a :: r => match f a with Ok x => Ok (CVar i x) | Throw _ => go r (S i) | e => e end
  end.

(** conversion_traits.h:940-1012 (outgoing_caster); conversions.h:239-253, 332-341,
    399-412, 473-486, 546-560 (sequences), 945-957, 1014-1026, 1083-1095, 1155-1167
    (sets), 1223-1226 (optional), 1296-1299 (variant), 1381-1389 (tuple), 1445-1453
    (pair).  static_cast of an integer is reduction (Ordered.v). *)
Fixpoint from_dart (t : cty) (v : value) {struct t} : res cval :=
  match t with
  | TNull => match v with VNull => Ok CNull | _ => Throw type_error end
  | TBool => Ok (CBool (match v with VBool b => b | VNull => false | _ => true end))
  | TInt i => match v with VInt z => Ok (CInt (conv i z)) | _ => Throw type_error end
  | TDouble => match v with VDec d => Ok (CDouble d) | _ => Throw type_error end
  | TFloat => match v with VDec d => Ok (CFloat (to_float d)) | _ => Throw type_error end
  | TStr => match v with VStr s => Ok (CStr s) | _ => Throw type_error end
  | TSeq k a =>
      match v with
      | VArr ws =>
          match k with
          | Vec | Deq | Lst => l <- collect (map (from_dart a) ws) ;; Ok (CList l)
          | Fwd => l <- put_in_front (map (from_dart a) (rev ws)) [] ;; Ok (CList l)
          | Arr n =>
              if Nat.eqb (length ws) n then l <- collect (map (from_dart a) (gather (rev ws) [])) ;; Ok (CList l)
              else Throw type_error
          end
      | _ => Throw type_error
      end
  | TSet o m a =>
      match v with
      | VArr ws => l <- collect (map (from_dart a) ws) ;; Ok (CList (emplace_all (fun x => x) o m l))
      | _ => Throw type_error
      end
  | TMap o k x =>
      match v with
      | VObj fs =>
          l <- collect (map (fun p => pair_of (from_dart k (VStr (fst p))) (from_dart x (snd p))) fs) ;;
          Ok (CMap (emplace_all fst o false l))
      | _ => Throw type_error
      end
  | TMulti o k x =>
      match v with
      | VObj fs =>
          l <- collect_groups (map (fun p => (from_dart k (VStr (fst p)),
                                              match snd p with VArr ws => map (from_dart x) ws | w => [from_dart x w] end)) fs) ;;
          Ok (CMap (emplace_all fst o true l))
      | _ => Throw type_error
      end
  | TOpt a => match v with VNull => Ok (COpt None) | _ => x <- from_dart a v ;; Ok (COpt (Some x)) end
  | TPair a b =>
      match v with
      | VArr [w; u] => x <- from_dart a w ;; y <- from_dart b u ;; Ok (CList [x; y])
      | _ => Throw type_error
      end
  | TTup ts =>
      match v with
      | VArr ws =>
          if Nat.eqb (length ws) (length ts) then l <- collect (zip_with from_dart ts (gather (rev ws) [])) ;; Ok (CList l)
          else Throw type_error
      | _ => Throw type_error
      end
  | TVar ts => first_ok (fun a => from_dart a v) ts O
  end.

(** ** Comparison *)

(** Two doubles that are not bit patterns: an integer was converted. *)
Definition num_eq (d z : Z) : bool := SFeqb (sf_of_bits d) (sf_of_int z).

(** Comparing packets to each other (C22), with no storage shared. *)
Fixpoint pkt_eqb (v w : value) {struct v} : bool :=
  match v, w with
  | VNull, VNull => true
  | VObj fs, VObj gs =>
      (fix go (l r : list (str * value)) {struct l} : bool :=
         match l, r with
         | [], [] => true
         | (k, a) :: l', (j, b) :: r' => str_same k j && pkt_eqb a b && go l' r'
         | _, _ => false
         end) fs gs
  | VArr vs, VArr ws =>
      (fix go (l r : list value) {struct l} : bool :=
         match l, r with
         | [], [] => true
         | a :: l', b :: r' => pkt_eqb a b && go l' r'
         | _, _ => false
         end) vs ws
  | VStr s, VStr t => str_same s t
  | VInt a, VInt b => a =? b
  | VDec a, VDec b => ieee_eqb a b
  | VBool a, VBool b => Bool.eqb a b
  | _, _ => false
  end.

(** Stops at the first difference; both ranges are as long as the first. *)
Fixpoint all_true (l : list (res bool)) : res bool :=
  match l with [] => Ok true | e :: r => b <- e ;; if b : bool then all_true r else Ok false end.

(** conversions.h:583-597 (forward_list): only the packet is bounded. *)
Definition cmp_fwd (f : value -> cval -> res bool) := fix go (ws : list value) (l : list cval) : res bool :=
  match ws, l with
  | [], [] => Ok true
  | [], _ :: _ => Ok false
  | _ :: _, [] => Oob
  | w :: ws', x :: l' => b <- f w x ;; if b : bool then go ws' l' else Ok false
  end.

(** std::is_permutation as in libstdc++ (stl_algobase.h, __is_permutation): skip what
    agrees in step, then count. *)
Fixpoint count {A} (f : A -> res bool) (l : list A) : res nat :=
  match l with [] => Ok O | x :: r => b <- f x ;; n <- count f r ;; Ok (if b : bool then S n else n) end.
Fixpoint find_in {A} (f : A -> res bool) (l : list A) : res bool :=
  match l with [] => Ok false | x :: r => b <- f x ;; if b : bool then Ok true else find_in f r end.
Section Perm.
  Context {A B : Type} (self : A -> A -> res bool) (eq : A -> B -> res bool).
  Fixpoint perm_count (seen l : list A) (r : list B) : res bool :=
    match l with
    | [] => Ok true
    | x :: l' =>
        dup <- find_in (fun y => self y x) seen ;;
        if dup : bool then perm_count (seen ++ [x]) l' r
        else
          n <- count (fun y => eq x y) r ;;
          if Nat.eqb n O then Ok false
          else m <- count (fun y => self y x) l ;;
               if Nat.eqb m n then perm_count (seen ++ [x]) l' r else Ok false
    end.
  Fixpoint is_perm (l : list A) (r : list B) : res bool :=
    match l, r with
    | [], _ => Ok true
    | x :: l', y :: r' => b <- eq x y ;; if b : bool then is_perm l' r' else perm_count [] l r
    | _ :: _, [] => Oob
    end.
End Perm.

(** Looking a key up, converted to a packet unless it is a string: conversions.h:66-95;
    heap/object.tcc:169-181. *)
Definition look (v : value) (k : res value) : res value :=
  kk <- k ;; match kk with VStr s => h_get v s | _ => Throw type_error end.

(** The first group of a multimap: conversions.h:121-165 ([next]). *)
Definition same_group (o : order) (k k' : cval) : bool :=
  match o with Ordered lt => negb (lt k k') | Hashed _ eqeq => eqeq k' k end.
Fixpoint group (o : order) (k : cval) (l : list (cval * cval)) : list (cval * cval) * list (cval * cval) :=
  match l with
  | [] => ([], [])
  | p :: r => if same_group o k (fst p) then let '(g, r') := group o k r in (p :: g, r') else ([], l)
  end.

(** Equality of two C++ values of a type (used inside a multimap): hashed
    containers as permutations. *)
Fixpoint cpp_eq (t : cty) (x y : cval) {struct t} : res bool :=
  match t, x, y with
  | TNull, CNull, CNull => Ok true
  | TBool, CBool a, CBool b => Ok (Bool.eqb a b)
  | TInt _, CInt a, CInt b => Ok (a =? b)
  | TDouble, CDouble a, CDouble b => Ok (ieee_eqb a b)
  | TFloat, CFloat a, CFloat b => Ok (ieee_eqb (widen a) (widen b))
  | TStr, CStr a, CStr b => Ok (sv_eqb a b)
  | TSeq _ a, CList l, CList r | TSet (Ordered _) _ a, CList l, CList r =>
      if Nat.eqb (length l) (length r) then all_true (zip_with (cpp_eq a) l r) else Ok false
  | TSet (Hashed _ _) _ a, CList l, CList r =>
      if Nat.eqb (length l) (length r) then is_perm (cpp_eq a) (cpp_eq a) l r else Ok false
  | TMap (Ordered _) k v, CMap l, CMap r | TMulti (Ordered _) k v, CMap l, CMap r =>
      if Nat.eqb (length l) (length r) then
        all_true (zip_with (fun p q => b <- cpp_eq k (fst p) (fst q) ;; if b : bool then cpp_eq v (snd p) (snd q) else Ok false) l r)
      else Ok false
  | TMap (Hashed _ _) k v, CMap l, CMap r | TMulti (Hashed _ _) k v, CMap l, CMap r =>
      let eq := fun p q => b <- cpp_eq k (fst p) (fst q) ;; if b : bool then cpp_eq v (snd p) (snd q) else Ok false in
      if Nat.eqb (length l) (length r) then is_perm eq eq l r else Ok false
  | TOpt a, COpt None, COpt None => Ok true
  | TOpt a, COpt (Some u), COpt (Some w) => cpp_eq a u w
  | TOpt a, COpt _, COpt _ => Ok false
  | TPair a b, CList [u; w], CList [u'; w'] => e <- cpp_eq a u u' ;; if e : bool then cpp_eq b w w' else Ok false
  | TTup ts, CList l, CList r => all_true (zip_with (fun f p => f (fst p) (snd p)) (map cpp_eq ts) (combine l r))
  | TVar ts, CVar i u, CVar j w => if Nat.eqb i j then pick_res (fun a => cpp_eq a u w) ts i else Ok false
  | _, _, _ => Undef
  end.

(** conversions.h:97-119 (generic_multimap_compare_impl); [fuel] is the number of
    pairs, and each round takes one at least. *)
Section Multi.
  Context (o : order) (self : cval -> cval -> res bool) (eq : value -> cval -> res bool) (key : cval -> res value) (v : value).
  Fixpoint cmp_multi (fuel : nat) (l : list (cval * cval)) : res bool :=
    match l, fuel with
    | [], _ => Ok true
    | _, O => Fuel
    | p :: r, S f =>
        let '(g, rest) := group o (fst p) r in
        w <- look v (key (fst p)) ;;
        match w with
        | VArr ws =>
            if Nat.eqb (length ws) (length (p :: g)) then
              b <- is_perm (fun x y => self (snd x) (snd y)) (fun x y => eq y (snd x)) (p :: g) ws ;;
              if b : bool then cmp_multi f rest else Ok false
            else Ok false
        | _ => Ok false
        end
    end.
End Multi.

(** conversion_traits.h:1065-1104 (compare_impl); conversions.h:203-217, 276-291,
    361-376, 435-450, 509-524 (sequences), 979-992, 1048-1061, 1118-1133, 1189-1202
    (sets), 663-678, 744-759 (maps), 831-842, 913-924 (multimaps), 1245-1250
    (optional), 1321-1330 (variant), 1352-1363, 1411-1422 (tuple), 1477-1491 (pair) *)
Fixpoint cmp (t : cty) (v : value) (c : cval) {struct t} : res bool :=
  match t, c with
  | TNull, CNull => Ok (match v with VNull => true | _ => false end)
  | TBool, CBool b => Ok (match v with VBool b' => Bool.eqb b' b | _ => false end)
  | TInt _, CInt z =>
      Ok (match v with VInt z' => z' =? conv int64 z | VDec d => num_eq d (conv int64 z) | _ => false end)
  | TDouble, CDouble d =>
      Ok (match v with VInt z => num_eq d z | VDec d' => ieee_eqb d' d | _ => false end)
  | TFloat, CFloat f =>
      Ok (match v with VInt z => num_eq (widen f) z | VDec d' => ieee_eqb d' (widen f) | _ => false end)
  | TStr, CStr s => Ok (match v with VStr s' => sv_eqb s' s | _ => false end)
  | TSeq k a, CList l =>
      match v with
      | VArr ws =>
          match k with
          | Fwd => cmp_fwd (cmp a) ws l
          | _ => if Nat.eqb (length ws) (length l) then all_true (zip_with (cmp a) ws l) else Ok false
          end
      | _ => Ok false
      end
  | TSet _ _ a, CList l =>
      match v with
      | VArr ws =>
          if Nat.eqb (length ws) (length l) then is_perm (fun x y => Ok (pkt_eqb x y)) (cmp a) ws l else Ok false
      | _ => Ok false
      end
  | TMap _ k x, CMap l =>
      match v with
      | VObj fs =>
          if Nat.eqb (length fs) (length l) then
            all_true (map (fun p => w <- look v (to_dart k (fst p)) ;; cmp x w (snd p)) l)
          else Ok false
      | _ => Ok false
      end
  | TMulti o k x, CMap l =>
      match v with
      | VObj _ => cmp_multi o (cpp_eq x) (cmp x) (to_dart k) v (length l) l
      | _ => Ok false
      end
  | TOpt a, COpt o => match o with Some x => cmp a v x | None => Ok (match v with VNull => true | _ => false end) end
  | TPair a b, CList [x; y] =>
      match v with
      | VArr [w; u] => e <- cmp a w x ;; if e : bool then cmp b u y else Ok false
      | _ => Ok false
      end
  | TTup ts, CList l =>
      match v with
      | VArr ws =>
          if Nat.eqb (length ws) (length ts) then
            all_true (zip_with (fun f p => f (fst p) (snd p)) (map cmp ts) (combine ws l))
          else Ok false
      | _ => Ok false
      end
  | TVar ts, CVar i x => pick_res (fun a => cmp a v x) ts i
  | _, _ => Undef
  end.
