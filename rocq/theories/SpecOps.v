(** What a history of calls on a mutable object or array should answer, as a
    finite map and as a list.  Specification only: nothing here mentions how the
    library stores anything. *)

From Coq Require Import ZArith List Bool Sorted.
From Verif Require Import Base Keys Wire Spec.
Import ListNotations.
Open Scope Z_scope.

(** The calls of the dart::heap interface on one handle.  [k] arguments that are
    values are dynamic keys: a string for an object, an integer for an array. *)
Inductive op : Type :=
| Insert (k x : value) | Set_ (k x : value) | Erase (k : value)
| Push_front (x : value) | Push_back (x : value) | Pop_front | Pop_back
| Resize (n : Z) (x : value) | Clear
| Get (k : str) | At (k : str) | Has (k : str) | Get_or (k : str) (d : value) | Find (k : str)
| Size | Keys | Values | Rvalues
| Get_idx (i : Z) | At_idx (i : Z) | Get_idx_or (i : Z) (d : value)
| Front | Back | At_front | At_back | Front_or (d : value) | Back_or (d : value).

(** What a call answers.  [A_pair] and [A_item] are iterators to a pair of an
    object, to a position of an array; [A_bad] is undefined behaviour. *)
Inductive ans : Type :=
| A_unit | A_value (v : value) | A_bool (b : bool) | A_size (n : Z) | A_values (vs : list value)
| A_pair (k : str) (x : value) | A_item (i : Z) (x : value) | A_end
| A_err (e : err) | A_bad.

(** The arguments the C++ types allow: int64 keys, size_t indexes, and a size
    vectors can have. *)
Definition key_ok (k : value) : Prop := match k with VInt z => - 2 ^ 63 <= z < 2 ^ 63 | _ => True end.
Definition op_ok (o : op) : Prop :=
  match o with
  | Insert k _ | Set_ k _ | Erase k => key_ok k
  | Resize n _ => 0 <= n <= 2 ^ 62
  | Get_idx i | At_idx i | Get_idx_or i _ => 0 <= i < 2 ^ 64
  | _ => True
  end.

(** ** Objects as finite maps *)

Definition amap := str -> option value.
Definition same_map (m m' : amap) : Prop := forall j, m' j = m j.
Definition upd (m : amap) (k : str) (x : option value) (m' : amap) : Prop :=
  m' k = x /\ forall j, j <> k -> m' j = m j.

Definition enumerates (m : amap) (ks : list str) : Prop :=
  StronglySorted key_lt ks /\ forall k, In k ks <-> m k <> None.

(** An iterator to the first pair whose key comes after [k]. *)
Definition next (m : amap) (k : str) (a : ans) : Prop :=
  (exists k' x, a = A_pair k' x /\ m k' = Some x /\ key_lt k k' /\
     forall j, key_lt k j -> m j <> None -> j = k' \/ key_lt k' j) \/
  (a = A_end /\ forall j, key_lt k j -> m j = None).

Definition fails (m : amap) (a : ans) (m' : amap) (E : err -> Prop) : Prop :=
  same_map m m' /\ exists e, a = A_err e /\ E e.

Definition map_step (m : amap) (o : op) (a : ans) (m' : amap) : Prop :=
  match o with
  | Insert (VStr k) x =>
      (zlen k <= 65535 -> upd m k (Some x) m' /\ a = A_pair k x) /\
      (65535 < zlen k -> fails m a m' (eq invalid_argument))
  | Set_ (VStr k) x =>
      match m k with
      | Some _ => upd m k (Some x) m' /\ a = A_pair k x
      | None => fails m a m' (eq (if 65535 <? zlen k then invalid_argument else out_of_range))
      end
  | Erase (VStr k) =>
      upd m k None m' /\ match m k with Some _ => next m k a | None => a = A_end end
  | Insert _ _ | Set_ _ _ | Erase _ => fails m a m' (eq type_error)
  | Clear => (forall j, m' j = None) /\ a = A_unit
  | Get k => same_map m m' /\ a = A_value (match m k with Some x => x | None => VNull end)
  | At k => match m k with
            | Some x => same_map m m' /\ a = A_value x
            | None => fails m a m' (eq out_of_range)
            end
  | Has k => same_map m m' /\ a = A_bool (match m k with Some _ => true | None => false end)
  | Get_or k d => same_map m m' /\ a = A_value (match m k with Some x => x | None => d end)
  | Find k => same_map m m' /\ a = match m k with Some x => A_pair k x | None => A_end end
  | Size => same_map m m' /\ exists ks, enumerates m ks /\ a = A_size (zlen ks)
  | Keys => same_map m m' /\ exists ks, enumerates m ks /\ a = A_values (map VStr ks)
  | Values => same_map m m' /\ exists ks vs, enumerates m ks /\
                Forall2 (fun k x => m k = Some x) ks vs /\ a = A_values vs
  | Rvalues => same_map m m' /\ exists ks vs, enumerates m ks /\
                Forall2 (fun k x => m k = Some x) ks vs /\ a = A_values (rev vs)
  | Get_idx_or _ d | Front_or d | Back_or d => same_map m m' /\ a = A_value d
  | At_idx i =>
      exists ks, enumerates m ks /\ fails m a m' (eq (if i <? zlen ks then type_error else out_of_range))
  | At_front | At_back =>
      exists ks, enumerates m ks /\ fails m a m' (eq (match ks with [] => out_of_range | _ => type_error end))
  | Push_front _ | Push_back _ | Pop_front | Pop_back | Resize _ _ | Get_idx _ | Front | Back =>
      fails m a m' (eq type_error)
  end.

Inductive map_steps : amap -> list op -> list ans -> amap -> Prop :=
| map_nil m m' : same_map m m' -> map_steps m [] [] m'
| map_cons m o a m1 os as_ m2 :
    map_step m o a m1 -> map_steps m1 os as_ m2 -> map_steps m (o :: os) (a :: as_) m2.

(** ** Arrays as lists *)

Definition item (l : list value) (i : nat) : ans :=
  match nth_error l i with Some x => A_item (Z.of_nat i) x | None => A_end end.
Definition value_at (l : list value) (i : Z) : option value := nth_error l (Z.to_nat i).

Definition list_step (l : list value) (o : op) (a : ans) (l' : list value) : Prop :=
  match o with
  | Insert (VInt z) x =>
      if (0 <=? z) && (z <=? zlen l)
      then l' = firstn (Z.to_nat z) l ++ x :: skipn (Z.to_nat z) l /\ a = A_item z x
      else l' = l /\ a = A_err out_of_range
  | Set_ (VInt z) x =>
      if (0 <=? z) && (z <? zlen l)
      then l' = firstn (Z.to_nat z) l ++ x :: skipn (S (Z.to_nat z)) l /\ a = A_item z x
      else l' = l /\ a = A_err out_of_range
  | Erase (VInt z) =>
      if (0 <=? z) && (z <? zlen l)
      then l' = firstn (Z.to_nat z) l ++ skipn (S (Z.to_nat z)) l /\ a = item l' (Z.to_nat z)
      else l' = l /\ a = A_end
  | Insert (VStr k) _ | Set_ (VStr k) _ =>
      l' = l /\ a = A_err (if 65535 <? zlen k then invalid_argument else type_error)
  | Insert _ _ | Set_ _ _ | Erase _ => l' = l /\ a = A_err type_error
  | Push_front x => l' = x :: l /\ a = A_unit
  | Push_back x => l' = l ++ [x] /\ a = A_unit
  | Pop_front => l' = tl l /\ a = A_unit
  | Pop_back => l' = removelast l /\ a = A_unit
  | Resize n x =>
      zlen l' = n /\ a = A_unit /\
      forall i, 0 <= i < n -> value_at l' i = Some (if i <? zlen l then nth (Z.to_nat i) l x else x)
  | Clear => l' = [] /\ a = A_unit
  | Get_idx i => l' = l /\ a = A_value (match value_at l i with Some x => x | None => VNull end)
  | Get_idx_or i d => l' = l /\ a = A_value (match value_at l i with Some x => x | None => d end)
  | At_idx i => l' = l /\ a = match value_at l i with Some x => A_value x | None => A_err out_of_range end
  | Front => l' = l /\ a = A_value (hd VNull l)
  | Back => l' = l /\ a = A_value (last l VNull)
  | Front_or d => l' = l /\ a = A_value (hd d l)
  | Back_or d => l' = l /\ a = A_value (last l d)
  | At_front => l' = l /\ a = match l with [] => A_err out_of_range | x :: _ => A_value x end
  | At_back => l' = l /\ a = match l with [] => A_err out_of_range | _ => A_value (last l VNull) end
  | Size => l' = l /\ a = A_size (zlen l)
  | Values => l' = l /\ a = A_values l
  | Rvalues => l' = l /\ a = A_values (rev l)
  | Get_or _ d => l' = l /\ a = A_value d
  | Get _ | At _ | Has _ | Find _ | Keys => l' = l /\ a = A_err type_error
  end.

Inductive list_steps : list value -> list op -> list ans -> list value -> Prop :=
| list_nil l : list_steps l [] [] l
| list_cons l o a l1 os as_ l2 :
    list_step l o a l1 -> list_steps l1 os as_ l2 -> list_steps l (o :: os) (a :: as_) l2.
