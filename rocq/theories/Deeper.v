(** Finalizing and comparing mutable values with a bounded number of nested calls.
    Model only; [Fuel] is the stack exhausted. *)

From Coq Require Import ZArith List Bool.
From Verif Require Import Base Keys Dec Wire Compare.
Import ListNotations.
Open Scope Z_scope.

(** heap/detail.tcc:65-141 (upper_bound), as Wire.v has it, each level a nested call *)
Fixpoint bound_within (f : nat) (v : value) : res Z :=
  match f with
  | O => Fuel
  | S f' =>
      match v with
      | VObj fs =>
          max <- ub_fields (bound_within f') fs (8 + 8 * (zlen fs + 1)) ;;
          let max := align_up max (alignment_of R_object) in
          if max_aggregate_size <? max then Throw length_error else Ok max
      | VArr vs =>
          max <- ub_elems (bound_within f') vs (8 + 8 * (zlen vs + 1)) ;;
          if max_aggregate_size <? max then Throw length_error else Ok max
      | _ => upper_bound v
      end
  end.

(** heap/detail.tcc:144-191 (layout), object.tcc:346-381, array.tcc:241-262: the
    constructor of an aggregate between two calls of layout counts with them. *)
Fixpoint layout_within (f : nat) (m : mem) (o : Z) (v : value) : res (mem * Z) :=
  match f with
  | O => Fuel
  | S f' =>
      match v with
      | VObj fs =>
          m <- wr_le m (o + 4) 4 (zlen fs) ;;
          '(m, offset) <- layout_fields (layout_within f') o fs m (8 + 8 * zlen fs) 0 ;;
          let offset := align_up offset (alignment_of R_object) in
          m <- wr_le m o 4 offset ;;
          sz <- find_sizeof m R_object o ;;
          Ok (m, sz)
      | VArr vs =>
          m <- wr_le m (o + 4) 4 (zlen vs) ;;
          '(m, offset) <- layout_elems (layout_within f') o vs m (8 + 8 * zlen vs) 0 ;;
          m <- wr_le m o 4 offset ;;
          sz <- find_sizeof m R_array o ;;
          Ok (m, sz)
      | _ => layout m o v
      end
  end.

(** conversion_traits.h:118-140 *)
Definition finalize_within (f : nat) (v : value) : res mem :=
  match v with
  | VObj _ =>
      bytes <- bound_within f v ;;
      '(m, _) <- layout_within f (zeros bytes) 0 v ;;
      Ok m
  | _ => Throw type_error
  end.

(** std::equal over two containers of one size *)
Fixpoint in_step {A} (g : A -> A -> res bool) (l r : list A) : res bool :=
  match l, r with
  | [], [] => Ok true
  | a :: l', c :: r' => q <- g a c ;; if q : bool then in_step g l' r' else Ok false
  | _, _ => Ok false
  end.

(** Keys are heap variables themselves, and comparing two is a call of its own. *)
Definition key_within (f : nat) (same : bool) (k j : str) : res bool :=
  match f with O => Fuel | S _ => Ok (same || str_same k j) end.

(** conversion_traits.h:219-246 (heap == heap), as Compare.v has it *)
Fixpoint hcmp_within (f : nat) (same : bool) (x y : hv) : res bool :=
  match f with
  | O => Fuel
  | S f' =>
      if same then Ok true
      else
        match x, y with
        | HObj s fs, HObj t gs =>
            if zlen fs =? zlen gs then
              in_step (fun a c =>
                q <- key_within f' (s =? t) (fst a) (fst c) ;;
                if q : bool then hcmp_within f' (s =? t) (snd a) (snd c) else Ok false) fs gs
            else Ok false
        | HArr s vs, HArr t ws =>
            if zlen vs =? zlen ws then in_step (hcmp_within f' (s =? t)) vs ws else Ok false
        | _, _ => Ok (hcmp false x y)
        end
  end.
