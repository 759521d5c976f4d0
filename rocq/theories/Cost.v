(** What validating and searching a finalized buffer cost: the functions of Read.v with
    a counter.  Model only. *)

From Coq Require Import ZArith List Bool.
From Verif Require Import Base Keys Dec Wire Read.
Import ListNotations.
Open Scope Z_scope.

(** ** Validation: the number of calls of valid_buffer *)

(** object.tcc:543-594, see [valid_pairs] *)
Fixpoint cost_pairs (vb : Z -> Z -> Z -> res (bool * Z)) (silent : bool) (bs : Z) (m : mem)
    (o total prev i : Z) (n : nat) : res (bool * Z) :=
  match n with
  | O => Ok (true, 0)
  | S n' =>
      '(kt, kp) <- load_key m o i ;;
      ok <- valid_child silent bs kt kp o total prev ;;
      if negb ok then Ok (false, 0) else
      '(ok, c) <- vb kt kp (total - (kp - o)) ;;
      if negb ok then Ok (false, c) else
      '(vt, vp) <- load_value bs m o i ;;
      ok <- valid_child silent bs vt vp o total kp ;;
      if negb ok then Ok (false, c) else
      '(ok, c1) <- vb vt vp (total - (vp - o)) ;;
      if negb ok then Ok (false, c + c1) else
      '(ok, c2) <- cost_pairs vb silent bs m o total vp (i + 1) n' ;; Ok (ok, c + c1 + c2)
  end.

(** array.tcc:314-335, see [valid_elems] *)
Fixpoint cost_elems (vb : Z -> Z -> Z -> res (bool * Z)) (silent : bool) (bs : Z) (m : mem)
    (o total prev i : Z) (n : nat) : res (bool * Z) :=
  match n with
  | O => Ok (true, 0)
  | S n' =>
      '(vt, vp) <- get_elem m o i ;;
      match vp with
      | None => ok <- vfail silent ;; Ok (ok, 0)
      | Some vp =>
          ok <- valid_child silent bs vt vp o total prev ;;
          if negb ok then Ok (false, 0) else
          '(ok, c1) <- vb vt vp (total - (vp - o)) ;;
          if negb ok then Ok (false, c1) else
          '(ok, c2) <- cost_elems vb silent bs m o total vp (i + 1) n' ;; Ok (ok, c1 + c2)
      end
  end.

Definition plain_cost (x : res bool) : res (bool * Z) := ok <- x ;; Ok (ok, 0).

(** object.tcc:504-595, array.tcc:275-336, see [valid_aggregate] *)
Definition cost_aggregate (silent : bool) (m : mem) (o bytes : Z)
    (children : Z -> nat -> res (bool * Z)) : res (bool * Z) :=
  if bytes <? 8 then plain_cost (vfail silent)
  else
    total <- rd_le m o 4 ;;
    if bytes <? total then plain_cost (vfail silent)
    else
      n <- agg_count m o ;;
      if total <? 8 + 8 * n then plain_cost (vfail silent)
      else
        ok <- valid_types silent m o 0 (Z.to_nat n) ;;
        if negb ok then Ok (false, 0) else children total (Z.to_nat n).

(** common.h:1295-1305, see [valid_buffer]: this call and those below it *)
Fixpoint cost_buffer (fuel : nat) (silent : bool) (bs : Z) (m : mem) (t o bytes : Z)
  : res (bool * Z) :=
  match fuel with
  | O => Fuel
  | S fuel' =>
      '(ok, c) <-
        (if t =? R_null then Ok (true, 0)
         else if negb (valid_type t) then Ok (false, 0)
         else
           let vb t o bytes := cost_buffer fuel' silent bs m t o bytes in
           if t =? R_object then
             cost_aggregate silent m o bytes (fun total n =>
               cost_pairs vb silent bs m o total o 0 n)
           else if t =? R_array then
             cost_aggregate silent m o bytes (fun total n =>
               cost_elems vb silent bs m o total o 0 n)
           else plain_cost (valid_buffer 1 silent bs m t o bytes)) ;;
      Ok (ok, 1 + c)
  end.

(** dart.h:13697-13721 (is_valid) and 13848-13872 (validate) *)
Definition valid_cost (silent : bool) (bs : Z) (m : mem) : res (bool * Z) :=
  cost_buffer (S (length m)) silent bs m R_object 0 (zlen m).

(** ** Search: the number of vtable entries get_key looks at *)

(** object.tcc:635-678, see [get_key_loop] *)
Fixpoint probe_loop (fuel : nat) (m : mem) (o : Z) (key : str) (low high : Z)
  : res (option (Z * Z * Z) * Z) :=
  if high <? low then Ok (None, 0)
  else match fuel with
  | O => Fuel
  | S fuel' =>
      let mid := Z.quot (low + high) 2 in
      e <- rd_entry m o mid ;;
      let comparison := - prefix_compare e key in
      comparison <-
        (if negb (comparison =? 0) then Ok comparison
         else curr <- rd_strv m 2 (o + e_off e) ;;
              Ok (if zlen curr =? zlen key then sv_compare key curr
                  else zlen key - zlen curr)) ;;
      if comparison =? 0 then Ok (Some (mid, e_type e, o + e_off e), 1)
      else
        '(r, c) <- (if 0 <? comparison then probe_loop fuel' m o key (mid + 1) high
                    else probe_loop fuel' m o key low (mid - 1)) ;;
        Ok (r, 1 + c)
  end.
Definition probe_key (m : mem) (o : Z) (key : str) : res (option (Z * Z * Z) * Z) :=
  n <- agg_count m o ;;
  probe_loop (Z.to_nat n) m o key 0 (to_signed 32 n - 1).
