(** Destroying mutable values and parsing text, counting nested calls.

    Nothing here is new behaviour: [release] is [Store.drop] and [read_within] is
    [Text.read_value], both written with the recursion of the code, so that the first
    argument is the number of nested calls the stack has room for. Serializing
    ([Json.json_serialize]) and making a mutable value from a buffer
    ([HeapOps.from_buffer]) already are written so. *)

From Coq Require Import ZArith List Bool String.
From Coq Require Import Strings.Byte.
From Verif Require Import Base Keys Wire HeapOps SpecJson Json Text Store.
Import ListNotations.
Open Scope list_scope.
Open Scope Z_scope.

(** support/ptrs.tcc:69-75 (~counted_ptr_base: the last pointer destroys what it points to), or
    std::shared_ptr; what it points to is the std::map or std::vector of dart.h:7706-7710, whose
    destructor destroys each handle, and so on downwards. *)
Definition release_all (rel : cells -> hval -> res cells) : cells -> list hval -> res cells :=
  fix go cs hs := match hs with [] => Ok cs | h :: r => cs1 <- rel cs h ;; go cs1 r end.
Fixpoint release (f : nat) (cs : cells) (h : hval) : res cells :=
  match f with
  | O => Fuel
  | S f' =>
      match href h with
      | None => Ok cs
      | Some a =>
          match cell_at cs a with
          | Some (n, c) =>
              if n =? 1 then release_all (release f') (list_set a None cs) (kids c)
              else Ok (list_set a (Some (n - 1, c)) cs)
          | None => Oob
          end
      end
  end.

(** rapidjson::GenericReader::ParseValue, ParseObject and ParseArray call one another for every
    value within a value (connector/json.tcc:135-160, 162-192 call Parse without
    kParseIterativeFlag). Members and elements one after another take no stack; [w] is only
    Coq's measure for that loop. *)
Section Within.
  Variable rd : str -> Z.
  Fixpoint read_within (f w : nat) (t : str) : option (jdoc * str) :=
    match f with
    | O => None
    | S f =>
        match t with
        | [] => None
        | c :: r =>
            if byte_eqb c x7b then
              match skip r with
              | x :: r' => if byte_eqb x x7d then Some (JObj [], r')
                           else match read_members (read_within f w) w r with Some (ms, r') => Some (JObj ms, r') | None => None end
              | [] => None
              end
            else if byte_eqb c x5b then
              match skip r with
              | x :: r' => if byte_eqb x x5d then Some (JArr [], r')
                           else match read_elements (read_within f w) w r with Some (ds, r') => Some (JArr ds, r') | None => None end
              | [] => None
              end
            else if byte_eqb c quote then
              match read_chars r with Some (s, r') => Some (JStr s, r') | None => None end
            else if byte_eqb c x74 then match literal (lit "true"%string) t with Some r' => Some (JBool true, r') | None => None end
            else if byte_eqb c x66 then match literal (lit "false"%string) t with Some r' => Some (JBool false, r') | None => None end
            else if byte_eqb c x6e then match literal (lit "null"%string) t with Some r' => Some (JNull, r') | None => None end
            else
              let '(a, r') := span numberb t in
              match read_number rd a with Some d => Some (d, r') | None => None end
        end
    end.
  Definition parse_within (f : nat) (t : str) : option jdoc :=
    match read_within f (S (List.length t)) (skip t) with
    | Some (d, r) => match skip r with [] => Some d | c :: _ => if byte_eqb c x00 then Some d else None end
    | None => None
    end.
End Within.
