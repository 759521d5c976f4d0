(** Properties of the mutable object and array on one handle: C14, C15, C42, C43. *)

From Coq Require Import ZArith List Bool Sorted Lia String.
From Verif Require Import Base Keys KeysFacts Wire Spec SpecOps HeapOps HeapFacts HeapRun HistFacts InjectFacts Demo.
Import ListNotations.
Open Scope string_scope.
Open Scope list_scope.
Open Scope Z_scope.

Lemma heap_okmap fs : heap_value (VObj fs) -> okmap fs.
Proof.
  intros H. inversion H as [? N F| | | | | |]; subst. split; [exact N|].
  intros k L. apply fs_keys in L. apply in_map_iff in L. destruct L as (kv & <- & I).
  rewrite Forall_forall in F. apply F. assumption.
Qed.

(** ** C14 *)

(** Whatever calls are made on a mutable object, in any order and with any
    arguments, they answer as the finite map would: in particular none commits an
    out-of-bounds access and none throws except where [map_step] says so. *)
Theorem c14_object_is_a_map fs os : heap_value (VObj fs) ->
  exists m', map_steps (fun k => lookup k fs) os (snd (run (VObj fs) os)) m' /\
  exists fs', fst (run (VObj fs) os) = VObj fs' /\ StronglySorted key_lt (map fst fs') /\
    forall k, lookup k fs' = m' k.
Proof.
  intros H. destruct (obj_history os fs (heap_okmap _ H)) as (fs' & E & [S _] & St).
  exists (fun k => lookup k fs'). split; [exact St|]. exists fs'. auto.
Qed.
Print Assumptions c14_object_is_a_map.

(** The finite map leaves no choice: two lists of answers it allows are equal. *)
Theorem c14_one_answer os m l1 l2 m1 m2 :
  map_steps m os l1 m1 -> map_steps m os l2 m2 -> l1 = l2 /\ forall k, m2 k = m1 k.
Proof. apply map_steps_det. intros k. reflexivity. Qed.
Print Assumptions c14_one_answer.

(** A history on the empty object: overwriting, erasing in the middle, a missing
    key, a key of the wrong type, an array call on an object. *)
Example c14_case :
  heap_value (VObj []) /\
  snd (run (VObj []) [Insert (VStr (b "bb")) (VInt 1); Insert (VStr (b "a")) (VInt 2);
                      Insert (VStr (b "bb")) VNull; Keys; Insert (VStr (b "c")) (VBool true);
                      Erase (VStr (b "c")); Set_ (VStr (b "x")) VNull; Insert (VInt 0) VNull;
                      Push_back VNull; Size; Erase (VStr (b "bb")); Get (b "a"); Clear; Has (b "a")]) =
  [A_pair (b "bb") (VInt 1); A_pair (b "a") (VInt 2); A_pair (b "bb") VNull;
   A_values [VStr (b "a"); VStr (b "bb")]; A_pair (b "c") (VBool true); A_pair (b "bb") VNull;
   A_err out_of_range; A_err type_error; A_err type_error; A_size 2; A_end; A_value (VInt 2); A_unit; A_bool false].
Proof. split; [heap_tac|vm_compute; reflexivity]. Qed.

(** ** C15 *)

(** The same for a mutable array and a list.  The bound keeps sizes below 2^63 (no
    machine could hold more); indexes are any int64 or size_t. *)
Theorem c15_array_is_a_list l os : Forall op_ok os -> zlen l + zlen os <= 2 ^ 62 ->
  exists l', list_steps l os (snd (run (VArr l) os)) l' /\ fst (run (VArr l) os) = VArr l'.
Proof. intros F B. destruct (arr_history os l F B) as (l' & E & St). exists l'. auto. Qed.
Print Assumptions c15_array_is_a_list.

Example c15_case :
  let os := [Push_back (VInt 1); Push_front (VInt 0); Insert (VInt 2) (VStr (b "x")); Insert (VInt (-1)) VNull;
             Set_ (VInt 3) VNull; Set_ (VInt 1) (VBool true); Erase (VInt 0); Back; Resize 4 (VInt 9); Values;
             Pop_back; Pop_front; At_idx 7; Get_idx 0; Erase (VInt 1); Size; Resize 0 VNull; Pop_back; At_back] in
  (Forall op_ok os /\ zlen (@nil value) + zlen os <= 2 ^ 62) /\
  snd (run (VArr []) os) =
  [A_unit; A_unit; A_item 2 (VStr (b "x")); A_err out_of_range; A_err out_of_range; A_item 1 (VBool true);
   A_item 0 (VBool true); A_value (VStr (b "x")); A_unit;
   A_values [VBool true; VStr (b "x"); VInt 9; VInt 9]; A_unit; A_unit; A_err out_of_range;
   A_value (VStr (b "x")); A_end; A_size 1; A_unit; A_unit; A_err out_of_range].
Proof.
  cbv zeta. split; [split|].
  - repeat constructor; cbn; lia.
  - vm_compute. congruence.
  - vm_compute. reflexivity.
Qed.

(** ** C42: injecting pairs into a mutable object *)

(** The result holds every injected key with the last value given for it and every
    other pair of the object; the first key that is not a string, or too long,
    decides the exception. *)
Theorem c42_inject fs ps : heap_value (VObj fs) -> Forall (fun p => zlen (fst p) <= 65535) ps ->
  exists fs', h_inject (VObj fs) (map (fun p => (VStr (fst p), snd p)) ps) = Ok (VObj fs') /\
    StronglySorted key_lt (map fst fs') /\
    forall k, lookup k fs' = match lookup k (rev ps) with Some x => Some x | None => lookup k fs end.
Proof.
  intros H F. destruct (h_inject_ok ps fs (heap_okmap _ H) F) as (fs' & E & [S _] & L). exists fs'. auto.
Qed.
Print Assumptions c42_inject.

Theorem c42_inject_throws fs ps k x r : heap_value (VObj fs) -> Forall (fun p => zlen (fst p) <= 65535) ps ->
  (match k with VStr s => 65535 < zlen s | _ => True end) ->
  h_inject (VObj fs) (map (fun p => (VStr (fst p), snd p)) ps ++ (k, x) :: r) =
    Throw (match k with VStr _ => invalid_argument | _ => type_error end).
Proof. intros H F B. apply h_inject_throws; auto using heap_okmap. Qed.
Print Assumptions c42_inject_throws.

Example c42_case :
  heap_value demo /\ Forall (fun p => zlen (fst p) <= 65535) [(b "pi", VInt 3); (b "n", VNull); (b "pi", VInt 4)] /\
  (match demo with
   | VObj fs =>
       match h_inject demo (map (fun p => (VStr (fst p), snd p)) [(b "pi", VInt 3); (b "n", VNull); (b "pi", VInt 4)]) with
       | Ok (VObj fs') => map fst fs' = [b "a"; b "d"; b "n"; b "z"; b "pi"; b "arg"] /\ lookup (b "pi") fs' = Some (VInt 4)
       | _ => False
       end
   | _ => False
   end).
Proof. split; [exact demo_heap|]. split; [repeat constructor; vm_compute; congruence|]. vm_compute. split; reflexivity. Qed.

(** ** C43: projecting a mutable object *)
Theorem c43_project fs keys : heap_value (VObj fs) ->
  exists fs', h_project (VObj fs) keys = Ok (VObj fs') /\ StronglySorted key_lt (map fst fs') /\
    (forall k, In k keys -> lookup k fs' = lookup k fs) /\
    (forall k, ~ In k keys -> lookup k fs' = None).
Proof.
  intros H. destruct (h_project_ok fs keys (heap_okmap _ H)) as (fs' & E & [S _] & L).
  exists fs'. split; [exact E|]. split; [exact S|]. split; intros k I; rewrite L;
    destruct (in_dec (list_eq_dec Byte.byte_eq_dec) k keys); tauto.
Qed.
Print Assumptions c43_project.

Example c43_case :
  heap_value demo /\
  match h_project demo [b "z"; b "nope"; b "a"; b "z"] with
  | Ok (VObj fs') => map fst fs' = [b "a"; b "z"]
  | _ => False
  end.
Proof. split; [exact demo_heap|]. vm_compute. reflexivity. Qed.
