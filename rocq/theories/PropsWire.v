(** Properties of the wire format: C01, C02, C03, C08, C09, C13, C19, C20, C28,
    C29 and the findings about find() and share_bytes(). *)

From Coq Require Import ZArith List Lia Bool Sorted String.
From Coq Require Import ZifyBool ZifyNat ZifyN.
From Verif Require Import Base BaseFacts Keys KeysFacts Dec SpecDec DecFacts Wire Read Buf HeapOps Nested
  Enc EncSize Spec ReadFacts Lookup BufFacts Canon HeapFacts NestedFacts IterFacts WireMore Demo.
Import ListNotations.
Open Scope Z_scope.

(** ** C01: finalizing and reading back is lossless *)

Theorem c01_finalize_then_read_back fs m bs :
  heap_value (VObj fs) -> finalize (VObj fs) = Ok m -> bs mod 8 = 0 ->
  walk bs m = Ok (VObj fs) /\ definalize bs m = Ok (VObj fs).
Proof.
  intros H E B. split.
  - exact (finalize_walk fs m (heap_plain _ H) E bs B).
  - exact (definalize_finalize fs m bs H E B).
Qed.
Print Assumptions c01_finalize_then_read_back.

Example c01_example : heap_value demo /\
  (m <- finalize demo ;; Ok (zlen m)) = Ok 336 /\
  (m <- finalize demo ;; walk 0 m) = Ok demo /\ (m <- finalize demo ;; definalize 4096 m) = Ok demo.
Proof. split; [exact demo_heap|]. split; [|split]; vm_compute; reflexivity. Qed.

(** ** C02: finalization stays inside its allocation *)

(** The only way to fail is length_error; the block has the size that was
    computed beforehand, and the size recorded in it lies inside it. *)
Theorem c02_finalize_in_bounds fs :
  short_strings (VObj fs) ->
  finalize (VObj fs) = Throw length_error \/
  exists m n, finalize (VObj fs) = Ok m /\ upper_bound (VObj fs) = Ok (zlen m) /\
    find_sizeof m R_object 0 = Ok n /\ 8 <= n <= zlen m.
Proof. exact (finalize_in_bounds fs). Qed.
Print Assumptions c02_finalize_in_bounds.

(** Without the bound on strings the claim fails: the length is truncated to 32
    bits when the block is sized, but not when the bytes are copied. *)
Theorem c02_huge_string_refuted : exists s : str, zlen s = 2 ^ 32 /\ finalize (VObj [([], VStr s)]) = Oob.
Proof.
  exists (zeros (2 ^ 32)). assert (L : zlen (zeros (2 ^ 32)) = 2 ^ 32) by (apply zlen_zeros; lia).
  split; [exact L|]. exact (finalize_huge _ L).
Qed.
Print Assumptions c02_huge_string_refuted.

Example c02_example : short_strings demo.
Proof. exact (plain_short _ (heap_plain _ demo_heap)). Qed.

(** ** C03: lookup by key *)

(** For the object at any position of a finalized value and every search key. *)
Theorem c03_lookup root_fs m bs path fs :
  heap_value (VObj root_fs) -> finalize (VObj root_fs) = Ok m -> bs mod 8 = 0 ->
  sub_value (VObj root_fs) path = Some (VObj fs) -> Forall (fun kv => good_key (fst kv)) fs ->
  exists e, nav bs m root path = Ok e /\ forall key,
    (exists e', b_get bs m e key = Ok e' /\
       b_value bs m e' = Ok (match lookup key fs with Some x => x | None => VNull end)) /\
    match lookup key fs with
    | Some x => exists e', b_at bs m e key = Ok e' /\ b_value bs m e' = Ok x
    | None => b_at bs m e key = Throw out_of_range
    end /\
    b_has_key m e key = Ok (match lookup key fs with Some _ => true | None => false end).
Proof.
  intros H E B S G. destruct (finalize_root root_fs m bs H E B) as (R & _).
  destruct (nav_spec bs m path root _ _ R S) as (e & N & R'). exists e. split; [exact N|]. intros key.
  split; [|split].
  - destruct (b_get_spec bs m e fs key R' G) as (e' & E' & R2). eauto using represents_value.
  - pose proof (b_at_spec bs m e fs key R' G) as A. destruct (lookup key fs); [|exact A].
    destruct A as (e' & E' & R2). eauto using represents_value.
  - exact (b_has_key_spec bs m e fs key R' G).
Qed.
Print Assumptions c03_lookup.

Example c03_example :
  heap_value demo /\ good_all demo /\ sub_value demo [4%nat] = Some (VObj [(b "k", VStr (b "a string longer than twenty-three bytes")); (b "none", VNull)]).
Proof. split; [exact demo_heap|split; [exact demo_good|reflexivity]]. Qed.

(** Each restriction on keys is needed: an object whose stored key is not found. *)
Definition stored_but_absent (fs : list (str * value)) (key : str) : Prop :=
  heap_value (VObj fs) /\ lookup key fs <> None /\
  (m <- finalize (VObj fs) ;; b_has_key m root key) = Ok false /\
  (m <- finalize (VObj fs) ;; b_at 0 m root key) = Throw out_of_range.
Ltac absent_tac := split; [heap_tac|]; split; [vm_compute; discriminate|]; split; vm_compute; reflexivity.

Theorem c03_non_ascii_refuted : stored_but_absent [(b "aa", VInt 1); ([xc3; xa9], VInt 2)] [xc3; xa9].
Proof. absent_tac. Qed.
Print Assumptions c03_non_ascii_refuted.
Theorem c03_nul_refuted : stored_but_absent [([x00; x61], VInt 1); ([x61; x00], VInt 2); (b "aaa", VInt 3)] [x00; x61].
Proof. absent_tac. Qed.
Print Assumptions c03_nul_refuted.
Theorem c03_length_255_refuted :
  stored_but_absent [(repeat x7a 255, VInt 1); (repeat x61 300, VInt 2); (repeat x62 300, VInt 3)] (repeat x7a 255).
Proof. absent_tac. Qed.
Print Assumptions c03_length_255_refuted.

(** find() on a missing key hands back an iterator whose position was never set. *)
Theorem c03_find_key bs m e fs key : represents bs m e (VObj fs) -> good_keys fs ->
  match lookup key fs with
  | Some x => exists i, b_find m e key = Ok i /\ 0 <= i /\ nth_error fs (Z.to_nat i) = Some (key, x)
  | None => b_find m e key = Undef
  end.
Proof. exact (b_find_spec bs m e fs key). Qed.
Print Assumptions c03_find_key.

Theorem c03_find_missing_refuted : (m <- finalize (VObj [(b "a", VInt 1)]) ;; b_find m root (b "q")) = Undef.
Proof. vm_compute. reflexivity. Qed.
Print Assumptions c03_find_missing_refuted.

(** ** C08: canonical bytes *)

Theorem c08_canonical v w m1 m2 b1 b2 :
  heap_value v -> heap_value w -> finalize v = Ok m1 -> finalize w = Ok m2 ->
  b_get_bytes m1 root = Ok b1 -> b_get_bytes m2 root = Ok b2 ->
  (same v w <-> b1 = b2) /\ (same v w -> m1 = m2).
Proof. exact (canonical v w m1 m2 b1 b2). Qed.
Print Assumptions c08_canonical.

(** get_bytes of a finalized object always answers. *)
Theorem c08_bytes_exist fs m : heap_value (VObj fs) -> finalize (VObj fs) = Ok m ->
  exists bytes, b_get_bytes m root = Ok bytes.
Proof. exact (get_bytes_exist fs m). Qed.
Print Assumptions c08_bytes_exist.

Example c08_example :
  same (VObj [(b "a", VInt 1); (b "bb", VNull)]) (VObj [(b "bb", VNull); (b "a", VInt 1)]).
Proof.
  constructor.
  - intros k x L. cbn [lookup] in *. destruct (list_eq_dec _ k (b "a")) as [->|N].
    + injection L as <-. eexists. split; [reflexivity|constructor].
    + destruct (list_eq_dec _ k (b "bb")); [|discriminate]. injection L as <-.
      eexists. split; [reflexivity|constructor].
  - intros k L. cbn [lookup] in *. destruct (list_eq_dec _ k (b "a")); [discriminate|].
    destruct (list_eq_dec _ k (b "bb")); [discriminate|reflexivity].
Qed.

(** share_bytes() on a nested buffer returns the bytes of the root, not its own. *)
Theorem c08_share_bytes_refuted :
  (m <- finalize (VObj [(b "a", VObj [])]) ;; e <- b_get 0 m root (b "a") ;;
   own <- b_get_bytes m e ;; shared <- b_share_bytes m e ;;
   v <- walk 0 own ;; w <- walk 0 shared ;; Ok (v, w)) = Ok (VObj [], VObj [(b "a", VObj [])]).
Proof. vm_compute. reflexivity. Qed.
Print Assumptions c08_share_bytes_refuted.

(** ** C09: nested aggregates can be moved *)

Theorem c09_relocatable root_fs m bs path w :
  heap_value (VObj root_fs) -> finalize (VObj root_fs) = Ok m -> bs mod 8 = 0 ->
  sub_value (VObj root_fs) path = Some w -> is_aggregate w = true ->
  exists o bytes,
    nav bs m root path = Ok (raw_type_of w, Some o) /\
    find_sizeof m (raw_type_of w) o = Ok (zlen bytes) /\ rd m o (zlen bytes) = Ok bytes /\
    forall bs' pre post, (bs' + zlen pre) mod 8 = 0 ->
      b_value bs' (pre ++ bytes ++ post) (raw_type_of w, Some (zlen pre)) = Ok w.
Proof.
  intros H E B S A. destruct (finalize_root root_fs m bs H E B) as (R & _).
  destruct (nav_relocate bs m root _ path w R S A) as (o & bytes & N & F & D & L).
  exists o, bytes. repeat split; try assumption. intros. apply represents_value. apply L. assumption.
Qed.
Print Assumptions c09_relocatable.

Example c09_example : sub_value demo [2%nat; 3%nat] = Some (VArr [VInt (-5000000000)]).
Proof. reflexivity. Qed.

(** ** C13: the key order *)

Theorem c13_key_order :
  (forall a, dart_ltb a a = false) /\
  (forall a b c, dart_ltb a b = true -> dart_ltb b c = true -> dart_ltb a c = true) /\
  (forall a b, dart_ltb a b = false -> dart_ltb b a = false -> a = b) /\
  (forall a b, dart_ltb a b = true <-> key_lt a b).
Proof.
  repeat split.
  - intros a. apply dart_ltb_false. apply key_lt_irrefl.
  - intros a b c. rewrite !dart_ltb_key_lt. apply key_lt_trans.
  - intros a b. rewrite !dart_ltb_false. destruct (key_lt_total a b) as [|[|]]; tauto.
  - apply dart_ltb_key_lt.
  - apply dart_ltb_key_lt.
Qed.
Print Assumptions c13_key_order.

Example c13_example : key_lt (b "zz") (b "aaa") /\ key_lt (b "ab") [x61; xff].
Proof. split; apply dart_ltb_key_lt; reflexivity. Qed.

(** ** C19: integers *)

(** Writing a 64-bit integer anywhere in a block uses the narrowest of 2, 4 and 8
    bytes that can hold it, and reading it returns it. *)
Theorem c19_integers m o z :
  - 2 ^ 63 <= z < 2 ^ 63 -> 0 <= o -> o + 8 <= zlen m ->
  exists m' w, layout m o (VInt z) = Ok (m', w) /\ rd_scalar m' (raw_type_of (VInt z)) o = Ok (VInt z) /\
    (w = 2 \/ w = 4 \/ w = 8) /\
    (forall w', w' = 2 \/ w' = 4 \/ w' = 8 -> - 2 ^ (8 * w' - 1) <= z < 2 ^ (8 * w' - 1) -> w <= w') /\
    - 2 ^ (8 * w - 1) <= z < 2 ^ (8 * w - 1).
Proof. exact (integers_roundtrip m o z). Qed.
Print Assumptions c19_integers.

Example c19_example : layout (zeros 16) 8 (VInt (-32769)) = Ok (zeros 8 ++ [xff; x7f; xff; xff] ++ zeros 4, 4).
Proof. reflexivity. Qed.

(** ** C20: decimals *)

(** Single precision is used exactly when some single-precision pattern denotes
    the same number; either way the 64 bits come back unchanged. *)
Theorem c20_decimals m o d :
  0 <= d < 2 ^ 64 -> 0 <= o -> o + 8 <= zlen m ->
  exists m' w, layout m o (VDec d) = Ok (m', w) /\ rd_scalar m' (raw_type_of (VDec d)) o = Ok (VDec d) /\
    (w = 4 \/ w = 8) /\
    (w = 4 <-> denote64 d <> FNaN /\ exists f, 0 <= f < 2 ^ 32 /\ denote32 f = denote64 d).
Proof. exact (decimals_roundtrip m o d). Qed.
Print Assumptions c20_decimals.

Example c20_example :
  denote64 4609434218613702656 = denote32 1069547520 /\ (* 1.5 *)
  layout (zeros 8) 0 (VDec 4609434218613702656) = Ok (le_enc 4 1069547520 ++ zeros 4, 4) /\
  layout (zeros 8) 0 (VDec 4591870180066957722 (* 0.1 *)) = Ok (le_enc 8 4591870180066957722, 8).
Proof. repeat split; vm_compute; reflexivity. Qed.

(** ** C28: path lookup *)

Theorem c28_path_lookup root_fs m bs sep path trailing :
  heap_value (VObj root_fs) -> good_all (VObj root_fs) -> finalize (VObj root_fs) = Ok m -> bs mod 8 = 0 ->
  Forall (fun k => ~ In sep k) path -> path <> [] ->
  (trailing = [sep] \/ (trailing = [] /\ last path [] <> [])) ->
  h_get_nested (VObj root_fs) (join sep path ++ trailing) sep = Ok (follow (VObj root_fs) path) /\
  exists e, b_get_nested bs m root (join sep path ++ trailing) sep = Ok e /\
    b_value bs m e = Ok (follow (VObj root_fs) path).
Proof.
  intros H G E B FP NE TR. split; [exact (h_get_nested_spec _ sep path trailing H FP NE TR)|].
  destruct (finalize_root root_fs m bs H E B) as (R & _).
  destruct (b_get_nested_spec bs m root _ sep path trailing R G FP NE TR) as (e & E' & R').
  eauto using represents_value.
Qed.
Print Assumptions c28_path_lookup.

(** The remaining text is the empty one, which names the value itself. *)
Theorem c28_path_cases sep s : s = [] \/
  exists path trailing, s = join sep path ++ trailing /\ Forall (fun k => ~ In sep k) path /\ path <> [] /\
    (trailing = [sep] \/ (trailing = [] /\ last path [] <> [])).
Proof. exact (path_shapes sep s). Qed.
Print Assumptions c28_path_cases.
Theorem c28_empty_path v bs m e sep : h_get_nested v [] sep = Ok v /\ b_get_nested bs m e [] sep = Ok e.
Proof. split; reflexivity. Qed.
Print Assumptions c28_empty_path.

Example c28_example : follow demo [b "arg"; b "k"] = VStr (b "a string longer than twenty-three bytes") /\
  join x2e [b "arg"; b "k"] = b "arg.k".
Proof. split; reflexivity. Qed.

(** ** C29: iteration *)

Theorem c29_buffer_iteration root_fs m bs path w :
  heap_value (VObj root_fs) -> finalize (VObj root_fs) = Ok m -> bs mod 8 = 0 ->
  sub_value (VObj root_fs) path = Some w -> is_aggregate w = true ->
  exists e es rs, nav bs m root path = Ok e /\
    b_iterate bs m e = Ok es /\ Forall2 (fun e x => b_value bs m e = Ok x) es (members w) /\
    b_riterate bs m e = Ok rs /\ Forall2 (fun e x => b_value bs m e = Ok x) rs (rev (members w)).
Proof.
  intros H E B S A. destruct (finalize_root root_fs m bs H E B) as (R & _).
  destruct (nav_spec bs m path root _ _ R S) as (e & N & R').
  destruct (b_iterate_spec bs m e w R' A) as (es & E1 & F1).
  destruct (b_riterate_spec bs m e w R' A) as (rs & E2 & F2).
  exists e, es, rs. repeat split; try assumption.
  - eapply Forall2_impl; [|exact F1]. intros. apply represents_value. assumption.
  - eapply Forall2_impl; [|exact F2]. intros. apply represents_value. assumption.
Qed.
Print Assumptions c29_buffer_iteration.

Theorem c29_buffer_keys root_fs m bs path fs :
  heap_value (VObj root_fs) -> finalize (VObj root_fs) = Ok m -> bs mod 8 = 0 ->
  sub_value (VObj root_fs) path = Some (VObj fs) ->
  exists e es rs, nav bs m root path = Ok e /\
    b_iterate_keys m e = Ok es /\ Forall2 (fun e k => b_scalar T_string m e = Ok (VStr k)) es (map fst fs) /\
    b_riterate_keys m e = Ok rs /\ Forall2 (fun e k => b_scalar T_string m e = Ok (VStr k)) rs (rev (map fst fs)).
Proof.
  intros H E B S. destruct (finalize_root root_fs m bs H E B) as (R & _).
  destruct (nav_spec bs m path root _ _ R S) as (e & N & R').
  destruct (b_iterate_keys_spec bs m e fs R') as (es & E1 & F1).
  destruct (b_riterate_keys_spec bs m e fs R') as (rs & E2 & F2).
  exists e, es, rs. repeat split; assumption.
Qed.
Print Assumptions c29_buffer_keys.

Theorem c29_heap_iteration v : is_aggregate v = true ->
  h_iterate v = Ok (members v) /\ h_riterate v = Ok (rev (members v)).
Proof. intros A. split; [exact (h_iterate_spec v A)|exact (h_riterate_spec v A)]. Qed.
Print Assumptions c29_heap_iteration.
Theorem c29_heap_keys fs :
  h_iterate_keys (VObj fs) = Ok (map VStr (map fst fs)) /\
  h_riterate_keys (VObj fs) = Ok (rev (map VStr (map fst fs))).
Proof. split; [exact (h_iterate_keys_spec fs)|exact (h_riterate_keys_spec fs)]. Qed.
Print Assumptions c29_heap_keys.

Example c29_example : h_iterate_keys demo = Ok [VStr (b "a"); VStr (b "d"); VStr (b "z"); VStr (b "pi"); VStr (b "arg")].
Proof. reflexivity. Qed.
