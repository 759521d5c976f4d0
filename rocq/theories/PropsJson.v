(** Properties of the JSON connector: C24 (the text fits the buffer made for it),
    C25 (parsing into a heap), C26 (parsing into a buffer agrees), C27 (what is
    written reads back). *)

From Coq Require Import ZArith List Bool Lia String Sorted Permutation.
From Verif Require Import Base BaseFacts Keys KeysFacts Dec SpecDec Wire Read Buf Enc Spec ReadFacts BufFacts WireMore Canon HeapOps HeapFacts
  Merge MergeFacts MakeFacts Packet SpecCmp Compare SpecJson Json JsonFacts JsonLower JsonSame JsonWrite Demo.
Import ListNotations.
Open Scope string_scope.
Open Scope list_scope.
Open Scope Z_scope.

(** ** C24 *)

(** Whatever the text, whatever order std::sort leaves members with one key in,
    whatever the block holds: nothing outside the block is touched. *)
Theorem c24_fits sorter t ms block : (forall A (l : list (str * A)), Permutation l (sorter A l)) ->
  json_text t (JObj ms) -> zlen block = 8 * zlen t ->
  exists m, buffer_from_json sorter block (JObj ms) = Ok m /\ zlen m = zlen block.
Proof.
  intros P T L. apply text_size in T.
  destruct (lower_room sorter P (JObj ms) block 0) as (m & n & E & Z & _); [lia|reflexivity|lia|].
  unfold buffer_from_json. rewrite E. exists m. split; [reflexivity|exact Z].
Qed.
Print Assumptions c24_fits.
(** Any other document is refused before anything is written. *)
Theorem c24_other_roots sorter d block : (forall ms, d <> JObj ms) -> buffer_from_json sorter block d = Throw type_error.
Proof. intros H. destruct d; try reflexivity. destruct (H ms). reflexivity. Qed.
Print Assumptions c24_other_roots.

Definition by_key : forall A, list (str * A) -> list (str * A) := fun A l => sort_by fst l.
Lemma by_key_sorts : sorts_members by_key.
Proof.
  intros A l. unfold by_key. split; [apply Permutation_sym, sort_keys_perm|].
  pose proof (sort_by_sorted (fst : str * A -> str) l) as H.
  induction H as [|x r S IH F]; cbn [map]; constructor; [assumption|].
  rewrite Forall_forall in *. intros k J. apply in_map_iff in J. destruct J as (y & <- & J). apply F. assumption.
Qed.

(** An ordinary text. *)
Definition c24_text : str := lit "{ ""b"" : [1,-20] ,""\u00e9\n"":true}".
Definition c24_doc : jdoc := JObj [(lit "b", JArr [JInt 1; JInt (-20)]); ([xc3; xa9; x0a], JBool true)].
Lemma spaces n : blank (repeat x20 n).
Proof. induction n; constructor; [left; reflexivity|assumption]. Qed.
Lemma c24_reads : json_text c24_text c24_doc.
Proof.
  exists [], c24_text, []. split; [reflexivity|]. split; [constructor|].
  apply (text_object (lit " ""b"" : [1,-20] ,""\u00e9\n"":true")).
  apply (members_more (lit """b""") (lit "b") [x20] [x20] [x20] [x20] (lit "[1,-20]") (JArr [JInt 1; JInt (-20)]) (lit """\u00e9\n"":true")).
  - apply (spaces 1).
  - exists (lit "b"). split; [reflexivity|]. apply ch_plain; [discriminate|discriminate|vm_compute; discriminate|constructor].
  - apply (spaces 1).
  - apply (spaces 1).
  - apply (text_array (lit "1,-20")). apply (elements_more [] [] (lit "1") (JInt 1) (lit "-20")); [constructor| |constructor|].
    + apply text_number, num_int; [|lia]. apply (int_pos (lit "1")). split; [|discriminate].
      split; [discriminate|]. repeat constructor; vm_compute; discriminate.
    + apply (elements_one [] [] (lit "-20")); [constructor| |constructor].
      apply text_number, num_int; [|lia]. apply (int_neg (lit "20")). split; [|discriminate].
      split; [discriminate|]. repeat constructor; vm_compute; discriminate.
  - apply (spaces 1).
  - apply (members_one (lit """\u00e9\n""") [xc3; xa9; x0a] [] [] [] [] (lit "true")); [apply (spaces 0)| |apply (spaces 0)|apply (spaces 0)|apply text_true|apply (spaces 0)].
    exists (lit "\u00e9\n"). split; [reflexivity|].
    apply (ch_unicode (lit "00e9") 233 (lit "\n") [x0a]); [|lia|].
    + do 8 eexists. repeat split; try reflexivity.
    + apply (ch_escape x6e x0a); [reflexivity|constructor].
Qed.
Example c24_case : json_text c24_text c24_doc /\
  (m <- buffer_from_json by_key (zeros (8 * zlen c24_text)) c24_doc ;; v <- b_value 0 m root ;; Ok (zlen m, v)) =
    Ok (264, VObj [(lit "b", VArr [VInt 1; VInt (-20)]); ([xc3; xa9; x0a], VBool true)]).
Proof. split; [exact c24_reads|]. vm_compute. reflexivity. Qed.

(** Eight bytes for a character are needed: nested arrays take them, and seven
    would not do. *)
Definition c24_nested (n : nat) : jdoc := Nat.iter n (fun d => JArr [d]) (JArr []).
Definition c24_brackets (n : nat) : str := repeat x5b n ++ lit "[]" ++ repeat x5d n.
Theorem c24_seven_refuted : exists t ms,
  json_text t (JObj ms) /\ buffer_from_json by_key (zeros (7 * zlen t)) (JObj ms) = Oob.
Proof.
  exists (lit "{"""":" ++ c24_brackets 20 ++ lit "}"), [([], c24_nested 20)]. split; [|vm_compute; reflexivity].
  exists [], (lit "{"""":" ++ c24_brackets 20 ++ lit "}"), []. split; [symmetry; apply app_nil_r|]. split; [constructor|].
  apply (text_object (lit """"":" ++ c24_brackets 20)).
  apply (members_one (lit """""") [] [] [] [] [] (c24_brackets 20)); try apply (spaces 0).
  - exists []. split; [reflexivity|constructor].
  - assert (H : forall n, doc_text (c24_brackets n) (c24_nested n)).
    { induction n as [|n IH]; [apply (text_array []), elements_none; constructor|].
      unfold c24_brackets. cbn [repeat app]. replace (x5d :: repeat x5d n) with (repeat x5d n ++ [x5d]).
      - replace (x5b :: repeat x5b n ++ lit "[]" ++ repeat x5d n ++ [x5d]) with (x5b :: (c24_brackets n) ++ [x5d])
          by (unfold c24_brackets; rewrite <- !app_assoc; reflexivity).
        apply text_array. replace (c24_brackets n) with ([] ++ c24_brackets n ++ []) by apply app_nil_r.
        apply elements_one; [constructor|exact IH|constructor].
      - clear. induction n; [reflexivity|]. cbn [repeat app]. f_equal. assumption. }
    apply H.
Qed.
Print Assumptions c24_seven_refuted.

(** ** C25 *)
Theorem c25_value d : document d -> is_container d -> short_keys d -> small_integers d ->
  exists v, heap_from_json d = Ok v /\ means d v.
Proof.
  intros D C S M. apply shortb_spec in S. exists (jval d). rewrite heap_from_json_spec, S by assumption.
  split; [reflexivity|]. apply jval_means; assumption.
Qed.
Print Assumptions c25_value.
(** A document means one value. *)
Theorem c25_meaning d v w : means d v -> means d w -> v = w.
Proof. intros A B. apply (means_unique d); assumption. Qed.
Print Assumptions c25_meaning.
(** A key beyond the limit anywhere in the document ends the parse. *)
Theorem c25_long_key d : document d -> is_container d -> ~ short_keys d -> heap_from_json d = Throw invalid_argument.
Proof.
  intros D C S. rewrite heap_from_json_spec by assumption. destruct (shortb d) eqn:E; [|reflexivity].
  destruct S. apply shortb_spec. assumption.
Qed.
Print Assumptions c25_long_key.
(** The other parser's document builds the same. *)
Theorem c25_sajson d : document d -> small_integers d -> (p <- sajson_lower d new_parser ;; Ok (curr_obj p)) = heap_from_json d.
Proof. intros D M. rewrite sajson_events by assumption. reflexivity. Qed.
Print Assumptions c25_sajson.
(** JSON allows any value at the top; the parser does not. *)
Theorem c25_scalar_root_refuted d : document d -> ~ is_container d -> heap_from_json d = Throw type_error.
Proof. intros. apply scalar_root; assumption. Qed.
Print Assumptions c25_scalar_root_refuted.
(** Integers from 2^63 on change their value. *)
Theorem c25_big_integers_refuted z : 2 ^ 63 <= z < 2 ^ 64 -> heap_from_json (JArr [JUint z]) = Ok (VArr [VInt (z - 2 ^ 64)]).
Proof.
  intros R. assert (D : document (JArr [JUint z])).
  { constructor; [vm_compute; reflexivity|]. repeat constructor; lia. }
  rewrite heap_from_json_spec by (assumption || exact I). cbn [shortb forallb andb jval map]. do 4 f_equal.
  unfold to_signed. rewrite Z.mod_small by lia. replace (z <? 2 ^ (64 - 1)) with false; [reflexivity|]. symmetry. apply Z.ltb_ge. lia.
Qed.
Print Assumptions c25_big_integers_refuted.

Ltac doc_tac := repeat match goal with
  | |- everyj _ _ (JObj _) => apply everyj_obj
  | |- everyj _ _ (JArr _) => apply everyj_arr
  | |- everyj _ _ _ => apply everyj_leaf; [exact I|]
  | |- Forall _ (_ :: _) => apply Forall_cons
  | |- Forall _ [] => apply Forall_nil
  | |- _ /\ _ => split
  | |- True => exact I
  | |- doc_node (JInt _) => cbn [doc_node]; lia
  | |- doc_node (JDec _) => cbn [doc_node]; lia
  | |- doc_node _ => first [exact I | vm_compute; reflexivity]
  | |- _ < _ => vm_compute; reflexivity
  | |- _ => exact I
  | |- _ => progress cbn [fst snd]
  end.
(** Nesting, duplicates and an empty key. *)
Definition c25_doc : jdoc :=
  JObj [(lit "k", JArr [JInt 1; JObj [(lit "", JNull)]; JArr []]); (lit "a", JStr (lit "x")); (lit "k", JObj [(lit "y", JBool false); (lit "x", JDec 0)])].
Definition c25_heap : value := VObj [(lit "a", VStr (lit "x")); (lit "k", VObj [(lit "x", VDec 0); (lit "y", VBool false)])].
Example c25_case : document c25_doc /\ short_keys c25_doc /\ small_integers c25_doc /\ heap_from_json c25_doc = Ok c25_heap.
Proof.
  split; [|split; [apply shortb_spec; reflexivity|split; [|vm_compute; reflexivity]]]; unfold document, small_integers, c25_doc; doc_tac.
Qed.

(** ** C26 *)
Theorem c26_agree sorter t ms block bs : sorts_members sorter -> json_text t (JObj ms) -> zlen t < 2 ^ 29 -> zlen block = 8 * zlen t ->
  document (JObj ms) -> short_keys (JObj ms) -> small_integers (JObj ms) -> distinct_keys (JObj ms) -> bs mod 8 = 0 ->
  exists v m, heap_from_json (JObj ms) = Ok v /\ buffer_from_json sorter block (JObj ms) = Ok m /\
    b_value bs m root = Ok v /\ forall f, finalize v = Ok f -> b_value bs f root = Ok v.
Proof.
  intros S T TL L D K M U A. apply text_size in T.
  destruct (buffer_represents sorter block ms bs) as (m & E & R & _); [assumption|assumption|repeat split; assumption|lia|lia|assumption|].
  exists (jval (JObj ms)), m. rewrite heap_from_json_spec, (proj2 (shortb_spec _) K) by (assumption || exact I).
  split; [reflexivity|]. split; [exact E|]. split; [apply represents_value; exact R|].
  intros f F. apply represents_value. destruct (jval (JObj ms)) as [fs| | | | | |] eqn:J; try discriminate J.
  apply finalize_root; [|exact F|exact A]. apply R.
Qed.
Print Assumptions c26_agree.

(** Integers from 2^63 on: negative in the heap, decimals in the buffer. *)
Theorem c26_big_integers_refuted :
  let d := JObj [(lit "n", JUint 18446744073709551615)] in
  heap_from_json d = Ok (VObj [(lit "n", VInt (-1))]) /\
  (m <- buffer_from_json by_key (zeros 200) d ;; b_value 0 m root) = Ok (VObj [(lit "n", VDec 4895412794951729152 (* 2^64 *))]) /\
  denote64 4895412794951729152 = FFin (2 ^ 64 * 2 ^ 1074).
Proof. vm_compute. auto. Qed.
Print Assumptions c26_big_integers_refuted.
(** Duplicate keys: the heap keeps the last, the buffer keeps both, and which of
    them is found depends on the sort. *)
Theorem c26_duplicates_refuted :
  let d := JObj [(lit "k", JInt 1); (lit "k", JInt 2)] in
  heap_from_json d = Ok (VObj [(lit "k", VInt 2)]) /\
  (m <- buffer_from_json by_key (zeros 104) d ;; v <- b_value 0 m root ;; n <- b_size m root ;; e <- b_get 0 m root (lit "k") ;; x <- b_value 0 m e ;; Ok (v, n, x)) =
    Ok (VObj [(lit "k", VInt 1); (lit "k", VInt 2)], 2, VInt 1).
Proof. vm_compute. auto. Qed.
Print Assumptions c26_duplicates_refuted.
(** A key of 65536 bytes: the heap refuses it.  The buffer takes it, with a 4-byte
    length that is read as a 2-byte one: the key comes back empty and the value is
    read from the middle of the key, so whoever wrote the text chooses the bytes.
    Here they say that there is an element 2 GiB further on. *)
Definition c26_key (forged : str) : str := forged ++ repeat x61 (Z.to_nat 65536 - List.length forged).
Definition c26_forged : str :=
  lit "aaaa" ++ [x10; x00; x00; x00; x01; x00; x00; x00] ++ [xff; xff; xff; x7f; x05; x00; x00; x00].
Theorem c26_long_key_refuted :
  zlen (c26_key c26_forged) = 65536 /\
  heap_from_json (JObj [(c26_key c26_forged, JArr [])]) = Throw invalid_argument /\
  (m <- buffer_from_json by_key (zeros 525000) (JObj [(c26_key c26_forged, JArr [])]) ;;
   k <- b_deref_key m root 0 ;; s <- b_scalar T_string m k ;;
   x <- b_deref 0 m root 0 ;; n <- b_size m x ;; y <- b_get_idx m x 0 ;; Ok (s, n, y)) =
    Ok (VStr [], 1, (R_short_integer, Some (24 + 2147483647))) /\
  (m <- buffer_from_json by_key (zeros 525000) (JObj [(c26_key c26_forged, JArr [])]) ;;
   x <- b_deref 0 m root 0 ;; y <- b_get_idx m x 0 ;; b_scalar T_integer m y) = Oob.
Proof. split; [|split; [|split]]; vm_compute; reflexivity. Qed.
Print Assumptions c26_long_key_refuted.
(** The buffer's bytes that are not written keep what the allocator left there:
    two parses of one text may compare unequal. *)
Theorem c26_uninitialised_refuted :
  let d := JObj [(lit "x", JArr [JInt 1])] in
  match buffer_from_json by_key (repeat x00 72) d, buffer_from_json by_key (repeat xff 72) d with
  | Ok m, Ok m' => b_value 0 m root = b_value 0 m' root /\ bcmp 0 m root 4096 m' root = Ok false
  | _, _ => False
  end.
Proof. vm_compute. auto. Qed.
Print Assumptions c26_uninitialised_refuted.

Example c26_case : sorts_members by_key /\ json_text c24_text c24_doc /\ short_keys c24_doc /\ small_integers c24_doc /\ distinct_keys c24_doc /\
  heap_from_json c24_doc = Ok (VObj [(lit "b", VArr [VInt 1; VInt (-20)]); ([xc3; xa9; x0a], VBool true)]).
Proof.
  split; [exact by_key_sorts|]. split; [exact c24_reads|]. split; [|split; [|split; [|vm_compute; reflexivity]]].
  - apply shortb_spec. reflexivity.
  - constructor; [exact I|]. repeat apply Forall_cons; try apply Forall_nil; (split; [exact I|]); cbn [snd].
    + constructor; [exact I|]. repeat apply Forall_cons; try apply Forall_nil; constructor 3; exact I.
    + constructor 3; exact I.
  - constructor; [repeat constructor; cbn; intuition discriminate|]. repeat apply Forall_cons; try apply Forall_nil; (split; [exact I|]); cbn [snd].
    + constructor; [exact I|]. repeat apply Forall_cons; try apply Forall_nil; constructor 3; exact I.
    + constructor 3; exact I.
Qed.

(** ** C27 *)

(** From a packet of either form: what is written is a document that means the
    value, and reading it back gives the value. *)
Theorem c27_round_trip p v n : heap_value v -> countable v -> finite_decimals v -> (depth v < n)%nat ->
  match p with PHeap w => w = v | PBuf bs m e => represents bs m e v end ->
  exists toks d, json_serialize n p = Ok toks /\ read_back toks = Some (events d) /\ means d v /\
    document d /\ short_keys d /\ small_integers d /\ distinct_keys d /\
    (is_container d -> heap_from_json d = Ok v).
Proof.
  intros H C F L R. exists (tokens v), (says v).
  split; [apply serialize_spec; [assumption|split; assumption]|]. split; [apply reread_tokens; assumption|].
  split; [apply says_means; assumption|]. pose proof (says_document v H C) as D. pose proof (says_short v H) as S.
  split; [exact D|]. split; [exact S|]. split; [apply says_small|]. split; [apply says_distinct; assumption|].
  intros A. destruct (c25_value (says v) D A S (says_small v)) as (w & E & M). rewrite E. f_equal.
  apply (means_unique _ _ M). apply says_means. assumption.
Qed.
Print Assumptions c27_round_trip.
(** In particular for every packet made by finalizing. *)
Corollary c27_finalized fs m n : heap_value (VObj fs) -> countable (VObj fs) -> finite_decimals (VObj fs) -> (depth (VObj fs) < n)%nat ->
  finalize (VObj fs) = Ok m ->
  exists toks es, json_serialize n (PBuf 0 m root) = Ok toks /\ read_back toks = Some es /\ heap_of_events es = Ok (VObj fs).
Proof.
  intros H C F L E. destruct (c27_round_trip (PBuf 0 m root) (VObj fs) n H C F L) as (toks & d & A & B & M & _ & _ & _ & _ & G).
  - apply finalize_root; [assumption|assumption|reflexivity].
  - exists toks, (events d). split; [exact A|]. split; [exact B|]. apply G. inversion M. exact I.
Qed.
Print Assumptions c27_finalized.
(** A scalar is written, but not read back. *)
Theorem c27_scalar_refuted : exists toks es,
  json_serialize 1 (PHeap (VInt 5)) = Ok toks /\ read_back toks = Some es /\ heap_of_events es = Throw type_error.
Proof. exists [EInt64 5], [EUint 5]. vm_compute. auto. Qed.
Print Assumptions c27_scalar_refuted.
(** A NaN is not written: what is left does not say the value (c61_nan_refuted has the texts). *)
Theorem c27_nan_refuted :
  let nan := 9221120237041090560 in
  denote64 nan = FNaN /\ json_serialize 2 (PHeap (VArr [VDec nan])) = Ok [EStartArray; EDouble nan; EEndArray] /\
  read_back [EStartArray; EDouble nan; EEndArray] = None.
Proof. vm_compute. auto. Qed.
Print Assumptions c27_nan_refuted.

Lemma demo_countable : countable demo.
Proof.
  repeat match goal with
  | |- countable _ => unfold countable
  | |- every _ _ _ => constructor
  | |- Forall _ _ => constructor
  | |- _ /\ _ => split
  | |- True => exact I
  | |- _ => vm_compute; reflexivity
  end.
Qed.
Lemma demo_finite : finite_decimals demo.
Proof.
  repeat match goal with
  | |- finite_decimals _ => unfold finite_decimals
  | |- every _ _ _ => constructor
  | |- Forall _ _ => constructor
  | |- _ /\ _ => split
  | |- True => exact I
  | |- exists _, denote64 _ = _ => eexists; vm_compute; reflexivity
  end.
Qed.
Example c27_case : heap_value demo /\ countable demo /\ finite_decimals demo /\
  (m <- finalize demo ;; a <- json_serialize 5 (PHeap demo) ;; c <- json_serialize 5 (PBuf 0 m root) ;;
   match read_back a, read_back c with
   | Some es, Some fs => x <- heap_of_events es ;; y <- heap_of_events fs ;; Ok (x, y)
   | _, _ => Undef
   end) = Ok (demo, demo).
Proof. split; [exact demo_heap|]. split; [exact demo_countable|]. split; [exact demo_finite|]. vm_compute. reflexivity. Qed.
