(** C62: parsing JSON in the build with the other parser. *)

From Coq Require Import ZArith List Bool Lia String Sorted Permutation.
From Coq Require Import ZifyBool ZifyNat ZifyN.
From Verif Require Import Base BaseFacts Keys KeysFacts Dec SpecDec Wire Read Buf Enc EncSize Spec ReadFacts BufFacts WireMore Canon HeapOps HeapFacts
  HeapRun SpecOps Merge MergeFacts MakeFacts Packet SpecCmp Compare SpecJson Json JsonFacts JsonLower JsonSame JsonWrite Sajson PropsJson Demo.
Import ListNotations.
Open Scope string_scope.
Open Scope list_scope.
Open Scope Z_scope.

(** ** What holds *)

(** Whatever the text of an object or array, whatever the block holds, nothing outside
    the block is written. *)
Theorem c62_fits sorter t d block : (forall A (l : list (str * A)), Permutation l (sorter A l)) ->
  json_text t d -> is_container d -> zlen block = 8 * zlen t ->
  exists m, sajson_buffer sorter block d = Ok m /\ zlen m = zlen block.
Proof.
  intros P T C L. apply text_size in T.
  destruct (lower_room sorter P d block 0) as (m & n & E & Z & _); [lia|reflexivity|lia|].
  unfold sajson_buffer. rewrite E. exists m. split; [reflexivity|exact Z].
Qed.
Print Assumptions c62_fits.
(** Objects come out as in the other build, and as in a heap. *)
Theorem c62_objects sorter t ms block bs : sorts_members sorter -> json_text t (JObj ms) -> zlen t < 2 ^ 29 -> zlen block = 8 * zlen t ->
  document (JObj ms) -> short_keys (JObj ms) -> small_integers (JObj ms) -> distinct_keys (JObj ms) -> bs mod 8 = 0 ->
  exists v m, sajson_heap (JObj ms) = Ok v /\ means (JObj ms) v /\ sajson_buffer sorter block (JObj ms) = Ok m /\
    b_value bs m root = Ok v /\ buffer_from_json sorter block (JObj ms) = Ok m.
Proof.
  intros S T TL L D K M U A. destruct (c26_agree sorter t ms block bs S T TL L D K M U A) as (v & m & E1 & E2 & E3 & _).
  destruct (c25_value (JObj ms) D Logic.I K M) as (w & E4 & Mw). assert (w = v) as -> by congruence.
  exists v, m. split; [unfold sajson_heap; rewrite c25_sajson by assumption; exact E1|]. split; [exact Mw|].
  split; [exact E2|]. split; [exact E3|exact E2].
Qed.
Print Assumptions c62_objects.

(** ** What does not *)

(** Arrays are written as arrays and read as objects: for every array, the bytes are right, and
    the buffer says they are an object with as many members. *)
Theorem c62_arrays_refuted sorter t ds block bs : sorts_members sorter -> json_text t (JArr ds) -> zlen t < 2 ^ 29 -> zlen block = 8 * zlen t ->
  document (JArr ds) -> short_keys (JArr ds) -> small_integers (JArr ds) -> distinct_keys (JArr ds) -> bs mod 8 = 0 ->
  exists v m, sajson_heap (JArr ds) = Ok v /\ sajson_buffer sorter block (JArr ds) = Ok m /\
    b_value bs m (R_array, Some 0) = Ok v /\ b_type root = T_object /\ b_size m root = Ok (zlen ds) /\
    buffer_from_json sorter block (JArr ds) = Throw type_error.
Proof.
  intros S T TL L D K M U A. apply text_size in T. assert (C : clean (JArr ds)) by (split; [exact K|split; [exact M|exact U]]).
  exists (jval (JArr ds)). unfold sajson_heap. rewrite (c25_sajson (JArr ds) D M).
  rewrite heap_from_json_spec by (assumption || exact Logic.I). rewrite (proj2 (shortb_spec _) K).
  unfold sajson_buffer. rewrite (lower_layout sorter (sorts_perm _ S) (sorts_sorted _ S) _ C).
  pose proof (jval_fits _ D C ltac:(lia)) as F. pose proof (jval_size _ C) as SZ. set (v := jval (JArr ds)) in *.
  assert (AL : al v = 8) by reflexivity.
  destruct (Enc.split_at block (esize v)) as (old & post & -> & LO); [pose proof (esize_nonneg v); lia|].
  pose proof (layout_spec v F [] old post) as LS. rewrite AL in LS. specialize (LS eq_refl LO). cbn [app] in LS.
  change (zlen (@nil byte)) with 0 in LS. rewrite LS. cbn [bind].
  eexists. split; [reflexivity|]. split; [reflexivity|].
  assert (R : represents bs (overlay (enc v) old ++ post) (R_array, Some 0) v).
  { split; [apply jval_heap; [assumption|apply shortb_spec; apply C|apply C]|]. cbn [fst snd].
    split; [|split; [assumption|split; [rewrite Z.add_0_r; exact A|left; reflexivity]]].
    exists [], (overlay (enc v) old), post. split; [reflexivity|]. split; [reflexivity|]. apply matches_overlay. exact LO. }
  split; [apply represents_value; exact R|]. split; [reflexivity|]. split; [|reflexivity].
  assert (Z : b_size (overlay (enc v) old ++ post) (R_array, Some 0) = Ok (zlen ds)).
  { rewrite (b_size_spec _ _ _ _ R). unfold v. cbn [jval vsize]. f_equal. unfold zlen. rewrite map_length. reflexivity. }
  exact Z.
Qed.
Print Assumptions c62_arrays_refuted.

(** What the buffer made from [[n]] gives as its first key: the n bytes that follow the
    number.  Those in the block were never written, the others are not the block's. *)
Theorem c62_over_read_refuted sorter block n : sorts_members sorter -> 0 <= n <= 32767 -> 18 <= zlen block ->
  exists m, sajson_buffer sorter block (JArr [JInt n]) = Ok m /\ zlen m = zlen block /\ b_size m root = Ok 1 /\
    (k <- b_deref_key m root 0 ;; b_scalar T_string m k) =
      if 18 + n <=? zlen block then Ok (VStr (firstn (Z.to_nat n) (skipn 18 block))) else Oob.
Proof.
  intros S N L.
  assert (I2 : identify_integer n = R_short_integer).
  { unfold identify_integer. replace ((2147483647 <? n) || (n <? -2147483648)) with false by lia.
    replace ((32767 <? n) || (n <? -32768)) with false by lia. reflexivity. }
  assert (X : exists b0 b1 b2 b3 b4 b5 b6 b7 b8 b9 b10 b11 b12 b13 b14 b15 b16 b17 post,
    block = [b0; b1; b2; b3; b4; b5; b6; b7; b8; b9; b10; b11; b12; b13; b14; b15; b16; b17] ++ post).
  { unfold zlen in L. do 18 (destruct block as [|? block]; [cbn [List.length] in L; lia|]). do 19 eexists. reflexivity. }
  destruct X as (b0 & b1 & b2 & b3 & b4 & b5 & b6 & b7 & b8 & b9 & b10 & b11 & b12 & b13 & b14 & b15 & b16 & b17 & post & ->).
  set (old := [b0; b1; b2; b3; b4; b5; b6; b7; b8; b9; b10; b11; b12; b13; b14; b15; b16; b17]) in *.
  set (pre := le_enc 4 18 ++ le_enc 4 1 ++ le_enc 4 16 ++ [z2b R_short_integer; b13; b14; b15]).
  assert (EN : enc (VArr [VInt n]) = sb (le_enc 4 18 ++ le_enc 4 1 ++ le_enc 4 16 ++ [z2b R_short_integer]) ++ gap 3 ++ sb (le_enc 2 n)).
  { cbn [enc enc_abody enc_aentries]. unfold aseg, apos. assert (AL : al (VInt n) = 2) by (unfold al; cbn [raw_type_of]; rewrite I2; reflexivity).
    rewrite AL. cbn [raw_type_of enc]. rewrite I2. reflexivity. }
  assert (OV : overlay (enc (VArr [VInt n])) old = pre ++ le_enc 2 n) by (rewrite EN; reflexivity).
  assert (C : clean (JArr [JInt n])).
  { split; [|split]; (constructor; [exact Logic.I|]; constructor; [|constructor]; constructor; try exact Logic.I). }
  assert (F : fits (VArr [VInt n])).
  { cbn. split; [auto|]. change (esize (VArr [VInt n]) < 2 ^ 32). unfold esize. rewrite EN. reflexivity. }
  pose proof (layout_spec (VArr [VInt n]) F [] old post eq_refl) as LS.
  assert (LO : zlen old = esize (VArr [VInt n])) by (unfold esize; rewrite EN; reflexivity).
  specialize (LS LO). rewrite OV in LS. cbn [app] in LS. change (zlen (@nil byte)) with 0 in LS. rewrite <- app_assoc in LS.
  exists (pre ++ le_enc 2 n ++ post).
  split. { unfold sajson_buffer. rewrite (lower_layout sorter (sorts_perm _ S) (sorts_sorted _ S) _ C). cbn [jval map].
           rewrite LS. reflexivity. }
  split; [rewrite !zlen_app, zlen_le_enc; change (zlen pre) with 16; change (zlen old) with 18; lia|].
  assert (K : b_size (pre ++ le_enc 2 n ++ post) root = Ok 1).
  { change (rd_le (le_enc 4 18 ++ le_enc 4 1 ++ (le_enc 4 16 ++ [z2b R_short_integer; b13; b14; b15] ++ le_enc 2 n ++ post)) 4 4 = Ok 1).
    apply rd_le_app_small; [reflexivity|]. change (2 ^ (8 * Z.of_nat 4)) with 4294967296. lia. }
  split; [exact K|]. clear K.
  assert (K : b_deref_key (pre ++ le_enc 2 n ++ post) root 0 = Ok (R_string, Some 16)).
  { assert (Q : rd_le (pre ++ le_enc 2 n ++ post) 8 4 = Ok 16).
    { change (rd_le ((le_enc 4 18 ++ le_enc 4 1) ++ le_enc 4 16 ++ ([z2b R_short_integer; b13; b14; b15] ++ le_enc 2 n ++ post)) 8 4 = Ok 16).
      apply rd_le_app_small; [reflexivity|]. change (2 ^ (8 * Z.of_nat 4)) with 4294967296. lia. }
    change (b_deref_key ?m root 0) with ('(t, p) <- (off <- rd_le m 8 4 ;; Ok (R_string, 0 + off)) ;; Ok (t, Some p)). rewrite Q. reflexivity. }
  rewrite K. cbn [bind]. change (b_scalar T_string ?m (R_string, Some 16)) with (s <- rd_strv m 2 16 ;; Ok (VStr s)).
  unfold rd_strv. rewrite rd_le_app_small by (reflexivity || (change (2 ^ (8 * Z.of_nat 2)) with 65536; lia)). cbn [bind].
  change (16 + Z.of_nat 2) with 18. change (skipn 18 (old ++ post)) with post.
  assert (ZL : zlen (old ++ post) = 18 + zlen post) by (rewrite zlen_app; reflexivity). rewrite ZL.
  unfold rd. rewrite !zlen_app. change (zlen pre) with 16. rewrite zlen_le_enc. change (Z.of_nat 2) with 2.
  replace (16 + (2 + zlen post)) with (18 + zlen post) by lia. change (0 <=? 18) with true. replace (0 <=? n) with true by lia. cbn [andb].
  destruct (18 + n <=? 18 + zlen post) eqn:B; [|reflexivity]. reflexivity.
Qed.
Print Assumptions c62_over_read_refuted.

(** A packet parsed without a second argument shows the same value in both builds; in one
    it refuses every change, in the other it takes them. *)
Theorem c62_default_refuted sorter t ms block addr : sorts_members sorter -> json_text t (JObj ms) -> zlen t < 2 ^ 29 -> zlen block = 8 * zlen t ->
  document (JObj ms) -> short_keys (JObj ms) -> small_integers (JObj ms) -> distinct_keys (JObj ms) -> addr mod 8 = 0 ->
  exists p q v, sajson_packet sorter block addr true (JObj ms) = Ok p /\ rapid_packet sorter block addr false (JObj ms) = Ok q /\
    p_value p = Ok v /\ p_value q = Ok v /\
    (forall k x, p_do p (Insert k x) = (p, A_err state_error)) /\
    (forall k x, zlen k <= 65535 -> exists q', p_do q (Insert (VStr k) x) = (q', A_pair k x) /\ p_get q' k = Ok (PHeap x)).
Proof.
  intros S T TL L D K M U A. destruct (c62_objects sorter t ms block addr S T TL L D K M U A) as (v & m & E1 & Mv & E2 & E3 & E4).
  exists (PBuf addr m root), (PHeap v), v. unfold sajson_packet, rapid_packet. rewrite E2. cbn [bind].
  destruct (c26_agree sorter t ms block addr S T TL L D K M U A) as (v' & m' & F1 & F2 & F3 & _).
  assert (v' = v) as -> by congruence. rewrite F1. cbn [bind].
  split; [reflexivity|]. split; [reflexivity|]. split; [exact E3|]. split; [reflexivity|]. split; [reflexivity|].
  intros k x KL.
  assert (HV : heap_value v).
  { rewrite heap_from_json_spec in F1 by (assumption || exact Logic.I). rewrite (proj2 (shortb_spec _) K) in F1.
    injection F1 as <-. apply (jval_heap (JObj ms)); [assumption|apply shortb_spec; exact K|exact M]. }
  assert (V : exists fs, v = VObj fs).
  { rewrite heap_from_json_spec in F1 by (assumption || exact Logic.I). rewrite (proj2 (shortb_spec _) K) in F1.
    injection F1 as <-. eexists. reflexivity. }
  destruct V as (fs & ->). destruct (h_insert_spec fs (heap_sorted _ HV) k x KL) as (fs' & i & HI & SO & LK & NT).
  exists (PHeap (VObj fs')). cbn [p_do p_mutate run_op]. rewrite HI. cbn [bind mutated].
  split.
  - assert (IT : iter_ans (VObj fs') i = A_pair k x); [|rewrite IT; reflexivity].
    assert (LT : (i < List.length fs')%nat) by (apply nth_error_Some; rewrite NT; discriminate).
    unfold iter_ans. cbn [h_end h_deref_key h_deref]. rewrite NT. replace (Nat.eqb i (List.length fs')) with false by (symmetry; apply Nat.eqb_neq; lia). reflexivity.
  - cbn [p_get visit]. rewrite (h_get_spec fs' SO), LK. match goal with |- context [if ?q then _ else _] => destruct q; [reflexivity|congruence] end.
Qed.
Print Assumptions c62_default_refuted.

(** ** Cases *)

(** The text of C24, through both builds. *)
Example c62_case : sorts_members by_key /\ json_text c24_text c24_doc /\
  sajson_heap c24_doc = heap_from_json c24_doc /\
  sajson_buffer by_key (zeros (8 * zlen c24_text)) c24_doc = buffer_from_json by_key (zeros (8 * zlen c24_text)) c24_doc /\
  sajson_heap c24_doc = Ok (VObj [(lit "b", VArr [VInt 1; VInt (-20)]); ([xc3; xa9; x0a], VBool true)]).
Proof.
  split; [exact by_key_sorts|]. split; [exact c24_reads|]. split; [vm_compute; reflexivity|].
  split; [vm_compute; reflexivity|vm_compute; reflexivity].
Qed.

(** The text [[4]] has three characters, its block 24 bytes: the key shows four bytes nobody wrote. *)
Example c62_reads_garbage :
  (m <- sajson_buffer by_key (repeat x00 18 ++ lit "secret") (JArr [JInt 4]) ;;
   k <- b_deref_key m root 0 ;; b_scalar T_string m k) = Ok (VStr (lit "secr")).
Proof. vm_compute. reflexivity. Qed.
(** The text [[32767]] has seven characters, its block 56 bytes: the key leaves the block. *)
Example c62_leaves_block :
  (m <- sajson_buffer by_key (zeros 56) (JArr [JInt 32767]) ;;
   k <- b_deref_key m root 0 ;; b_scalar T_string m k) = Oob.
Proof. vm_compute. reflexivity. Qed.
(** An object parsed with the defaults, then changed. *)
Definition c62_changed (r : res packet) : option ans :=
  match r with Ok p => Some (snd (p_do p (Insert (VStr (lit "n")) (VInt 1)))) | _ => None end.
Example c62_default_case :
  c62_changed (sajson_packet by_key (zeros (8 * zlen c24_text)) 0 true c24_doc) = Some (A_err state_error) /\
  c62_changed (rapid_packet by_key (zeros (8 * zlen c24_text)) 0 false c24_doc) = Some (A_pair (lit "n") (VInt 1)).
Proof. split; vm_compute; reflexivity. Qed.
