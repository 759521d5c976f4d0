(** C55: the life of a document - text, mutable value or buffer, bytes on a wire,
    validation, reading, text again - keeps its value. *)

From Coq Require Import ZArith List Bool Lia String Sorted Permutation.
From Coq Require Import ZifyBool ZifyNat ZifyN.
From Verif Require Import Base BaseFacts Keys KeysFacts Dec SpecDec Wire Read Buf HeapOps Spec Enc EncSize ReadFacts Lookup BufFacts Canon
  HeapFacts Merge MergeFacts MakeFacts Packet SpecCmp Compare SpecJson Json JsonFacts JsonLower JsonSame WireMore ValidEnc SpecPacket PacketFacts
  PropsWire PropsValid PropsJson Demo.
Import ListNotations.
Open Scope string_scope.
Open Scope list_scope.
Open Scope Z_scope.

(** Documents without null, and with finite numbers only (the parsers accept NaN and
    infinities as an extension). *)
Definition no_nulls : jdoc -> Prop := everyj (fun _ => True) (fun d => d <> JNull).
Definition finite_numbers : jdoc -> Prop :=
  everyj (fun _ => True) (fun d => match d with JDec d => exists k, denote64 d = FFin k | _ => True end).

(** What holds of every node of a document holds of every node of its value. *)
Lemma jval_every (L : jdoc -> Prop) (L' : value -> Prop) :
  (forall d, ~ is_container d -> L d -> L' (jval d)) ->
  (forall ms fs, L (JObj ms) -> zlen fs = zlen ms -> L' (VObj fs)) ->
  (forall ds vs, L (JArr ds) -> zlen vs = zlen ds -> L' (VArr vs)) ->
  forall d, clean d -> everyj (fun _ => True) L d -> every (fun _ => True) L' (jval d).
Proof.
  intros HL HO HA. induction d using jdoc_ind'; intros C E.
  - destruct (clean_members ms C) as (N & K & CM). destruct (sorted_exists ms) as (ms' & P & SO).
    rewrite (sorted_value ms ms' K N P SO). inversion E as [? LO F| |? X]; subst; [|destruct X].
    constructor.
    + apply (HO ms); [exact LO|]. unfold fields. rewrite zlen_map. unfold zlen. rewrite (Permutation_length P). reflexivity.
    + apply Forall_forall. intros kv J. split; [exact I|]. apply in_map_iff in J. destruct J as ([k d] & <- & J).
      apply (Permutation_in _ (Permutation_sym P)) in J. rewrite Forall_forall in *. cbn [snd].
      apply (H _ J); [apply (CM _ J)|apply (F _ J)].
  - pose proof (clean_elements ds C) as CM. inversion E as [|? LO F|? X]; subst; [|destruct X]. cbn [jval]. constructor.
    + apply (HA ds); [exact LO|apply zlen_map].
    + apply Forall_forall. intros x J. apply in_map_iff in J. destruct J as (d & <- & J). rewrite Forall_forall in *.
      apply (H _ J); [apply (CM _ J)|apply (F _ J)].
  - assert (Q : L' (jval d)). { apply HL; [assumption|]. destruct E; auto; exfalso; apply H; exact I. }
    destruct d; try (exfalso; apply H; exact I); cbn [jval] in *; constructor; exact Q.
Qed.

Lemma jval_null_free d : clean d -> no_nulls d -> null_free (jval d).
Proof.
  apply jval_every; try discriminate. intros [| | | | | | |] C N; try discriminate. exfalso. apply N. reflexivity.
Qed.
Lemma jval_finite d : clean d -> finite_numbers d -> finite_decimals (jval d).
Proof. apply jval_every; try (intros; exact I). intros [| | | | | | |] C N; try exact I. exact N. Qed.
Lemma doc_weak d : document d -> everyj (fun _ => True) doc_node d.
Proof.
  induction d using jdoc_ind'; intros E.
  - inversion E as [? LO F| |? X]; subst; [|destruct X]. constructor; [exact LO|]. rewrite Forall_forall in *. intros kv J.
    split; [exact I|]. apply (H _ J). apply (F _ J).
  - inversion E as [|? LO F|? X]; subst; [|destruct X]. constructor; [exact LO|]. rewrite Forall_forall in *. intros x J. apply (H _ J). apply (F _ J).
  - apply everyj_leaf; [destruct d; try exact I; apply H; exact I|]. apply doc_leaf. exact E.
Qed.
Lemma jval_countable d : clean d -> document d -> countable (jval d).
Proof.
  intros C D. apply doc_weak in D. revert d C D. apply (jval_every doc_node).
  - intros [| | | | | | |] C _; try exact I; exfalso; apply C; exact I.
  - intros ms fs A B. cbn [doc_node] in A. lia.
  - intros ds vs A B. cbn [doc_node] in A. lia.
Qed.

Lemma key_len k : zlen k <= zlen (enc_str k).
Proof. unfold enc_str. rewrite !zlen_app. pose proof (zlen_nonneg (le_enc (str_w k) (zlen k))). pose proof (zlen_nonneg [Byte.x00]). lia. Qed.
(** The room a document's value takes when it is finalized. *)
Lemma jval_room d : clean d -> document d -> room (jval d) <= 8 + 4 * jsize d.
Proof.
  induction d using jdoc_ind'; intros C D.
  - destruct (clean_members ms C) as (N & K & CM). destruct (sorted_exists ms) as (ms' & P & SO).
    rewrite (sorted_value ms ms' K N P SO), jsize_obj, (sumf_perm msize _ _ P). cbn [room].
    destruct (doc_members ms D) as [DM _].
    assert (F : Forall (fun kv => room (jval (snd kv)) <= 8 + 4 * jsize (snd kv)) ms').
    { eapply Permutation_Forall; [exact P|]. rewrite Forall_forall in *. intros kv J. apply (H _ J); [apply (CM _ J)|apply (DM _ J)]. }
    assert (G : fold_right (fun kv n => zlen (fst kv) + 24 + room (snd kv) + n) 0 (fields ms') <= 4 * sumf msize ms').
    { clear - F. induction F as [|[k x] r A F IH]; [cbn; lia|]. cbn [fields map fold_right fst snd]. fold (fields r). rewrite sumf_cons.
      unfold msize at 1. cbn [fst snd] in *. pose proof (pad8_bounds (zlen (enc_str k))) as [P1 _]. pose proof (pad8_bounds (jsize x)) as [P2 _].
      pose proof (key_len k).
      pose proof (zlen_nonneg k). lia. }
    lia.
  - pose proof (clean_elements ds C) as CM. destruct (doc_elements ds D) as [DM _]. cbn [jval room]. rewrite jsize_arr.
    assert (G : fold_right (fun x n => 16 + room x + n) 0 (map jval ds) <= 4 * sumf asize ds).
    { clear D. induction ds as [|x r IH]; [cbn; lia|]. inversion H; subst. inversion CM; subst. inversion DM; subst.
      cbn [map fold_right]. rewrite sumf_cons. unfold asize at 1. pose proof (pad8_bounds (jsize x)) as [P2 _].
      pose proof (clean_elements _ C). specialize (IH ltac:(assumption)).
      assert (Hx : room (jval x) <= 8 + 4 * jsize x) by auto.
      assert (Cr : clean (JArr r)).
      { destruct C as (A & B & E). split; [|split]; (inversion A as [|? LA FA|? X]; subst; [|destruct X]);
          (inversion B as [|? LB FB|? X]; subst; [|destruct X]); (inversion E as [|? LE FE|? X]; subst; [|destruct X]);
          constructor; try exact I; [inversion FA|inversion FB|inversion FE]; assumption. }
      specialize (IH Cr ltac:(assumption) ltac:(assumption)). lia. }
    lia.
  - destruct d as [| |s|z|z|z|c|]; try (exfalso; apply H; exact I); cbn [jval room].
    + cbn [jsize]. pose proof (key_len s). pose proof (zlen_nonneg s). lia.
    + pose proof (jsize_nonneg (JInt z)). lia.
    + pose proof (jsize_nonneg (JUint z)). lia.
    + pose proof (jsize_nonneg (JDec z)). lia.
    + cbn [jsize]. lia.
    + cbn [jsize]. lia.
Qed.

(** One buffer: what it shows can be sent, validated, read and written out. *)
Definition lives (bs : Z) (m : mem) (v : value) : Prop :=
  is_valid bs m = Ok true /\ validate bs m = Ok tt /\ b_value bs m root = Ok v
  (* the bytes that would be sent, wherever they arrive *)
  /\ (exists bytes, b_get_bytes m root = Ok bytes /\
       forall bs', bs' mod 8 = 0 -> is_valid bs' bytes = Ok true /\ b_value bs' bytes root = Ok v)
  (* the text they are written as, and what it parses to *)
  /\ (forall n, (depth v < n)%nat ->
       exists toks d, json_serialize n (PBuf bs m root) = Ok toks /\ read_back toks = Some (events d) /\ heap_from_json d = Ok v).

Lemma represents_valid bs m fs : represents bs m root (VObj fs) -> null_free (VObj fs) ->
  is_valid bs m = Ok true /\ validate bs m = Ok tt.
Proof.
  intros [HV R] N. cbn [fst snd root] in R. destruct R as (HH & F & A & T).
  pose proof (holds_bounds _ _ _ HH) as HB. fold (esize (VObj fs)) in HB.
  assert (V : is_valid bs m = Ok true).
  { unfold is_valid. apply valid_enc with (v := VObj fs); try assumption; [lia|]. pose proof (depth_esize (VObj fs)). unfold zlen in HB. lia. }
  split; [exact V|]. destruct (c05_validation_total bs m) as [[_ V'] | [V' _]]; [exact V'|congruence].
Qed.

Lemma represents_lives bs m fs : represents bs m root (VObj fs) -> null_free (VObj fs) -> countable (VObj fs) -> finite_decimals (VObj fs) ->
  lives bs m (VObj fs).
Proof.
  intros R N C F. destruct (represents_valid bs m fs R N) as [V1 V2]. pose proof (proj1 R) as HV.
  split; [exact V1|]. split; [exact V2|]. split; [apply represents_value; exact R|]. split.
  - destruct (relocate bs m 0 (VObj fs) R eq_refl) as (bytes & SZ & RD & RL). exists bytes. split.
    + change (b_get_bytes m root) with (n <- rd_le m 0 4 ;; rd m 0 n).
      change (find_sizeof m (raw_type_of (VObj fs)) 0) with (rd_le m 0 4) in SZ. rewrite SZ. exact RD.
    + intros bs' B'. specialize (RL bs' [] []). rewrite app_nil_r in RL. cbn [app] in RL. change (zlen (@nil Byte.byte)) with 0 in RL.
      rewrite Z.add_0_r in RL. specialize (RL B'). split; [apply (represents_valid bs' bytes fs RL N)|apply represents_value; exact RL].
  - intros n L. destruct (c27_round_trip (PBuf bs m root) (VObj fs) n HV C F L R) as (toks & d & A & B & M & _ & _ & _ & _ & G).
    exists toks, d. split; [exact A|]. split; [exact B|]. apply G. inversion M. exact I.
Qed.

(** The whole way, along both routes from text to bytes. *)
Theorem c55_pipeline sorter t ms block bs :
  sorts_members sorter -> json_text t (JObj ms) -> zlen t < 2 ^ 27 -> zlen block = 8 * zlen t ->
  document (JObj ms) -> short_keys (JObj ms) -> small_integers (JObj ms) -> distinct_keys (JObj ms) ->
  no_nulls (JObj ms) -> finite_numbers (JObj ms) -> bs mod 8 = 0 ->
  exists v m1 m2,
    heap_from_json (JObj ms) = Ok v /\ means (JObj ms) v
    /\ finalize v = Ok m1 /\ buffer_from_json sorter block (JObj ms) = Ok m2
    /\ lives bs m1 v /\ lives bs m2 v /\ definalize bs m1 = Ok v.
Proof.
  intros S T TL L D K M U N F A. apply text_size in T.
  assert (C : clean (JObj ms)) by (repeat split; assumption).
  destruct (buffer_represents sorter block ms bs) as (m2 & E2 & R2 & _); [assumption..|lia|lia|assumption|].
  pose proof (jval_room _ C D) as RM.
  destruct (jval (JObj ms)) as [fs| | | | | |] eqn:J; try discriminate J.
  pose proof (proj1 R2) as HV.
  destruct (small_objects_finalize fs HV) as [m1 E1]; [lia|].
  pose proof (jval_null_free _ C N) as NF. pose proof (jval_countable _ C D) as CO. pose proof (jval_finite _ C F) as FI.
  rewrite J in NF, CO, FI.
  destruct (finalize_root fs m1 bs HV E1 A) as (R1 & _).
  exists (VObj fs), m1, m2. rewrite heap_from_json_spec, (proj2 (shortb_spec _) K), J by (assumption || exact I).
  split; [reflexivity|]. split; [rewrite <- J; apply jval_means; [apply shortb_spec; exact K|exact M]|].
  split; [exact E1|]. split; [exact E2|].
  split; [apply represents_lives; assumption|]. split; [apply represents_lives; assumption|].
  apply (c01_finalize_then_read_back fs m1 bs HV E1 A).
Qed.
Print Assumptions c55_pipeline.

(** How a text is laid out and in which order it names its members does not show:
    texts that mean the same value are finalized to the same bytes. *)
Theorem c55_same_bytes d1 d2 v :
  document d1 -> document d2 -> is_container d1 -> is_container d2 -> short_keys d1 -> short_keys d2 ->
  small_integers d1 -> small_integers d2 -> means d1 v -> means d2 v ->
  (x <- heap_from_json d1 ;; finalize x) = (x <- heap_from_json d2 ;; finalize x) /\ heap_from_json d2 = Ok v.
Proof.
  intros D1 D2 C1 C2 S1 S2 M1 M2 A1 A2. destruct (c25_value d1 D1 C1 S1 M1) as (w1 & E1 & B1). destruct (c25_value d2 D2 C2 S2 M2) as (w2 & E2 & B2).
  rewrite E1, E2, (means_unique _ _ B1 _ A1), (means_unique _ _ B2 _ A2). split; reflexivity.
Qed.
Print Assumptions c55_same_bytes.

(** With a null in the document the receiver refuses the bytes. *)
Theorem c55_null_refuted :
  let d := JObj [(lit "a", JArr [JNull; JInt 1])] in
  document d /\ short_keys d /\ small_integers d /\ distinct_keys d /\ finite_numbers d /\
  (v <- heap_from_json d ;; m <- finalize v ;; is_valid 0 m) = Ok false.
Proof.
  cbv zeta. split; [unfold document; doc_tac|].
  split; [apply shortb_spec; reflexivity|].
  split; [unfold small_integers; doc_tac|]. split; [unfold distinct_keys; doc_tac; repeat constructor; cbn; tauto|]. split; [unfold finite_numbers; doc_tac|].
  vm_compute. reflexivity.
Qed.
Print Assumptions c55_null_refuted.

(** A NaN is parsed, finalized and validated, and then written as nothing. *)
Theorem c55_nan_refuted :
  let d := JObj [(lit "a", JDec 9221120237041090560)] in
  no_nulls d /\ (v <- heap_from_json d ;; m <- finalize v ;; is_valid 0 m) = Ok true /\
  exists toks, (v <- heap_from_json d ;; m <- finalize v ;; json_serialize 3 (PBuf 0 m root)) = Ok toks /\ read_back toks = None.
Proof.
  cbv zeta. split; [unfold no_nulls; doc_tac; discriminate|]. split; [vm_compute; reflexivity|].
  eexists. split; [vm_compute; reflexivity|vm_compute; reflexivity].
Qed.
Print Assumptions c55_nan_refuted.

Example c55_case : no_nulls c24_doc /\ finite_numbers c24_doc /\
  match heap_from_json c24_doc with
  | Ok v => match finalize v, buffer_from_json by_key (zeros 264) c24_doc with
            | Ok m1, Ok m2 => is_valid 0 m1 = Ok true /\ is_valid 0 m2 = Ok true /\ b_value 0 m1 root = Ok v /\ b_value 0 m2 root = Ok v
            | _, _ => False
            end
  | _ => False
  end.
Proof.
  split; [unfold no_nulls, c24_doc; doc_tac; discriminate|].
  split; [unfold finite_numbers, c24_doc; doc_tac|]. vm_compute. auto.
Qed.
