(** C61: JSON down to the bytes of the text, and the texts of the C interface. *)

From Coq Require Import ZArith List Bool Lia String Sorted Permutation.
From Coq Require Import ZifyBool ZifyNat ZifyN.
From Verif Require Import Base BaseFacts Keys KeysFacts Dec SpecDec Wire Read Buf Enc Spec ReadFacts BufFacts Canon HeapOps HeapFacts Packet SpecJson SpecText
  SpecCmp Compare Json JsonFacts JsonLower JsonWrite SpecPacket SpecWrap Wrap SpecAbi Abi WrapTypes Text TextRead TextWrite TextFacts Demo PropsJson.
Import ListNotations.
Open Scope string_scope.
Open Scope list_scope.
Open Scope Z_scope.

(** ** Reading *)

(** Exactly the texts of the grammar are read, as the document the grammar says. *)
Theorem c61_reader rd t d : read_text rd t = Some d <-> json_document rd t d.
Proof. apply read_text_spec. Qed.
Print Assumptions c61_reader.
(** No text is two documents. *)
Theorem c61_unambiguous rd t d e : json_document rd t d -> json_document rd t e -> d = e.
Proof. intros A B. apply c61_reader in A, B. congruence. Qed.
Print Assumptions c61_unambiguous.
(** heap::from_json reads as many bytes as it is told, buffer::from_json up to the
    first zero byte: that makes no difference. *)
Theorem c61_zero_ends rd t : read_text rd (cstr (t ++ [x00])) = read_text rd t.
Proof. apply read_iff. intros d. rewrite cstr_zero. apply document_cstr. Qed.
Print Assumptions c61_zero_ends.

(** Every outcome of parsing any bytes at all into a heap. *)
Theorem c61_heap_outcome rd t : gives_doubles rd -> zlen t < 2 ^ 32 ->
  ((forall d, ~ json_document rd t d) /\ heap_of_text rd t = Throw parse_error) \/
  exists d, json_document rd t d /\
    ((~ is_container d /\ heap_of_text rd t = Throw type_error) \/
     (is_container d /\ ~ short_keys d /\ heap_of_text rd t = Throw invalid_argument) \/
     (is_container d /\ short_keys d /\ exists v, heap_of_text rd t = Ok v /\ (small_integers d -> means d v))).
Proof.
  intros G L. unfold heap_of_text. destruct (read_text rd t) as [d|] eqn:E.
  - right. exists d. apply c61_reader in E. split; [exact E|]. pose proof (text_document rd t d G L E) as D.
    assert (C : is_container d \/ ~ is_container d) by (destruct d; cbn; auto).
    destruct C as [C|C]; [|left; split; [exact C|apply scalar_root; assumption]]. right.
    rewrite heap_from_json_spec by assumption. destruct (shortb d) eqn:S.
    + right. split; [exact C|]. split; [apply shortb_spec, S|]. exists (jval d). split; [reflexivity|].
      intros M. apply jval_means; assumption.
    + left. split; [exact C|]. split; [|reflexivity]. intros K. apply shortb_spec in K. congruence.
  - left. split; [|reflexivity]. intros d J. apply c61_reader in J. congruence.
Qed.
Print Assumptions c61_heap_outcome.
(** Parsing any bytes at all into a buffer stays in its block. *)
Theorem c61_buffer_outcome rd sorter block t : (forall A (l : list (str * A)), Permutation l (sorter A l)) -> gives_doubles rd ->
  zlen block = 8 * zlen t ->
  ((forall d, ~ json_document rd t d) /\ buffer_of_text rd sorter block t = Throw parse_error) \/
  exists d, json_document rd t d /\
    (((forall ms, d <> JObj ms) /\ buffer_of_text rd sorter block t = Throw type_error) \/
     exists ms m, d = JObj ms /\ buffer_of_text rd sorter block t = Ok m /\ zlen m = zlen block).
Proof.
  intros P G L. unfold buffer_of_text. rewrite c61_zero_ends. destruct (read_text rd t) as [d|] eqn:E.
  - right. exists d. apply c61_reader in E. split; [exact E|].
    assert (C : (exists ms, d = JObj ms) \/ forall ms, d <> JObj ms) by (destruct d; eauto; right; discriminate).
    destruct C as [[ms ->]|C]; [|left; split; [exact C|apply c24_other_roots; exact C]]. right.
    destruct (c24_fits sorter t ms block P (document_text rd t _ G E) L) as (m & Em & Z). exists ms, m. auto.
  - left. split; [|reflexivity]. intros d J. apply c61_reader in J. congruence.
Qed.
Print Assumptions c61_buffer_outcome.
(** One text, two forms, one value. *)
Theorem c61_forms_agree rd sorter block t ms bs : sorts_members sorter -> gives_doubles rd -> json_document rd t (JObj ms) ->
  zlen t < 2 ^ 29 -> zlen block = 8 * zlen t -> short_keys (JObj ms) -> small_integers (JObj ms) -> distinct_keys (JObj ms) -> bs mod 8 = 0 ->
  exists v m, heap_of_text rd t = Ok v /\ buffer_of_text rd sorter block t = Ok m /\ b_value bs m root = Ok v /\ means (JObj ms) v.
Proof.
  intros S G T L B K M U A. pose proof (text_document rd t _ G ltac:(lia) T) as D.
  destruct (c26_agree sorter t ms block bs S (document_text rd t _ G T) L B D K M U A) as (v & m & E1 & E2 & E3 & _).
  unfold heap_of_text, buffer_of_text. rewrite c61_zero_ends. apply c61_reader in T. rewrite T.
  exists v, m. repeat (split; [assumption|]).
  destruct (c25_value (JObj ms) D Logic.I K M) as (w & Ew & Mw). congruence.
Qed.
Print Assumptions c61_forms_agree.

(** ** Writing *)
Definition container (v : value) : Prop := match v with VObj _ | VArr _ => True | _ => False end.
Definition of_packet (p : packet) (v : value) : Prop := match p with PHeap w => w = v | PBuf bs m e => represents bs m e v end.

(** The text of a packet of either form is one line without a zero byte, a text of
    the grammar, and says the value: the members in the order of the keys, the decimals
    as they read. *)
Theorem c61_written dt rd n p v : prints dt -> heap_value v -> finite_decimals v -> (depth v < n)%nat -> of_packet p v ->
  exists t d, to_json dt n p = Ok t /\ one_line t /\ json_document rd t d /\ of_value (redec (fun x => rd (dt x)) v) d /\
    forall d', json_document rd t d' -> d' = d.
Proof.
  intros P H F L S. exists (text dt v), (says (redec (again dt rd) v)).
  assert (Sh : shows p v) by (split; assumption).
  destruct (text_strict dt rd P v H F) as [T O].
  assert (J : json_document rd (text dt v) (says (redec (again dt rd) v))).
  { exists [], (text dt v), []. split; [constructor|]. split; [exact T|]. split; [constructor|]. left. symmetry. apply app_nil_r. }
  split; [apply to_json_text; assumption|]. split; [exact O|]. split; [exact J|]. split; [apply says_of|].
  intros d' D. apply (c61_unambiguous rd _ _ _ D J).
Qed.
Print Assumptions c61_written.

(** Reading it back into a heap gives the value, with the decimals as they read. *)
Theorem c61_round_trip dt rd n p v : prints dt -> gives_doubles rd -> heap_value v -> countable v -> finite_decimals v -> (depth v < n)%nat ->
  of_packet p v -> container v ->
  exists t, to_json dt n p = Ok t /\ heap_of_text rd t = Ok (redec (fun x => rd (dt x)) v).
Proof.
  intros P G H C F L S K. destruct (c61_written dt rd n p v P H F L S) as (t & d & E & _ & J & O & _). exists t. split; [exact E|].
  apply c61_reader in J. unfold heap_of_text. rewrite J. apply of_says in O. subst d. fold (again dt rd).
  assert (H' : heap_value (redec (again dt rd) v)) by (apply redec_heap; [intros x; exact (G (dt x))|exact H]).
  assert (C' : countable (redec (again dt rd) v)) by (apply redec_countable; exact C).
  pose proof (says_document _ H' C') as D. pose proof (says_short _ H') as Sh.
  destruct (c25_value (says (redec (again dt rd) v)) D) as (w & E' & M); [destruct v; destruct K; exact Logic.I|exact Sh|apply says_small|].
  change (fun x => rd (dt x)) with (again dt rd). rewrite E'. f_equal. apply (means_unique _ _ M). apply says_means. exact H'.
Qed.
Print Assumptions c61_round_trip.
(** If the reader gets back the doubles the writer printed, it is the value itself, from
    and into either form. *)
Theorem c61_exact dt rd sorter n p v : prints dt -> gives_doubles rd -> faithful rd dt -> sorts_members sorter ->
  heap_value v -> countable v -> finite_decimals v -> (depth v < n)%nat -> of_packet p v -> container v ->
  exists t, to_json dt n p = Ok t /\ heap_of_text rd t = Ok v /\
    forall block bs fs, v = VObj fs -> zlen t < 2 ^ 29 -> zlen block = 8 * zlen t -> bs mod 8 = 0 ->
      exists m, buffer_of_text rd sorter block t = Ok m /\ b_value bs m root = Ok v.
Proof.
  intros P G Fa So H C F L S K. destruct (c61_round_trip dt rd n p v P G H C F L S K) as (t & E & R). exists t. split; [exact E|].
  assert (Id : redec (fun x => rd (dt x)) v = v) by (apply (redec_faithful dt rd v Fa H F)).
  rewrite Id in R. split; [exact R|]. intros block bs fs -> TL B A.
  destruct (c61_written dt rd n p (VObj fs) P H F L S) as (t' & d & E' & _ & J & O & _). assert (t' = t) as -> by congruence.
  rewrite Id in O. apply of_says in O. subst d. cbn [says] in J.
  destruct (c61_forms_agree rd sorter block t _ bs So G J TL B (says_short _ H) (says_small (VObj fs)) (says_distinct _ H) A) as (w & m & E1 & E2 & E3 & _).
  exists m. split; [exact E2|]. congruence.
Qed.
Print Assumptions c61_exact.
(** Then different values have different texts. *)
Theorem c61_injective dt rd n p q v w t : prints dt -> faithful rd dt -> heap_value v -> heap_value w ->
  finite_decimals v -> finite_decimals w -> (depth v < n)%nat -> (depth w < n)%nat -> of_packet p v -> of_packet q w ->
  to_json dt n p = Ok t -> to_json dt n q = Ok t -> v = w.
Proof.
  intros P Fa Hv Hw Fv Fw Lv Lw Sv Sw Ev Ew.
  destruct (c61_written dt rd n p v P Hv Fv Lv Sv) as (t1 & d1 & E1 & _ & J1 & O1 & _).
  destruct (c61_written dt rd n q w P Hw Fw Lw Sw) as (t2 & d2 & E2 & _ & J2 & O2 & _).
  assert (t1 = t) as -> by congruence. assert (t2 = t) as -> by congruence.
  change (fun x => rd (dt x)) with (again dt rd) in O1, O2. rewrite (redec_faithful dt rd v Fa Hv Fv) in O1. rewrite (redec_faithful dt rd w Fa Hw Fw) in O2.
  pose proof (c61_unambiguous rd t d1 d2 J1 J2) as <-. apply of_says in O1, O2. subst d1.
  apply (means_unique (says v)); [apply says_means; exact Hv|]. rewrite O2. apply says_means. exact Hw.
Qed.
Print Assumptions c61_injective.

(** Infinities and NaN are left out without a word, so what is written is JSON of
    another value, or no JSON. *)
Theorem c61_nan_refuted dt rd :
  let nan := 9221120237041090560 in
  denote64 nan = FNaN /\
  to_json dt 3 (PHeap (VArr [VDec nan])) = Ok (lit "[]") /\ heap_of_text rd (lit "[]") = Ok (VArr []) /\
  to_json dt 3 (PHeap (VObj [(lit "a", VDec nan)])) = Ok (lit "{""a"":}") /\ heap_of_text rd (lit "{""a"":}") = Throw parse_error.
Proof. vm_compute. auto. Qed.
Print Assumptions c61_nan_refuted.

(** ** The C interface *)

(** A variable made by a library function for a packet that shows [v]. *)
Definition holds_packet (s : cstate) (i : nat) (d : form) (n : counter) (p : packet) : Prop :=
  exists t, nth_error s i = Some (mkvar t (Some (p_id d, rc_id n)) (Some (d, n, p))).

(** dart_to_json gives a block of exactly one byte more than the text, zero-terminated,
    and the length of the text. *)
Theorem c61_c_text dt k f s i d n p v : prints dt -> heap_value v -> finite_decimals v -> (depth v < k)%nat -> of_packet p v ->
  holds_packet s i d n p -> takes f d = true ->
  exists t block, to_json dt k p = Ok t /\ c_to_json dt k f s i = Got (block, zlen t) /\ terminated block t /\ zlen block = zlen t + 1.
Proof.
  intros P H F L S [ty E] Tk. destruct (c61_written dt (fun _ => 0) k p v P H F L S) as (t & _ & W & O & _).
  exists t, (t ++ [x00]). split; [exact W|].
  assert (B : firstn (Z.to_nat (zlen t + 1)) (t ++ [x00]) = t ++ [x00]).
  { apply firstn_all2. rewrite app_length. unfold zlen. cbn [List.length]. lia. }
  split; [|split; [split; [apply one_line_zero, O|exists []; reflexivity]|rewrite zlen_app; reflexivity]].
  unfold c_to_json, look, unwrap. rewrite E. cbn [v_tags].
  transitivity (match to_json dt k p with Ok x => Got (firstn (Z.to_nat (zlen x + 1)) (x ++ [x00]), zlen x) | Throw e => Got_code (handle e) | _ => Got_bad end).
  - unfold tag_switch. destruct f, d; try discriminate Tk; cbn [p_id]; rewrite rc_switch_id; unfold seen; cbn [v_obj form_eqb andb];
      (replace (counter_eqb n n) with true by (destruct n; reflexivity)); destruct (to_json dt k p); reflexivity.
  - rewrite W. rewrite B. reflexivity.
Qed.
Print Assumptions c61_c_text.

(** What parsing a text leaves in the variable: the packet, or a null packet and the
    error's code; and the strlen form and the form with a length do the same. *)
Definition as_code {A} (r : res A) : Z := match r with Ok _ => 0 | Throw e => handle e | _ => 0 end.
Definition in_variable (d : form) (n : counter) (p : packet) : var := mkvar d (Some (p_id d, rc_id n)) (Some (d, n, p)).
Theorem c61_c_parse rd sorter block addr s i d n v0 m t : terminated m t -> nth_error s i = Some v0 -> v_type v0 = d ->
  let parsed := packet_of_text rd sorter block addr (match d with FBuffer => true | _ => false end) t in
  (forall p, parsed = Ok p ->
     c_from_json rd sorter block addr s i d (rc_id n) m = (put i (in_variable d n p) s, Code 0)) /\
  (forall e, parsed = Throw e ->
     c_from_json rd sorter block addr s i d (rc_id n) m = (put i (in_variable d n (fresh d)) s, Code (handle e))) /\
  c_from_json_len rd sorter block addr s i d (rc_id n) m (zlen t) = c_from_json rd sorter block addr s i d (rc_id n) m.
Proof.
  intros [N [r ->]] E T parsed.
  assert (X : c_from_json rd sorter block addr s i d (rc_id n) (t ++ x00 :: r) = c_from_json_len rd sorter block addr s i d (rc_id n) (t ++ x00 :: r) (zlen t))
    by (unfold c_from_json; rewrite strlen_stop by exact N; reflexivity).
  split; [|split; [|symmetry; exact X]]; intros y Y; rewrite X; unfold c_from_json_len; rewrite (init_new s i d n v0 E T); cbn [no_error];
    rewrite (unwrap_new _ i d n (fresh d)) by (apply (nth_put _ _ _ _ E)); rewrite view_prefix; fold parsed; rewrite Y.
  - cbn [err_handler]. unfold store. rewrite (nth_put _ _ _ _ E). rewrite put_put. reflexivity.
  - reflexivity.
Qed.
Print Assumptions c61_c_parse.
(** Anything that is not JSON gives the code for it and a null packet, never the last text's. *)
Theorem c61_c_not_json rd sorter block addr s i d n v0 m t : terminated m t -> nth_error s i = Some v0 -> v_type v0 = d ->
  (forall j, ~ json_document rd t j) ->
  c_from_json rd sorter block addr s i d (rc_id n) m = (put i (in_variable d n (fresh d)) s, Code 4).
Proof.
  intros M E T J. destruct (c61_c_parse rd sorter block addr s i d n v0 m t M E T) as (_ & B & _). refine (B parse_error _).
  assert (R : read_text rd t = None).
  { destruct (read_text rd t) as [j|] eqn:R; [|reflexivity]. apply c61_reader in R. destruct (J j R). }
  unfold packet_of_text, buffer_of_text, heap_of_text. rewrite c61_zero_ends, R. destruct d; reflexivity.
Qed.
Print Assumptions c61_c_not_json.
(** There and back: the block that dart_to_json returns, given to dart_from_json, makes a
    packet of the same value. *)
Theorem c61_c_round dt rd sorter k f s i d n p v j d' n' v0 block addr : prints dt -> gives_doubles rd -> faithful rd dt ->
  heap_value v -> countable v -> finite_decimals v -> (depth v < k)%nat -> of_packet p v -> container v ->
  holds_packet s i d n p -> takes f d = true -> nth_error s j = Some v0 -> v_type v0 = d' -> d' <> FBuffer ->
  exists m len, c_to_json dt k f s i = Got (m, len) /\
    c_from_json rd sorter block addr s j d' (rc_id n') m = (put j (in_variable d' n' (PHeap v)) s, Code 0) /\
    c_from_json_len rd sorter block addr s j d' (rc_id n') m len = (put j (in_variable d' n' (PHeap v)) s, Code 0).
Proof.
  intros P G Fa H C F L S K Hp Tk E T NB.
  destruct (c61_c_text dt k f s i d n p v P H F L S Hp Tk) as (t & m & W & Ct & M & _).
  destruct (c61_round_trip dt rd k p v P G H C F L S K) as (t' & W' & R). assert (t' = t) as -> by congruence.
  assert (Id : redec (fun x => rd (dt x)) v = v) by (apply (redec_faithful dt rd v Fa H F)). rewrite Id in R.
  exists m, (zlen t). split; [exact Ct|].
  destruct (c61_c_parse rd sorter block addr s j d' n' v0 m t M E T) as (A & _ & B).
  assert (X : c_from_json rd sorter block addr s j d' (rc_id n') m = (put j (in_variable d' n' (PHeap v)) s, Code 0)).
  { apply A. unfold packet_of_text. destruct d'; [|contradiction|]; rewrite R; reflexivity. }
  split; [exact X|]. rewrite B. exact X.
Qed.
Print Assumptions c61_c_round.
(** A text without its zero byte is read past its end. *)
Theorem c61_c_unterminated rd sorter block addr s i d rc t : ~ In x00 t -> snd (c_from_json rd sorter block addr s i d rc t) = Bad.
Proof.
  intros N. unfold c_from_json. replace (c_strlen t) with (@Oob Z); [reflexivity|].
  induction t as [|c t IH]; [reflexivity|]. cbn [c_strlen]. rewrite byte_eqb_neq; [|intros ->; apply N; left; reflexivity].
  rewrite <- IH; [reflexivity|]. intros J. apply N. right. exact J.
Qed.
Print Assumptions c61_c_unterminated.
(** The forms that return the packet give one of the counter asked for, but not if the
    parse fails: then it is a thread-safe null whatever was asked for. *)
Theorem c61_c_returned rd sorter block addr s d n m t : terminated m t ->
  let parsed := packet_of_text rd sorter block addr (match d with FBuffer => true | _ => false end) t in
  (forall p, parsed = Ok p -> c_parsed rd sorter block addr s d (rc_id n) m None = (s ++ [in_variable d n p], Code 0)) /\
  (forall e, parsed = Throw e -> c_parsed rd sorter block addr s d (rc_id n) m None = (s ++ [in_variable d Safe (fresh d)], Code 0)).
Proof.
  intros M parsed.
  assert (E : nth_error (s ++ [mkvar d None None]) (List.length s) = Some (mkvar d None None)).
  { rewrite nth_error_app2 by lia. rewrite Nat.sub_diag. reflexivity. }
  assert (Pl : forall x : var, put (List.length s) x (s ++ [mkvar d None None]) = s ++ [x]).
  { intros x. clear. induction s as [|a l IH]; [reflexivity|]. cbn [List.length app put]. f_equal. exact IH. }
  destruct (c61_c_parse rd sorter block addr (s ++ [mkvar d None None]) (List.length s) d n _ m t M E eq_refl) as (A & B & _).
  split; intros y Y; unfold c_parsed.
  - rewrite (A y Y), Pl. reflexivity.
  - rewrite (B y Y). destruct (handle y) as [|q|q] eqn:Hh; [destruct y; discriminate Hh| |];
      (change 1 with (rc_id Safe); rewrite (init_new _ _ d Safe _ E eq_refl), Pl; reflexivity).
Qed.
Print Assumptions c61_c_returned.
Theorem c61_c_counter_refuted rd sorter :
  exists m s', c_parsed rd sorter [] 0 [] FPacket 2 m None = (s', Code 0) /\ s' = [in_variable FPacket Safe (PHeap VNull)].
Proof. exists [x21; x00]. eexists. split; [vm_compute; reflexivity|reflexivity]. Qed.
Print Assumptions c61_c_counter_refuted.

(** ** A printer and a reader *)

(** The bits of a double as a number, and back: enough to see that what is asked of
    the two can be had. *)
Definition c61_print (d : Z) : str := write_nat 20 (d mod 2 ^ 64) ++ lit ".0".
Definition c61_scan (t : str) : Z := number_of 0 (fst (span digitb t)) mod 2 ^ 64.
Lemma c61_prints : prints c61_print.
Proof.
  intros d k _. destruct (write_nat_text (d mod 2 ^ 64)) as [T N].
  { pose proof (Z.mod_pos_bound d (2 ^ 64)). lia. }
  exists (write_nat 20 (d mod 2 ^ 64)), (d mod 2 ^ 64), (lit ".0"), [].
  split; [rewrite <- N at 2; apply int_pos; exact T|]. split; [right; exists (lit "0"); split; [reflexivity|split; [discriminate|]]|].
  - constructor; [split; vm_compute; discriminate|constructor].
  - split; [left; reflexivity|]. split; [discriminate|reflexivity].
Qed.
Lemma c61_doubles : gives_doubles c61_scan.
Proof. intros t. apply Z.mod_pos_bound. lia. Qed.
Lemma c61_faithful : faithful c61_scan c61_print.
Proof.
  intros d k B _. unfold c61_scan, c61_print. rewrite (Z.mod_small d) by exact B. destruct (write_nat_text d) as [[[_ T] _] N]; [lia|].
  rewrite span_app; [|apply digits_forall; exact T|apply not_digit; reflexivity]. cbn [fst]. rewrite N. apply Z.mod_small. exact B.
Qed.

(** The example value in both forms, and through the C functions. *)
Definition c61_text : str := match to_json c61_print 5 (PHeap demo) with Ok t => t | _ => [] end.
Example c61_case : heap_value demo /\ countable demo /\ finite_decimals demo /\ container demo /\
  (m <- finalize demo ;; to_json c61_print 5 (PBuf 0 m root)) = Ok c61_text /\
  heap_of_text c61_scan c61_text = Ok demo /\
  (m <- buffer_of_text c61_scan by_key (zeros (8 * zlen c61_text)) c61_text ;; b_value 0 m root) = Ok demo.
Proof.
  split; [exact demo_heap|]. split; [exact demo_countable|]. split; [exact demo_finite|]. split; [exact Logic.I|].
  split; [|split]; vm_compute; reflexivity.
Qed.
Example c61_small :
  to_json c61_print 5 (PHeap (VObj [(lit "k", VArr [VInt (-7); VNull; VBool true; VArr []; VObj []]); (lit "a""\", VStr [x0a; x01; xc3; xa9; x00])])) =
    Ok (lit "{""k"":[-7,null,true,[],{}],""a\""\\"":""\n\u0001" ++ [xc3; xa9] ++ lit "\u0000""}") /\
  heap_of_text c61_scan (lit " { ""a"" : [ 1 , 2.0 ,{}] , ""\u20aC\ud83d\uDE00"":""\/""}  ") =
    Ok (VObj [(lit "a", VArr [VInt 1; VDec 2; VObj []]); ([xe2; x82; xac; xf0; x9f; x98; x80], VStr (lit "/"))]) /\
  map (fun t => heap_of_text c61_scan t) [lit "{}x"; lit "[01]"; lit "[1.]"; lit "[1,]"; lit "{""a"":1"; lit "[""\ud800""]"; []] =
    repeat (Throw parse_error) 7 /\
  map (fun t => heap_of_text c61_scan t) [lit "{}" ++ [x00] ++ lit "x"; lit "7"] = [Ok (VObj []); Throw type_error].
Proof. split; [|split; [|split]]; vm_compute; reflexivity. Qed.
Definition c61_there_and_back (f : family) (s : cstate) (i j : nat) : cstate * out :=
  match c_to_json c61_print 3 f s i with Got (m, _) => c_from_json c61_scan by_key [] 0 s j FPacket 1 m | _ => (s, Bad) end.
Example c61_c_case :
  let v := VArr [VInt 1; VStr (lit "x")] in
  let s := [in_variable FPacket Unsafe (PHeap v); in_variable FHeap Safe (PHeap (VObj [])); mkvar FPacket None None] in
  c61_there_and_back Generic s 0 2 = (put 2 (in_variable FPacket Safe (PHeap v)) s, Code 0) /\
  c61_there_and_back OfHeap s 1 2 = (put 2 (in_variable FPacket Safe (PHeap (VObj []))) s, Code 0) /\
  c_to_json c61_print 3 Generic s 0 = Got (lit "[1,""x""]" ++ [x00], 7) /\
  snd (c_from_json c61_scan by_key [] 0 s 2 FPacket 1 (lit "{" ++ [x00])) = Code 4.
Proof. split; [|split; [|split]]; vm_compute; reflexivity. Qed.
