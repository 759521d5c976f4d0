(** Properties of the YAML connector: C48 (documents with scalar keys become the
    values they mean; everything else throws, except keys that are aggregates). *)

From Coq Require Import ZArith List Bool Lia String Sorted.
From Verif Require Import Base BaseFacts Keys KeysFacts Wire Spec SpecArith SpecDec Read Buf Enc HeapOps SpecJson Json JsonFacts SpecYaml Yaml YamlNum YamlFacts YamlRun PropsWire Demo.
Import Init.Byte.
Import ListNotations.
Open Scope string_scope.
Open Scope list_scope.
Open Scope Z_scope.

(** ** Scalars *)

Theorem c48_scalar reports_tiny s : ~ In x00 s -> scalar_value s (parse_scalar reports_tiny s).
Proof. apply parse_scalar_value. Qed.
Print Assumptions c48_scalar.
(** The specification leaves no choice, but for tiny numbers. *)
Theorem c48_scalar_unique s v w : scalar_value s v -> scalar_value s w ->
  v = w \/ exists neg num den, float_literal s neg num den /\ tiny num den.
Proof. apply scalar_unique. Qed.
Print Assumptions c48_scalar_unique.

Definition never (_ _ : Z) : bool := false.
Example c48_scalars :
  map (parse_scalar never)
    [lit "null"; lit "true"; lit "-12"; lit "0x1F"; lit "010"; lit "2.5"; lit "1e3"; lit "0x1.8p1"; lit "hello"; []] =
  [VNull; VBool true; VInt (-12); VInt 31; VInt 8; VDec 4612811918334230528; VDec 4652007308841189376; VDec 4613937818241073152; VStr (lit "hello"); VStr []].
Proof. vm_compute. reflexivity. Qed.
Example c48_strings :
  map (parse_scalar never) [lit "08"; lit "-.5"; lit "1e"; lit "0x1p3"; lit "9223372036854775808"; lit "1e999"; lit "~"; lit "-inf"] =
  map VStr [lit "08"; lit "-.5"; lit "1e"; lit "0x1p3"; lit "9223372036854775808"; lit "1e999"; lit "~"; lit "-inf"].
Proof. vm_compute. reflexivity. Qed.

(** A zero byte ends the comparison with null: "null\0x" is no literal. *)
Theorem c48_zero_byte_refuted : exists s, parse_scalar never s = VNull /\ forall v, scalar_value s v -> v <> VNull.
Proof. exists (lit "null" ++ [x00; x78]). split; [reflexivity|]. intros v H. inversion H; discriminate. Qed.
Print Assumptions c48_zero_byte_refuted.

(** ** Documents *)

Theorem c48_parses reports_tiny n rest : supported n -> is_aggregate n ->
  exists v, from_yaml reports_tiny (document_events n ++ rest) = Ok v /\ ymeans n v.
Proof.
  intros SP A. exists (yval reports_tiny n). split; [|now apply yval_means].
  pose proof (document_run reports_tiny n rest (supported_keys n SP)) as H. rewrite (supported_clean n SP) in H.
  destruct n; try destruct A; exact H.
Qed.
Print Assumptions c48_parses.
(** With scalar keys, what is accepted: maps and sequences without aliases or long
    keys.  The rest throws. *)
Theorem c48_accepts reports_tiny n rest : scalar_keys n ->
  (exists v, from_yaml reports_tiny (document_events n ++ rest) = Ok v) /\ is_aggregate n /\ clean n \/
  (exists e, from_yaml reports_tiny (document_events n ++ rest) = Throw e) /\ ~ (is_aggregate n /\ clean n).
Proof.
  intros SK. pose proof (document_run reports_tiny n rest SK) as H. pose proof (clean_iff n SK) as C.
  assert (AG : aggregateb n = true <-> is_aggregate n) by (destruct n; cbn [aggregateb is_aggregate]; split; auto; discriminate).
  destruct (aggregateb n && cleanb n) eqn:E.
  - left. apply andb_prop in E. destruct E as [E1 E2]. split; [eexists; exact H|]. split; [now apply AG|now apply C].
  - right. split; [exact H|]. intros [X Y]. apply AG in X. apply C in Y. rewrite X, Y in E. discriminate.
Qed.
Print Assumptions c48_accepts.
(** Input that breaks off throws, wherever it does. *)
Theorem c48_breaks_off reports_tiny n es r : scalar_keys n -> document_events n = es ++ r -> r <> [] -> exists e, from_yaml reports_tiny es = Throw e.
Proof.
  intros SK E N. destruct r as [|x r _] using rev_ind; [congruence|]. unfold document_events in E. rewrite !app_assoc in E.
  apply app_inj_tail in E. destruct E as [E _]. apply (prefix_run reports_tiny n es r SK). unfold opening. rewrite E. reflexivity.
Qed.
Print Assumptions c48_breaks_off.
(** No document: an empty object. *)
Theorem c48_empty reports_tiny rest : from_yaml reports_tiny ([Stream_start; Stream_end] ++ rest) = Ok (VObj []).
Proof. reflexivity. Qed.
Print Assumptions c48_empty.

(** The buffer reads back as the document; only maps have one. *)
Theorem c48_buffer reports_tiny n rest m bs : supported n -> storable n -> is_aggregate n ->
  buffer_from_yaml reports_tiny (document_events n ++ rest) = Ok m -> bs mod 8 = 0 ->
  exists v, ymeans n v /\ walk bs m = Ok v.
Proof.
  intros SP ST A E B. destruct (c48_parses reports_tiny n rest SP A) as (v & P & M). exists v. split; [exact M|].
  pose proof (means_heap n SP ST v M) as H.
  unfold buffer_from_yaml in E. rewrite P in E. cbn [bind] in E. destruct v as [fs| | | | | |]; try discriminate.
  apply (c01_finalize_then_read_back fs m bs H E B).
Qed.
Print Assumptions c48_buffer.
Theorem c48_buffer_roots reports_tiny xs rest : supported (YSeq xs) ->
  buffer_from_yaml reports_tiny (document_events (YSeq xs) ++ rest) = Throw type_error.
Proof.
  intros SP. destruct (c48_parses reports_tiny (YSeq xs) rest SP I) as (v & P & M). unfold buffer_from_yaml. rewrite P.
  inversion M; subst. reflexivity.
Qed.
Print Assumptions c48_buffer_roots.

(** An ordinary document:
<<
    name: dart
    sizes: [1, 2.5, null]
    deep: {on: true, name: "x y"}
    name: other
>> *)
Definition c48_doc : ynode :=
  YMap [(YScalar true (lit "name"), YScalar true (lit "dart"));
        (YScalar true (lit "sizes"), YSeq [YScalar true (lit "1"); YScalar true (lit "2.5"); YScalar true (lit "null")]);
        (YScalar true (lit "deep"), YMap [(YScalar true (lit "on"), YScalar true (lit "true")); (YScalar true (lit "name"), YScalar false (lit "x y"))]);
        (YScalar true (lit "name"), YScalar true (lit "other"))].
Lemma no_zero s : forallb (fun c => negb (byte_eqb c x00)) s = true -> ~ In x00 s.
Proof. rewrite forallb_forall. intros H J. apply H in J. discriminate. Qed.
Lemma a_string s : starts_number (first s) = false -> s <> lit "null" -> s <> lit "true" -> s <> lit "false" -> forall v, scalar_value s v -> v = VStr s.
Proof.
  intros H N1 N2 N3 v V. inversion V as [| | |? ? L|? ? ? ? ? L|]; subst; try congruence.
  - apply int_starts in L. congruence.
  - apply float_starts in L. congruence.
Qed.
Example c48_doc_supported : supported c48_doc /\ storable c48_doc.
Proof.
  assert (K : forall s x, zlen (lit s) <= 65535 -> supported x -> (exists q k, fst (YScalar true (lit s), x) = YScalar q k /\ zlen k <= 65535) /\ supported (snd (YScalar true (lit s), x))).
  { intros s x L S. split; [exists true, (lit s); split; [reflexivity|exact L]|exact S]. }
  assert (P : forall s, forallb (fun c => negb (byte_eqb c x00)) (lit s) = true -> supported (YScalar true (lit s))).
  { intros s H. apply supported_plain. now apply no_zero. }
  split.
  - apply supported_map. repeat apply Forall_cons; [..|apply Forall_nil]; apply K; try (vm_compute; discriminate); try (apply P; reflexivity).
    + apply supported_seq; [vm_compute; discriminate|]. repeat apply Forall_cons; [..|apply Forall_nil]; apply P; reflexivity.
    + apply supported_map. repeat apply Forall_cons; [..|apply Forall_nil]; apply K; try (vm_compute; discriminate); try (apply P; reflexivity).
      apply supported_quoted; [now apply no_zero|]. apply a_string; try discriminate. reflexivity.
  - apply storable_map. repeat apply Forall_cons; [..|apply Forall_nil]; cbn [snd]; try (apply storable_scalar; reflexivity).
    + apply storable_seq. repeat apply Forall_cons; [..|apply Forall_nil]; apply storable_scalar; reflexivity.
    + apply storable_map. repeat apply Forall_cons; [..|apply Forall_nil]; cbn [snd]; apply storable_scalar; reflexivity.
Qed.
Example c48_doc_value :
  from_yaml never (document_events c48_doc) =
  Ok (VObj [(lit "deep", VObj [(lit "on", VBool true); (lit "name", VStr (lit "x y"))]); (lit "name", VStr (lit "other"));
            (lit "sizes", VArr [VInt 1; VDec 4612811918334230528; VNull])]) /\
  exists m, buffer_from_yaml never (document_events c48_doc) = Ok m.
Proof. split; [vm_compute; reflexivity|]. eexists. vm_compute. reflexivity. Qed.
Example c48_refused :
  map (fun n => from_yaml never (document_events n)) [YScalar true (lit "x"); YSeq [YAlias]] = [Throw parse_error; Throw parse_error].
Proof. reflexivity. Qed.

(** ** What fails *)

(** Quotes do not make a string: [a: "12"]. *)
Theorem c48_quoted_refuted : exists n v, scalar_keys n /\ from_yaml never (document_events n) = Ok v /\ ~ ymeans n v.
Proof.
  exists (YSeq [YScalar false (lit "12")]), (VArr [VInt 12]). split; [|split].
  - apply scalar_keys_seq; [vm_compute; discriminate|]. repeat constructor.
  - reflexivity.
  - intros M. inversion M as [| |? ? F|]; subst. inversion F as [|? ? ? ? X]; subst. inversion X.
Qed.
Print Assumptions c48_quoted_refuted.
(** A map or sequence as a key: undefined behaviour. *)
Theorem c48_keys_refuted : exists n, from_yaml never (document_events n) = Undef.
Proof. exists (YMap [(YMap [(YScalar true (lit "a"), YScalar true (lit "1"))], YScalar true (lit "2"))]). reflexivity. Qed.
Print Assumptions c48_keys_refuted.
(** Or another document: [w: [{[]: 1}, {}]] becomes {"1": [{"w": []}, {}]}. *)
Theorem c48_shifted_refuted : exists n v, from_yaml never (document_events n) = Ok v /\ ~ ymeans n v /\
  v = VObj [(lit "1", VArr [VObj [(lit "w", VArr [])]; VObj []])].
Proof.
  exists (YMap [(YScalar true (lit "w"), YSeq [YMap [(YSeq [], YScalar true (lit "1"))]; YMap []])]).
  exists (VObj [(lit "1", VArr [VObj [(lit "w", VArr [])]; VObj []])]).
  split; [vm_compute; reflexivity|]. split; [|reflexivity]. intros M. inversion M as [| | |? ms fs A S D V]; subst.
  inversion A as [|p m ? ms' [(q & Ek) E] A']; subst. inversion A'; subst. cbn [fst snd] in *. injection Ek as _ Ek. destruct m as [k x]. cbn [fst snd] in *. subst.
  destruct (D (lit "w")) as [_ D']. cbv in D'. discriminate D'. reflexivity.
Qed.
Print Assumptions c48_shifted_refuted.
