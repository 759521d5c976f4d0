(** C67: the key comparator, in all its forms. *)

From Coq Require Import ZArith List Bool Lia ZifyBool ZifyNat ZifyN String.
From Verif Require Import Base BaseFacts Keys KeysFacts Wire Read Buf Enc Spec ReadFacts Lookup BufFacts Canon HeapOps
  HeapFacts NestedFacts Packet PacketRun Compare SpecSpan Order SpecOrder Demo.
Import ListNotations.
Open Scope string_scope.
Open Scope list_scope.
Open Scope Z_scope.

Lemma shows_size p v : p_shows p v -> p_size p = h_size v.
Proof. destruct p as [w|bs m e]; cbn [p_shows p_size]; [congruence|]. intros R. apply (p_size_eq _ _ _ _ R). Qed.
Lemma shows_strv p v : p_shows p v -> p_strv p = value_strv v.
Proof.
  unfold p_strv. destruct p as [w|bs m e]; cbn [p_shows p_scalar].
  - intros ->. unfold h_scalar. destruct v; reflexivity.
  - intros R. destruct v; try (unfold b_scalar; rewrite (represents_type _ _ _ _ R); reflexivity);
      rewrite (b_scalar_spec _ _ _ _ T_string R eq_refl) by discriminate; reflexivity.
Qed.

(** All nine overloads are this one. *)
Lemma compare_one a c v w : keyed a v -> keyed c w ->
  compare_keys a c = (n <- h_size v ;; n' <- h_size w ;; settle n n' (s <- value_strv v ;; t <- value_strv w ;; Ok (sv_ltb s t))).
Proof.
  intros A B.
  destruct a as [s|p|k x]; cbn [keyed] in A; [subst v|pose proof (shows_size _ _ A) as SA; pose proof (shows_strv _ _ A) as TA..];
    (destruct c as [t|q|k' x']; cbn [keyed] in B; [subst w|pose proof (shows_size _ _ B) as SB; pose proof (shows_strv _ _ B) as TB..]);
    cbn [compare_keys]; try rewrite SA; try rewrite TA; try rewrite SB; try rewrite TB; reflexivity.
Qed.

Lemma measures_size v n : measures v n -> h_size v = Ok (Z.of_nat n).
Proof. intros M. inversion M; reflexivity. Qed.
Lemma measureless_size v : (forall n, ~ measures v n) -> h_size v = Throw type_error.
Proof. destruct v; intros N; try reflexivity; exfalso; eapply N; constructor. Qed.
Lemma sized v : h_size v = Throw type_error \/ exists n, h_size v = Ok n.
Proof. destruct v; cbn [h_size]; eauto. Qed.

(** Strings, in whatever form they come, are compared by length and then by their bytes. *)
Theorem c67_compares a c s t : keyed a (VStr s) -> keyed c (VStr t) ->
  exists r, compare_keys a c = Ok r /\ (r = true <-> key_lt s t).
Proof.
  intros A B. rewrite (compare_one _ _ _ _ A B). cbn [h_size bind value_strv]. exists (dart_ltb s t). split.
  - unfold settle, dart_ltb. destruct (negb (zlen s =? zlen t)); reflexivity.
  - apply dart_ltb_key_lt.
Qed.
Print Assumptions c67_compares.

(** So any mixture of forms is strictly and totally ordered, up to being the same string. *)
Theorem c67_order a c d s t u : keyed a (VStr s) -> keyed c (VStr t) -> keyed d (VStr u) ->
  compare_keys a a = Ok false /\
  (compare_keys a c = Ok true -> compare_keys c a = Ok false) /\
  (compare_keys a c = Ok true -> compare_keys c d = Ok true -> compare_keys a d = Ok true) /\
  (compare_keys a c = Ok false -> compare_keys c a = Ok false -> s = t) /\
  (s = t -> compare_keys a c = Ok false /\ compare_keys a d = compare_keys c d /\ compare_keys d a = compare_keys d c).
Proof.
  intros A B C.
  assert (X : forall x y p q, keyed x (VStr p) -> keyed y (VStr q) ->
    (compare_keys x y = Ok true <-> key_lt p q) /\ (compare_keys x y = Ok false <-> ~ key_lt p q)).
  { intros x y p q Hx Hy. destruct (c67_compares _ _ _ _ Hx Hy) as ([|] & -> & R); split; split; intros H; intuition congruence. }
  split; [apply (X _ _ _ _ A A), key_lt_irrefl|].
  split; [intros H; apply (X _ _ _ _ B A), key_lt_asym, (X _ _ _ _ A B), H|].
  split; [intros H1 H2; apply (X _ _ _ _ A C); eapply key_lt_trans; [apply (X _ _ _ _ A B), H1|apply (X _ _ _ _ B C), H2]|].
  split.
  - intros H1 H2. apply (X _ _ _ _ A B) in H1. apply (X _ _ _ _ B A) in H2. destruct (key_lt_total s t) as [|[|]]; tauto.
  - intros <-. split; [apply (X _ _ _ _ A B), key_lt_irrefl|].
    rewrite (compare_one _ _ _ _ A C), (compare_one _ _ _ _ B C), (compare_one _ _ _ _ C A), (compare_one _ _ _ _ C B). auto.
Qed.
Print Assumptions c67_order.

(** What is not a string: without a size, refused; with one, the sizes decide, and
    only where they agree is it refused. *)
Theorem c67_others a c v w : keyed a v -> keyed c w ->
  ((forall n, ~ measures v n) \/ (forall n, ~ measures w n) -> compare_keys a c = Throw type_error) /\
  (forall n n', measures v n -> measures w n' ->
    ((n < n')%nat -> compare_keys a c = Ok true) /\
    ((n' < n)%nat -> compare_keys a c = Ok false) /\
    (n = n' -> ~ (text v /\ text w) -> compare_keys a c = Throw type_error)).
Proof.
  intros A B. rewrite (compare_one _ _ _ _ A B). split.
  - intros [N|N].
    + rewrite (measureless_size _ N). reflexivity.
    + rewrite (measureless_size _ N). destruct (sized v) as [->|[n ->]]; reflexivity.
  - intros n n' M M'. rewrite (measures_size _ _ M), (measures_size _ _ M'). cbn [bind]. unfold settle.
    split; [|split]; intros H.
    + replace (Z.of_nat n =? Z.of_nat n') with false by lia. cbn [negb]. f_equal. lia.
    + replace (Z.of_nat n =? Z.of_nat n') with false by lia. cbn [negb]. f_equal. lia.
    + intros T. subst n'. rewrite Z.eqb_refl. cbn [negb].
      destruct v; try reflexivity. destruct w; try reflexivity. exfalso. apply T. split; eexists; reflexivity.
Qed.
Print Assumptions c67_others.

(** Nothing else ever happens: an answer or type_error. *)
Theorem c67_total a c v w : keyed a v -> keyed c w ->
  (exists r, compare_keys a c = Ok r) \/ compare_keys a c = Throw type_error.
Proof.
  intros A B. rewrite (compare_one _ _ _ _ A B). destruct (sized v) as [->|[n ->]]; cbn [bind]; [auto|].
  destruct (sized w) as [->|[n' ->]]; cbn [bind]; [auto|]. unfold settle.
  destruct (negb (n =? n')); [eauto|]. destruct v; cbn [value_strv bind]; auto. destruct w; cbn [value_strv bind]; eauto.
Qed.
Print Assumptions c67_total.

(** That values which cannot be keys are always refused is false: an aggregate is
    ordered by its number of elements, before or after a string. *)
Theorem c67_refuses_refuted :
  ~ forall a c v w, keyed a v -> keyed c w -> ~ text v -> compare_keys a c = Throw type_error.
Proof.
  intros H. specialize (H (Val (PHeap (VArr []))) (View (b "k")) _ _ eq_refl eq_refl). discriminate H.
  intros [s E]. discriminate E.
Qed.
Print Assumptions c67_refuses_refuted.

(** Keys of a finalized object against views and mutable strings, pairs against
    pairs, and an array of one element against strings of one and of two bytes. *)
Example c67_case :
  match finalize demo with
  | Ok m =>
      match p_iterate_keys (PBuf 0 m root) with
      | Ok (k :: k' :: _) =>
          [compare_keys (Val k) (Val k'); compare_keys (Val k') (Val k); compare_keys (Pair k' k) (Pair k k');
           compare_keys (Pair k k') (View (b "~~~~~~~~~~~~~~~~~~~~~~")); compare_keys (View (b "")) (Pair k k);
           compare_keys (Val (PHeap (VStr (b "")))) (Val k); compare_keys (Pair k k) (Val k); compare_keys (Val k) (Pair k' k);
           compare_keys (Val (PHeap (VArr [VNull]))) (View (b "a")); compare_keys (Val (PHeap (VArr [VNull]))) (View (b "ab"));
           compare_keys (Val k) (Val (PHeap (VInt 1)))]
      | _ => []
      end
  | _ => []
  end = [Ok true; Ok false; Ok false; Ok true; Ok true; Ok true; Ok false; Ok true; Throw type_error; Ok true; Throw type_error].
Proof. vm_compute. reflexivity. Qed.
