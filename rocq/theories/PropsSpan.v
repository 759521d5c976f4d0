(** C65: building and injecting from spans of values. *)

From Coq Require Import ZArith List Bool Sorted Permutation Lia ZifyBool ZifyNat ZifyN String.
From Verif Require Import Base BaseFacts Keys KeysFacts Wire Read Buf Merge Enc EncSize Spec ReadFacts Lookup BufFacts
  Canon HeapOps HeapFacts HistFacts InjectFacts MergeFacts MergeEmit MergeTop MakeFacts NestedFacts Packet
  Span SpecSpan PropsHeap PropsMerge Demo.
Import ListNotations.
Open Scope string_scope.
Open Scope list_scope.
Open Scope Z_scope.

Lemma arg_value_worth a v : worth a v -> arg_value a = Ok v.
Proof.
  destruct a as [w|bs m e]; cbn [worth arg_value]; [congruence|].
  intros R. apply (from_buffer_spec _ _ _ _ _ R). exact (walk_fuel _ _ _ _ R).
Qed.

Lemma stands_worth a v : stands_for matches a v -> worth a v.
Proof. destruct a; cbn [stands_for worth]; tauto. Qed.
Lemma pairs_spell args fs : pairs_stand matches args fs -> spells args fs.
Proof. intros P. induction P as [|a kx args fs [A B] F IH]; constructor; auto using stands_worth. Qed.
Lemma paired_flat {A} (l : list (A * A)) : paired l = flat l.
Proof. induction l as [|[k x] l IH]; [reflexivity|]. cbn [paired flat]. rewrite IH. reflexivity. Qed.

(** After pairs that can be inserted, the loop goes on with the map they make. *)
Lemma span_prefix args fs : spells args fs -> short_keys fs -> forall fb rest, okmap fb ->
  exists u, span_pairs (VObj fb) (paired args ++ rest) = span_pairs (VObj u) rest /\ okmap u /\ put_in_order fb fs u.
Proof.
  intros P. induction P as [|[a c] [k x] args fs [SK SV] F IH]; intros KL fb rest OK.
  - exists fb. split; [reflexivity|]. split; [exact OK|]. intros k. reflexivity.
  - cbn [fst snd] in *. inversion KL as [|? ? K1 K2]; subst. cbn [fst] in K1. destruct OK as [So KO].
    destruct (h_insert_spec fb So k x K1) as (fs1 & i & E & S1 & L1 & _).
    destruct (IH K2 fs1 rest) as (u & Eu & OU & PU).
    { split; [exact S1|]. intros j. rewrite L1. destruct (list_eq_dec Byte.byte_eq_dec j k) as [->|]; auto. }
    exists u. split; [|split; [exact OU|]].
    + cbn [paired app span_pairs]. rewrite (arg_value_worth _ _ SK). cbn [bind].
      rewrite (arg_value_worth _ _ SV). cbn [bind]. rewrite E. cbn [bind]. exact Eu.
    + intros j. rewrite PU. cbn [rev]. rewrite lookup_app, L1. destruct (lookup j (rev fs)); [reflexivity|].
      cbn [lookup]. destruct (list_eq_dec Byte.byte_eq_dec j k); reflexivity.
Qed.

(** Injecting a span into a mutable object, whatever forms its elements have: the
    result is the object with the pairs put in, in order. *)
Theorem c65_inject fb args fs : heap_value (VObj fb) -> spells args fs -> short_keys fs ->
  exists u, h_inject_span (VObj fb) (paired args) = Ok (VObj u) /\ StronglySorted key_lt (map fst u) /\
    put_in_order fb fs u.
Proof.
  intros H P KL. destruct (span_prefix args fs P KL fb [] (heap_okmap _ H)) as (u & E & [So _] & PU).
  rewrite app_nil_r in E. exists u. split; [exact E|]. auto.
Qed.
Print Assumptions c65_inject.

(** Making an object of a span. *)
Theorem c65_object args fs : spells args fs -> short_keys fs ->
  exists u, h_make_object_span (paired args) = Ok (VObj u) /\ p_make_object_span (paired args) = Ok (PHeap (VObj u)) /\
    StronglySorted key_lt (map fst u) /\ forall k, lookup k u = lookup k (rev fs).
Proof.
  intros P KL. destruct (span_prefix args fs P KL [] [] okmap_nil) as (u & E & [So _] & PU).
  rewrite app_nil_r in E. exists u. split; [exact E|]. split; [|split; [exact So|]].
  - unfold p_make_object_span, h_make_object_span, h_inject_span. rewrite E. reflexivity.
  - intros k. rewrite PU. destruct (lookup k (rev fs)); reflexivity.
Qed.
Print Assumptions c65_object.

(** Making an array of a span. *)
Lemma span_elems_ok args vs : Forall2 worth args vs -> forall us, zlen us + zlen vs < 2 ^ 64 ->
  span_elems (VArr us) args = Ok (VArr (us ++ vs)).
Proof.
  induction 1 as [|a v args vs W F IH]; intros us L; cbn [span_elems]; [rewrite app_nil_r; reflexivity|].
  rewrite (arg_value_worth _ _ W). cbn [bind]. unfold h_push_back. cbn [h_size h_insert h_elements bind].
  rewrite zlen_cons in L. pose proof (zlen_nonneg us). pose proof (zlen_nonneg vs).
  change (2 ^ 64) with 18446744073709551616 in *. rewrite Z.mod_small by lia.
  replace (zlen us <? zlen us) with false by lia. cbn [bind].
  replace (list_insert (Z.to_nat (zlen us)) v us) with (us ++ [v]).
  - rewrite IH by (rewrite zlen_app; change (zlen [v]) with 1; lia). rewrite <- app_assoc. reflexivity.
  - unfold zlen. rewrite Nat2Z.id. rewrite <- (app_nil_r us) at 3. symmetry. apply list_insert_mid.
Qed.
Theorem c65_array args vs : Forall2 worth args vs -> zlen vs < 2 ^ 64 ->
  h_make_array_span args = Ok (VArr vs) /\ p_make_array_span args = Ok (PHeap (VArr vs)).
Proof.
  intros F L. assert (E : h_make_array_span args = Ok (VArr vs)) by (apply (span_elems_ok args vs F []); exact L).
  split; [exact E|]. unfold p_make_array_span. rewrite E. reflexivity.
Qed.
Print Assumptions c65_array.

(** The overloads taking the pairs as arguments do the same. *)
Lemma cast_all_worth args vs : Forall2 worth args vs -> cast_all args = Ok vs.
Proof.
  induction 1 as [|a v args vs W F IH]; [reflexivity|]. cbn [cast_all]. rewrite (arg_value_worth _ _ W). cbn [bind].
  rewrite IH. reflexivity.
Qed.
Lemma span_cast args vs : Forall2 worth args vs -> forall v, span_pairs v (map ArgHeap vs) = span_pairs v args.
Proof.
  revert vs. induction args as [args IH] using (induction_ltof1 _ (@List.length arg)). unfold ltof in IH.
  intros vs F v. destruct F as [|a x args vs W F]; [reflexivity|]. destruct F as [|c y args vs W' F]; [reflexivity|].
  cbn [map span_pairs arg_value bind]. rewrite (arg_value_worth _ _ W), (arg_value_worth _ _ W'). cbn [bind].
  destruct (h_insert v x y) as [[v' i]| | | |]; try reflexivity. cbn [bind]. apply IH; [cbn [List.length]; lia|exact F].
Qed.
Theorem c65_variadic v args vs : Forall2 worth args vs -> h_inject_each v args = h_inject_span v args.
Proof.
  intros F. unfold h_inject_each. rewrite (cast_all_worth _ _ F). cbn [bind]. unfold h_inject_span.
  destruct v; try reflexivity. apply span_cast. exact F.
Qed.
Print Assumptions c65_variadic.

(** The first key that cannot be used decides, for a mutable object. *)
Theorem c65_throws fb args fs k kv x xv e rest : heap_value (VObj fb) -> spells args fs -> short_keys fs ->
  worth k kv -> worth x xv -> bad_key kv e ->
  h_inject_span (VObj fb) (paired args ++ k :: x :: rest) = Throw e.
Proof.
  intros H P KL WK WX B. destruct (span_prefix args fs P KL fb (k :: x :: rest) (heap_okmap _ H)) as (u & E & _).
  unfold h_inject_span. rewrite E. cbn [span_pairs]. rewrite (arg_value_worth _ _ WK), (arg_value_worth _ _ WX). cbn [bind].
  destruct kv; cbn [bad_key] in B; try (subst e; reflexivity).
  destruct B as [B ->]. cbn [h_insert]. replace (65535 <? zlen s) with true by lia. reflexivity.
Qed.
Print Assumptions c65_throws.

(** What is not an object: a mutable receiver refuses before looking at the span;
    a finalized one makes an object of the span first, and what that throws is
    what the caller sees. *)
Theorem c65_receiver v bs m e args : vtype v <> T_object -> represents bs m e v ->
  h_inject_span v args = Throw type_error /\
  match make_object args with
  | Ok _ => b_inject bs m e args = Throw type_error
  | Throw x => b_inject bs m e args = Throw x
  | _ => True
  end.
Proof.
  intros T R. split; [destruct v; try reflexivity; elim T; reflexivity|].
  unfold b_inject. destruct (make_object args) as [out|x| | |]; try exact Logic.I; [|reflexivity].
  cbn [bind]. unfold b_object. pose proof (represents_type _ _ _ _ R) as Y. rewrite Y.
  destruct v; try reflexivity. elim T. reflexivity.
Qed.
Print Assumptions c65_receiver.

(** An element too many: a mutable object and a packet read behind the span,
    whatever the element, where the finalized form refuses. *)
Theorem c65_odd_refuted args fs fb k : heap_value (VObj fb) -> pairs_stand matches args fs -> short_keys fs ->
  h_make_object_span (paired args ++ [k]) = Oob /\ p_make_object_span (paired args ++ [k]) = Oob /\
  (forall addr, p_inject_span addr (PHeap (VObj fb)) (paired args ++ [k]) = Oob) /\
  make_object (paired args ++ [k]) = Throw invalid_argument.
Proof.
  intros H P KL. pose proof (pairs_spell _ _ P) as SP.
  assert (E : forall fb, okmap fb -> h_inject_span (VObj fb) (paired args ++ [k]) = Oob).
  { intros f OK. destruct (span_prefix args fs SP KL f [k] OK) as (u & E & _). unfold h_inject_span. rewrite E. reflexivity. }
  pose proof (E [] okmap_nil) as E0. split; [exact E0|]. split; [|split].
  - unfold p_make_object_span, h_make_object_span. rewrite E0. reflexivity.
  - intros addr. cbn [p_inject_span]. rewrite (E fb (heap_okmap _ H)). reflexivity.
  - rewrite paired_flat. apply (c41_refuses_shape args fs k [] P). left. reflexivity.
Qed.
Print Assumptions c65_odd_refuted.

(** The two forms agree on spans with distinct keys: the finalized object holds
    what the mutable one is... *)
Theorem c65_forms args fs : pairs_stand matches args fs -> NoDup (map fst fs) -> short_keys fs ->
  exists u out, h_make_object_span (paired args) = Ok (VObj u) /\ make_object (paired args) = Ok out /\
    (esize (VObj u) < 2 ^ 32 -> forall base, base mod 8 = 0 -> represents base out (R_object, Some 0) (VObj u)).
Proof.
  intros P N KL. destruct (c41_builds args fs P N KL) as (u & out & EU & EM & _ & RP).
  destruct (span_prefix args fs (pairs_spell _ _ P) KL [] [] okmap_nil) as (u' & E & [So' _] & PU).
  rewrite app_nil_r in E.
  destruct (h_inject_ok fs [] okmap_nil KL) as (u2 & EU2 & [So _] & LU). rewrite EU2 in EU. apply Ok_inj in EU. injection EU as ->.
  assert (u' = u) as ->. { apply sorted_ext; [assumption|assumption|]. intros k. rewrite PU, LU. reflexivity. }
  exists u, out. split; [exact E|]. split; [rewrite paired_flat; exact EM|exact RP].
Qed.
Print Assumptions c65_forms.

(** ...and so do packets of either form, when the finalized one has room for the
    union in its block (C11). *)
Theorem c65_packet fb bs m e addr args fs : represents bs m e (VObj fb) -> pairs_stand matches args fs ->
  NoDup (map fst fs) -> short_keys fs -> addr mod 8 = 0 ->
  exists u, is_union fb fs u /\
    p_inject_span addr (PHeap (VObj fb)) (paired args) = Ok (PHeap (VObj u)) /\
    (esize (VObj fb) + esize (VObj (sort_by fst fs)) < 2 ^ 32 -> room_union fb (sort_by fst fs) u ->
     exists q, p_inject_span addr (PBuf bs m e) (paired args) = Ok q /\ is_finalized q = true /\ p_shows q (VObj u)).
Proof.
  intros R P N KL AD. pose proof (proj1 R) as HV.
  destruct (c65_inject fb args fs HV (pairs_spell _ _ P) KL) as (u & E & So & PU).
  assert (U : is_union fb fs u).
  { split; [exact So|]. intros k. rewrite PU. unfold str in *.
    pose proof (lookup_perm _ _ (Permutation_rev fs) N k) as X. unfold str in *. rewrite <- X. reflexivity. }
  exists u. split; [exact U|]. split; [cbn [p_inject_span]; rewrite E; reflexivity|].
  intros B RM. destruct (c10_inject bs m e fb args fs u R P N KL U B RM) as (out & EO & RP).
  exists (PBuf addr out (R_object, Some 0)). cbn [p_inject_span]. rewrite paired_flat, EO. cbn [bind].
  split; [reflexivity|]. split; [reflexivity|]. cbn [p_shows]. apply RP. exact AD.
Qed.
Print Assumptions c65_packet.

(** They part on a key given twice: the mutable form keeps the last value, the
    finalized one refuses. *)
Theorem c65_repeat_refuted fb bs m e addr args fs : represents bs m e (VObj fb) -> pairs_stand matches args fs ->
  short_keys fs -> ~ NoDup (map fst fs) ->
  (exists u, p_inject_span addr (PHeap (VObj fb)) (paired args) = Ok (PHeap (VObj u)) /\ put_in_order fb fs u) /\
  p_inject_span addr (PBuf bs m e) (paired args) = Throw invalid_argument.
Proof.
  intros R P KL D. split.
  - destruct (c65_inject fb args fs (proj1 R) (pairs_spell _ _ P) KL) as (u & E & _ & PU).
    exists u. split; [cbn [p_inject_span]; rewrite E; reflexivity|exact PU].
  - cbn [p_inject_span]. unfold b_inject. rewrite paired_flat, (c41_refuses args fs P) by tauto. reflexivity.
Qed.
Print Assumptions c65_repeat_refuted.

(** They also part on which exception a bad key gets. *)
Theorem c65_bad_key_refuted bs m e fb addr args fs k kv x xv rest : represents bs m e (VObj fb) ->
  pairs_stand matches args fs -> short_keys fs -> stands_for matches k kv -> stands_for matches x xv ->
  (forall s, kv <> VStr s) ->
  p_inject_span addr (PHeap (VObj fb)) (paired args ++ k :: x :: rest) = Throw type_error /\
  p_inject_span addr (PBuf bs m e) (paired args ++ k :: x :: rest) = Throw invalid_argument.
Proof.
  intros R P KL SK SX N. split.
  - cbn [p_inject_span].
    rewrite (c65_throws fb args fs k kv x xv type_error rest (proj1 R) (pairs_spell _ _ P) KL (stands_worth _ _ SK) (stands_worth _ _ SX)).
    + reflexivity.
    + destruct kv; try reflexivity. elim (N s). reflexivity.
  - cbn [p_inject_span]. unfold b_inject.
    rewrite paired_flat, (c41_refuses_shape args fs k (x :: rest) P) by (right; eauto). reflexivity.
Qed.
Print Assumptions c65_bad_key_refuted.

(** A span mixing the forms: the second value is a member of a finalized object. *)
Definition c65_bytes : mem := match finalize (VObj [(b "in", VArr [VInt 7; VNull])]) with Ok m => m | _ => [] end.
Definition c65_member : elem := match b_get 64 c65_bytes (R_object, Some 0) (b "in") with Ok e => e | _ => (R_null, None) end.
Definition c65_args : list (arg * arg) :=
  [(ArgHeap (VStr (b "z")), ArgHeap (VInt 5)); (ArgHeap (VStr (b "a")), ArgBuf 64 c65_bytes c65_member)].
Definition c65_twice : list (arg * arg) := c65_args ++ [(ArgHeap (VStr (b "z")), ArgHeap (VBool true))].

Example c65_stand :
  pairs_stand matches c65_args [(b "z", VInt 5); (b "a", VArr [VInt 7; VNull])] /\
  pairs_stand matches c65_twice [(b "z", VInt 5); (b "a", VArr [VInt 7; VNull]); (b "z", VBool true)].
Proof.
  assert (M : stands_for matches (ArgBuf 64 c65_bytes c65_member) (VArr [VInt 7; VNull])).
  { assert (HV : heap_value (VObj [(b "in", VArr [VInt 7; VNull])])) by heap_tac.
    destruct (finalize_root _ c65_bytes 64 HV) as (R & _); [vm_compute; reflexivity|reflexivity|].
    assert (G : good_keys [(b "in", VArr [VInt 7; VNull])]).
    { constructor; [|constructor]. cbn [fst]. split; [intros X; cbn in X; intuition discriminate|]. split; [|discriminate].
      constructor; [reflexivity|]. constructor; [reflexivity|constructor]. }
    destruct (b_get_spec _ _ _ _ (b "in") R G) as (e & E & RE).
    unfold c65_member. rewrite E. split; [exact RE|]. destruct RE as [_ RE]. destruct (snd e); [|exact Logic.I]. apply RE. }
  assert (H : forall v, heap_value v -> (exists u, upper_bound v = Ok u) -> stands_for matches (ArgHeap v) v)
    by (intros; split; auto).
  unfold c65_twice, c65_args.
  split; repeat apply Forall2_cons; try apply Forall2_nil; cbn [fst snd]; (split; [|try exact M]);
    apply H; try heap_tac; eexists; vm_compute; reflexivity.
Qed.

Example c65_case :
  snd c65_member <> None /\
  h_make_object_span (paired c65_args) = Ok (VObj [(b "a", VArr [VInt 7; VNull]); (b "z", VInt 5)]) /\
  h_make_object_span (paired c65_twice) = Ok (VObj [(b "a", VArr [VInt 7; VNull]); (b "z", VBool true)]) /\
  make_object (paired c65_twice) = Throw invalid_argument /\
  (m <- make_object (paired c65_args) ;; definalize 0 m) = h_make_object_span (paired c65_args) /\
  h_make_array_span (paired c65_args) = Ok (VArr [VStr (b "z"); VInt 5; VStr (b "a"); VArr [VInt 7; VNull]]) /\
  h_make_object_span (paired c65_args ++ [ArgHeap VNull]) = Oob.
Proof. vm_compute. repeat split; try reflexivity. discriminate. Qed.
