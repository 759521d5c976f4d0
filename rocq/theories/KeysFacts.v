(** The key order, and the agreement of the prefix hints with it. *)

From Coq Require Import ZArith List Lia Bool Sorted.
From Coq Require Import ZifyBool ZifyNat ZifyN.
From Verif Require Import Base BaseFacts Keys Spec.
Import ListNotations.
Open Scope Z_scope.

(** ** The specification's order is a strict total order *)
Lemma lex_irrefl a : ~ lex_lt a a.
Proof. induction a; intros H; inversion H; subst; [lia|auto]. Qed.
Lemma lex_trans a b c : lex_lt a b -> lex_lt b c -> lex_lt a c.
Proof.
  intros H. revert c. induction H; intros c H2; inversion H2; subst.
  - apply lex_here. lia.
  - apply lex_here. lia.
  - apply lex_here. lia.
  - apply lex_next. auto.
Qed.
Lemma lex_total a b : length a = length b -> lex_lt a b \/ a = b \/ lex_lt b a.
Proof.
  revert b. induction a as [|x a IH]; intros [|y b] L; try discriminate; [auto|].
  injection L as L. destruct (Z.lt_trichotomy (b2z x) (b2z y)) as [H | [H | H]].
  - left. apply lex_here. assumption.
  - apply b2z_inj in H. subst y. destruct (IH b L) as [H | [H | H]].
    + left. apply lex_next. assumption.
    + subst. auto.
    + right. right. apply lex_next. assumption.
  - right. right. apply lex_here. assumption.
Qed.

Lemma key_lt_irrefl a : ~ key_lt a a.
Proof. intros [H | [_ H]]; [lia|exact (lex_irrefl _ H)]. Qed.
Lemma key_lt_trans a b c : key_lt a b -> key_lt b c -> key_lt a c.
Proof.
  intros [H | [E H]] [H' | [E' H']]; [left; lia|left; lia|left; lia|].
  right. split; [congruence|]. eapply lex_trans; eassumption.
Qed.
Lemma key_lt_total a b : key_lt a b \/ a = b \/ key_lt b a.
Proof.
  destruct (Nat.lt_trichotomy (length a) (length b)) as [H | [H | H]].
  - left. left. assumption.
  - destruct (lex_total a b H) as [G | [G | G]]; [left; right|right; left|right; right; right]; auto.
  - right. right. left. assumption.
Qed.
Lemma key_lt_asym a b : key_lt a b -> ~ key_lt b a.
Proof. intros H G. exact (key_lt_irrefl _ (key_lt_trans _ _ _ H G)). Qed.

(** ** What compare computes *)
Lemma traits_lt a b : length a = length b -> (traits_compare a b < 0 <-> lex_lt a b).
Proof.
  revert b. induction a as [|x a IH]; intros [|y b] L; try discriminate; cbn [traits_compare].
  - split; intros H; [lia|inversion H].
  - injection L as L. destruct (b2z x =? b2z y) eqn:E.
    + assert (x = y) by (apply b2z_inj; lia). subst y. rewrite IH by assumption.
      split; intros H; [apply lex_next; assumption|]. inversion H; subst; [lia|assumption].
    + destruct (b2z x <? b2z y) eqn:F; split; intros H; try lia.
      * apply lex_here. lia.
      * inversion H; subst; lia.
Qed.
Lemma traits_gt a b : length a = length b -> (0 < traits_compare a b <-> lex_lt b a).
Proof.
  revert b. induction a as [|x a IH]; intros [|y b] L; try discriminate; cbn [traits_compare].
  - split; intros H; [lia|inversion H].
  - injection L as L. destruct (b2z x =? b2z y) eqn:E.
    + assert (x = y) by (apply b2z_inj; lia). subst y. rewrite IH by assumption.
      split; intros H; [apply lex_next; assumption|]. inversion H; subst; [lia|assumption].
    + destruct (b2z x <? b2z y) eqn:F; split; intros H; try lia.
      * inversion H; subst; lia.
      * apply lex_here. lia.
Qed.
Lemma traits_eq a b : length a = length b -> (traits_compare a b = 0 <-> a = b).
Proof.
  intros L. destruct (lex_total a b L) as [H | [H | H]].
  - split; intros E; [apply (traits_lt a b L) in H; lia|subst; destruct (lex_irrefl _ H)].
  - subst. split; intros E; [reflexivity|].
    destruct (Z.lt_trichotomy (traits_compare b b) 0) as [G | [G | G]]; [|assumption|].
    + apply traits_lt in G; [|reflexivity]. destruct (lex_irrefl _ G).
    + apply traits_gt in G; [|reflexivity]. destruct (lex_irrefl _ G).
  - split; intros E; [apply (traits_gt a b L) in H; lia|subst; destruct (lex_irrefl _ H)].
Qed.

Lemma zlen_eq_length {A B} (a : list A) (b : list B) : zlen a = zlen b -> length a = length b.
Proof. unfold zlen. lia. Qed.

Lemma sv_compare_same a b : zlen a = zlen b -> sv_compare a b = traits_compare a b.
Proof.
  intros L. unfold sv_compare. destruct (traits_compare a b =? 0) eqn:E; cbn [negb]; [|reflexivity].
  replace (zlen a <? zlen b) with false by lia. replace (zlen b <? zlen a) with false by lia. lia.
Qed.

Theorem dart_ltb_key_lt a b : dart_ltb a b = true <-> key_lt a b.
Proof.
  unfold dart_ltb, key_lt, sv_ltb. destruct (zlen a =? zlen b) eqn:E; cbn [negb].
  - assert (L : zlen a = zlen b) by lia. rewrite (sv_compare_same a b L).
    pose proof (zlen_eq_length a b L) as L'. pose proof (traits_lt a b L').
    split; intros H'; [right; split; [assumption|]; apply H; lia|].
    destruct H' as [H' | [_ H']]; [lia|]. apply H in H'. lia.
  - unfold zlen in *. split; intros H; [left; lia|]. destruct H as [H | [H _]]; lia.
Qed.

Lemma sv_compare_cons_eq x a b : sv_compare (x :: a) (x :: b) = sv_compare a b.
Proof.
  unfold sv_compare. cbn [traits_compare]. rewrite Z.eqb_refl, !zlen_cons.
  destruct (negb _); [reflexivity|].
  replace (1 + zlen a <? 1 + zlen b) with (zlen a <? zlen b) by lia.
  replace (1 + zlen b <? 1 + zlen a) with (zlen b <? zlen a) by lia. reflexivity.
Qed.
Lemma sv_compare_cons_lt x y a b : b2z x < b2z y -> sv_compare (x :: a) (y :: b) = -1.
Proof.
  intros H. unfold sv_compare. cbn [traits_compare].
  replace (b2z x =? b2z y) with false by lia. replace (b2z x <? b2z y) with true by lia. reflexivity.
Qed.
Lemma sv_compare_cons_gt x y a b : b2z y < b2z x -> sv_compare (x :: a) (y :: b) = 1.
Proof.
  intros H. unfold sv_compare. cbn [traits_compare].
  replace (b2z x =? b2z y) with false by lia. replace (b2z x <? b2z y) with false by lia. reflexivity.
Qed.
Theorem sv_compare_spec a b :
  (sv_compare a b < 0 <-> str_lt a b) /\ (sv_compare a b = 0 <-> a = b) /\
  (0 < sv_compare a b <-> str_lt b a).
Proof.
  revert b. induction a as [|x a IH]; intros [|y b].
  - repeat split; intros H; try lia; try inversion H; reflexivity.
  - assert (E : sv_compare [] (y :: b) = -1).
    { unfold sv_compare. cbn [traits_compare]. rewrite zlen_cons. change (zlen (@nil byte)) with 0. cbn [Z.eqb negb].
      replace (0 <? 1 + zlen b) with true by zlia. reflexivity. }
    rewrite E. repeat split; intros H; try lia; try constructor; try inversion H.
  - assert (E : sv_compare (x :: a) [] = 1).
    { unfold sv_compare. cbn [traits_compare]. rewrite zlen_cons. change (zlen (@nil byte)) with 0. cbn [Z.eqb negb].
      replace (1 + zlen a <? 0) with false by zlia. replace (0 <? 1 + zlen a) with true by zlia. reflexivity. }
    rewrite E. repeat split; intros H; try lia; try constructor; try inversion H.
  - destruct (Z.lt_trichotomy (b2z x) (b2z y)) as [G | [G | G]].
    + rewrite sv_compare_cons_lt by assumption. repeat split; intros H; try lia.
      * constructor; assumption.
      * injection H as -> ->. lia.
      * inversion H; subst; lia.
    + apply b2z_inj in G. subst y. rewrite sv_compare_cons_eq. destruct (IH b) as (A & B & C).
      repeat split; intros H.
      * apply str_lt_next, A. assumption.
      * apply A. inversion H; subst; [lia|assumption].
      * f_equal. apply B. assumption.
      * apply B. injection H as ->. reflexivity.
      * apply str_lt_next, C. assumption.
      * apply C. inversion H; subst; [lia|assumption].
    + rewrite sv_compare_cons_gt by assumption. repeat split; intros H; try lia.
      * inversion H; subst; lia.
      * injection H as -> ->. lia.
      * constructor; assumption.
Qed.

(** ** The comparison one probe of get_key makes *)
Definition mk_entry (off t : Z) (k : str) : entry :=
  mk_entry_raw off t (prefix_len (cstr k)) (prefix_bytes (cstr k)).

Definition probe (k key : str) : Z :=
  let c := - prefix_compare (mk_entry 0 0 k) key in
  if negb (c =? 0) then c
  else if zlen k =? zlen key then sv_compare key k
  else zlen key - zlen k.

Lemma cstr_id k : ~ In x00 k -> cstr k = k.
Proof.
  induction k as [|b k IH]; intros H; cbn [cstr]; [reflexivity|].
  destruct (byte_eqb_spec b x00) as [-> | N]; [destruct H; left; reflexivity|].
  f_equal. apply IH. intros I. apply H. right. assumption.
Qed.

Lemma probe_zero k key : probe k key = 0 -> key = k.
Proof.
  unfold probe. destruct (- prefix_compare (mk_entry 0 0 k) key =? 0) eqn:E; cbn [negb]; [|lia].
  destruct (zlen k =? zlen key) eqn:L.
  - intros H. apply sv_compare_spec in H. assumption.
  - lia.
Qed.

Lemma schar_ascii b : b2z b < 128 -> schar b = b2z b.
Proof. intros H. unfold schar. replace (b2z b <? 128) with true by lia. reflexivity. Qed.

Lemma byte_eqb_refl b : byte_eqb b b = true.
Proof. destruct (byte_eqb_spec b b); congruence. Qed.
Lemma byte_eqb_neq a b : a <> b -> byte_eqb a b = false.
Proof. destruct (byte_eqb_spec a b); congruence. Qed.

(** On keys of one length with ASCII beginnings the two-byte comparison is never
    wrong about the order. *)
Lemma entry_compare_same off t n k key :
  length k = length key ->
  Forall (fun b => b2z b < 128) (firstn 2 k) -> Forall (fun b => b2z b < 128) (firstn 2 key) ->
  let c := entry_compare_impl (mk_entry_raw off t n (prefix_bytes k)) key in
  (c < 0 -> lex_lt k key) /\ (0 < c -> lex_lt key k).
Proof.
  intros L A1 A2. unfold entry_compare_impl. cbn [e_pfx].
  destruct k as [|a [|b k]]; destruct key as [|c [|d key]]; try discriminate;
    cbn [prefix_bytes firstn] in *.
  - cbn. lia.
  - apply Forall_cons_iff in A1, A2. destruct A1 as [A1 _], A2 as [A2 _].
    cbn [prefix_compare_impl].
    destruct (byte_eqb_spec a c) as [<- | N].
    + change (schar x00) with 0. lia.
    + rewrite !schar_ascii by assumption. split; intros H; apply lex_here; lia.
  - apply Forall_cons_iff in A1, A2. destruct A1 as [A1 B1], A2 as [A2 B2].
    apply Forall_cons_iff in B1, B2. destruct B1 as [B1 _], B2 as [B2 _].
    destruct (byte_eqb c a && byte_eqb d b) eqn:E; [lia|].
    cbn [prefix_compare_impl].
    destruct (byte_eqb_spec a c) as [<- | N].
    + destruct (byte_eqb_spec b d) as [<- | N'].
      * rewrite !byte_eqb_refl in E. discriminate.
      * rewrite !schar_ascii by assumption.
        split; intros H; apply lex_next, lex_here; lia.
    + rewrite !schar_ascii by assumption. split; intros H; apply lex_here; lia.
Qed.

Lemma probe_good k key : good_key k -> good_key key ->
  (key_lt k key -> 0 < probe k key) /\ (key_lt key k -> probe k key < 0) /\ (key = k -> probe k key = 0).
Proof.
  intros (N1 & A1 & L1) (N2 & A2 & L2).
  unfold probe, mk_entry, prefix_compare. rewrite (cstr_id k N1). cbn [e_len].
  assert (HP : prefix_len k = zlen k /\ zlen k < 255 \/ prefix_len k = 255 /\ 255 < zlen k).
  { unfold prefix_len. destruct (zlen k <? 255) eqn:E; lia. }
  destruct (Z.lt_trichotomy (zlen k) (zlen key)) as [G | [G | G]].
  - (* shorter stored key *)
    assert (ND : ~ key_lt key k).
    { intros [H | [H _]]; unfold zlen in *; lia. }
    assert (NE : key <> k) by (intros ->; lia).
    replace (prefix_len k <? zlen key) with true by lia.
    destruct (prefix_len k =? 255) eqn:E.
    + cbn [Z.opp Z.eqb negb]. replace (zlen k =? zlen key) with false by lia.
      split; [lia|]. split; [tauto|tauto].
    + cbn [Z.opp Z.eqb negb]. split; [lia|]. split; [tauto|tauto].
  - assert (L : length k = length key) by (unfold zlen in *; lia).
    assert (KL1 : key_lt k key <-> lex_lt k key).
    { split; [intros [H | [_ H]]; [lia|assumption]|right; auto]. }
    assert (KL2 : key_lt key k <-> lex_lt key k).
    { split; [intros [H | [_ H]]; [lia|assumption]|right; auto]. }
    rewrite KL1, KL2.
    assert (Full : forall c, c = sv_compare key k ->
      (lex_lt k key -> 0 < c) /\ (lex_lt key k -> c < 0) /\ (key = k -> c = 0)).
    { intros c ->. rewrite sv_compare_same by lia.
      split; [apply traits_gt; lia|]. split; [apply traits_lt; lia|]. apply traits_eq; lia. }
    replace (zlen k =? zlen key) with true by lia.
    destruct HP as [[-> HP] | [-> HP]].
    + replace (zlen k <? zlen key) with false by lia. replace (zlen k =? zlen key) with true by lia.
      destruct (entry_compare_same 0 0 (zlen k) k key L A1 A2) as [C1 C2].
      destruct (- entry_compare_impl (mk_entry_raw 0 0 (zlen k) (prefix_bytes k)) key =? 0) eqn:E;
        cbn [negb]; [apply Full; reflexivity|].
      split; [intros H|split; [intros H|intros ->]].
      * destruct (Z.lt_trichotomy (entry_compare_impl (mk_entry_raw 0 0 (zlen k) (prefix_bytes k)) key) 0)
          as [Q | [Q | Q]]; [lia|lia|]. destruct (lex_irrefl k). eapply lex_trans; [exact H|exact (C2 Q)].
      * destruct (Z.lt_trichotomy (entry_compare_impl (mk_entry_raw 0 0 (zlen k) (prefix_bytes k)) key) 0)
          as [Q | [Q | Q]]; [|lia|lia]. destruct (lex_irrefl k). eapply lex_trans; [exact (C1 Q)|exact H].
      * destruct (Z.lt_trichotomy (entry_compare_impl (mk_entry_raw 0 0 (zlen k) (prefix_bytes k)) k) 0)
          as [Q | [Q | Q]]; [|lia|]; [destruct (lex_irrefl _ (C1 Q))|destruct (lex_irrefl _ (C2 Q))].
    + replace (255 <? zlen key) with true by lia. cbn [Z.eqb Pos.eqb Z.opp negb].
      apply Full. reflexivity.
  - assert (ND : ~ key_lt k key).
    { intros [H | [H _]]; unfold zlen in *; lia. }
    assert (NE : key <> k) by (intros ->; lia).
    replace (zlen k =? zlen key) with false by lia.
    destruct HP as [[-> HP] | [-> HP]].
    + replace (zlen k <? zlen key) with false by lia. replace (zlen k =? zlen key) with false by lia.
      cbn [Z.opp Z.eqb negb]. split; [tauto|]. split; [lia|tauto].
    + destruct (255 <? zlen key) eqn:E.
      * cbn [Z.eqb Pos.eqb Z.opp negb]. split; [tauto|]. split; [lia|tauto].
      * replace (255 =? zlen key) with false by lia. cbn [Z.opp Z.eqb negb].
        split; [tauto|]. split; [lia|tauto].
Qed.
