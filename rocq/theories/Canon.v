(** Values are determined by their contents; positions inside a finalized block. *)

From Coq Require Import ZArith List Lia Bool Sorted.
From Coq Require Import ZifyBool ZifyNat ZifyN.
From Verif Require Import Base BaseFacts Keys KeysFacts Dec Wire Read Buf Enc EncSize Spec ReadFacts Lookup BufFacts.
Import ListNotations.
Open Scope Z_scope.

Lemma lookup_cons_eq {A} k (x : A) r : lookup k ((k, x) :: r) = Some x.
Proof. cbn [lookup]. destruct (list_eq_dec _ k k); congruence. Qed.
Lemma lookup_cons_ne {A} k k' (x : A) r : k <> k' -> lookup k ((k', x) :: r) = lookup k r.
Proof. intros N. cbn [lookup]. destruct (list_eq_dec _ k k'); congruence. Qed.

Lemma sorted_head_notin {A} k (x : A) r :
  StronglySorted key_lt (map fst ((k, x) :: r)) -> forall k', ~ key_lt k k' -> lookup k' r = None.
Proof.
  intros S k' N. cbn [map fst] in S. apply StronglySorted_inv in S. destruct S as [_ S].
  apply lookup_none. intros I. rewrite Forall_forall in S. auto.
Qed.

Lemma sorted_ext {A} (fs gs : list (str * A)) :
  StronglySorted key_lt (map fst fs) -> StronglySorted key_lt (map fst gs) ->
  (forall k, lookup k fs = lookup k gs) -> fs = gs.
Proof.
  revert gs. induction fs as [|[k x] r IH]; intros [|[k' y] r'] S1 S2 E.
  - reflexivity.
  - specialize (E k'). rewrite lookup_cons_eq in E. discriminate.
  - specialize (E k). rewrite lookup_cons_eq in E. discriminate.
  - assert (k = k').
    { destruct (key_lt_total k k') as [H | [H | H]]; [|assumption|].
      - specialize (E k). rewrite lookup_cons_eq in E. rewrite lookup_cons_ne in E.
        + rewrite (sorted_head_notin _ _ _ S2) in E by (apply key_lt_asym; assumption). discriminate.
        + intros ->. exact (key_lt_irrefl _ H).
      - specialize (E k'). rewrite lookup_cons_eq in E. rewrite lookup_cons_ne in E.
        + rewrite (sorted_head_notin _ _ _ S1) in E by (apply key_lt_asym; assumption). discriminate.
        + intros ->. exact (key_lt_irrefl _ H). }
    subst k'. pose proof (E k) as E'. rewrite !lookup_cons_eq in E'. injection E' as ->.
    f_equal. apply IH.
    + cbn [map fst] in S1. apply StronglySorted_inv in S1. apply S1.
    + cbn [map fst] in S2. apply StronglySorted_inv in S2. apply S2.
    + intros q. destruct (list_eq_dec Byte.byte_eq_dec q k) as [-> | N].
      * rewrite (sorted_head_notin _ _ _ S1) by apply key_lt_irrefl.
        rewrite (sorted_head_notin _ _ _ S2) by apply key_lt_irrefl. reflexivity.
      * specialize (E q). rewrite !lookup_cons_ne in E by assumption. exact E.
Qed.

Theorem same_eq v : forall w, heap_value v -> heap_value w -> same v w -> v = w.
Proof.
  induction v as [fs IH|vs IH|s|z|d|b|] using value_ind'; intros w H1 H2 S; inversion S as [fs' gs A B|vs' ws F| | | | |]; subst;
    try reflexivity.
  - f_equal. apply sorted_ext; [apply heap_sorted; assumption..|].
    intros k. destruct (lookup k fs) as [x|] eqn:L.
    + destruct (A k x L) as (y & L' & SX). rewrite L'. f_equal.
      pose proof (lookup_in _ _ _ L) as I. rewrite Forall_forall in IH.
      apply (IH _ I); [apply (heap_field _ _ _ H1 I)|apply (heap_field _ _ _ H2 (lookup_in _ _ _ L'))|assumption].
    + symmetry. apply B. assumption.
  - f_equal. inversion H1 as [|? _ F1| | | | |]; subst. inversion H2 as [|? _ F2| | | | |]; subst.
    clear H1 H2 S. revert F1 F2 IH. induction F as [|x y vs ws SX F IHF]; intros F1 F2 IH; [reflexivity|].
    apply Forall_cons_iff in F1, F2, IH. destruct F1, F2, IH. f_equal; auto.
Qed.

Lemma sorted_in_lookup {A} (fs : list (str * A)) k x :
  StronglySorted key_lt (map fst fs) -> In (k, x) fs -> lookup k fs = Some x.
Proof. intros S I. apply in_split in I. destruct I as (a & b & ->). apply lookup_mid. assumption. Qed.

Lemma same_refl v : heap_value v -> same v v.
Proof.
  induction v as [fs IH|vs IH|s|z|d|b|] using value_ind'; intros H; constructor.
  - intros k x L. exists x. split; [assumption|]. pose proof (lookup_in _ _ _ L) as I.
    rewrite Forall_forall in IH. apply (IH _ I). apply (heap_field _ _ _ H I).
  - auto.
  - inversion H as [|? _ F| | | | |]; subst. clear H.
    induction vs as [|x vs IHv]; constructor; apply Forall_cons_iff in IH, F; destruct IH, F; auto.
Qed.

(** ** Positions *)
Theorem nav_spec bs m path : forall e v w,
  represents bs m e v -> sub_value v path = Some w ->
  exists e', nav bs m e path = Ok e' /\ represents bs m e' w.
Proof.
  induction path as [|i r IH]; intros e v w R S; cbn [nav sub_value] in *.
  - injection S as ->. eauto.
  - destruct (nth_error (members v) i) as [x|] eqn:N; [|discriminate].
    destruct (b_deref_spec bs m e v (Z.of_nat i) x R) as (e' & -> & R'); [lia|rewrite Nat2Z.id; assumption|].
    cbn [bind]. eapply IH; eassumption.
Qed.

Theorem nav_relocate bs m e v path w :
  represents bs m e v -> sub_value v path = Some w -> is_aggregate w = true ->
  exists o bytes,
    nav bs m e path = Ok (raw_type_of w, Some o) /\
    find_sizeof m (raw_type_of w) o = Ok (zlen bytes) /\ rd m o (zlen bytes) = Ok bytes /\
    forall bs' pre post, (bs' + zlen pre) mod 8 = 0 ->
      represents bs' (pre ++ bytes ++ post) (raw_type_of w, Some (zlen pre)) w.
Proof.
  intros R S A. destruct (nav_spec bs m path e v w R S) as (e' & N & R').
  destruct e' as [t [o|]].
  - assert (t = raw_type_of w).
    { destruct R' as [_ (_ & _ & _ & T)]. cbn [fst] in T. apply agg_type; assumption. }
    subst t. destruct (relocate bs m o w R' A) as (bytes & H). exists o, bytes. tauto.
  - destruct R' as [_ [_ ->]]. discriminate.
Qed.

Lemma walk_fuel bs m e v : represents bs m e v -> (depth v < S (length m))%nat.
Proof.
  intros [_ R]. destruct e as [t [o|]]; cbn [snd] in R.
  - destruct R as (H & _). apply holds_bounds in H. pose proof (depth_esize v).
    unfold esize in *. unfold zlen in *. lia.
  - destruct R as [_ ->]. cbn. lia.
Qed.

(** ** Canonical bytes *)
Theorem finalize_injective v w m1 m2 :
  heap_value v -> heap_value w -> finalize v = Ok m1 -> finalize w = Ok m2 ->
  firstn (Z.to_nat (esize v)) m1 = firstn (Z.to_nat (esize w)) m2 -> v = w.
Proof.
  intros H1 H2 E1 E2 E.
  destruct v as [fs| | | | | |]; try discriminate. destruct w as [gs| | | | | |]; try discriminate.
  destruct (finalize_root fs m1 0 H1 E1 eq_refl) as ([_ R1] & L1 & _).
  destruct (finalize_root gs m2 0 H2 E2 eq_refl) as ([_ R2] & L2 & _).
  cbn [fst snd] in R1, R2. destruct R1 as (A1 & F1 & _). destruct R2 as (A2 & F2 & _).
  destruct (holds_copy _ _ _ A1) as (b1 & C1 & M1). destruct (holds_copy _ _ _ A2) as (b2 & C2 & M2).
  assert (B1 : b1 = firstn (Z.to_nat (esize (VObj fs))) m1).
  { unfold rd in C1. destruct (_ && _); [|discriminate]. apply Ok_inj in C1. rewrite <- C1. reflexivity. }
  assert (B2 : b2 = firstn (Z.to_nat (esize (VObj gs))) m2).
  { unfold rd in C2. destruct (_ && _); [|discriminate]. apply Ok_inj in C2. rewrite <- C2. reflexivity. }
  assert (EB : b1 = b2) by congruence. clear B1 B2 E. rewrite <- EB in M2. clear b2 EB C2.
  assert (R1 : read_value (S (length b1)) 0 b1 R_object 0 = Ok (VObj fs)).
  { apply read_enc; auto using heap_plain.
    - exists [], b1, []. rewrite app_nil_r. auto.
    - apply matches_len in M1. pose proof (depth_esize (VObj fs)). unfold esize, zlen in *. lia. }
  assert (R2 : read_value (S (length b1)) 0 b1 R_object 0 = Ok (VObj gs)).
  { apply read_enc; auto using heap_plain.
    - exists [], b1, []. rewrite app_nil_r. auto.
    - apply matches_len in M2. pose proof (depth_esize (VObj gs)). unfold esize, zlen in *. lia. }
  congruence.
Qed.
