(** Iteration. *)

From Coq Require Import ZArith List Lia Bool Sorted.
From Coq Require Import ZifyBool ZifyNat ZifyN.
From Verif Require Import Base BaseFacts Keys KeysFacts Dec Wire Read Buf HeapOps Enc EncSize Spec ReadFacts Lookup BufFacts Canon HeapFacts NestedFacts.
Import ListNotations.
Open Scope Z_scope.

Lemma for_each_forall2 {A B} (f : Z -> res A) (P : A -> B -> Prop) (l : list B) :
  (forall i x, 0 <= i -> nth_error l (Z.to_nat i) = Some x -> exists a, f i = Ok a /\ P a x) ->
  exists r, for_each f 0 (length l) = Ok r /\ Forall2 P r l.
Proof.
  intros H.
  assert (G : forall l2 l1, l = l1 ++ l2 -> exists r, for_each f (zlen l1) (length l2) = Ok r /\ Forall2 P r l2).
  { induction l2 as [|x l2 IH]; intros l1 E; cbn [for_each length]; [eauto|].
    destruct (H (zlen l1) x (zlen_nonneg _)) as (a & -> & Pa).
    { unfold zlen. rewrite Nat2Z.id, E. apply nth_mid. }
    cbn [bind]. destruct (IH (l1 ++ [x])) as (r & R & F); [rewrite <- app_assoc; exact E|].
    rewrite zlen_app, zlen_cons in R. change (zlen (@nil B)) with 0 in R.
    replace (zlen l1 + (1 + 0)) with (zlen l1 + 1) in R by lia. rewrite R. cbn [bind]. eauto. }
  exact (G l [] eq_refl).
Qed.

Lemma nth_rev {A} (l : list A) i x : 0 <= i -> nth_error (rev l) (Z.to_nat i) = Some x ->
  0 <= zlen l - 1 - i /\ nth_error l (Z.to_nat (zlen l - 1 - i)) = Some x.
Proof.
  intros Hi N. assert (L : (Z.to_nat i < length l)%nat).
  { rewrite <- rev_length. apply nth_error_Some. congruence. }
  unfold zlen in *. split; [lia|].
  replace (Z.to_nat (Z.of_nat (length l) - 1 - i)) with (length l - S (Z.to_nat i))%nat by lia.
  rewrite <- N. symmetry. clear N Hi. revert L. generalize (Z.to_nat i) as n. intros n L.
  assert (G : forall (l : list A) n, (n < length l)%nat -> nth_error l n = nth_error (rev l) (length l - S n)%nat).
  { clear. intros l n L. destruct (nth_error l n) as [x|] eqn:E.
    - apply nth_error_split in E. destruct E as (a & b & -> & <-). rewrite rev_app_distr. cbn [rev].
      rewrite <- app_assoc. cbn [app]. rewrite app_length in *. cbn [length] in *.
      replace (length a + S (length b) - S (length a))%nat with (length (rev b)) by (rewrite rev_length; lia).
      symmetry. apply nth_mid.
    - apply nth_error_None in E. lia. }
  pose proof (G (rev l) n) as Q. rewrite rev_involutive, rev_length in Q. rewrite Q by assumption. reflexivity.
Qed.

Section Buffer.
  Variables (bs : Z) (m : mem) (e : elem) (v : value).
  Hypothesis R : represents bs m e v.
  Hypothesis A : is_aggregate v = true.

  Lemma b_size_members : b_size m e = Ok (zlen (members v)).
  Proof using R A.
    rewrite (b_size_spec _ _ _ _ R). destruct v; try discriminate; cbn [vsize members]; [|reflexivity].
    rewrite zlen_map. reflexivity.
  Qed.

  Lemma b_end_members : b_end m e = Ok (zlen (members v)).
  Proof using R A.
    unfold b_end. rewrite (represents_type _ _ _ _ R), b_size_members. destruct v; try discriminate; reflexivity.
  Qed.

  Theorem b_iterate_spec :
    exists es, b_iterate bs m e = Ok es /\ Forall2 (represents bs m) es (members v).
  Proof using R A.
    unfold b_iterate. rewrite b_end_members. cbn [bind]. unfold zlen. rewrite Nat2Z.id.
    apply for_each_forall2. intros i x Hi N. exact (b_deref_spec _ _ _ _ _ _ R Hi N).
  Qed.
  Theorem b_riterate_spec :
    exists es, b_riterate bs m e = Ok es /\ Forall2 (represents bs m) es (rev (members v)).
  Proof using R A.
    unfold b_riterate. rewrite b_end_members. cbn [bind].
    replace (Z.to_nat (zlen (members v))) with (length (rev (members v))) by (rewrite rev_length; unfold zlen; lia).
    apply for_each_forall2. intros i x Hi N. apply nth_rev in N; [|assumption]. destruct N as [Hj N].
    exact (b_deref_spec _ _ _ _ _ _ R Hj N).
  Qed.
End Buffer.

Definition is_key (m : mem) (e : elem) (k : str) : Prop := b_scalar T_string m e = Ok (VStr k).

Section BufferKeys.
  Variables (bs : Z) (m : mem) (e : elem) (fs : list (str * value)).
  Hypothesis R : represents bs m e (VObj fs).

  Lemma key_at i k : 0 <= i -> nth_error (map fst fs) (Z.to_nat i) = Some k ->
    exists a, b_deref_key m e i = Ok a /\ is_key m a k.
  Proof using R.
    intros Hi N. rewrite nth_error_map in N. destruct (nth_error fs (Z.to_nat i)) as [[k' x]|] eqn:E; [|discriminate].
    cbn in N. injection N as ->. destruct (b_deref_key_spec bs m e fs i k x R Hi E) as (p & -> & S).
    eexists. split; [reflexivity|]. exact S.
  Qed.
  Lemma key_end : b_key_end m e = Ok (zlen (members (VObj fs))).
  Proof using R.
    unfold b_key_end. rewrite (represents_type _ _ _ _ R). apply (b_size_members bs m e _ R eq_refl).
  Qed.
  Theorem b_iterate_keys_spec :
    exists es, b_iterate_keys m e = Ok es /\ Forall2 (is_key m) es (map fst fs).
  Proof using R.
    unfold b_iterate_keys. rewrite key_end. cbn [bind members]. unfold zlen. rewrite Nat2Z.id.
    rewrite map_length, <- (map_length fst). apply for_each_forall2. intros i k Hi N. exact (key_at i k Hi N).
  Qed.
  Theorem b_riterate_keys_spec :
    exists es, b_riterate_keys m e = Ok es /\ Forall2 (is_key m) es (rev (map fst fs)).
  Proof using R.
    unfold b_riterate_keys. rewrite key_end. cbn [bind members]. rewrite zlen_map.
    rewrite <- (zlen_map fst fs).
    replace (Z.to_nat (zlen (map fst fs))) with (length (rev (map fst fs))) by (rewrite rev_length; unfold zlen; lia).
    apply for_each_forall2. intros i k Hi N. apply nth_rev in N; [|assumption]. destruct N as [Hj N].
    exact (key_at _ k Hj N).
  Qed.
End BufferKeys.

(** The mutable side. *)
Lemma h_end_members v : is_aggregate v = true -> h_end v = Ok (length (members v)).
Proof. destruct v; try discriminate; intros _; cbn; [rewrite map_length|]; reflexivity. Qed.
Lemma h_deref_members v i x : nth_error (members v) i = Some x -> h_deref v i = Ok x.
Proof.
  destruct v; cbn [members h_deref]; try (destruct i; discriminate).
  - rewrite nth_error_map. destruct (nth_error fs i) as [[k y]|]; cbn; congruence.
  - intros ->. reflexivity.
Qed.
Lemma Forall2_eq {A} (a b : list A) : Forall2 eq a b -> a = b.
Proof. induction 1; congruence. Qed.

Theorem h_iterate_spec v : is_aggregate v = true -> h_iterate v = Ok (members v).
Proof.
  intros A. unfold h_iterate. rewrite h_end_members by assumption. cbn [bind].
  destruct (for_each_forall2 (fun i => h_deref v (Z.to_nat i)) eq (members v)) as (r & -> & F).
  - intros i x Hi N. exists x. split; [|reflexivity]. apply h_deref_members. assumption.
  - apply Forall2_eq in F. congruence.
Qed.
Theorem h_riterate_spec v : is_aggregate v = true -> h_riterate v = Ok (rev (members v)).
Proof.
  intros A. unfold h_riterate. rewrite h_end_members by assumption. cbn [bind].
  destruct (for_each_forall2 (fun j => h_deref v (Z.to_nat (Z.of_nat (length (members v)) - 1 - j))) eq (rev (members v)))
    as (r & E & F).
  - intros i x Hi N. exists x. split; [|reflexivity]. apply nth_rev in N; [|assumption]. destruct N as [Hj N].
    apply h_deref_members. exact N.
  - rewrite rev_length in E. rewrite E. apply Forall2_eq in F. congruence.
Qed.
Theorem h_iterate_keys_spec fs : h_iterate_keys (VObj fs) = Ok (map VStr (map fst fs)).
Proof.
  unfold h_iterate_keys. cbn [h_key_end h_fields bind]. rewrite <- (map_length fst), <- (map_length VStr).
  destruct (for_each_forall2 (fun i => h_deref_key (VObj fs) (Z.to_nat i)) eq (map VStr (map fst fs))) as (r & -> & F).
  - intros i x Hi N. exists x. split; [|reflexivity]. rewrite !nth_error_map in N. cbn [h_deref_key].
    destruct (nth_error fs (Z.to_nat i)) as [[k y]|]; cbn in N; congruence.
  - apply Forall2_eq in F. congruence.
Qed.
Theorem h_riterate_keys_spec fs : h_riterate_keys (VObj fs) = Ok (rev (map VStr (map fst fs))).
Proof.
  unfold h_riterate_keys. cbn [h_key_end h_fields bind].
  replace (length fs) with (length (map VStr (map fst fs))) by (rewrite !map_length; reflexivity).
  destruct (for_each_forall2 (fun j => h_deref_key (VObj fs) (Z.to_nat (Z.of_nat (length (map VStr (map fst fs))) - 1 - j)))
    eq (rev (map VStr (map fst fs)))) as (r & E & F).
  - intros i x Hi N. exists x. split; [|reflexivity]. apply nth_rev in N; [|assumption]. destruct N as [Hj N].
    fold (zlen (map VStr (map fst fs))). rewrite !nth_error_map in N. cbn [h_deref_key].
    destruct (nth_error fs _) as [[k y]|]; cbn in N; congruence.
  - rewrite rev_length in E. rewrite E. apply Forall2_eq in F. congruence.
Qed.
