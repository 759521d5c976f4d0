(** The dart::heap operations against finite maps and lists. *)

From Coq Require Import ZArith List Lia Bool Sorted.
From Coq Require Import ZifyBool ZifyNat ZifyN.
From Verif Require Import Base BaseFacts Keys KeysFacts Dec Wire Read Buf HeapOps Spec Lookup Canon.
Import ListNotations.
Open Scope Z_scope.

Local Notation str_dec := (list_eq_dec Byte.byte_eq_dec).

(** ** The map *)
Lemma dart_ltb_false a b : dart_ltb a b = false <-> ~ key_lt a b.
Proof.
  rewrite <- dart_ltb_key_lt. destruct (dart_ltb a b); split; congruence.
Qed.

(** The lower bound splits a sorted list. *)
Lemma lower_bound_split {A} key (fs : list (str * A)) :
  StronglySorted key_lt (map fst fs) ->
  exists f1 f2, fs = f1 ++ f2 /\ length f1 = map_lower_bound key fs /\
    Forall (fun kv => key_lt (fst kv) key) f1 /\
    Forall (fun kv => ~ key_lt (fst kv) key) f2.
Proof.
  induction fs as [|[k x] r IH]; intros S; cbn [map_lower_bound].
  - exists [], []. repeat split; constructor.
  - cbn [map fst] in S. apply StronglySorted_inv in S. destruct S as [S H].
    destruct (dart_ltb k key) eqn:E.
    + destruct (IH S) as (f1 & f2 & -> & L & F1 & F2). exists ((k, x) :: f1), f2.
      repeat split; [cbn; congruence| |assumption].
      constructor; [cbn; apply dart_ltb_key_lt; assumption|assumption].
    + exists [], ((k, x) :: r). apply dart_ltb_false in E. repeat split; [constructor|].
      constructor; [assumption|]. rewrite Forall_forall in *. intros [k' x'] I. cbn.
      intros C. apply E. apply (key_lt_trans _ k'); [|assumption].
      apply H. apply (in_map fst) in I. exact I.
Qed.

Lemma map_fst_app {A} (a b : list (str * A)) : map fst (a ++ b) = map fst a ++ map fst b.
Proof. apply map_app. Qed.

Lemma sorted_app {A} (R : A -> A -> Prop) a b : StronglySorted R (a ++ b) <->
  StronglySorted R a /\ StronglySorted R b /\ (forall x y, In x a -> In y b -> R x y).
Proof.
  induction a as [|z a IH]; cbn.
  - intuition constructor.
  - split.
    + intros S. apply StronglySorted_inv in S. destruct S as [S H]. apply IH in S.
      destruct S as (S1 & S2 & S3). apply Forall_app in H. destruct H as [H1 H2].
      repeat split; [constructor; assumption|assumption|].
      intros x y [<-|I] J; [|auto]. rewrite Forall_forall in H2. auto.
    + intros (S1 & S2 & S3). apply StronglySorted_inv in S1. destruct S1 as [S1 H].
      constructor; [apply IH; repeat split; auto|].
      apply Forall_app. split; [assumption|]. apply Forall_forall. intros y J. apply S3; auto.
Qed.

Lemma lookup_app {A} k (f1 f2 : list (str * A)) :
  lookup k (f1 ++ f2) = match lookup k f1 with Some x => Some x | None => lookup k f2 end.
Proof.
  induction f1 as [|[k' x] r IH]; cbn [app lookup]; [reflexivity|].
  destruct (str_dec k k'); [reflexivity|apply IH].
Qed.

Lemma lookup_lt {A} k (f : list (str * A)) : Forall (fun kv => key_lt (fst kv) k) f -> lookup k f = None.
Proof.
  intros F. apply lookup_none. intros I. apply in_map_iff in I. destruct I as ([k' x] & E & I).
  cbn in E. subst k'. rewrite Forall_forall in F. apply F in I. exact (key_lt_irrefl _ I).
Qed.

(** What [map_find] and the lower bound say about a sorted list, in one go. *)
Lemma map_find_split {A} key (fs : list (str * A)) :
  StronglySorted key_lt (map fst fs) ->
  exists f1 f2, fs = f1 ++ f2 /\ map_lower_bound key fs = length f1 /\
    Forall (fun kv => key_lt (fst kv) key) f1 /\
    match lookup key fs with
    | Some x => exists r, f2 = (key, x) :: r /\ map_find key fs = Some (length f1) /\
                  Forall (fun kv => key_lt key (fst kv)) r
    | None => map_find key fs = None /\ Forall (fun kv => key_lt key (fst kv)) f2
    end.
Proof.
  intros S. destruct (lower_bound_split key fs S) as (f1 & f2 & E & L & F1 & F2).
  exists f1, f2. repeat split; auto. subst fs.
  rewrite lookup_app, (lookup_lt _ _ F1). unfold map_find. rewrite <- L.
  rewrite nth_error_app2 by lia. rewrite Nat.sub_diag.
  rewrite map_fst_app in S. apply sorted_app in S. destruct S as (_ & S2 & _).
  destruct f2 as [|[k x] r]; cbn [nth_error lookup]; [split; [reflexivity|constructor]|].
  apply Forall_cons_iff in F2. destruct F2 as [N F2]. cbn in N.
  cbn [map fst] in S2. apply StronglySorted_inv in S2. destruct S2 as [S2 H2].
  assert (HR : Forall (fun kv => key_lt k (fst kv)) r).
  { rewrite Forall_forall in *. intros kv I. apply H2. apply in_map. assumption. }
  destruct (str_dec key k) as [-> | D].
  - exists r. repeat split; auto.
    destruct (dart_ltb k k) eqn:Q; [|reflexivity]. apply dart_ltb_key_lt in Q. destruct (key_lt_irrefl _ Q).
  - assert (KL : key_lt key k) by (destruct (key_lt_total key k) as [|[|]]; tauto).
    assert (HR' : Forall (fun kv => key_lt key (fst kv)) ((k, x) :: r)).
    { constructor; [exact KL|]. eapply Forall_impl; [|exact HR]. cbn. intros a Ha. exact (key_lt_trans _ _ _ KL Ha). }
    assert (LN : lookup key r = None).
    { apply lookup_none. intros I. apply in_map_iff in I. destruct I as ([k' y] & EK & I). cbn in EK. subst k'.
      rewrite Forall_forall in HR'. apply (key_lt_irrefl key). apply (HR' (key, y)). right. assumption. }
    rewrite LN. apply dart_ltb_key_lt in KL. rewrite KL. auto.
Qed.

(** ** List edits at the end of a prefix *)
Lemma list_set_mid {A} (a : list A) x y b : list_set (length a) y (a ++ x :: b) = a ++ y :: b.
Proof. induction a; cbn; congruence. Qed.
Lemma list_insert_mid {A} (a : list A) y b : list_insert (length a) y (a ++ b) = a ++ y :: b.
Proof. induction a; cbn; [destruct b; reflexivity|congruence]. Qed.
Lemma list_erase_mid {A} (a : list A) x b : list_erase (length a) (a ++ x :: b) = a ++ b.
Proof. induction a; cbn; congruence. Qed.
Lemma nth_mid {A} (a : list A) x b : nth_error (a ++ x :: b) (length a) = Some x.
Proof. rewrite nth_error_app2, Nat.sub_diag by lia. reflexivity. Qed.

Lemma sorted_insert {A} key (x : A) f1 f2 :
  StronglySorted key_lt (map fst (f1 ++ f2)) ->
  Forall (fun kv => key_lt (fst kv) key) f1 -> Forall (fun kv => key_lt key (fst kv)) f2 ->
  StronglySorted key_lt (map fst (f1 ++ (key, x) :: f2)).
Proof.
  rewrite !map_fst_app, !sorted_app. cbn [map fst]. intros (S1 & S2 & S3) F1 F2.
  rewrite Forall_forall in F1, F2.
  repeat split; [assumption| |].
  - constructor; [assumption|]. apply Forall_forall. intros k I. apply in_map_iff in I.
    destruct I as (kv & <- & I). auto.
  - intros a b Ia [<-|Ib]; [|auto]. apply in_map_iff in Ia. destruct Ia as (kv & <- & I). auto.
Qed.
Lemma sorted_remove {A} key (x : A) f1 f2 :
  StronglySorted key_lt (map fst (f1 ++ (key, x) :: f2)) -> StronglySorted key_lt (map fst (f1 ++ f2)).
Proof.
  rewrite !map_fst_app, !sorted_app. cbn [map fst]. intros (S1 & S2 & S3).
  apply StronglySorted_inv in S2. destruct S2. repeat split; auto.
  intros a b Ia Ib. apply S3; [assumption|right; assumption].
Qed.

Lemma lookup_gt {A} k (f : list (str * A)) : Forall (fun kv => key_lt k (fst kv)) f -> lookup k f = None.
Proof.
  intros F. apply lookup_none. intros I. apply in_map_iff in I. destruct I as ([k' x] & E & I).
  cbn in E. subst k'. rewrite Forall_forall in F. apply F in I. exact (key_lt_irrefl _ I).
Qed.

(** ** The object operations *)
Section Obj.
  Variable fs : list (str * value).
  Hypothesis sorted : StronglySorted key_lt (map fst fs).

  Lemma h_get_spec key : h_get (VObj fs) key = Ok (match lookup key fs with Some x => x | None => VNull end).
  Proof using sorted.
    destruct (map_find_split key fs sorted) as (f1 & f2 & E & L & F1 & H). cbn [h_get h_fields].
    destruct (lookup key fs) as [x|].
    - destruct H as (r & -> & -> & _). rewrite E at 1. rewrite nth_mid. reflexivity.
    - destruct H as [-> _]. reflexivity.
  Qed.
  Lemma h_at_spec key : h_at (VObj fs) key = match lookup key fs with Some x => Ok x | None => Throw out_of_range end.
  Proof using sorted.
    destruct (map_find_split key fs sorted) as (f1 & f2 & E & L & F1 & H). cbn [h_at h_fields].
    destruct (lookup key fs) as [x|].
    - destruct H as (r & -> & -> & _). rewrite E at 1. rewrite nth_mid. reflexivity.
    - destruct H as [-> _]. reflexivity.
  Qed.
  Lemma h_has_key_spec key :
    h_has_key (VObj fs) key = Ok (match lookup key fs with Some _ => true | None => false end).
  Proof using sorted.
    destruct (map_find_split key fs sorted) as (f1 & f2 & E & L & F1 & H). cbn [h_has_key h_fields].
    destruct (lookup key fs) as [x|].
    - destruct H as (r & -> & -> & _). reflexivity.
    - destruct H as [-> _]. reflexivity.
  Qed.
  Lemma h_get_or_spec key opt :
    h_get_or (VObj fs) key opt = Ok (match lookup key fs with Some x => x | None => opt end).
  Proof using sorted.
    unfold h_get_or. cbn [h_type]. rewrite h_has_key_spec. cbn [bind].
    destruct (lookup key fs) eqn:E; [|reflexivity]. rewrite h_get_spec, E. reflexivity.
  Qed.
  Lemma h_find_spec key :
    exists i, h_find (VObj fs) key = Ok i /\
      match lookup key fs with
      | Some x => nth_error fs i = Some (key, x)
      | None => i = length fs
      end.
  Proof using sorted.
    destruct (map_find_split key fs sorted) as (f1 & f2 & E & L & F1 & H). cbn [h_find].
    destruct (lookup key fs) as [x|].
    - destruct H as (r & -> & -> & _). exists (length f1). split; [reflexivity|]. rewrite E. apply nth_mid.
    - destruct H as [-> _]. eauto.
  Qed.

  Lemma h_insert_spec key x : zlen key <= 65535 ->
    exists fs' i, h_insert (VObj fs) (VStr key) x = Ok (VObj fs', i) /\
      StronglySorted key_lt (map fst fs') /\
      (forall k, lookup k fs' = if str_dec k key then Some x else lookup k fs) /\
      nth_error fs' i = Some (key, x).
  Proof using sorted.
    intros K. destruct (map_find_split key fs sorted) as (f1 & f2 & E & L & F1 & H). cbn [h_insert h_fields].
    replace (65535 <? zlen key) with false by lia.
    destruct (lookup key fs) as [y|] eqn:Q.
    - destruct H as (r & -> & -> & FR). exists (f1 ++ (key, x) :: r), (length f1).
      rewrite E at 1 2. rewrite nth_mid, list_set_mid. split; [reflexivity|]. split; [|split].
      + rewrite E in sorted. apply sorted_insert; [|assumption..]. eapply sorted_remove; eassumption.
      + intros k. rewrite E, !lookup_app. cbn [lookup]. destruct (str_dec k key) as [->|]; [|reflexivity].
        rewrite (lookup_lt _ _ F1). reflexivity.
      + apply nth_mid.
    - destruct H as [-> F2]. exists (f1 ++ (key, x) :: f2), (length f1).
      rewrite L. rewrite E at 1. rewrite list_insert_mid. split; [reflexivity|]. split; [|split].
      + apply sorted_insert; [|assumption..]. rewrite <- E. assumption.
      + intros k. rewrite E, !lookup_app. cbn [lookup]. destruct (str_dec k key) as [->|]; [|reflexivity].
        rewrite (lookup_lt _ _ F1). reflexivity.
      + apply nth_mid.
  Qed.

  Lemma h_set_spec key x : zlen key <= 65535 ->
    match lookup key fs with
    | Some _ => exists fs' i, h_set (VObj fs) (VStr key) x = Ok (VObj fs', i) /\
        StronglySorted key_lt (map fst fs') /\
        (forall k, lookup k fs' = if str_dec k key then Some x else lookup k fs) /\
        nth_error fs' i = Some (key, x)
    | None => h_set (VObj fs) (VStr key) x = Throw out_of_range
    end.
  Proof using sorted.
    intros K. destruct (map_find_split key fs sorted) as (f1 & f2 & E & L & F1 & H). cbn [h_set h_fields].
    replace (65535 <? zlen key) with false by lia.
    destruct (lookup key fs) as [y|] eqn:Q.
    - destruct H as (r & -> & -> & FR). exists (f1 ++ (key, x) :: r), (length f1).
      rewrite E at 1 2. rewrite nth_mid, list_set_mid. split; [reflexivity|]. split; [|split].
      + rewrite E in sorted. apply sorted_insert; [|assumption..]. eapply sorted_remove; eassumption.
      + intros k. rewrite E, !lookup_app. cbn [lookup]. destruct (str_dec k key) as [->|]; [|reflexivity].
        rewrite (lookup_lt _ _ F1). reflexivity.
      + apply nth_mid.
    - destruct H as [-> F2]. reflexivity.
  Qed.

  Lemma h_erase_key_spec key :
    exists fs' i, h_erase_key (VObj fs) key = Ok (VObj fs', i) /\
      StronglySorted key_lt (map fst fs') /\
      (forall k, lookup k fs' = if str_dec k key then None else lookup k fs) /\
      match lookup key fs with
      | Some _ => exists f1 f2, fs' = f1 ++ f2 /\ i = length f1 /\
          Forall (fun kv => key_lt (fst kv) key) f1 /\ Forall (fun kv => key_lt key (fst kv)) f2
      | None => fs' = fs /\ i = length fs
      end.
  Proof using sorted.
    destruct (map_find_split key fs sorted) as (f1 & f2 & E & L & F1 & H). cbn [h_erase_key h_fields].
    destruct (lookup key fs) as [y|] eqn:Q.
    - destruct H as (r & -> & -> & FR). exists (f1 ++ r), (length f1).
      rewrite E at 1. rewrite list_erase_mid. split; [reflexivity|]. split; [|split].
      + rewrite E in sorted. eapply sorted_remove; eassumption.
      + intros k. rewrite E, !lookup_app. cbn [lookup]. destruct (str_dec k key) as [->|]; [|reflexivity].
        rewrite (lookup_lt _ _ F1). apply lookup_gt. assumption.
      + eauto 10.
    - destruct H as [-> F2]. exists fs, (length fs). repeat split; auto.
      intros k. destruct (str_dec k key) as [->|]; auto.
  Qed.
End Obj.

Lemma fs_keys {A} (fs : list (str * A)) k : In k (map fst fs) <-> lookup k fs <> None.
Proof.
  split.
  - intros I E. apply lookup_none in E. auto.
  - intros N. destruct (in_dec str_dec k (map fst fs)) as [|D]; [assumption|].
    apply lookup_none in D. contradiction.
Qed.

Lemma sorted_nodup ks : StronglySorted key_lt ks -> NoDup ks.
Proof.
  induction 1 as [|k ks S IH F]; constructor; auto. intros I. rewrite Forall_forall in F.
  exact (key_lt_irrefl _ (F _ I)).
Qed.
