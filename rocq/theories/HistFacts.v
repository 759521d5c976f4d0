(** Every history of calls on a mutable object is one of a finite map, and on a
    mutable array one of a list. *)

From Coq Require Import ZArith List Bool Sorted Lia ZifyBool ZifyNat ZifyN.
From Verif Require Import Base BaseFacts Keys KeysFacts Lookup Wire Spec SpecOps Buf BufFacts HeapOps HeapFacts IterFacts HeapRun.
Import ListNotations.
Open Scope Z_scope.

Local Notation str_dec := (list_eq_dec Byte.byte_eq_dec).

(** ** Objects *)

Lemma iter_ans_at fs i k x : nth_error fs i = Some (k, x) -> iter_ans (VObj fs) i = A_pair k x.
Proof.
  intros N. unfold iter_ans. cbn [h_end].
  assert (i < length fs)%nat by (apply nth_error_Some; congruence).
  replace (Nat.eqb i (length fs)) with false by (symmetry; apply Nat.eqb_neq; lia).
  cbn [h_deref_key h_deref]. rewrite N. reflexivity.
Qed.
Lemma iter_ans_end fs : iter_ans (VObj fs) (length fs) = A_end.
Proof. unfold iter_ans. cbn [h_end]. rewrite Nat.eqb_refl. reflexivity. Qed.

Definition the_map (fs : list (str * value)) : amap := fun k => lookup k fs.

Lemma enum_keys fs : StronglySorted key_lt (map fst fs) -> enumerates (the_map fs) (map fst fs).
Proof. intros S. split; [assumption|]. intros k. apply fs_keys. Qed.

Lemma lookup_pairs (fs : list (str * value)) : NoDup (map fst fs) ->
  Forall2 (fun k x => lookup k fs = Some x) (map fst fs) (map snd fs).
Proof.
  intros N. assert (G : forall gs hs, fs = hs ++ gs -> Forall2 (fun k x => lookup k fs = Some x) (map fst gs) (map snd gs)).
  { induction gs as [|[k x] gs IH]; intros hs E; cbn [map fst snd]; constructor.
    - rewrite E, lookup_app. rewrite E in N. rewrite map_app in N. cbn [map fst] in N.
      apply NoDup_remove_2 in N. destruct (lookup k hs) eqn:Q.
      + exfalso. apply N. apply in_or_app. left. apply fs_keys. congruence.
      + cbn [lookup]. destruct (str_dec k k); congruence.
    - apply (IH (hs ++ [(k, x)])). rewrite <- app_assoc. exact E. }
  exact (G fs [] eq_refl).
Qed.

Lemma same_map_refl m : same_map m m.
Proof. intros j. reflexivity. Qed.
Lemma fails_refl m (e : err) (E : err -> Prop) : E e -> fails m (A_err e) m E.
Proof. intros H. split; [apply same_map_refl|]. eauto. Qed.

Lemma next_of_split fs key y f1 f2 :
  (forall k, lookup k (f1 ++ f2) = if str_dec k key then None else lookup k fs) ->
  StronglySorted key_lt (map fst (f1 ++ f2)) ->
  Forall (fun kv => key_lt (fst kv) key) f1 -> Forall (fun kv => key_lt key (fst kv)) f2 ->
  lookup key fs = Some y ->
  next (the_map fs) key (iter_ans (VObj (f1 ++ f2)) (length f1)).
Proof.
  intros L S F1 F2 Q.
  assert (G : forall j, key_lt key j -> lookup j fs = lookup j f2).
  { intros j Hj. specialize (L j). destruct (str_dec j key) as [->|]; [elim (key_lt_irrefl _ Hj)|].
    rewrite <- L, lookup_app. destruct (lookup j f1) eqn:E; [|reflexivity].
    exfalso. assert (I : In j (map fst f1)) by (apply fs_keys; congruence).
    apply in_map_iff in I. destruct I as (kv & <- & I). rewrite Forall_forall in F1. apply F1 in I.
    exact (key_lt_irrefl _ (key_lt_trans _ _ _ I Hj)). }
  destruct f2 as [|[k' x] r].
  - right. split; [rewrite app_nil_r; apply iter_ans_end|]. intros j Hj. unfold the_map. rewrite (G j Hj). reflexivity.
  - left. exists k', x. inversion F2 as [|? ? F2a F2b]; subst. cbn in F2a.
    split; [apply iter_ans_at, nth_mid|]. unfold the_map. split.
    + rewrite (G k' F2a). cbn [lookup]. destruct (str_dec k' k'); congruence.
    + split; [assumption|]. intros j Hj. rewrite (G j Hj). intros N. apply fs_keys in N. cbn in N.
      destruct N as [->|N]; [left; reflexivity|right].
      rewrite map_app, sorted_app in S. destruct S as (_ & S & _). cbn [map fst] in S.
      apply StronglySorted_inv in S. destruct S as [_ S]. rewrite Forall_forall in S. auto.
Qed.

Lemma upd_of fs fs' key o :
  (forall k, lookup k fs' = if str_dec k key then o else lookup k fs) -> upd (the_map fs) key o (the_map fs').
Proof.
  intros L. split; unfold the_map.
  - rewrite L. destruct (str_dec key key); congruence.
  - intros j Hj. rewrite L. destruct (str_dec j key); congruence.
Qed.

Definition okmap (fs : list (str * value)) : Prop :=
  StronglySorted key_lt (map fst fs) /\ forall k, lookup k fs <> None -> zlen k <= 65535.

Theorem obj_op fs o : okmap fs ->
  exists fs', fst (run_op (VObj fs) o) = VObj fs' /\ okmap fs' /\
    map_step (the_map fs) o (snd (run_op (VObj fs) o)) (the_map fs').
Proof.
  intros [S KL].
  assert (T : forall e (E : err -> Prop), E e -> exists fs', fst (VObj fs, A_err e) = VObj fs' /\
    okmap fs' /\ fails (the_map fs) (snd (VObj fs, A_err e)) (the_map fs') E).
  { intros e E H. exists fs. repeat split; auto. exists e; auto. }
  assert (Q0 : okmap fs) by (split; assumption).
  destruct o; cbn [run_op map_step].
  - (* insert *)
    destruct k as [gs|l|k|z|z|b|]; try (apply T; reflexivity).
    destruct (Z_le_gt_dec (zlen k) 65535) as [K|K].
    + destruct (h_insert_spec fs S k x K) as (fs' & i & -> & S' & L & N). cbn [bind mutated fst snd].
      exists fs'. split; [reflexivity|]. split; [split; [assumption|]|].
      { intros j. rewrite L. destruct (str_dec j k) as [->|]; auto. }
      split; [intros _|lia]. split; [apply upd_of; assumption|]. apply iter_ans_at. assumption.
    + cbn [h_insert]. replace (65535 <? zlen k) with true by lia.
      destruct (T invalid_argument (eq invalid_argument) eq_refl) as (fs' & E1 & E2 & E3).
      exists fs'. split; [exact E1|]. split; [exact E2|]. split; [lia|]. intros _. exact E3.
  - (* set *)
    destruct k as [gs|l|k|z|z|b|]; try (apply T; reflexivity).
    destruct (Z_le_gt_dec (zlen k) 65535) as [K|K].
    + pose proof (h_set_spec fs S k x K) as H. unfold the_map at 1. destruct (lookup k fs) as [y|] eqn:Q.
      * destruct H as (fs' & i & -> & S' & L & N). cbn [bind mutated fst snd].
        exists fs'. split; [reflexivity|]. split; [split; [assumption|]|].
        { intros j. rewrite L. destruct (str_dec j k) as [->|]; auto. }
        split; [apply upd_of; assumption|]. apply iter_ans_at. assumption.
      * rewrite H. cbn [bind mutated]. replace (65535 <? zlen k) with false by lia. apply T. reflexivity.
    + cbn [h_set]. replace (65535 <? zlen k) with true by lia. cbn [bind mutated]. unfold the_map at 1.
      destruct (lookup k fs) as [y|] eqn:Q; [|apply T; reflexivity].
      specialize (KL k). rewrite Q in KL. exfalso. assert (zlen k <= 65535) by (apply KL; congruence). lia.
  - (* erase *)
    destruct k as [gs|l|k|z|z|b|]; try (apply T; reflexivity).
    cbn [h_erase]. destruct (h_erase_key_spec fs S k) as (fs' & i & -> & S' & L & N). cbn [bind mutated fst snd].
    exists fs'. split; [reflexivity|]. split; [split; [assumption|]|].
    { intros j. rewrite L. destruct (str_dec j k) as [->|]; [congruence|auto]. }
    split; [apply upd_of; assumption|]. unfold the_map at 1. destruct (lookup k fs) as [y|] eqn:Q.
    + destruct N as (f1 & f2 & -> & -> & F1 & F2). eapply next_of_split; eassumption.
    + destruct N as [-> ->]. apply iter_ans_end.
  - apply T. reflexivity.
  - apply T. reflexivity.
  - apply T. reflexivity.
  - apply T. reflexivity.
  - apply T. reflexivity.
  - (* clear *) exists []. repeat split; [constructor|]. cbn. congruence.
  - rewrite (h_get_spec fs S). cbn [bind answered mutated fst snd]. exists fs. auto using same_map_refl.
  - rewrite (h_at_spec fs S). unfold the_map at 1. destruct (lookup k fs) as [y|] eqn:Q; cbn [bind answered mutated fst snd].
    + exists fs. auto using same_map_refl.
    + apply T. reflexivity.
  - rewrite (h_has_key_spec fs S). cbn [bind answered mutated fst snd]. exists fs. auto using same_map_refl.
  - rewrite (h_get_or_spec fs S). cbn [bind answered mutated fst snd]. exists fs. auto using same_map_refl.
  - destruct (h_find_spec fs S k) as (i & -> & N). cbn [bind answered mutated fst snd]. exists fs.
    split; [reflexivity|]. split; [assumption|]. split; [apply same_map_refl|].
    unfold the_map. destruct (lookup k fs); [apply iter_ans_at; assumption|]. subst i. apply iter_ans_end.
  - cbn [h_size bind answered mutated fst snd]. exists fs. split; [reflexivity|]. split; [assumption|].
    split; [apply same_map_refl|]. exists (map fst fs). split; [apply enum_keys; assumption|].
    rewrite zlen_map. reflexivity.
  - rewrite h_iterate_keys_spec. cbn [bind answered mutated fst snd]. exists fs. split; [reflexivity|]. split; [assumption|].
    split; [apply same_map_refl|]. exists (map fst fs). split; [apply enum_keys; assumption|reflexivity].
  - rewrite h_iterate_spec by reflexivity. cbn [bind answered mutated fst snd members]. exists fs. split; [reflexivity|]. split; [assumption|].
    split; [apply same_map_refl|]. exists (map fst fs), (map snd fs). split; [apply enum_keys; assumption|].
    split; [apply lookup_pairs, sorted_nodup; assumption|reflexivity].
  - rewrite h_riterate_spec by reflexivity. cbn [bind answered mutated fst snd members]. exists fs. split; [reflexivity|]. split; [assumption|].
    split; [apply same_map_refl|]. exists (map fst fs), (map snd fs). split; [apply enum_keys; assumption|].
    split; [apply lookup_pairs, sorted_nodup; assumption|reflexivity].
  - apply T. reflexivity.
  - unfold h_at_idx. cbn [h_size bind].
    destruct (T (if i <? zlen fs then type_error else out_of_range) _ eq_refl) as (fs' & E1 & E2 & E3).
    exists fs'. replace (answered _ _) with (VObj fs, A_err (if i <? zlen fs then type_error else out_of_range))
      by (destruct (i <? zlen fs); reflexivity).
    split; [exact E1|]. split; [exact E2|]. exists (map fst fs). split; [apply enum_keys; assumption|].
    rewrite zlen_map. exact E3.
  - cbn [h_get_idx_or h_type bind answered mutated fst snd]. exists fs. auto using same_map_refl.
  - apply T. reflexivity.
  - apply T. reflexivity.
  - destruct (T (match map fst fs with [] => out_of_range | _ => type_error end) _ eq_refl) as (fs' & E1 & E2 & E3).
    exists fs'. replace (answered _ _) with (VObj fs, A_err (match map fst fs with [] => out_of_range | _ => type_error end))
      by (destruct fs; reflexivity).
    split; [exact E1|]. split; [exact E2|]. exists (map fst fs). split; [apply enum_keys; assumption|]. exact E3.
  - destruct (T (match map fst fs with [] => out_of_range | _ => type_error end) _ eq_refl) as (fs' & E1 & E2 & E3).
    exists fs'. replace (answered _ _) with (VObj fs, A_err (match map fst fs with [] => out_of_range | _ => type_error end))
      by (destruct fs; reflexivity).
    split; [exact E1|]. split; [exact E2|]. exists (map fst fs). split; [apply enum_keys; assumption|]. exact E3.
  - cbn [h_front_or h_type bind answered mutated fst snd]. exists fs. auto using same_map_refl.
  - cbn [h_back_or h_type bind answered mutated fst snd]. exists fs. auto using same_map_refl.
Qed.

Theorem obj_history os : forall fs, okmap fs ->
  exists fs', fst (run (VObj fs) os) = VObj fs' /\ okmap fs' /\
    map_steps (the_map fs) os (snd (run (VObj fs) os)) (the_map fs').
Proof.
  induction os as [|o os IH]; intros fs K; cbn [run].
  - exists fs. split; [reflexivity|]. split; [assumption|]. constructor. apply same_map_refl.
  - destruct (obj_op fs o K) as (fs1 & E & K1 & St). destruct (run_op (VObj fs) o) as [v1 a]. cbn [fst snd] in *. subst v1.
    destruct (IH fs1 K1) as (fs2 & E2 & K2 & St2). destruct (run (VObj fs1) os) as [v2 l]. cbn [fst snd] in *. subst v2.
    exists fs2. split; [reflexivity|]. split; [assumption|]. econstructor; eassumption.
Qed.

(** The specification of a history leaves no choice: one answer per call. *)
Lemma sorted_same ks ls : StronglySorted key_lt ks -> StronglySorted key_lt ls ->
  (forall k, In k ks <-> In k ls) -> ks = ls.
Proof.
  revert ls. induction ks as [|k ks IH]; intros [|l ls] S1 S2 E.
  - reflexivity.
  - exfalso. apply (E l). left. reflexivity.
  - exfalso. apply (E k). left. reflexivity.
  - apply StronglySorted_inv in S1, S2. destruct S1 as [S1 F1], S2 as [S2 F2].
    rewrite Forall_forall in F1, F2.
    assert (k = l).
    { destruct (proj1 (E k) (or_introl eq_refl)) as [|I]; [congruence|].
      destruct (proj2 (E l) (or_introl eq_refl)) as [|J]; [congruence|].
      elim (key_lt_irrefl k). eapply key_lt_trans; eauto. }
    subst l. f_equal. apply IH; auto. intros j. split; intros I.
    + destruct (proj1 (E j) (or_intror I)) as [<-|]; [|assumption]. elim (key_lt_irrefl _ (F1 _ I)).
    + destruct (proj2 (E j) (or_intror I)) as [<-|]; [|assumption]. elim (key_lt_irrefl _ (F2 _ I)).
Qed.
Lemma enum_unique m1 m2 ks ls : same_map m1 m2 -> enumerates m1 ks -> enumerates m2 ls -> ks = ls.
Proof.
  intros M [S1 E1] [S2 E2]. apply sorted_same; auto. intros k. rewrite E1, E2, M. reflexivity.
Qed.

Lemma same_map_sym m1 m2 : same_map m1 m2 -> same_map m2 m1.
Proof. intros H j. symmetry. apply H. Qed.
Lemma same_map_trans m1 m2 m3 : same_map m1 m2 -> same_map m2 m3 -> same_map m1 m3.
Proof. intros H K j. rewrite K. apply H. Qed.
Lemma upd_det m1 m2 k x m1' m2' : same_map m1 m2 -> upd m1 k x m1' -> upd m2 k x m2' -> same_map m1' m2'.
Proof.
  intros H [A1 B1] [A2 B2] j. destruct (str_dec j k) as [->|N]; [congruence|].
  rewrite B1, B2 by assumption. apply H.
Qed.
Lemma fails_det m1 m2 a b m1' m2' e : same_map m1 m2 -> fails m1 a m1' (eq e) -> fails m2 b m2' (eq e) ->
  a = b /\ same_map m1' m2'.
Proof.
  intros H [A1 (e1 & -> & <-)] [A2 (e2 & -> & <-)]. split; [reflexivity|].
  eauto using same_map_trans, same_map_sym.
Qed.
Lemma next_det m1 m2 k a b : same_map m1 m2 -> next m1 k a -> next m2 k b -> a = b.
Proof.
  intros H [(k1 & x1 & -> & M1 & L1 & F1)|(-> & F1)] [(k2 & x2 & -> & M2 & L2 & F2)|(-> & F2)].
  - assert (k1 = k2).
    { destruct (F1 k2 L2) as [|G1]; [rewrite <- H; congruence|congruence|].
      destruct (F2 k1 L1) as [|G2]; [rewrite H; congruence|congruence|].
      elim (key_lt_irrefl k1). eapply key_lt_trans; eauto. }
    subst k2. rewrite H in M2. congruence.
  - rewrite <- H, F2 in M1 by assumption. discriminate.
  - rewrite H, F1 in M2 by assumption. discriminate.
  - reflexivity.
Qed.
Lemma values_det m1 m2 ks vs ws : same_map m1 m2 -> Forall2 (fun k x => m1 k = Some x) ks vs ->
  Forall2 (fun k x => m2 k = Some x) ks ws -> vs = ws.
Proof.
  intros H F. revert ws. induction F as [|k x ks vs E F IH]; intros ws G; inversion G; subst; [reflexivity|].
  f_equal; [|auto]. rewrite H in *. congruence.
Qed.

Lemma map_step_det m1 m2 o a b m1' m2' : same_map m1 m2 ->
  map_step m1 o a m1' -> map_step m2 o b m2' -> a = b /\ same_map m1' m2'.
Proof.
  intros H S1 S2.
  assert (FD : forall e, fails m1 a m1' (eq e) -> fails m2 b m2' (eq e) -> a = b /\ same_map m1' m2')
    by (intros e; apply fails_det; assumption).
  assert (SD : same_map m1 m1' -> same_map m2 m2' -> same_map m1' m2')
    by (eauto using same_map_trans, same_map_sym).
  destruct o; cbn [map_step] in S1, S2;
    try (eapply FD; eassumption);
    try (destruct S1 as [? ->], S2 as [? ->]; rewrite ?H; auto; fail).
  - destruct k; try (eapply FD; eassumption). destruct S1 as [A1 B1], S2 as [A2 B2].
    destruct (Z_le_gt_dec (zlen s) 65535) as [K|K].
    + destruct (A1 K) as [U1 ->], (A2 K) as [U2 ->]. split; [reflexivity|]. eapply upd_det; eassumption.
    + eapply FD; [apply B1|apply B2]; lia.
  - destruct k; try (eapply FD; eassumption). rewrite H in S2. destruct (m1 s).
    + destruct S1 as [U1 ->], S2 as [U2 ->]. split; [reflexivity|]. eapply upd_det; eassumption.
    + eapply FD; eassumption.
  - destruct k; try (eapply FD; eassumption). rewrite H in S2. destruct S1 as [U1 N1], S2 as [U2 N2].
    split; [|eapply upd_det; eassumption]. destruct (m1 s); [eapply next_det; eassumption|congruence].
  - destruct S1 as [A1 ->], S2 as [A2 ->]. split; [reflexivity|]. intros j. rewrite A1, A2. reflexivity.
  - rewrite H in S2. destruct (m1 k); [|eapply FD; eassumption]. destruct S1 as [? ->], S2 as [? ->]. auto.
  - destruct S1 as (? & ks & E1 & ->), S2 as (? & ls & E2 & ->). rewrite (enum_unique _ _ _ _ H E1 E2). auto.
  - destruct S1 as (? & ks & E1 & ->), S2 as (? & ls & E2 & ->). rewrite (enum_unique _ _ _ _ H E1 E2). auto.
  - destruct S1 as (? & ks & vs & E1 & F1 & ->), S2 as (? & ls & ws & E2 & F2 & ->).
    rewrite <- (enum_unique _ _ _ _ H E1 E2) in F2. rewrite (values_det _ _ _ _ _ H F1 F2). auto.
  - destruct S1 as (? & ks & vs & E1 & F1 & ->), S2 as (? & ls & ws & E2 & F2 & ->).
    rewrite <- (enum_unique _ _ _ _ H E1 E2) in F2. rewrite (values_det _ _ _ _ _ H F1 F2). auto.
  - destruct S1 as (ks & E1 & S1), S2 as (ls & E2 & S2). rewrite <- (enum_unique _ _ _ _ H E1 E2) in S2.
    eapply FD; eassumption.
  - destruct S1 as (ks & E1 & S1), S2 as (ls & E2 & S2). rewrite <- (enum_unique _ _ _ _ H E1 E2) in S2.
    eapply FD; eassumption.
  - destruct S1 as (ks & E1 & S1), S2 as (ls & E2 & S2). rewrite <- (enum_unique _ _ _ _ H E1 E2) in S2.
    eapply FD; eassumption.
Qed.
Lemma map_steps_det os : forall m1 m2 l1 l2 m1' m2', same_map m1 m2 ->
  map_steps m1 os l1 m1' -> map_steps m2 os l2 m2' -> l1 = l2 /\ same_map m1' m2'.
Proof.
  induction os as [|o os IH]; intros m1 m2 l1 l2 m1' m2' H S1 S2; inversion S1; inversion S2; subst.
  - split; [reflexivity|]. eauto using same_map_trans, same_map_sym.
  - match goal with A : map_step m1 _ _ _, B : map_step m2 _ _ _ |- _ =>
      destruct (map_step_det _ _ _ _ _ _ _ H A B) as [-> H'] end.
    match goal with A : map_steps ?x os _ _, B : map_steps ?y os _ _ |- _ =>
      destruct (IH _ _ _ _ _ _ H' A B) as [-> H''] end.
    auto.
Qed.

(** ** Arrays *)

Lemma list_insert_spec {A} i (x : A) l : (i <= length l)%nat ->
  list_insert i x l = firstn i l ++ x :: skipn i l.
Proof.
  revert i. induction l as [|y l IH]; intros [|i] H; cbn in *; try reflexivity; try lia.
  rewrite IH by lia. reflexivity.
Qed.
Lemma list_set_spec {A} i (x : A) l : (i < length l)%nat ->
  list_set i x l = firstn i l ++ x :: skipn (S i) l.
Proof.
  revert i. induction l as [|y l IH]; intros [|i] H; cbn in *; try reflexivity; try lia.
  rewrite IH by lia. reflexivity.
Qed.
Lemma list_erase_spec {A} i (l : list A) : (i < length l)%nat ->
  list_erase i l = firstn i l ++ skipn (S i) l.
Proof.
  revert i. induction l as [|y l IH]; intros [|i] H; cbn in *; try reflexivity; try lia.
  rewrite IH by lia. reflexivity.
Qed.

Lemma iter_item l i : (i <= length l)%nat -> iter_ans (VArr l) i = item l i.
Proof.
  intros H. unfold iter_ans, item. cbn [h_end h_deref].
  destruct (Nat.eqb_spec i (length l)) as [->|N].
  - replace (nth_error l (length l)) with (@None value); [reflexivity|].
    symmetry. apply nth_error_None. lia.
  - destruct (nth_error l i) eqn:E; [reflexivity|]. apply nth_error_None in E. lia.
Qed.
Lemma item_mid (l : list value) x r : item (l ++ x :: r) (length l) = A_item (zlen l) x.
Proof. unfold item. rewrite nth_mid. reflexivity. Qed.

Lemma removelast_firstn_pred {A} (l : list A) : removelast l = firstn (length l - 1) l.
Proof.
  destruct l as [|x l]; [reflexivity|]. symmetry. rewrite removelast_firstn_len. f_equal. cbn. lia.
Qed.
Lemma last_nth {A} (l : list A) d : l <> [] -> nth_error l (length l - 1) = Some (last l d).
Proof.
  induction l as [|x [|y l] IH]; intros H; [congruence|reflexivity|].
  replace (length (x :: y :: l) - 1)%nat with (S (length (y :: l) - 1)) by (cbn; lia).
  cbn [nth_error]. rewrite IH by congruence. reflexivity.
Qed.
Lemma zlen_pos_iff {A} (l : list A) : (zlen l =? 0) = match l with [] => true | _ => false end.
Proof. destruct l; reflexivity. Qed.

Lemma nth_error_firstn {A} n (l : list A) i : (i < n)%nat -> nth_error (firstn n l) i = nth_error l i.
Proof.
  revert l i. induction n as [|n IH]; intros [|x l] [|i] H; cbn; try reflexivity; try lia. apply IH. lia.
Qed.

Theorem arr_op l o : op_ok o -> zlen l < 2 ^ 63 ->
  exists l', fst (run_op (VArr l) o) = VArr l' /\ list_step l o (snd (run_op (VArr l) o)) l' /\
    zlen l' <= Z.max (zlen l + 1) (2 ^ 62).
Proof.
  intros OK LL.
  assert (KEEP : forall a b : ans, a = b -> exists l', fst (VArr l, a) = VArr l' /\ (l' = l /\ snd (VArr l, a) = b) /\ zlen l' <= Z.max (zlen l + 1) (2 ^ 62)).
  { intros a b ->. exists l. repeat split. lia. }
  assert (IDX : forall i, 0 <= i -> (if i <? zlen l then match nth_error l (Z.to_nat i) with Some x => Ok x | None => Oob end else Ok VNull)
     = Ok (match value_at l i with Some x => x | None => VNull end)).
  { intros i Hi. unfold value_at, zlen. destruct (nth_error l (Z.to_nat i)) eqn:E.
    - assert (Z.to_nat i < length l)%nat by (apply nth_error_Some; congruence).
      replace (i <? Z.of_nat (length l)) with true by lia. reflexivity.
    - apply nth_error_None in E. replace (i <? Z.of_nat (length l)) with false by lia. reflexivity. }
  assert (ZL : zlen l = Z.of_nat (length l)) by reflexivity.
  destruct o; cbn [run_op list_step]; cbn [op_ok] in OK.
  - (* insert *)
    destruct k as [gs|vs|k|z|z|b|]; try (apply KEEP; reflexivity).
    + cbn [h_insert]. destruct (65535 <? zlen k); apply KEEP; reflexivity.
    + cbn [h_insert h_elements key_ok] in *. destruct ((0 <=? z) && (z <=? zlen l)) eqn:B.
      * replace (z mod 2 ^ 64) with z by (symmetry; apply Z.mod_small; lia).
        replace (zlen l <? z) with false by lia. cbn [bind mutated fst snd].
        eexists. split; [reflexivity|]. rewrite list_insert_spec by lia. split; [split; [reflexivity|]|].
        -- rewrite iter_item. 2: { rewrite app_length. cbn. rewrite firstn_length. lia. }
           replace (Z.to_nat z) with (length (firstn (Z.to_nat z) l)) at 3 by (rewrite firstn_length; lia).
           rewrite item_mid. f_equal. unfold zlen. rewrite firstn_length. lia.
        -- unfold zlen. rewrite app_length. cbn [length]. rewrite firstn_length, skipn_length. lia.
      * assert (zlen l <? z mod 2 ^ 64 = true) as ->; [|apply KEEP; reflexivity].
        destruct (Z_lt_ge_dec z 0).
        -- replace (z mod 2 ^ 64) with (z + 2 ^ 64); [lia|].
           rewrite <- (Z_mod_plus_full z 1 (2 ^ 64)). symmetry. apply Z.mod_small. lia.
        -- rewrite Z.mod_small by lia. lia.
  - (* set *)
    destruct k as [gs|vs|k|z|z|b|]; try (apply KEEP; reflexivity).
    + cbn [h_set]. destruct (65535 <? zlen k); apply KEEP; reflexivity.
    + cbn [h_set h_elements key_ok] in *. destruct ((0 <=? z) && (z <? zlen l)) eqn:B.
      * replace (z mod 2 ^ 64) with z by (symmetry; apply Z.mod_small; lia).
        replace (zlen l <=? z) with false by lia. cbn [bind mutated fst snd].
        eexists. split; [reflexivity|]. rewrite list_set_spec by lia. split; [split; [reflexivity|]|].
        -- rewrite iter_item. 2: { rewrite app_length. cbn [length]. rewrite firstn_length. lia. }
           replace (Z.to_nat z) with (length (firstn (Z.to_nat z) l)) at 3 by (rewrite firstn_length; lia).
           rewrite item_mid. f_equal. unfold zlen. rewrite firstn_length. lia.
        -- unfold zlen. rewrite app_length. cbn [length]. rewrite firstn_length, skipn_length. lia.
      * assert (zlen l <=? z mod 2 ^ 64 = true) as ->; [|apply KEEP; reflexivity].
        destruct (Z_lt_ge_dec z 0).
        -- replace (z mod 2 ^ 64) with (z + 2 ^ 64); [lia|].
           rewrite <- (Z_mod_plus_full z 1 (2 ^ 64)). symmetry. apply Z.mod_small. lia.
        -- rewrite Z.mod_small by lia. lia.
  - (* erase *)
    destruct k as [gs|vs|k|z|z|b|]; try (apply KEEP; reflexivity).
    cbn [h_erase h_erase_idx h_elements key_ok] in *. destruct ((0 <=? z) && (z <? zlen l)) eqn:B.
    + replace (z mod 2 ^ 64) with z by (symmetry; apply Z.mod_small; lia).
      replace (zlen l <=? z) with false by lia. cbn [bind mutated fst snd].
      eexists. split; [reflexivity|]. rewrite list_erase_spec by lia. split; [split; [reflexivity|]|].
      * apply iter_item. rewrite app_length, firstn_length, skipn_length. lia.
      * unfold zlen. rewrite app_length, firstn_length, skipn_length. lia.
    + assert (zlen l <=? z mod 2 ^ 64 = true) as ->.
      { destruct (Z_lt_ge_dec z 0).
        - replace (z mod 2 ^ 64) with (z + 2 ^ 64); [lia|].
          rewrite <- (Z_mod_plus_full z 1 (2 ^ 64)). symmetry. apply Z.mod_small. lia.
        - rewrite Z.mod_small by lia. lia. }
      cbn [bind mutated fst snd]. exists l. split; [reflexivity|]. split; [|lia]. split; [reflexivity|].
      unfold iter_ans. cbn [h_end]. rewrite Nat.eqb_refl. reflexivity.
  - (* push_front *)
    unfold h_push_front. cbn [h_insert h_elements]. rewrite Z.mod_0_l by lia.
    replace (zlen l <? 0) with false by lia. cbn [bind mutated fst snd Z.to_nat list_insert].
    exists (x :: l). repeat split. rewrite zlen_cons. lia.
  - (* push_back *)
    unfold h_push_back. cbn [h_size h_insert h_elements bind]. rewrite Z.mod_small by lia.
    rewrite Z.ltb_irrefl. cbn [bind mutated fst snd]. rewrite list_insert_spec by lia.
    exists (l ++ [x]). rewrite ZL, Nat2Z.id, firstn_all, skipn_all. repeat split.
    rewrite zlen_app. change (zlen [x]) with 1. lia.
  - (* pop_front *)
    unfold h_pop_front. cbn [h_erase_idx h_elements]. destruct l as [|y r].
    + apply KEEP. reflexivity.
    + replace (zlen (y :: r) <=? 0) with false by (rewrite zlen_cons; pose proof (zlen_nonneg r); lia).
      exists r. repeat split. rewrite zlen_cons. lia.
  - (* pop_back *)
    unfold h_pop_back. cbn [h_size h_erase_idx h_elements bind]. destruct l as [|y r].
    + apply KEEP. reflexivity.
    + pose proof (zlen_cons y r). pose proof (zlen_nonneg r). rewrite Z.mod_small by lia. replace (zlen (y :: r) <=? zlen (y :: r) - 1) with false by lia.
      cbn [bind mutated fst snd]. eexists. split; [reflexivity|].
      replace (Z.to_nat (zlen (y :: r) - 1)) with (length (y :: r) - 1)%nat by lia.
      rewrite list_erase_spec by (cbn; lia). rewrite removelast_firstn_pred.
      replace (S (length (y :: r) - 1)) with (length (y :: r)) by (cbn; lia). rewrite skipn_all, app_nil_r.
      repeat split. unfold zlen. rewrite firstn_length. lia.
  - (* resize *)
    cbn [h_resize h_elements bind mutated fst snd]. eexists. split; [reflexivity|].
    assert (Z1 : zlen (firstn (Z.to_nat n) l ++ repeat x (Z.to_nat n - length l)) = n).
    { unfold zlen. rewrite app_length, firstn_length, repeat_length. lia. }
    split; [|lia]. split; [exact Z1|]. split; [reflexivity|]. intros i Hi. unfold value_at.
    destruct (i <? zlen l) eqn:B.
    + rewrite nth_error_app1 by (rewrite firstn_length; lia).
      rewrite nth_error_firstn by lia. apply nth_error_nth'. lia.
    + rewrite nth_error_app2 by (rewrite firstn_length; lia). rewrite firstn_length.
      apply nth_error_repeat. lia.
  - (* clear *) exists []. repeat split. change (zlen (@nil value)) with 0. lia.
  - apply KEEP. reflexivity.
  - apply KEEP. reflexivity.
  - apply KEEP. reflexivity.
  - apply KEEP. reflexivity.
  - apply KEEP. reflexivity.
  - apply KEEP. reflexivity.
  - apply KEEP. reflexivity.
  - rewrite h_iterate_spec by reflexivity. apply KEEP. reflexivity.
  - rewrite h_riterate_spec by reflexivity. apply KEEP. reflexivity.
  - cbn [h_get_idx h_elements h_size bind]. rewrite IDX by lia. apply KEEP. reflexivity.
  - cbn [h_at_idx h_elements h_size bind]. unfold h_at_idx. cbn [h_size h_elements bind].
    specialize (IDX i ltac:(lia)). unfold value_at in *. destruct (i <? zlen l) eqn:B.
    + destruct (nth_error l (Z.to_nat i)); [apply KEEP; reflexivity|discriminate].
    + replace (nth_error l (Z.to_nat i)) with (@None value) by (symmetry; apply nth_error_None; lia).
      apply KEEP. reflexivity.
  - unfold h_get_idx_or. cbn [h_type h_size h_get_idx h_elements bind]. rewrite IDX by lia. unfold value_at.
    destruct (i <? zlen l) eqn:B.
    + destruct (nth_error l (Z.to_nat i)) eqn:E; [apply KEEP; reflexivity|]. apply nth_error_None in E. lia.
    + replace (nth_error l (Z.to_nat i)) with (@None value) by (symmetry; apply nth_error_None; lia).
      apply KEEP. reflexivity.
  - destruct l; apply KEEP; reflexivity.
  - cbn [h_back h_elements]. destruct l as [|y r]; [apply KEEP; reflexivity|].
    rewrite (last_nth _ VNull) by congruence. apply KEEP. reflexivity.
  - destruct l; apply KEEP; reflexivity.
  - unfold h_at_back. cbn [h_back h_size h_elements bind]. rewrite zlen_pos_iff.
    destruct l as [|y r]; [apply KEEP; reflexivity|].
    rewrite (last_nth _ VNull) by congruence. apply KEEP. reflexivity.
  - destruct l; apply KEEP; reflexivity.
  - unfold h_back_or. cbn [h_back h_type h_size h_elements bind]. rewrite zlen_pos_iff.
    destruct l as [|y r]; [apply KEEP; reflexivity|].
    rewrite (last_nth _ d) by congruence. apply KEEP. reflexivity.
Qed.

Theorem arr_history os : forall l, Forall op_ok os -> zlen l + zlen os <= 2 ^ 62 ->
  exists l', fst (run (VArr l) os) = VArr l' /\ list_steps l os (snd (run (VArr l) os)) l'.
Proof.
  assert (G : forall os l N, Forall op_ok os -> zlen l <= 2 ^ 62 + N -> 0 <= N -> N + zlen os < 2 ^ 62 ->
    exists l', fst (run (VArr l) os) = VArr l' /\ list_steps l os (snd (run (VArr l) os)) l').
  { clear os. induction os as [|o os IH]; intros l N F H HN B; cbn [run].
    - exists l. split; [reflexivity|constructor].
    - rewrite zlen_cons in B. pose proof (zlen_nonneg os). inversion F as [|? ? F1 F2]; subst.
      destruct (arr_op l o F1 ltac:(lia)) as (l1 & E & St & L). destruct (run_op (VArr l) o) as [v1 a]. cbn [fst snd] in *. subst v1.
      destruct (IH l1 (N + 1) F2 ltac:(lia) ltac:(lia) ltac:(lia)) as (l2 & E2 & St2).
      destruct (run (VArr l1) os) as [v2 r]. cbn [fst snd] in *. subst v2.
      exists l2. split; [reflexivity|]. econstructor; eassumption. }
  intros l F B. destruct os as [|o os].
  - exists l. split; [reflexivity|constructor].
  - rewrite zlen_cons in B. pose proof (zlen_nonneg l). pose proof (zlen_nonneg os).
    destruct (Z_lt_ge_dec (zlen (o :: os)) (2 ^ 62)).
    + apply (G _ _ 0); auto; lia.
    + rewrite zlen_cons in *. inversion F as [|? ? F1 F2]; subst. cbn [run].
      destruct (arr_op l o F1 ltac:(lia)) as (l1 & E & St & L). destruct (run_op (VArr l) o) as [v1 a]. cbn [fst snd] in *. subst v1.
      destruct (G os l1 0 F2 ltac:(lia) ltac:(lia) ltac:(lia)) as (l2 & E2 & St2).
      destruct (run (VArr l1) os) as [v2 r]. cbn [fst snd] in *. subst v2.
      exists l2. split; [reflexivity|]. econstructor; eassumption.
Qed.
