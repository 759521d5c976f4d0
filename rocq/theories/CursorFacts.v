(** Facts behind C49: what calls leave alone, objects stay in key order, positions. *)

From Coq Require Import ZArith List Bool Lia Sorted ZifyBool ZifyNat ZifyN.
From Verif Require Import Base BaseFacts Keys KeysFacts Wire Spec SpecOps ReadFacts BufFacts HeapOps HeapFacts
  Store StoreSpec StoreFacts StoreSteps StoreRun Cursor SpecCursor.
Import ListNotations.
Open Scope Z_scope.

(** ** Variables a call does not touch keep their handle *)
Definition others (xs : list nat) (s s' : state) : Prop :=
  forall y, ~ In y xs -> nth_error (vars s') y = nth_error (vars s) y.

Lemma others_refl xs s : others xs s s.
Proof. intros y _. reflexivity. Qed.
Lemma others_trans xs a b c : others xs a b -> others xs b c -> others xs a c.
Proof. intros H K y N. rewrite K, H by exact N. reflexivity. Qed.
Lemma others_vars xs s s' : vars s' = vars s -> others xs s s'.
Proof. intros E y _. rewrite E. reflexivity. Qed.
Lemma others_set xs s x h cs : In x xs -> others xs s (St cs (list_set x h (vars s))).
Proof. intros I y N. cbn [vars]. apply nth_set_other. intros ->. contradiction. Qed.
Lemma others_more xs ys s s' : (forall y, In y xs -> In y ys) -> others xs s s' -> others ys s s'.
Proof. intros H O y N. apply O. intros I. apply N. auto. Qed.

Lemma unshare_others s x s' h : unshare s x = Ok (s', h) -> others [x] s s'.
Proof.
  unfold unshare. intros H. bind_inv H. bind_inv H. destruct r0 as [cs h']. apply Ok_inj in H. injection H as <- <-.
  apply others_set. left. reflexivity.
Qed.
Lemma put_vars s a c s' : put_s s a c = Ok s' -> vars s' = vars s.
Proof. unfold put_s. intros H. bind_inv H. apply Ok_inj in H. subst s'. reflexivity. Qed.
Lemma drop_vars s hs s' : drop_s s hs = Ok s' -> vars s' = vars s.
Proof. unfold drop_s. intros H. bind_inv H. apply Ok_inj in H. subst s'. reflexivity. Qed.
Lemma copy_vars s v s' h : take_copy s v = Ok (s', h) -> vars s' = vars s.
Proof.
  destruct v as [l|y|y|y]; cbn [take_copy]; intros H.
  - destruct (lit_h l); [|discriminate]. apply Ok_inj in H. injection H as <- _. reflexivity.
  - bind_inv H. bind_inv H. apply Ok_inj in H. injection H as <- _. reflexivity.
  - bind_inv H. bind_inv H. apply Ok_inj in H. injection H as <- _. reflexivity.
  - bind_inv H. bind_inv H. apply Ok_inj in H. injection H as <- _. reflexivity.
Qed.
Lemma move_others s v s' h : take_move s v = Ok (s', h) -> match v with Lref _ => False | _ => True end -> others (moved v) s s'.
Proof.
  destruct v as [l|y|y|y]; cbn [take_move moved]; intros H N; try contradiction.
  - apply others_vars. exact (copy_vars _ _ _ _ H).
  - apply others_vars. exact (copy_vars _ _ _ _ H).
  - bind_inv H. apply Ok_inj in H. injection H as <- _. apply others_set. left. reflexivity.
Qed.
Lemma forward_others s v s' h : take_forward s v = Ok (s', h) -> others (moved v) s s'.
Proof.
  destruct v as [l|y|y|y]; cbn [take_forward]; intros H; try (apply others_vars; exact (copy_vars _ _ _ _ H)).
  apply (move_others _ _ _ _ H I).
Qed.
Lemma overwrite_others s x h s' : overwrite s x h = Ok s' -> others [x] s s'.
Proof.
  unfold overwrite. intros H. bind_inv H. apply drop_vars in H. intros y N. rewrite H. unfold set_var. cbn [vars].
  apply nth_set_other. intros ->. apply N. left. reflexivity.
Qed.
Lemma field_others s a fs j h s' : assign_field s a fs j h = Ok s' -> vars s' = vars s.
Proof.
  unfold assign_field. destruct (nth_error fs j) as [[k old]|]; [|discriminate]. intros H. bind_inv H.
  apply put_vars in E. apply drop_vars in H. congruence.
Qed.
Lemma element_others s a fs j h s' : assign_element s a fs j h = Ok s' -> vars s' = vars s.
Proof.
  unfold assign_element. destruct (nth_error fs j) as [old|]; [|discriminate]. intros H. bind_inv H.
  apply put_vars in E. apply drop_vars in H. congruence.
Qed.

Ltac less := let y := fresh in let I := fresh in intros y I; cbn [In] in *; tauto.

Lemma insert_others s e x k v s' a : Inv s e [] -> (x < length e)%nat ->
  match v, val e x with Lref _, VObj _ => overwrites (val e x) k = false | _, _ => True end ->
  s_insert s x k v = Ok (s', a) -> others (x :: moved v) s s'.
Proof.
  intros I L AL H. unfold s_insert, insert_in in H. destruct (L_unshare _ _ _ I L) as (s1 & h & E1 & I1 & N1 & Sh & O).
  rewrite E1 in H. cbn [bind] in H. apply unshare_others in E1.
  apply (others_more _ (x :: moved v)) in E1; [|less]. eapply others_trans; [exact E1|]. clear E1.
  destruct k; try (apply Ok_inj in H; injection H as <- _; apply others_refl).
  - destruct (65535 <? zlen s0); [apply Ok_inj in H; injection H as <- _; apply others_refl|].
    pose proof (L_kind s1 x h (val e x) Sh O) as K.
    destruct K as [(c & fs & vs & EH & EV & Ow & F & EF & _)|[(c & ms & vs & EH & EV & Ow & F & EF & _)|(_ & EF & _ & NO & _)]]; rewrite EF in H; cbn [bind] in H.
    2: apply Ok_inj in H; injection H as <- _; apply others_refl.
    2: apply Ok_inj in H; injection H as <- _; apply others_refl.
    rewrite EV in AL. cbn [overwrites h_has_key h_fields] in AL. rewrite <- (same_find s0 fs vs (pair_keys _ _ _ F)) in AL.
    destruct (map_find s0 fs) as [j|].
    + bind_inv H. destruct r as [s2 hv]. bind_inv H. apply Ok_inj in H. injection H as <- _.
      apply field_others in E0. eapply others_trans; [|apply others_vars; exact E0].
      apply move_others in E; [|destruct v; auto; discriminate]. eapply others_more; [|exact E]. less.
    + bind_inv H. destruct r as [s2 hv]. bind_inv H. apply Ok_inj in H. injection H as <- _.
      apply others_vars. rewrite (put_vars _ _ _ _ E0). exact (copy_vars _ _ _ _ E).
  - bind_inv H. destruct r as [[c vs]|]; [|apply Ok_inj in H; injection H as <- _; apply others_refl].
    destruct (zlen vs <? z mod 2 ^ 64); [apply Ok_inj in H; injection H as <- _; apply others_refl|].
    bind_inv H. destruct r as [s2 hv]. bind_inv H. apply Ok_inj in H. injection H as <- _.
    apply put_vars in E1. eapply others_trans; [|apply others_vars; exact E1]. apply forward_others in E0.
    eapply others_more; [|exact E0]. less.
Qed.

Lemma set_others s x k v s' a : s_set s x k v = Ok (s', a) -> others (x :: moved v) s s'.
Proof.
  intros H. unfold s_set, set_in in H. bind_inv H. destruct r as [s1 h]. apply unshare_others in E.
  apply (others_more _ (x :: moved v)) in E; [|less]. eapply others_trans; [exact E|]. clear E.
  assert (FW : forall s2 s3 hv, take_forward s1 v = Ok (s2, hv) -> vars s3 = vars s2 -> others (x :: moved v) s1 s3).
  { intros s2 s3 hv T V. eapply others_trans; [|apply others_vars; exact V]. apply forward_others in T. eapply others_more; [|exact T]. less. }
  destruct k; try (apply Ok_inj in H; injection H as <- _; apply others_refl).
  - destruct (65535 <? zlen s0); [apply Ok_inj in H; injection H as <- _; apply others_refl|].
    bind_inv H. destruct r as [[c fs]|]; [|apply Ok_inj in H; injection H as <- _; apply others_refl].
    destruct (map_find s0 fs) as [j|]; [|apply Ok_inj in H; injection H as <- _; apply others_refl].
    bind_inv H. destruct r as [s2 hv]. bind_inv H. apply Ok_inj in H. injection H as <- _. apply (FW s2 r hv E0 (field_others _ _ _ _ _ _ E1)).
  - bind_inv H. destruct r as [[c vs]|]; [|apply Ok_inj in H; injection H as <- _; apply others_refl].
    destruct (zlen vs <=? z mod 2 ^ 64); [apply Ok_inj in H; injection H as <- _; apply others_refl|].
    bind_inv H. destruct r as [s2 hv]. bind_inv H. apply Ok_inj in H. injection H as <- _. apply (FW s2 r hv E0 (element_others _ _ _ _ _ _ E1)).
Qed.

Lemma erase_key_others s x k s' a : s_erase_key s x k = Ok (s', a) -> others [x] s s'.
Proof.
  intros H. unfold s_erase_key in H. bind_inv H. destruct r as [s1 h]. apply unshare_others in E. eapply others_trans; [exact E|]. clear E.
  bind_inv H. destruct r as [[c fs]|]; [|apply Ok_inj in H; injection H as <- _; apply others_refl].
  destruct (map_find k fs) as [j|]; [|apply Ok_inj in H; injection H as <- _; apply others_refl].
  destruct (nth_error fs j) as [[k' old]|]; [|discriminate]. bind_inv H. bind_inv H. apply Ok_inj in H. injection H as <- _.
  apply others_vars. rewrite (drop_vars _ _ _ E1). exact (put_vars _ _ _ _ E0).
Qed.
Lemma erase_idx_others s x i s' a : s_erase_idx s x i = Ok (s', a) -> others [x] s s'.
Proof.
  intros H. unfold s_erase_idx in H. bind_inv H. destruct r as [s1 h]. apply unshare_others in E. eapply others_trans; [exact E|]. clear E.
  bind_inv H. destruct r as [[c fs]|]; [|apply Ok_inj in H; injection H as <- _; apply others_refl].
  destruct (zlen fs <=? i); [apply Ok_inj in H; injection H as <- _; apply others_refl|].
  destruct (nth_error fs (Z.to_nat i)) as [old|]; [|discriminate]. bind_inv H. bind_inv H. apply Ok_inj in H. injection H as <- _.
  apply others_vars. rewrite (drop_vars _ _ _ E1). exact (put_vars _ _ _ _ E0).
Qed.

Lemma exec_others s e o s' a : Inv s e [] -> call_ok (length e) o -> allowed s e o -> s_exec s o = Ok (s', a) -> others (changes o) s s'.
Proof.
  intros I CO [St AL] H. destruct o as [x f|x y|x y|x|x y r|x k v|x k v|x k|x v|x v|x|x|x|x n v]; cbn [s_exec changes call_ok] in *.
  - unfold s_make in H. destruct f as [| |w].
    + cbn [alloc] in H. bind_inv H. apply Ok_inj in H. injection H as <- _. apply overwrite_others in E. exact E.
    + cbn [alloc] in H. bind_inv H. apply Ok_inj in H. injection H as <- _. apply overwrite_others in E. exact E.
    + destruct (lit_h w); [|discriminate]. bind_inv H. apply Ok_inj in H. injection H as <- _. apply overwrite_others in E. exact E.
  - unfold s_copy in H. bind_inv H. destruct r as [s1 h]. bind_inv H. apply Ok_inj in H. injection H as <- _.
    eapply others_trans; [apply others_vars; exact (copy_vars _ _ _ _ E)|]. exact (overwrite_others _ _ _ _ E0).
  - unfold s_move in H. destruct (Nat.eqb x y); [apply Ok_inj in H; injection H as <- _; apply others_refl|].
    bind_inv H. destruct r as [s1 h]. bind_inv H. apply Ok_inj in H. injection H as <- _.
    apply move_others in E; [|exact Logic.I]. eapply others_trans; [eapply others_more; [|exact E]; cbn [moved]; less|].
    eapply others_more; [|exact (overwrite_others _ _ _ _ E0)]. less.
  - unfold s_destroy in H. bind_inv H. apply Ok_inj in H. injection H as <- _. exact (overwrite_others _ _ _ _ E).
  - unfold s_read in H. bind_inv H. bind_inv H. destruct r1 as [er|hm]; [apply Ok_inj in H; injection H as <- _; apply others_refl|].
    bind_inv H. bind_inv H. apply Ok_inj in H. injection H as <- _.
    intros z N. rewrite (overwrite_others _ _ _ _ E2 z N). reflexivity.
  - apply (insert_others s e x k v s' a); tauto.
  - exact (set_others _ _ _ _ _ _ H).
  - unfold s_erase in H. destruct k; try (apply Ok_inj in H; injection H as <- _; apply others_refl).
    + exact (erase_key_others _ _ _ _ _ H).
    + exact (erase_idx_others _ _ _ _ _ H).
  - apply (insert_others s e x (VInt 0) v s' a); try tauto. destruct v; auto. destruct (val e x); auto.
  - unfold s_push_back in H. bind_inv H. destruct r; [|apply Ok_inj in H; injection H as <- _; apply others_refl].
    apply (insert_others s e x (VInt z) v s' a); try tauto. destruct v; auto. destruct (val e x); auto.
  - exact (erase_idx_others _ _ _ _ _ H).
  - unfold s_pop_back in H. bind_inv H. destruct r; [|apply Ok_inj in H; injection H as <- _; apply others_refl].
    exact (erase_idx_others _ _ _ _ _ H).
  - unfold s_clear in H. bind_inv H. destruct r; try (apply Ok_inj in H; injection H as <- _; apply others_refl).
    + bind_inv H. destruct r as [[c fs]|]; [|discriminate]. bind_inv H. bind_inv H. apply Ok_inj in H. injection H as <- _.
      apply others_vars. rewrite (drop_vars _ _ _ E2). exact (put_vars _ _ _ _ E1).
    + bind_inv H. destruct r as [[c fs]|]; [|discriminate]. bind_inv H. bind_inv H. apply Ok_inj in H. injection H as <- _.
      apply others_vars. rewrite (drop_vars _ _ _ E2). exact (put_vars _ _ _ _ E1).
  - unfold s_resize in H. bind_inv H. bind_inv H. destruct r0 as [[c vs]|]; [|apply Ok_inj in H; injection H as <- _; apply others_refl].
    bind_inv H. destruct r0 as [s0 hv]. bind_inv H. bind_inv H. bind_inv H. apply Ok_inj in H. injection H as <- _.
    apply others_vars. rewrite (drop_vars _ _ _ E4), (put_vars _ _ _ _ E3). cbn [vars]. exact (copy_vars _ _ _ _ E1).
Qed.

(** ** Objects stay in key order *)
Definition tidy : value -> Prop := every (fun k => zlen k <= 65535) sorted_node.

Lemma tidy_scalar v : scalar v -> tidy v.
Proof. unfold scalar. destruct v; cbn; intros H; try congruence; constructor; exact I. Qed.
Lemma tidy_obj fs : tidy (VObj fs) <-> StronglySorted key_lt (map fst fs) /\ Forall (fun kv => zlen (fst kv) <= 65535 /\ tidy (snd kv)) fs.
Proof. split; [intros H; inversion H; auto|intros [A B]; constructor; assumption]. Qed.
Lemma tidy_arr vs : tidy (VArr vs) <-> Forall tidy vs.
Proof. split; [intros H; inversion H; auto|intros H; constructor; [exact I|assumption]]. Qed.

Lemma val_tidy e x : Forall tidy e -> tidy (val e x).
Proof.
  intros F. unfold val. revert x. induction F as [|v e H F IH]; intros [|x]; cbn; try (constructor; exact I); auto.
Qed.
Lemma src_tidy e v n : Forall tidy e -> src_in n v -> tidy (src_value e v).
Proof. intros F Si. destruct v; cbn [src_value src_in] in *; try (apply val_tidy; exact F). apply tidy_scalar. exact Si. Qed.
Lemma Forall_set {A} (P : A -> Prop) i x l : Forall P l -> P x -> Forall P (list_set i x l).
Proof. intros F H. revert i. induction F; intros [|i]; cbn; constructor; auto. Qed.
Lemma Forall_insert {A} (P : A -> Prop) i x l : Forall P l -> P x -> Forall P (list_insert i x l).
Proof. intros F H. revert i. induction F; intros [|i]; cbn; repeat constructor; auto. Qed.
Lemma Forall_erase {A} (P : A -> Prop) i l : Forall P l -> Forall P (list_erase i l).
Proof. intros F. revert i. induction F; intros [|i]; cbn; try constructor; auto. Qed.
Lemma Forall_nth' {A} (P : A -> Prop) i x l : Forall P l -> nth_error l i = Some x -> P x.
Proof. intros F N. rewrite Forall_forall in F. apply F. eapply nth_error_In. exact N. Qed.

Lemma tidy_insert v k x w i : tidy v -> tidy x -> h_insert v k x = Ok (w, i) -> tidy w.
Proof.
  intros Tv Tx H. destruct k; try discriminate.
  - cbn [h_insert] in H. destruct (65535 <? zlen s) eqn:Z; [discriminate|]. destruct v as [fs| | | | | |]; try discriminate.
    apply tidy_obj in Tv. destruct Tv as [S F]. destruct (h_insert_spec fs S s x ltac:(lia)) as (fs' & i' & E & S' & _).
    cbn [h_insert] in E. rewrite Z in E. rewrite E in H. apply Ok_inj in H. injection H as <- _.
    apply tidy_obj. split; [exact S'|]. cbn [h_fields] in E. destruct (map_find s fs) as [j|] eqn:MF.
    + apply Ok_inj in E. injection E as <- _. apply Forall_set; [exact F|]. destruct (nth_error fs j) as [[k' y]|] eqn:NJ.
      * split; [|exact Tx]. exact (proj1 (Forall_nth' _ _ _ _ F NJ)).
      * split; [cbn; lia|exact Tx].
    + apply Ok_inj in E. injection E as <- _. apply Forall_insert; [exact F|]. split; [cbn; lia|exact Tx].
  - cbn [h_insert] in H. destruct v as [|vs| | | | |]; try discriminate. cbn [h_elements] in H.
    destruct (zlen vs <? z mod 2 ^ 64); [discriminate|]. apply Ok_inj in H. injection H as <- _.
    apply tidy_arr in Tv. apply tidy_arr. apply Forall_insert; assumption.
Qed.
Lemma tidy_set v k x w i : tidy v -> tidy x -> h_set v k x = Ok (w, i) -> tidy w.
Proof.
  intros Tv Tx H. destruct k; try discriminate.
  - cbn [h_set] in H. destruct (65535 <? zlen s) eqn:Z; [discriminate|]. destruct v as [fs| | | | | |]; try discriminate.
    apply tidy_obj in Tv. destruct Tv as [S F]. pose proof (h_set_spec fs S s x ltac:(lia)) as Q. cbn [h_set] in Q. rewrite Z in Q.
    destruct (lookup s fs); [|rewrite Q in H; discriminate]. destruct Q as (fs' & i' & E & S' & _). rewrite E in H.
    apply Ok_inj in H. injection H as <- _. apply tidy_obj. split; [exact S'|]. cbn [h_fields] in E.
    destruct (map_find s fs) as [j|] eqn:MF; [|discriminate]. apply Ok_inj in E. injection E as <- _.
    apply Forall_set; [exact F|]. destruct (nth_error fs j) as [[k' y]|] eqn:NJ.
    + split; [|exact Tx]. exact (proj1 (Forall_nth' _ _ _ _ F NJ)).
    + split; [cbn; lia|exact Tx].
  - cbn [h_set] in H. destruct v as [|vs| | | | |]; try discriminate. cbn [h_elements] in H.
    destruct (zlen vs <=? z mod 2 ^ 64); [discriminate|]. apply Ok_inj in H. injection H as <- _.
    apply tidy_arr in Tv. apply tidy_arr. apply Forall_set; assumption.
Qed.
Lemma tidy_erase_key v k w i : tidy v -> h_erase_key v k = Ok (w, i) -> tidy w.
Proof.
  intros Tv H. unfold h_erase_key in H. destruct v as [fs| | | | | |]; try discriminate.
  pose proof Tv as Tv'. apply tidy_obj in Tv. destruct Tv as [S F].
  destruct (h_erase_key_spec fs S k) as (fs' & i' & E & S' & _). unfold h_erase_key in E. rewrite E in H. apply Ok_inj in H. injection H as <- _.
  cbn [h_fields] in E. destruct (map_find k fs) as [j|]; apply Ok_inj in E; injection E as <- _; [|exact Tv'].
  apply tidy_obj. split; [exact S'|]. apply Forall_erase. exact F.
Qed.
Lemma tidy_erase_idx v k w i : tidy v -> h_erase_idx v k = Ok (w, i) -> tidy w.
Proof.
  intros Tv H. unfold h_erase_idx in H. destruct v as [|vs| | | | |]; try discriminate. cbn [h_elements] in H.
  destruct (zlen vs <=? k); apply Ok_inj in H; injection H as <- _; [exact Tv|]. apply tidy_arr. apply Forall_erase. apply tidy_arr. exact Tv.
Qed.
Lemma tidy_read v r w : tidy v -> v_read v r = Ok w -> tidy w.
Proof.
  intros Tv H. assert (N : tidy VNull) by (constructor; exact I).
  assert (FK : forall fs k, v = VObj fs -> match map_find k fs with
      | Some i => match nth_error fs i with Some (_, x) => Ok x | None => Oob end | None => Ok VNull end = Ok w -> tidy w).
  { intros fs k -> Q. apply tidy_obj in Tv. destruct Tv as [_ F]. destruct (map_find k fs) as [i|]; [|apply Ok_inj in Q; subst; exact N].
    destruct (nth_error fs i) as [[k' x]|] eqn:E; [|discriminate]. apply Ok_inj in Q. subst x. exact (proj2 (Forall_nth' _ _ _ _ F E)). }
  assert (FN : forall vs i, v = VArr vs -> match nth_error vs i with Some x => Ok x | None => Oob end = Ok w -> tidy w).
  { intros vs i -> Q. apply tidy_arr in Tv. destruct (nth_error vs i) as [x|] eqn:E; [|discriminate]. apply Ok_inj in Q. subst x. exact (Forall_nth' _ _ _ _ Tv E). }
  destruct r; cbn [v_read] in H.
  - unfold h_get in H. destruct v; try discriminate. exact (FK _ _ eq_refl H).
  - unfold h_at in H. destruct v as [fs| | | | | |]; try discriminate. cbn [h_fields] in H. apply (FK fs k eq_refl).
    destruct (map_find k fs); [exact H|discriminate].
  - unfold h_get_idx in H. destruct v as [|vs| | | | |]; try discriminate. cbn [h_elements h_size bind] in H.
    destruct (i <? zlen vs); [exact (FN _ _ eq_refl H)|apply Ok_inj in H; subst; exact N].
  - unfold h_at_idx in H. bind_inv H. destruct (i <? r); [|discriminate]. destruct v as [|vs| | | | |]; try discriminate. exact (FN _ _ eq_refl H).
  - unfold h_front in H. destruct v as [|vs| | | | |]; try discriminate. cbn [h_elements] in H. destruct vs as [|y vs].
    + apply Ok_inj in H. subst. exact N.
    + exact (FN _ 0%nat eq_refl H).
  - unfold h_back in H. destruct v as [|vs| | | | |]; try discriminate. cbn [h_elements] in H. destruct vs as [|y vs].
    + apply Ok_inj in H. subst. exact N.
    + exact (FN _ _ eq_refl H).
Qed.

Lemma emptied_tidy e v : Forall tidy e -> Forall tidy (emptied e v).
Proof. intros F. destruct v; cbn [emptied]; auto. apply Forall_set; [exact F|constructor; exact I]. Qed.
Lemma settle_tidy e x e' r : Forall tidy e -> Forall tidy e' -> (forall w, r = Ok w -> tidy w) -> Forall tidy (fst (settle e x e' r)).
Proof. intros F F' H. destruct r; cbn [settle fst]; auto. apply Forall_set; auto. Qed.
Lemma result_Ok r w : result r = Ok w -> exists i, r = Ok (w, i).
Proof. destruct r as [[v i]| | | |]; try discriminate. cbn. intros H. apply Ok_inj in H. subst. eauto. Qed.
Lemma v_insert_tidy e x k v n : Forall tidy e -> src_in n v -> Forall tidy (fst (v_insert e x k v)).
Proof.
  intros F Si. apply settle_tidy; [exact F|destruct (overwrites _ _); [apply emptied_tidy|]; exact F|].
  intros w H. apply result_Ok in H. destruct H as (i & H). eapply tidy_insert; [| |exact H]; [apply val_tidy; exact F|eapply src_tidy; eassumption].
Qed.

Lemma Forall_firstn' {A} (P : A -> Prop) n l : Forall P l -> Forall P (firstn n l).
Proof. intros F. revert n. induction F; intros [|n]; cbn; constructor; auto. Qed.

Lemma v_exec_tidy e o n : Forall tidy e -> call_ok n o -> Forall tidy (fst (v_exec e o)).
Proof.
  intros F CO. destruct o as [x f|x y|x y|x|x y r|x k v|x k v|x k|x v|x v|x|x|x|x c v]; cbn [v_exec call_ok] in *.
  - destruct f; cbn [fst]; apply Forall_set; try exact F.
    + apply tidy_obj. split; constructor.
    + apply tidy_arr. constructor.
    + apply tidy_scalar. tauto.
  - apply Forall_set; [exact F|apply val_tidy; exact F].
  - destruct (Nat.eqb x y); cbn [fst]; [exact F|]. apply Forall_set; [apply Forall_set; [exact F|constructor; exact I]|apply val_tidy; exact F].
  - apply Forall_set; [exact F|constructor; exact I].
  - apply settle_tidy; try exact F. intros w H. eapply tidy_read; [|exact H]. apply val_tidy. exact F.
  - apply (v_insert_tidy e x k v n); tauto.
  - apply settle_tidy; [exact F|apply emptied_tidy; exact F|]. intros w H. apply result_Ok in H. destruct H as (i & H).
    eapply tidy_set; [| |exact H]; [apply val_tidy; exact F|eapply src_tidy; [exact F|apply CO]].
  - apply settle_tidy; try exact F. intros w H. apply result_Ok in H. destruct H as (i & H). unfold h_erase in H. destruct k; try discriminate.
    + eapply tidy_erase_key; [|exact H]. apply val_tidy. exact F.
    + eapply tidy_erase_idx; [|exact H]. apply val_tidy. exact F.
  - apply (v_insert_tidy e x _ v n); tauto.
  - destruct (h_size (val e x)); try exact F. apply (v_insert_tidy e x _ v n); tauto.
  - apply settle_tidy; try exact F. intros w H. apply result_Ok in H. destruct H as (i & H). eapply tidy_erase_idx; [|exact H]. apply val_tidy. exact F.
  - apply settle_tidy; try exact F. intros w H. unfold h_pop_back in H. bind_inv H. apply result_Ok in H. destruct H as (i & H). eapply tidy_erase_idx; [|exact H]. apply val_tidy. exact F.
  - apply settle_tidy; try exact F. intros w H. unfold h_clear in H. destruct (val e x); try discriminate; apply Ok_inj in H; subst w.
    + apply tidy_obj. split; constructor.
    + apply tidy_arr. constructor.
  - apply settle_tidy; try exact F. intros w H. unfold h_resize in H. pose proof (val_tidy e x F) as T. destruct (val e x); try discriminate.
    cbn [h_elements] in H. apply Ok_inj in H. subst w. apply tidy_arr in T. apply tidy_arr. apply Forall_app. split; [apply Forall_firstn'; exact T|].
    apply Forall_forall. intros y J. apply repeat_spec in J. subst y. eapply src_tidy; [exact F|apply CO].
Qed.

(** ** Positions in a sorted object *)
Lemma index_le k fs : (index_of k fs <= length fs)%nat.
Proof. induction fs as [|[k' v] fs IH]; cbn; [lia|]. destruct (list_eq_dec _ k k'); lia. Qed.
Lemma index_split k f1 x r : (forall kv, In kv f1 -> fst kv <> k) -> index_of k (f1 ++ (k, x) :: r) = length f1.
Proof.
  induction f1 as [|[k' v] f1 IH]; cbn [app index_of length]; intros H.
  - destruct (list_eq_dec _ k k); congruence.
  - destruct (list_eq_dec _ k k') as [->|]; [exfalso; apply (H (k', v)); [left; reflexivity|reflexivity]|].
    rewrite IH; [reflexivity|]. intros kv J. apply H. right. exact J.
Qed.
Lemma index_none k fs : (forall kv, In kv fs -> fst kv <> k) -> index_of k fs = length fs.
Proof.
  induction fs as [|[k' v] fs IH]; cbn [index_of length]; intros H; [reflexivity|].
  destruct (list_eq_dec _ k k') as [->|]; [exfalso; apply (H (k', v)); [left; reflexivity|reflexivity]|].
  rewrite IH; [reflexivity|]. intros kv J. apply H. right. exact J.
Qed.
Lemma find_index k fs : StronglySorted key_lt (map fst fs) ->
  map_find k fs = if (index_of k fs <? length fs)%nat then Some (index_of k fs) else None.
Proof.
  intros S. destruct (map_find_split k fs S) as (f1 & f2 & E & _ & F1 & H).
  assert (NE : forall kv, In kv f1 -> fst kv <> k).
  { intros kv J <-. rewrite Forall_forall in F1. exact (key_lt_irrefl _ (F1 _ J)). }
  destruct (lookup k fs) as [x|].
  - destruct H as (r & -> & -> & _). rewrite E, (index_split k f1 x r NE), app_length. cbn [length].
    destruct (Nat.ltb_spec (length f1) (length f1 + Datatypes.S (length r))); [reflexivity|lia].
  - destruct H as [-> F2]. rewrite index_none.
    + rewrite Nat.ltb_irrefl. reflexivity.
    + rewrite E. intros kv J. apply in_app_or in J. destruct J as [J|J]; [auto|]. intros <-. rewrite Forall_forall in F2. exact (key_lt_irrefl _ (F2 _ J)).
Qed.
Lemma find_own (fs : list (str * value)) p k v : StronglySorted key_lt (map fst fs) -> nth_error fs p = Some (k, v) -> map_find k fs = Some p /\ index_of k fs = p.
Proof.
  intros S N. apply nth_error_split in N. destruct N as (f1 & f2 & -> & <-).
  assert (NE : forall kv, In kv f1 -> fst kv <> k).
  { intros kv J E. rewrite map_app in S. apply sorted_nodup in S. cbn [map fst] in S. apply NoDup_remove_2 in S. apply S.
    apply in_or_app. left. rewrite <- E. apply in_map. exact J. }
  pose proof (index_split k f1 v f2 NE) as Q. rewrite (find_index k _ S), Q, app_length. cbn [length].
  destruct (Nat.ltb_spec (length f1) (length f1 + Datatypes.S (length f2))); [auto|lia].
Qed.
Lemma find_at {A} k (fs : list (str * A)) j : StronglySorted key_lt (map fst fs) -> map_find k fs = Some j -> exists v, nth_error fs j = Some (k, v).
Proof.
  intros S M. destruct (map_find_split k fs S) as (f1 & f2 & E & _ & _ & H). destruct (lookup k fs) as [x|].
  - destruct H as (r & -> & M' & _). rewrite M in M'. injection M' as ->. exists x. rewrite E. apply nth_mid.
  - destruct H as [M' _]. congruence.
Qed.

Lemma set_replaced {A} p (y : A) l : (p < length l)%nat -> list_set p y l = replaced p y l.
Proof. unfold replaced. revert p. induction l as [|a l IH]; intros [|p] H; cbn in *; try lia; [reflexivity|]. rewrite IH by lia. reflexivity. Qed.
Lemma insert_added {A} p (y : A) l : (p <= length l)%nat -> list_insert p y l = added p y l.
Proof.
  unfold added. revert p. induction l as [|a l IH]; intros [|p] H; cbn in *; try lia; try reflexivity. rewrite IH by lia. reflexivity.
Qed.
Lemma erase_removed {A} p (l : list A) : list_erase p l = removed p l.
Proof. unfold removed. revert p. induction l as [|a l IH]; intros [|p]; cbn; try reflexivity. rewrite IH. reflexivity. Qed.
