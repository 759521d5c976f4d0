(** Wrappers that were constructed and not emptied hold their type. *)

From Coq Require Import ZArith List Bool Lia.
From Verif Require Import Base BaseFacts Keys Dec Wire Read Spec Buf BufFacts HeapOps SpecOps HeapRun SpecPacket Packet PacketRun
  Ordered SpecConv Conv Float SpecArith Arith SpecWrap Wrap WrapFacts.
Import ListNotations.
Open Scope Z_scope.

(** ** Lists side by side *)
Section Sides.
  Context {A B : Type} (R : A -> B -> Prop).
  Lemma side_nth_r l m : Forall2 R l m -> forall i b, nth_error m i = Some b -> exists a, nth_error l i = Some a /\ R a b.
  Proof.
    induction 1 as [|a b l m H F IH]; intros [|i] b' E; try discriminate; cbn [nth_error] in *.
    - injection E as <-. eauto.
    - eauto.
  Qed.
  Lemma side_nth_l l m : Forall2 R l m -> forall i a, nth_error l i = Some a -> exists b, nth_error m i = Some b /\ R a b.
  Proof.
    induction 1 as [|a b l m H F IH]; intros [|i] b' E; try discriminate; cbn [nth_error] in *.
    - injection E as <-. eauto.
    - eauto.
  Qed.
  Lemma side_none l m : Forall2 R l m -> forall i, nth_error m i = None -> nth_error l i = None.
  Proof. induction 1 as [|a b l m H F IH]; intros [|i] E; try discriminate; cbn [nth_error] in *; auto. Qed.
  Lemma side_none_r l m : Forall2 R l m -> forall i, nth_error l i = None -> nth_error m i = None.
  Proof. induction 1 as [|a b l m H F IH]; intros [|i] E; try discriminate; cbn [nth_error] in *; auto. Qed.
  Lemma side_put l m a b : Forall2 R l m -> R a b -> forall i, Forall2 R (put i a l) (put i b m).
  Proof. intros F H. induction F as [|x y l m]; intros [|i]; cbn [put]; constructor; auto. Qed.
  Lemma side_put_r l m b : Forall2 R l m -> forall i, (forall a, nth_error l i = Some a -> R a b) -> Forall2 R l (put i b m).
  Proof. intros F. induction F as [|x y l m Rxy F IH]; intros [|i] H; cbn [put]; constructor; auto. Qed.
  Lemma side_app l m a b : Forall2 R l m -> R a b -> Forall2 R (l ++ [a]) (m ++ [b]).
  Proof. intros F H. apply Forall2_app; auto. Qed.
End Sides.

Lemma put_nth {A} (l : list A) x y i j : nth_error l i = Some y ->
  nth_error (put i x l) j = if Nat.eqb i j then Some x else nth_error l j.
Proof.
  revert i j. induction l as [|z l IH]; intros [|i] [|j]; cbn; try discriminate; intros E; auto.
Qed.

(** ** The invariant *)
Definition fine (a : kind * bool) (w : kind * packet) : Prop :=
  fst a = fst w /\ (snd a = true -> of_kind (fst w) (p_type (snd w))) /\
  (fst w = KNull -> p_type (snd w) = T_null).
Definition typed (l : lives) (ws : list (kind * packet)) : Prop := Forall2 fine l ws.

Lemma fine_of k p : of_kind k (p_type p) -> fine (k, true) (k, p).
Proof. intros H. split; [reflexivity|]. split; [auto|]. cbn. intros ->. exact H. Qed.
Lemma fine_null b p : p_type p = T_null -> fine (KNull, b) (KNull, p).
Proof. intros H. split; [reflexivity|]. split; intros; exact H. Qed.
Lemma moved_type p : p_type (p_moved p) = T_null.
Proof. destruct p; reflexivity. Qed.
Lemma fine_dead k p : (k = KNull -> p_type p = T_null) -> fine (k, false) (k, p).
Proof. intros H. split; [reflexivity|]. split; [discriminate|exact H]. Qed.

Lemma typed_mark l ws i b k q : typed l ws -> (forall c, nth_error l i = Some (k, c) -> fine (k, b) (k, q)) ->
  (forall k' p, nth_error ws i = Some (k', p) -> k' = k) -> typed (mark i b l) (put i (k, q) ws).
Proof.
  intros T H K. unfold mark. destruct (nth_error l i) as [[k' c]|] eqn:E.
  - destruct (side_nth_l _ _ _ T i _ E) as ([k2 p] & N & F). assert (k2 = k) as -> by eauto.
    assert (k' = k) as -> by apply F. apply side_put; eauto.
  - apply side_put_r; [exact T|]. congruence.
Qed.
Lemma typed_emptied l ws i k p : typed l ws -> nth_error ws i = Some (k, p) ->
  typed (emptied i l) (put i (k, p_moved p) ws).
Proof.
  intros T N. destruct (side_nth_r _ _ _ T i _ N) as ([k' c] & E & F). assert (k' = k) as -> by apply F.
  unfold emptied. rewrite E. pose proof (moved_type p) as M.
  assert (D : typed (mark i false l) (put i (k, p_moved p) ws)).
  { apply typed_mark; [exact T| |congruence]. intros _ _. apply fine_dead. auto. }
  destruct k; try exact D. apply side_put_r; [exact T|]. intros a Ea. rewrite E in Ea. injection Ea as <-.
  apply fine_null. exact M.
Qed.
Lemma typed_again l ws i k p : typed l ws -> nth_error ws i = Some (k, p) -> typed (again i l) (ws ++ [(k, p)]).
Proof.
  intros T N. destruct (side_nth_r _ _ _ T i _ N) as (a & E & F). unfold again. rewrite E. apply side_app; auto.
Qed.
Lemma again_app_emptied l ws i k p : typed l ws -> nth_error ws i = Some (k, p) ->
  typed (emptied i (again i l)) (put i (k, p_moved p) ws ++ [(k, p)]).
Proof.
  intros T N. pose proof (typed_again _ _ _ _ _ T N) as G.
  assert (L : (i < length ws)%nat) by (apply nth_error_Some; congruence).
  assert (N' : nth_error (ws ++ [(k, p)]) i = Some (k, p)) by (rewrite nth_error_app1; auto).
  pose proof (typed_emptied _ _ _ _ _ G N') as H.
  replace (put i (k, p_moved p) ws ++ [(k, p)]) with (put i (k, p_moved p) (ws ++ [(k, p)])); [exact H|].
  clear - L. revert i L. induction ws as [|w ws IH]; intros [|i] L; cbn in *; try lia; [reflexivity|].
  f_equal. apply IH. lia.
Qed.

Lemma get_null p key : p_type p = T_null -> p_get p key = Throw type_error.
Proof.
  destruct p as [v|bs m e]; cbn [p_type p_get visit].
  - destruct v; try discriminate. reflexivity.
  - intros E. unfold b_get, b_object. rewrite E. reflexivity.
Qed.
Lemma get_idx_null p n : p_type p = T_null -> p_get_idx p n = Throw type_error.
Proof.
  destruct p as [v|bs m e]; cbn [p_type p_get_idx visit].
  - destruct v; try discriminate. reflexivity.
  - intros E. unfold b_get_idx, b_array. rewrite E. reflexivity.
Qed.

Lemma wrap_ok k mv p q : fst (w_wrap k mv p) = Ok q -> fine (k, true) (k, q).
Proof.
  pose proof (is_a_spec k p) as A. unfold w_wrap.
  destruct k; destruct (is_a _ p) eqn:E; cbn [fst]; try discriminate; intros H; apply Ok_inj in H; subst;
    try (apply fine_of; apply A; reflexivity).
  apply fine_of. reflexivity.
Qed.

Lemma has_member_stays k c : has_member k c = true -> stays c = true.
Proof. destruct k, c; try discriminate; reflexivity. Qed.

Theorem types_step s c l : typed l (fst s) -> typed (track l c (snd (w_call s c))) (fst (fst (w_call s c))).
Proof.
  destruct s as [ws vs]. cbn [fst]. intros T.
  destruct c; cbn [w_call];
    try (destruct (nth_error vs i) as [p|] eqn:Ni; [|exact T]);
    try (destruct (nth_error ws i) as [[k p]|] eqn:Ni; [|exact T]).
  - exact T.
  - destruct (p_call p c) as [q b]. exact T.
  - apply side_app; [exact T|]. now apply fine_of.
  - apply side_app; [exact T|]. now apply fine_of.
  - apply side_app; [exact T|]. now apply fine_of.
  - apply side_app; [exact T|]. apply fine_of. destruct n; cbn; auto.
  - apply side_app; [exact T|]. now apply fine_of.
  - apply side_app; [exact T|]. now apply fine_of.
  - pose proof (wrap_ok k false p) as W. destruct (w_wrap k false p) as [r x]. cbn [fst] in W. unfold loud.
    destruct r as [q| | | |]; try exact T. apply side_app; auto.
  - pose proof (wrap_ok k true p) as W. destruct (w_wrap k true p) as [r x]. cbn [fst] in W. unfold loud.
    destruct r as [q| | | |]; try exact T. apply side_app; auto.
  - now apply typed_again.
  - now apply again_app_emptied.
  - destruct (side_nth_r _ _ _ T i _ Ni) as ([k' c] & E & F). assert (k' = k) as -> by apply F.
    assert (D : forall r, (forall q, r = Ok q -> fine (k, true) (k, q)) ->
      let x := quiet (ws, vs) r (fun q => (ws ++ [(k, q)], vs, W_made)) in
      typed (track l (View i) (snd x)) (fst (fst x))).
    { intros r H. unfold quiet. destruct r as [q| | | |]; try exact T. cbn [snd fst track]. rewrite E. apply side_app; auto. }
    destruct k; try (specialize (D (fst (w_wrap _ false p)) (wrap_ok _ false p)); destruct (w_wrap _ false p); exact D).
    cbn [snd fst track]. rewrite E. apply side_app; [exact T|]. now apply fine_of.
  - assert (D : forall r, (forall q, r = Ok q -> p_type q = p_type p) ->
      let x := loud (ws, vs) r (fun q => (ws ++ [(k, q)], vs, W_made)) in
      typed (track l (Rebase i addr) (snd x)) (fst (fst x))).
    { intros r H. unfold loud. destruct r as [q| | | |]; try exact T. cbn [snd fst track]. unfold again.
      destruct (side_nth_r _ _ _ T i _ Ni) as ([k' c] & E & F). rewrite E. apply side_app; [exact T|].
      destruct F as (F1 & F2 & F3). split; [exact F1|]. cbn [fst snd] in *. rewrite (H _ eq_refl). auto. }
    assert (D' : let x := loud (ws, vs) (match addr with Some n => p_finalize n p | None => p_definalize p end)
                   (fun q => (ws ++ [(k, q)], vs, W_made)) in
      typed (track l (Rebase i addr) (snd x)) (fst (fst x))).
    { apply D. destruct addr as [n|]; intros q; [apply p_finalize_type|apply p_definalize_type]. }
    destruct k; try exact D'. cbn [snd fst track]. unfold again.
    destruct (side_nth_r _ _ _ T i _ Ni) as ([k' c] & E & F). rewrite E. assert (k' = KNull) as -> by apply F.
    apply side_app; [exact T|]. now apply fine_null.
  - destruct (nth_error ws j) as [[k' q]|] eqn:Nj; [|exact T]. destruct (kind_eqb k k') eqn:K; [|exact T].
    apply kind_eqb_eq in K. subst k'. cbn [snd fst track].
    destruct (side_nth_r _ _ _ T j _ Nj) as ([k' c] & E & F). assert (k' = k) as -> by apply F.
    apply typed_mark; [exact T| |congruence]. intros _ _. unfold alive. rewrite E. exact F.
  - destruct (nth_error ws j) as [[k' q]|] eqn:Nj; [|exact T]. destruct (kind_eqb k k') eqn:K; [|exact T].
    apply kind_eqb_eq in K. subst k'. destruct (Nat.eqb i j) eqn:IJ.
    + cbn [snd fst track]. rewrite IJ. exact T.
    + cbn [snd fst track]. rewrite IJ. destruct (side_nth_r _ _ _ T j _ Nj) as ([k' c] & E & F). assert (k' = k) as -> by apply F.
      apply typed_emptied.
      * apply typed_mark; [exact T| |congruence]. intros _ _. unfold alive. rewrite E. exact F.
      * rewrite (put_nth _ _ _ _ _ Ni), IJ. exact Nj.
  - destruct (accepts k t) eqn:A; [|exact T].
    assert (D : k <> KNull -> let y := loud (ws, vs) (to_dart t x) (fun v => (put i (k, PHeap v) ws, vs, W_done)) in
      typed (track l (Assign_native i t x) (snd y)) (fst (fst y))).
    { intros NK. unfold loud. destruct (to_dart t x) as [v| | | |] eqn:E; try exact T. cbn [snd fst track].
      destruct (side_nth_r _ _ _ T i _ Ni) as ([k' c] & El & F). rewrite El. assert (k' = k) as -> by apply F.
      assert (typed (mark i true l) (put i (k, PHeap v) ws)).
      { apply typed_mark; [exact T| |congruence]. intros _ _. apply fine_of. apply (to_dart_kind k t x v A E). }
      destruct k; congruence || assumption. }
    destruct k; try (apply D; discriminate). cbn [snd fst track].
    destruct (side_nth_r _ _ _ T i _ Ni) as ([k' c] & El & F). rewrite El. assert (k' = KNull) as -> by apply F. exact T.
  - destruct (has_member k c) eqn:M; [|exact T]. pose proof (p_call_type p c (has_member_stays _ _ M)) as P.
    destruct (p_call p c) as [q b]. cbn [fst snd] in *.
    assert (typed l (put i (k, q) ws)).
    { apply side_put_r; [exact T|]. intros a Ea. destruct (side_nth_l _ _ _ T i _ Ea) as (w & Ew & F).
      rewrite Ni in Ew. injection Ew as <-. destruct F as (F1 & F2 & F3). cbn [fst snd] in *. split; [exact F1|].
      cbn [fst snd]. rewrite P. auto. }
    destruct (_ && _); assumption.
  - unfold quiet. destruct (w_ask k q p); exact T.
  - destruct (kind_eqb k KNumber); [|exact T]. unfold quiet. destruct (p_numeric p); exact T.
  - destruct (kind_eqb k KString) eqn:K; [|exact T]. apply kind_eqb_eq in K. subst k. unfold quiet, w_append.
    destruct (p_scalar T_string p) as [v| | | |]; try exact T. cbn [bind]. destruct v; try exact T. cbn [snd fst track].
    apply typed_mark; [exact T| |congruence]. intros _ _. now apply fine_of.
  - destruct (kind_eqb k KNumber) eqn:K; [|exact T]. apply kind_eqb_eq in K. subst k. unfold quiet, n_update.
    destruct (n_op o p (operand_of n)) as [d| | | |]; try exact T. cbn [bind]. destruct p as [v|bs m e]; [|exact T].
    cbn [get_heap snd fst track].
    apply typed_mark; [exact T| |congruence]. intros _ _. apply fine_of. cbn. auto.
  - exact T.
  - assert (D : typed (emptied i l) (put i (k, p_moved p) ws)) by now apply typed_emptied.
    destruct k; try exact D. cbn [snd fst track]. unfold emptied.
    destruct (side_nth_r _ _ _ T i _ Ni) as ([k' c] & El & F). rewrite El. assert (k' = KNull) as -> by apply F. exact T.
  - destruct (side_nth_r _ _ _ T i _ Ni) as ([k' c] & El & F). assert (k' = k) as -> by apply F. unfold loud.
    destruct (p_get p key) as [q| | | |] eqn:G; try exact T. cbn [snd fst track].
    apply typed_mark; [exact T| |congruence]. intros _ _. apply fine_dead. intros ->.
    destruct F as (_ & _ & F3). cbn [fst snd] in F3. rewrite (get_null p key (F3 eq_refl)) in G. discriminate.
  - destruct (side_nth_r _ _ _ T i _ Ni) as ([k' c] & El & F). assert (k' = k) as -> by apply F. unfold loud.
    destruct (p_get_idx p n) as [q| | | |] eqn:G; try exact T. cbn [snd fst track].
    apply typed_mark; [exact T| |congruence]. intros _ _. apply fine_dead. intros ->.
    destruct F as (_ & _ & F3). cbn [fst snd] in F3. rewrite (get_idx_null p n (F3 eq_refl)) in G. discriminate.
Qed.

Theorem types_run cs : forall s l, typed l (fst s) -> typed (track_all l cs (snd (w_run s cs))) (fst (fst (w_run s cs))).
Proof.
  induction cs as [|c cs IH]; intros s l T; cbn [w_run]; [exact T|].
  pose proof (types_step s c l T) as S. destruct (w_call s c) as [s1 a]. cbn [fst snd] in S.
  specialize (IH s1 _ S). destruct (w_run s1 cs) as [s2 xs]. exact IH.
Qed.
