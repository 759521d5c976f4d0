(** Facts behind C52: a call changes the contents of no cell but one that only a
    variable it may change refers to; all else reachable from the others stays. *)

From Coq Require Import ZArith List Bool Lia ZifyBool ZifyNat ZifyN.
From Verif Require Import Base BaseFacts Keys Wire Spec SpecOps HeapOps HeapFacts
  Store StoreSpec StoreFacts StoreSteps StoreRun Cursor SpecCursor CursorFacts CursorRun.
Import ListNotations.
Open Scope Z_scope.

(** ** Cells keep their contents, but for new ones and those in [A] *)
Definition since (cs0 : cells) (A : nat -> Prop) (cs : cells) : Prop :=
  (length cs0 <= length cs)%nat /\
  forall b n c, cell_at cs b = Some (n, c) -> (exists m, cell_at cs0 b = Some (m, c)) \/ (length cs0 <= b)%nat \/ A b.

Section Since.
Context (cs0 : cells) (A : nat -> Prop).
Notation "'since0' cs" := (since cs0 A cs) (at level 10, cs at level 9).

Lemma since_refl : since0 cs0.
Proof. split; [lia|]. intros b n c E. left. eauto. Qed.
Lemma since_recount cs a n c n' : since0 cs -> cell_at cs a = Some (n, c) -> since0 (list_set a (Some (n', c)) cs).
Proof.
  intros [L S] E. split; [rewrite list_set_length; exact L|]. intros b m d H. destruct (Nat.eq_dec b a) as [->|N].
  - rewrite (cell_set_same _ _ _ _ E) in H. injection H as <- <-. eauto.
  - rewrite (cell_set_other _ _ _ _ _ E N) in H. eauto.
Qed.
Lemma since_free cs a p : since0 cs -> cell_at cs a = Some p -> since0 (list_set a None cs).
Proof.
  intros [L S] E. split; [rewrite list_set_length; exact L|]. intros b m d H. destruct (Nat.eq_dec b a) as [->|N].
  - rewrite (cell_set_same _ _ _ _ E) in H. discriminate.
  - rewrite (cell_set_other _ _ _ _ _ E N) in H. eauto.
Qed.
Lemma since_put cs a c cs' : since0 cs -> (length cs0 <= a)%nat \/ A a -> put cs a c = Ok cs' -> since0 cs'.
Proof.
  unfold put. intros [L S] B H. destruct (cell_at cs a) as [[n d]|] eqn:E; [|discriminate]. apply Ok_inj in H. subst cs'.
  split; [rewrite list_set_length; exact L|]. intros b m f H. destruct (Nat.eq_dec b a) as [->|N]; [auto|].
  rewrite (cell_set_other _ _ _ _ _ E N) in H. eauto.
Qed.
Lemma since_inc cs h cs' : since0 cs -> inc cs h = Ok cs' -> since0 cs'.
Proof.
  unfold inc. intros S H. destruct (href h) as [a|]; [|apply Ok_inj in H; subst; exact S].
  destruct (cell_at cs a) as [[n c]|] eqn:E; [|discriminate]. apply Ok_inj in H. subst cs'. eapply since_recount; eassumption.
Qed.
Lemma since_inc_all hs : forall cs cs', since0 cs -> inc_all cs hs = Ok cs' -> since0 cs'.
Proof.
  induction hs as [|h hs IH]; cbn [inc_all]; intros cs cs' S H; [apply Ok_inj in H; subst; exact S|].
  bind_inv H. exact (IH _ _ (since_inc _ _ _ S E) H).
Qed.
Lemma since_drop_n fuel : forall cs hs cs', since0 cs -> drop_n fuel cs hs = Ok cs' -> since0 cs'.
Proof.
  induction fuel as [|fuel IH]; intros cs hs cs' S H; destruct hs as [|h hs]; cbn [drop_n] in H; try discriminate; try (apply Ok_inj in H; subst; exact S).
  destruct (href h) as [a|]; [|exact (IH _ _ _ S H)]. destruct (cell_at cs a) as [[n c]|] eqn:E; [|discriminate].
  destruct (n =? 1).
  - exact (IH _ _ _ (since_free _ _ _ S E) H).
  - exact (IH _ _ _ (since_recount _ _ _ _ _ S E) H).
Qed.
Lemma since_drop cs hs cs' : since0 cs -> drop cs hs = Ok cs' -> since0 cs'.
Proof. apply since_drop_n. Qed.
Lemma since_alloc cs c : since0 cs -> since0 (cs ++ [Some (1, c)]).
Proof.
  intros [L S]. split; [rewrite app_length; lia|]. intros b m d H.
  destruct (lt_dec b (length cs)) as [B|B]; [|right; left; lia].
  apply S with (n := m). unfold cell_at in *. rewrite nth_error_app1 in H by exact B. exact H.
Qed.

Lemma since_take_copy s v s' h : since0 (heap s) -> take_copy s v = Ok (s', h) -> since0 (heap s').
Proof.
  destruct v as [l|y|y|y]; cbn [take_copy]; intros S H.
  - destruct (lit_h l); [|discriminate]. apply Ok_inj in H. injection H as <- _. exact S.
  - bind_inv H. bind_inv H. apply Ok_inj in H. injection H as <- _. exact (since_inc _ _ _ S E0).
  - bind_inv H. bind_inv H. apply Ok_inj in H. injection H as <- _. exact (since_inc _ _ _ S E0).
  - bind_inv H. bind_inv H. apply Ok_inj in H. injection H as <- _. exact (since_inc _ _ _ S E0).
Qed.
Lemma since_take_move s v s' h : since0 (heap s) -> take_move s v = Ok (s', h) -> since0 (heap s').
Proof.
  destruct v as [l|y|y|y]; cbn [take_move]; intros S H; try exact (since_take_copy _ _ _ _ S H).
  - bind_inv H. apply Ok_inj in H. injection H as <- _. exact S.
  - bind_inv H. apply Ok_inj in H. injection H as <- _. exact S.
Qed.
Lemma since_take_forward s v s' h : since0 (heap s) -> take_forward s v = Ok (s', h) -> since0 (heap s').
Proof. destruct v; cbn [take_forward]; intros S H; first [exact (since_take_copy _ _ _ _ S H)|exact (since_take_move _ _ _ _ S H)]. Qed.
Lemma since_put_s s a c s' : since0 (heap s) -> (length cs0 <= a)%nat \/ A a -> put_s s a c = Ok s' -> since0 (heap s').
Proof. unfold put_s. intros S B H. bind_inv H. apply Ok_inj in H. subst s'. exact (since_put _ _ _ _ S B E). Qed.
Lemma since_drop_s s hs s' : since0 (heap s) -> drop_s s hs = Ok s' -> since0 (heap s').
Proof. unfold drop_s. intros S H. bind_inv H. apply Ok_inj in H. subst s'. exact (since_drop _ _ _ S E). Qed.
Lemma since_field s a fs j h s' : since0 (heap s) -> (length cs0 <= a)%nat \/ A a -> assign_field s a fs j h = Ok s' -> since0 (heap s').
Proof.
  unfold assign_field. intros S B H. destruct (nth_error fs j) as [[k old]|]; [|discriminate]. bind_inv H.
  exact (since_drop_s _ _ _ (since_put_s _ _ _ _ S B E) H).
Qed.
Lemma since_element s a vs j h s' : since0 (heap s) -> (length cs0 <= a)%nat \/ A a -> assign_element s a vs j h = Ok s' -> since0 (heap s').
Proof.
  unfold assign_element. intros S B H. destruct (nth_error vs j) as [old|]; [|discriminate]. bind_inv H.
  exact (since_drop_s _ _ _ (since_put_s _ _ _ _ S B E) H).
Qed.
Lemma since_overwrite s x h s' : since0 (heap s) -> overwrite s x h = Ok s' -> since0 (heap s').
Proof. unfold overwrite. intros S H. bind_inv H. exact (since_drop_s (set_var s x h) _ _ S H). Qed.
End Since.

Lemma fields_ref s h a fs : fields_of s h = Ok (Some (a, fs)) -> href h = Some a.
Proof.
  unfold fields_of. destruct h; try discriminate. destruct (cell_at (heap s) a0) as [[n [f|m]]|]; try discriminate.
  intros H. apply Ok_inj in H. injection H as <- _. reflexivity.
Qed.
Lemma elements_ref s h a vs : elements_of s h = Ok (Some (a, vs)) -> href h = Some a.
Proof.
  unfold elements_of. destruct h; try discriminate. destruct (cell_at (heap s) a0) as [[n [f|m]]|]; try discriminate.
  intros H. apply Ok_inj in H. injection H as <- _. reflexivity.
Qed.

(** Cells only a variable of [xs] refers to. *)
Definition sole (s : state) (xs : list nat) (a : nat) : Prop :=
  exists x h, In x xs /\ nth_error (vars s) x = Some h /\ href h = Some a /\ refcount (heap s) h <= 1.
Definition framed (s : state) (xs : list nat) (s' : state) : Prop := since (heap s) (sole s xs) (heap s').

Lemma since_more cs0 (A B : nat -> Prop) cs : (forall a, A a -> B a) -> since cs0 A cs -> since cs0 B cs.
Proof. intros H [L S]. split; [exact L|]. intros b n c E. destruct (S b n c E) as [?|[?|?]]; auto. Qed.
Lemma framed_more s xs ys s' : (forall y, In y xs -> In y ys) -> framed s xs s' -> framed s ys s'.
Proof. intros H. apply since_more. intros a (x & h & I & R). exists x, h. auto. Qed.

Lemma unshare_framed s x s1 h xs : In x xs -> unshare s x = Ok (s1, h) ->
  framed s xs s1 /\ forall a, href h = Some a -> (length (heap s) <= a)%nat \/ sole s xs a.
Proof.
  intros IX. unfold unshare, get_var. intros H. bind_inv H. destruct (nth_error (vars s) x) as [g|] eqn:N; [|discriminate].
  apply Ok_inj in E. subst g. bind_inv H. destruct r0 as [cs h']. apply Ok_inj in H. injection H as <- <-.
  unfold framed. cbn [heap].
  assert (COPY : forall c a' mk, (forall a, href (mk a) = Some a) ->
     (cs1 <- inc_all (heap s) (kids c) ;; let '(cs2, a'') := alloc cs1 c in cs3 <- drop cs2 [r] ;; Ok (cs3, mk a'')) = Ok (cs, h') ->
     href h' = Some a' -> since (heap s) (sole s xs) cs /\ (length (heap s) <= a')%nat).
  { intros c a' mk HM H R. bind_inv H. cbn [alloc] in H. bind_inv H. apply Ok_inj in H. injection H as <- <-.
    pose proof (since_inc_all _ (sole s xs) _ _ _ (since_refl _ _) E0) as S1. split.
    - exact (since_drop _ _ _ _ _ (since_alloc _ _ _ _ S1) E1).
    - rewrite HM in R. injection R as <-. exact (proj1 S1). }
  rename E into E0. unfold copy_on_write, copy_on_write_over in E0. destruct (1 <? refcount (heap s) r) eqn:RC.
  - destruct r as [| | | | |a|a]; try (apply Ok_inj in E0; injection E0 as <- <-; split; [apply since_refl|discriminate]).
    + destruct (cell_at (heap s) a) as [[n c]|]; [|discriminate].
      assert (exists a', href h' = Some a') as (a' & R). { bind_inv E0. cbn [alloc] in E0. bind_inv E0. apply Ok_inj in E0. injection E0 as _ <-. cbn. eauto. }
      destruct (COPY c a' HObj (fun _ => eq_refl) E0 R) as [S1 S2]. split; [exact S1|]. intros b Rb. left. congruence.
    + destruct (cell_at (heap s) a) as [[n c]|]; [|discriminate].
      assert (exists a', href h' = Some a') as (a' & R). { bind_inv E0. cbn [alloc] in E0. bind_inv E0. apply Ok_inj in E0. injection E0 as _ <-. cbn. eauto. }
      destruct (COPY c a' HArr (fun _ => eq_refl) E0 R) as [S1 S2]. split; [exact S1|]. intros b Rb. left. congruence.
  - apply Ok_inj in E0. injection E0 as <- <-. split; [apply since_refl|]. intros a R. right. exists x, r. split; [exact IX|].
    split; [exact N|]. split; [exact R|lia].
Qed.

Lemma insert_framed s x k v s' a xs : In x xs -> s_insert s x k v = Ok (s', a) -> framed s xs s'.
Proof.
  intros IX H. unfold s_insert, insert_in in H. bind_inv H. destruct r as [s1 h]. destruct (unshare_framed _ _ _ _ _ IX E) as [S1 W]. clear E.
  destruct k; try (apply Ok_inj in H; injection H as <- _; exact S1).
  - destruct (65535 <? zlen s0); [apply Ok_inj in H; injection H as <- _; exact S1|].
    bind_inv H. destruct r as [[c fs]|]; [|apply Ok_inj in H; injection H as <- _; exact S1]. apply fields_ref in E. specialize (W _ E).
    destruct (map_find s0 fs) as [j|]; bind_inv H; destruct r as [s2 hv]; bind_inv H; apply Ok_inj in H; injection H as <- _.
    + exact (since_field _ _ _ _ _ _ _ _ (since_take_move _ _ _ _ _ _ S1 E0) W E1).
    + exact (since_put_s _ _ _ _ _ _ (since_take_copy _ _ _ _ _ _ S1 E0) W E1).
  - bind_inv H. destruct r as [[c vs]|]; [|apply Ok_inj in H; injection H as <- _; exact S1]. apply elements_ref in E. specialize (W _ E).
    destruct (zlen vs <? z mod 2 ^ 64); [apply Ok_inj in H; injection H as <- _; exact S1|].
    bind_inv H. destruct r as [s2 hv]. bind_inv H. apply Ok_inj in H. injection H as <- _.
    exact (since_put_s _ _ _ _ _ _ (since_take_forward _ _ _ _ _ _ S1 E0) W E1).
Qed.
Lemma set_framed s x k v s' a xs : In x xs -> s_set s x k v = Ok (s', a) -> framed s xs s'.
Proof.
  intros IX H. unfold s_set, set_in in H. bind_inv H. destruct r as [s1 h]. destruct (unshare_framed _ _ _ _ _ IX E) as [S1 W]. clear E.
  destruct k; try (apply Ok_inj in H; injection H as <- _; exact S1).
  - destruct (65535 <? zlen s0); [apply Ok_inj in H; injection H as <- _; exact S1|].
    bind_inv H. destruct r as [[c fs]|]; [|apply Ok_inj in H; injection H as <- _; exact S1]. apply fields_ref in E. specialize (W _ E).
    destruct (map_find s0 fs) as [j|]; [|apply Ok_inj in H; injection H as <- _; exact S1].
    bind_inv H. destruct r as [s2 hv]. bind_inv H. apply Ok_inj in H. injection H as <- _.
    exact (since_field _ _ _ _ _ _ _ _ (since_take_forward _ _ _ _ _ _ S1 E0) W E1).
  - bind_inv H. destruct r as [[c vs]|]; [|apply Ok_inj in H; injection H as <- _; exact S1]. apply elements_ref in E. specialize (W _ E).
    destruct (zlen vs <=? z mod 2 ^ 64); [apply Ok_inj in H; injection H as <- _; exact S1|].
    bind_inv H. destruct r as [s2 hv]. bind_inv H. apply Ok_inj in H. injection H as <- _.
    exact (since_element _ _ _ _ _ _ _ _ (since_take_forward _ _ _ _ _ _ S1 E0) W E1).
Qed.
Lemma erase_key_framed s x k s' a xs : In x xs -> s_erase_key s x k = Ok (s', a) -> framed s xs s'.
Proof.
  intros IX H. unfold s_erase_key in H. bind_inv H. destruct r as [s1 h]. destruct (unshare_framed _ _ _ _ _ IX E) as [S1 W]. clear E.
  bind_inv H. destruct r as [[c fs]|]; [|apply Ok_inj in H; injection H as <- _; exact S1]. apply fields_ref in E. specialize (W _ E).
  destruct (map_find k fs) as [j|]; [|apply Ok_inj in H; injection H as <- _; exact S1].
  destruct (nth_error fs j) as [[k' old]|]; [|discriminate]. bind_inv H. bind_inv H. apply Ok_inj in H. injection H as <- _.
  exact (since_drop_s _ _ _ _ _ (since_put_s _ _ _ _ _ _ S1 W E0) E1).
Qed.
Lemma erase_idx_framed s x i s' a xs : In x xs -> s_erase_idx s x i = Ok (s', a) -> framed s xs s'.
Proof.
  intros IX H. unfold s_erase_idx in H. bind_inv H. destruct r as [s1 h]. destruct (unshare_framed _ _ _ _ _ IX E) as [S1 W]. clear E.
  bind_inv H. destruct r as [[c fs]|]; [|apply Ok_inj in H; injection H as <- _; exact S1]. apply elements_ref in E. specialize (W _ E).
  destruct (zlen fs <=? i); [apply Ok_inj in H; injection H as <- _; exact S1|].
  destruct (nth_error fs (Z.to_nat i)) as [old|]; [|discriminate]. bind_inv H. bind_inv H. apply Ok_inj in H. injection H as <- _.
  exact (since_drop_s _ _ _ _ _ (since_put_s _ _ _ _ _ _ S1 W E0) E1).
Qed.

Lemma get_var_nth s x h : get_var s x = Ok h -> nth_error (vars s) x = Some h.
Proof. unfold get_var. destruct (nth_error (vars s) x); [|discriminate]. intros H. apply Ok_inj in H. congruence. Qed.
Lemma sole_of s x h a xs : In x xs -> nth_error (vars s) x = Some h -> unshared s x -> href h = Some a -> sole s xs a.
Proof. intros IX N U R. exists x, h. auto. Qed.

Lemma exec_framed s e o s' a : allowed s e o -> s_exec s o = Ok (s', a) -> framed s (changes o) s'.
Proof.
  intros [SO AL] H. pose proof (since_refl (heap s) (sole s (changes o))) as S0.
  assert (IX : forall (x : nat) l, In x (x :: l)) by (intros; left; reflexivity).
  destruct o as [x f|x y|x y|x|x y r|x k v|x k v|x k|x v|x v|x|x|x|x n v]; cbn [s_exec] in *; unfold framed in *; cbn [changes] in *.
  - unfold s_make in H. destruct f as [| |w]; cbn [alloc] in H.
    + bind_inv H. apply Ok_inj in H. injection H as <- _. exact (since_overwrite _ _ (St _ _) _ _ _ (since_alloc _ _ _ _ S0) E).
    + bind_inv H. apply Ok_inj in H. injection H as <- _. exact (since_overwrite _ _ (St _ _) _ _ _ (since_alloc _ _ _ _ S0) E).
    + destruct (lit_h w); [|discriminate]. bind_inv H. apply Ok_inj in H. injection H as <- _. exact (since_overwrite _ _ _ _ _ _ S0 E).
  - unfold s_copy in H. bind_inv H. destruct r as [s1 h]. bind_inv H. apply Ok_inj in H. injection H as <- _.
    exact (since_overwrite _ _ _ _ _ _ (since_take_copy _ _ _ _ _ _ S0 E) E0).
  - unfold s_move in H. destruct (Nat.eqb x y); [apply Ok_inj in H; injection H as <- _; exact S0|].
    bind_inv H. destruct r as [s1 h]. bind_inv H. apply Ok_inj in H. injection H as <- _.
    exact (since_overwrite _ _ _ _ _ _ (since_take_move _ _ _ _ _ _ S0 E) E0).
  - unfold s_destroy in H. bind_inv H. apply Ok_inj in H. injection H as <- _. exact (since_overwrite _ _ _ _ _ _ S0 E).
  - unfold s_read in H. bind_inv H. bind_inv H. destruct r1 as [er|hm]; [apply Ok_inj in H; injection H as <- _; exact S0|].
    bind_inv H. bind_inv H. apply Ok_inj in H. injection H as <- _. exact (since_overwrite _ _ (St _ _) _ _ _ (since_inc _ _ _ _ _ S0 E1) E2).
  - exact (insert_framed _ _ _ _ _ _ _ (IX _ _) H).
  - exact (set_framed _ _ _ _ _ _ _ (IX _ _) H).
  - unfold s_erase in H. destruct k; try (apply Ok_inj in H; injection H as <- _; exact S0).
    + exact (erase_key_framed _ _ _ _ _ _ (IX _ _) H).
    + exact (erase_idx_framed _ _ _ _ _ _ (IX _ _) H).
  - exact (insert_framed _ _ _ _ _ _ _ (IX _ _) H).
  - unfold s_push_back in H. bind_inv H. destruct r; [|apply Ok_inj in H; injection H as <- _; exact S0]. exact (insert_framed _ _ _ _ _ _ _ (IX _ _) H).
  - exact (erase_idx_framed _ _ _ _ _ _ (IX _ _) H).
  - unfold s_pop_back in H. bind_inv H. destruct r; [|apply Ok_inj in H; injection H as <- _; exact S0]. exact (erase_idx_framed _ _ _ _ _ _ (IX _ _) H).
  - unfold s_clear in H. bind_inv H. apply get_var_nth in E. destruct r; try (apply Ok_inj in H; injection H as <- _; exact S0).
    + bind_inv H. destruct r as [[c fs]|]; [|discriminate]. bind_inv H. bind_inv H. apply Ok_inj in H. injection H as <- _.
      assert (B : sole s [x] a0) by (apply (sole_of s x _ _ _ (IX x []) E AL); reflexivity).
      exact (since_drop_s _ _ _ _ _ (since_put_s _ _ _ _ _ _ S0 (or_intror B) E1) E2).
    + bind_inv H. destruct r as [[c fs]|]; [|discriminate]. bind_inv H. bind_inv H. apply Ok_inj in H. injection H as <- _.
      assert (B : sole s [x] a0) by (apply (sole_of s x _ _ _ (IX x []) E AL); reflexivity).
      exact (since_drop_s _ _ _ _ _ (since_put_s _ _ _ _ _ _ S0 (or_intror B) E1) E2).
  - unfold s_resize in H. bind_inv H. apply get_var_nth in E. bind_inv H. destruct r0 as [[c vs]|]; [|apply Ok_inj in H; injection H as <- _; exact S0].
    apply elements_ref in E0. bind_inv H. destruct r0 as [s1 hv]. bind_inv H. bind_inv H. bind_inv H. apply Ok_inj in H. injection H as <- _.
    assert (B : sole s [x] c) by (apply (sole_of s x _ _ _ (IX x []) E (proj2 SO)); exact E0).
    pose proof (since_take_copy _ _ _ _ _ _ S0 E1) as S1. pose proof (since_inc_all _ _ _ _ _ S1 E2) as S2.
    exact (since_drop_s _ _ _ _ _ (since_put_s _ _ (St _ _) _ _ _ S2 (or_intror B) E3) E4).
Qed.

(** ** Everything reachable from a variable that is not changed stays *)
Inductive reach (cs : cells) (h : hval) : nat -> Prop :=
| reach_top a : href h = Some a -> reach cs h a
| reach_kid a n c k b : reach cs h a -> cell_at cs a = Some (n, c) -> In k (kids c) -> href k = Some b -> reach cs h b.

Lemma sole_owned s e xs a : Inv s e [] -> sole s xs a -> exists x c, In x xs /\ owned s x a c.
Proof.
  intros [W F] (x & h & IX & N & R & RC). cbn [app] in W. destruct W as [W1 W2].
  destruct (W2 h) as (v & Sh). { apply in_or_app. left. exact (nth_error_In _ _ N). }
  destruct (shows_cell _ _ _ _ Sh R) as (n & c & C & -> & _). unfold refcount in RC. rewrite R, C in RC.
  destruct (W1 _ _ _ C) as [_ P]. exists x, c. split; [exact IX|]. split; [exact N|]. rewrite C. repeat f_equal. lia.
Qed.

Lemma reach_stays s e xs s' e' y h a : Inv s e [] -> Inv s' e' [] -> framed s xs s' -> ~ In y xs ->
  nth_error (vars s) y = Some h -> nth_error (vars s') y = Some h -> reach (heap s) h a ->
  exists n n' c, cell_at (heap s) a = Some (n, c) /\ cell_at (heap s') a = Some (n', c) /\ reach (heap s') h a.
Proof.
  intros I I' FR NY N N' R.
  assert (LIVE : forall a, reach (heap s) h a -> (exists k, In k (vars s ++ all_kids (heap s)) /\ href k = Some a /\ (k = h \/ In k (all_kids (heap s)))) /\ exists n c, cell_at (heap s) a = Some (n, c)).
  { intros b Rb. pose proof (proj1 I) as [_ W2]. cbn [app] in W2. destruct Rb as [b Hb|b0 n c k b Rb C Ik Hb].
    - assert (Ih : In h (vars s ++ all_kids (heap s))) by (apply in_or_app; left; exact (nth_error_In _ _ N)).
      split; [exists h; auto|]. destruct (W2 h Ih) as (v & Sh). exact (shows_live _ _ _ _ Sh Hb).
    - pose proof (kids_in _ _ _ _ _ C Ik) as K. assert (Ih : In k (vars s ++ all_kids (heap s))) by (apply in_or_app; auto).
      split; [exists k; auto|]. destruct (W2 k Ih) as (v & Sh). exact (shows_live _ _ _ _ Sh Hb). }
  assert (SAME : forall a n' c', reach (heap s) h a -> cell_at (heap s') a = Some (n', c') -> exists n, cell_at (heap s) a = Some (n, c')).
  { intros b n' c' Rb C'. destruct (LIVE b Rb) as ((k & Ik & Hk & Wk) & n & c & C). destruct (proj2 FR _ _ _ C') as [Q|[Q|Q]]; [exact Q| |].
    - pose proof (cell_at_lt _ _ _ C). lia.
    - exfalso. destruct (sole_owned s e xs b I Q) as (x & d & IX & Ow).
      destruct (owned_nref s [] x b d (proj1 I) Ow) as (_ & Z & O). destruct Wk as [->|Wk].
      + apply (O y h); [intros ->; contradiction|exact N|exact Hk].
      + exact (nref_zero _ _ _ Z Wk Hk). }
  assert (GO : forall a, reach (heap s) h a -> exists n' c, cell_at (heap s') a = Some (n', c) /\ reach (heap s') h a).
  { intros b Rb. pose proof (proj1 I') as [_ W2]. cbn [app] in W2. induction Rb as [b Hb|b0 n c k b Rb IH C Ik Hb].
    - destruct (W2 h) as (v & Sh). { apply in_or_app. left. exact (nth_error_In _ _ N'). }
      destruct (shows_live _ _ _ _ Sh Hb) as (n & c & C). exists n, c. split; [exact C|]. apply reach_top. exact Hb.
    - destruct IH as (n' & c' & C' & R'). destruct (SAME _ _ _ Rb C') as (m & Q). rewrite C in Q. injection Q as <- <-.
      pose proof (kids_in _ _ _ _ _ C' Ik) as K. destruct (W2 k) as (v & Sh). { apply in_or_app. right. exact K. }
      destruct (shows_live _ _ _ _ Sh Hb) as (m & d & D). exists m, d. split; [exact D|]. eapply reach_kid; eassumption. }
  destruct (GO a R) as (n' & c & C' & R'). destruct (SAME _ _ _ R C') as (n & C). exists n, n', c. auto.
Qed.

Lemma reach_shows s e xs s' e' y h k v : Inv s e [] -> Inv s' e' [] -> framed s xs s' -> ~ In y xs ->
  nth_error (vars s) y = Some h -> nth_error (vars s') y = Some h ->
  (forall a, href k = Some a -> reach (heap s) h a) -> shows (heap s) k v -> shows (heap s') k v.
Proof.
  intros I I' FR NY N N' R Sh. revert k v Sh R.
  apply (shows_ind' (heap s) (fun k v => (forall a, href k = Some a -> reach (heap s) h a) -> shows (heap s') k v)); intros; try (constructor; fail).
  - assert (Ra : reach (heap s) h a) by (apply H1; reflexivity).
    destruct (reach_stays _ _ _ _ _ _ _ _ I I' FR NY N N' Ra) as (m & m' & c & C & C' & _). rewrite H in C. injection C as <- <-.
    econstructor; [exact C'|].
    assert (K : forall p, In p fs -> forall b, href (snd p) = Some b -> reach (heap s) h b).
    { intros p J b Hb. eapply reach_kid; [exact Ra|exact H|cbn [kids]; apply in_map; exact J|exact Hb]. }
    clear H H1 C' Ra. induction H0 as [|p q fs vs (Q1 & Q2 & Q3) G IH]; constructor.
    + split; [exact Q1|]. apply Q3. apply K. left. reflexivity.
    + apply IH. intros p' J. apply K. right. exact J.
  - assert (Ra : reach (heap s) h a) by (apply H1; reflexivity).
    destruct (reach_stays _ _ _ _ _ _ _ _ I I' FR NY N N' Ra) as (m & m' & c & C & C' & _). rewrite H in C. injection C as <- <-.
    econstructor; [exact C'|].
    assert (K : forall p, In p ms -> forall b, href p = Some b -> reach (heap s) h b).
    { intros p J b Hb. eapply reach_kid; [exact Ra|exact H|exact J|exact Hb]. }
    clear H H1 C' Ra. induction H0 as [|p q fs vs (Q2 & Q3) G IH]; constructor.
    + apply Q3. apply K. left. reflexivity.
    + apply IH. intros p' J. apply K. right. exact J.
Qed.
