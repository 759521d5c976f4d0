(** A packet equals the C++ value it was made from. *)

From Coq Require Import ZArith List Bool Lia Sorting.Sorted Sorting.Permutation.
From Verif Require Import Base BaseFacts Keys KeysFacts Dec Wire Spec SpecDec Ordered HeapOps HeapFacts Lookup JsonFacts JsonSame MakeFacts Compare CompareFacts
  SpecConv Conv ConvBase ConvNum ConvStore ConvBack.
Import ListNotations.
Open Scope Z_scope.

Lemma all_true_ok l : Forall (fun e => e = Ok true) l -> all_true l = Ok true.
Proof. induction 1 as [|e l -> _ IH]; cbn; auto. Qed.

Lemma is_perm_ok A B (self : A -> A -> res bool) (eq : A -> B -> res bool) l r :
  Forall2 (fun x y => eq x y = Ok true) l r -> is_perm self eq l r = Ok true.
Proof. induction 1 as [|x y l r E _ IH]; cbn; auto. rewrite E. cbn. auto. Qed.

Lemma ieee_refl d : denote64 d <> FNaN -> ieee_eqb d d = true.
Proof.
  intros H. unfold ieee_eqb. destruct (d_is_nan d) eqn:E; [apply nan_denote in E; congruence|].
  rewrite Z.eqb_refl. auto.
Qed.

(** A text is what a key is converted to. *)
Lemma text_to t : forall c s, stored t c (VStr s) -> to_dart t c = Ok (VStr s).
Proof.
  induction t as [ | |i| | | |sk a IH|o m a IH|o k x IHk IHx|o k x IHk IHx|a IH|a b IHa IHb|ts IH|ts IH] using cty_ind';
    intros c s H; cbn in H.
  - destruct H; discriminate.
  - destruct H as (b & _ & H); discriminate.
  - destruct H as (? & ? & _ & H & _); discriminate.
  - destruct H as (? & _ & H); discriminate.
  - destruct H as (? & ? & _ & H & _); discriminate.
  - destruct H as (s' & -> & [= ->]). auto.
  - destruct H as (? & ? & _ & H & _); discriminate.
  - destruct H as (? & ? & _ & H & _); discriminate.
  - destruct H as (? & ? & _ & H & _); discriminate.
  - destruct H as (? & ? & _ & H & _); discriminate.
  - destruct H as [[_ H]|(x & -> & H)]; [discriminate|]. cbn. auto.
  - destruct H as (? & ? & ? & ? & _ & H & _); discriminate.
  - destruct H as (? & ? & _ & H & _); discriminate.
  - destruct H as (i & x & -> & H). apply pick_iff in H. destruct H as (a & E & H). cbn. rewrite pick_res_nth, E.
    rewrite Forall_forall in IH. apply (IH a (nth_error_In _ _ E)). auto.
Qed.

Lemma look_text fs k s w : StronglySorted key_lt (map fst fs) -> k = Ok (VStr s) -> lookup s fs = Some w -> look (VObj fs) k = Ok w.
Proof. intros S -> L. unfold look. cbn [bind]. rewrite h_get_spec by auto. rewrite L. auto. Qed.

Lemma sorted_nth' (lt : cval -> cval -> bool) (Q : cval -> cval -> Prop) ks i j x y :
  StronglySorted (fun x y => lt y x = false /\ Q x y) ks -> (i < j)%nat ->
  nth_error ks i = Some x -> nth_error ks j = Some y -> lt y x = false.
Proof.
  intros S. revert i j. induction S as [|a l S IH F]; intros [|i] [|j] Hij Hi Hj; cbn in *; try discriminate; try lia.
  - injection Hi as <-. rewrite Forall_forall in F. apply F. eapply nth_error_In; eauto.
  - apply (IH i j); auto. lia.
Qed.

(** ** The groups of a multimap *)
Lemma group_split o κ l : fst (group o κ l) ++ snd (group o κ l) = l.
Proof.
  induction l as [|p l IH]; cbn; auto. destruct (same_group o κ (fst p)); auto.
  destruct (group o κ l) as [g r]. cbn in *. congruence.
Qed.

Lemma group_spec o κ (E : cval * cval -> bool) l :
  (forall q, In q l -> same_group o κ (fst q) = E q) ->
  (forall i j q q', (i < j)%nat -> nth_error l i = Some q -> nth_error l j = Some q' -> E q' = true -> E q = true) ->
  group o κ l = (filter E l, filter (fun q => negb (E q)) l).
Proof.
  induction l as [|p l IH]; intros H C; cbn; auto.
  rewrite H by (cbn; auto). destruct (E p) eqn:Ep; cbn.
  - rewrite IH.
    + auto.
    + intros; apply H; cbn; auto.
    + intros i j q q' Hij Hi Hj. apply (C (S i) (S j)); auto. lia.
  - assert (F : forall q, In q l -> E q = false).
    { intros q Hq. destruct (E q) eqn:Eq; auto. apply In_nth_error in Hq. destruct Hq as [j Hj].
      rewrite (C O (S j) p q) in Ep; auto; lia. }
    rewrite filter_none by auto. rewrite filter_all; auto. intros q Hq. rewrite F; auto.
Qed.

Section MultiSelf.
  Context (o : order) (self : cval -> cval -> res bool) (eq : value -> cval -> res bool) (key : cval -> res value)
    (T : cval -> str -> Prop) (fs : list (str * value)) (l : list (cval * cval)).
  Hypothesis Tdet : forall x s s', T x s -> T x s' -> s = s'.
  Hypothesis Tkey : forall x s, T x s -> key x = Ok (VStr s).
  Hypothesis A : agree o T l.
  Hypothesis txt : forall p, In p l -> exists s, T (fst p) s.
  Hypothesis sorted : StronglySorted key_lt (map fst fs).
  Hypothesis adj : adjacent o (map fst l).
  Hypothesis grp : forall i j p q, (i < j)%nat -> nth_error l i = Some p -> nth_error l j = Some q ->
    same_group o (fst p) (fst q) = equiv o (fst q) (fst p).
  Hypothesis found : forall p s, In p l -> T (fst p) s ->
    exists ws, lookup s fs = Some (VArr ws) /\ Forall2 (fun q w => eq w (snd q) = Ok true) (filter (fun q => equiv o (fst q) (fst p)) l) ws.

  Lemma nth_map i (p : cval * cval) : nth_error l i = Some p -> nth_error (map fst l) i = Some (fst p).
  Proof. intros H. rewrite nth_error_map, H. auto. Qed.

  Lemma cmp_multi_self fuel l1 l2 : l = l1 ++ l2 -> (length l2 <= fuel)%nat ->
    (forall a b, In a l1 -> In b l2 -> equiv o (fst a) (fst b) = false) ->
    cmp_multi o self eq key (VObj fs) fuel l2 = Ok true.
  Proof.
    revert l1 l2. induction fuel as [|fuel IH]; intros l1 l2 El Hn Hd.
    - destruct l2; auto. cbn in Hn. lia.
    - destruct l2 as [|p r]; auto. cbn [cmp_multi].
      assert (Hp : In p l) by (rewrite El; apply in_or_app; cbn; auto).
      assert (Hr : forall q, In q r -> In q l) by (intros; rewrite El; apply in_or_app; cbn; auto).
      assert (H1 : forall q, In q l1 -> In q l) by (intros; rewrite El; apply in_or_app; auto).
      destruct (txt p Hp) as (s & Hs).
      assert (EQ : forall q, In q l -> (equiv o (fst q) (fst p) = true <-> T (fst q) s)).
      { intros q Hq. rewrite (A q p Hq Hp). split; [intros (s' & S1 & S2); rewrite (Tdet _ _ _ Hs S2); auto | eauto]. }
      set (E := fun q : cval * cval => equiv o (fst q) (fst p)).
      assert (Ip : nth_error l (length l1) = Some p) by (rewrite El, nth_error_app2, Nat.sub_diag by lia; auto).
      assert (Ir : forall j q, nth_error r j = Some q -> nth_error l (length l1 + Datatypes.S j) = Some q).
      { intros j q Hj. rewrite El, nth_error_app2 by lia. replace (length l1 + Datatypes.S j - length l1)%nat with (Datatypes.S j) by lia. auto. }
      rewrite (group_spec o (fst p) E).
      2: { intros q Hq. apply In_nth_error in Hq. destruct Hq as [j Hj].
           apply (grp (length l1) (length l1 + Datatypes.S j)%nat); auto. lia. }
      2: { intros i j q q' Hij Hi Hj HE. unfold E in *.
           assert (Hq : In q l) by (apply Hr; eapply nth_error_In; eauto).
           assert (Hq' : In q' l) by (apply Hr; eapply nth_error_In; eauto).
           apply EQ; auto. apply EQ in HE; auto.
           assert (X : equiv o (fst p) (fst q') = true) by (apply (A p q'); eauto).
           pose proof (adj (length l1) (length l1 + Datatypes.S i)%nat (length l1 + Datatypes.S j)%nat (fst p) (fst q) (fst q') ltac:(lia)
             (nth_map _ _ Ip) (nth_map _ _ (Ir _ _ Hi)) (nth_map _ _ (Ir _ _ Hj)) X) as Y.
           apply (A p q) in Y; auto. destruct Y as (s' & S1 & S2). rewrite (Tdet _ _ _ Hs S1). auto. }
      destruct (found p s Hp Hs) as (ws & L & F).
      assert (FE : filter E l = p :: filter E r).
      { rewrite El, filter_app. rewrite filter_none.
        - cbn. unfold E at 1. rewrite (proj2 (EQ p Hp)) by auto. auto.
        - intros q Hq. unfold E. apply Hd; cbn; auto. }
      fold E in F. rewrite FE in F.
      rewrite (look_text fs (key (fst p)) s (VArr ws)) by auto. cbn [bind].
      rewrite <- (forall2_len _ _ _ _ _ F), Nat.eqb_refl.
      rewrite is_perm_ok by (revert F; apply forall2_impl; auto). cbn [bind].
      assert (RS : p :: r = (p :: filter E r) ++ filter (fun q => negb (E q)) r).
      { cbn. f_equal. pose proof (group_split o (fst p) r) as GS. rewrite (group_spec o (fst p) E) in GS; [symmetry; exact GS| |].
        - intros q Hq. apply In_nth_error in Hq. destruct Hq as [j Hj].
          apply (grp (length l1) (length l1 + Datatypes.S j)%nat); auto. lia.
        - intros i j q q' Hij Hi Hj HE. unfold E in *.
          assert (Hq : In q l) by (apply Hr; eapply nth_error_In; eauto).
          assert (Hq' : In q' l) by (apply Hr; eapply nth_error_In; eauto).
          apply EQ; auto. apply EQ in HE; auto.
          assert (X : equiv o (fst p) (fst q') = true) by (apply (A p q'); eauto).
          pose proof (adj (length l1) (length l1 + Datatypes.S i)%nat (length l1 + Datatypes.S j)%nat (fst p) (fst q) (fst q') ltac:(lia)
             (nth_map _ _ Ip) (nth_map _ _ (Ir _ _ Hi)) (nth_map _ _ (Ir _ _ Hj)) X) as Y.
          apply (A p q) in Y; auto. destruct Y as (s' & S1 & S2). rewrite (Tdet _ _ _ Hs S1). auto. }
      apply (IH (l1 ++ p :: filter E r)).
      + rewrite <- app_assoc, <- RS. auto.
      + assert (X : (length (filter (fun q => negb (E q)) r) <= length r)%nat).
        { clear. induction r as [|q r IH]; cbn; auto. destruct (negb (E q)); cbn; lia. }
        cbn in Hn. lia.
      + intros a b Ha Hb. apply filter_In in Hb. destruct Hb as [Hb Eb]. apply in_app_iff in Ha. destruct Ha as [Ha|Ha].
        * apply Hd; cbn; auto.
        * destruct (equiv o (fst a) (fst b)) eqn:X; auto. exfalso.
          assert (Ha' : In a l /\ T (fst a) s).
          { destruct Ha as [<-|Ha]; auto. apply filter_In in Ha. destruct Ha as [Ha Ea]. split; auto. apply EQ; auto. }
          destruct Ha' as [Ha1 Ha2]. apply (A a b) in X; auto. destruct X as (s' & S1 & S2).
          rewrite (Tdet _ _ _ S1 Ha2) in S2.
          assert (Y : E b = true) by (apply EQ; auto). rewrite Y in Eb. discriminate.
  Qed.
End MultiSelf.

Lemma zip_cmp A B C D (f : A -> B -> C -> res D) ts l r :
  zip_with (fun g p => g (fst p) (snd p)) (map f ts) (combine l r) = zip_with (fun a p => f a (fst p) (snd p)) ts (combine l r).
Proof.
  revert l r; induction ts as [|a ts IH]; intros [|x l] [|y r]; cbn; auto. rewrite IH. auto.
Qed.

Theorem self_compare t : forall c v, has t c -> everywhere keyed t c -> everywhere self_equal t c -> to_dart t c = Ok v ->
  cmp t v c = Ok true.
Proof.
  induction t as [ | |i| | | |sk a IH|o m a IH|o k x IHk IHx|o k x IHk IHx|a IH|a b IHa IHb|ts IH|ts IH] using cty_ind';
    intros c v H K T E.
  - cbn in H. subst. cbn in E. apply Ok_inj in E. subst. auto.
  - destruct H as (b & ->). cbn in E. apply Ok_inj in E. subst. cbn. rewrite Bool.eqb_reflx. auto.
  - destruct H as (z & -> & R & B). cbn [to_dart] in E. apply Ok_inj in E. subst. cbn [cmp]. rewrite Z.eqb_refl. auto.
  - destruct H as (d & -> & _). cbn in E. apply Ok_inj in E. subst. cbn [cmp]. rewrite ieee_refl; auto. destruct T as [T _]. apply (T d eq_refl).
  - destruct H as (f & -> & R). cbn [to_dart] in E. apply Ok_inj in E. subst. cbn [cmp]. rewrite ieee_refl; auto.
    rewrite denote_widen by auto. destruct T as [T _]. apply (T f eq_refl).
  - destruct H as (s & ->). cbn in E. apply Ok_inj in E. subst. cbn [cmp]. rewrite (proj2 (sv_eqb_eq s s)); auto.
  - cbn in H. destruct H as (l & -> & Hn & H & Hk). destruct K as [_ K]. specialize (K l eq_refl).
    destruct T as [_ T]. specialize (T l eq_refl). cbn in E.
    apply push_all_ok in E; [|unfold zlen in *; rewrite map_length; cbn [length]; lia].
    destruct E as (ws & E & ->). apply collect_map_ok in E. cbn [app].
    assert (G : Forall2 (fun w y => cmp a w y = Ok true) ws l).
    { clear Hn Hk. revert H K T. induction E as [|y w l ws Ey E IHl]; intros H K T; [constructor|].
      inversion H; inversion K; inversion T; subst. constructor; auto. }
    assert (Z : forall (ws : list value) l, Forall2 (fun w y => cmp a w y = Ok true) ws l ->
              (if Nat.eqb (length ws) (length l) then all_true (zip_with (cmp a) ws l) else Ok false) = Ok true).
    { clear. intros ws l F. rewrite (forall2_len _ _ _ _ _ F), Nat.eqb_refl. apply all_true_ok.
      induction F; cbn; constructor; auto. }
    cbn [cmp]. destruct sk; try (apply Z; auto).
    clear -G. induction G as [|w y ws l Hw _ IHG]; cbn; auto. rewrite Hw. cbn. auto.
  - cbn in H. destruct H as (l & -> & Hn & H & Ar). destruct K as [_ K]. specialize (K l eq_refl).
    destruct T as [_ T]. specialize (T l eq_refl). cbn in E.
    apply push_all_ok in E; [|unfold zlen in *; rewrite map_length; cbn [length]; lia].
    destruct E as (ws & E & ->). apply collect_map_ok in E. cbn [app].
    assert (G : Forall2 (fun w y => cmp a w y = Ok true) ws l).
    { clear Hn Ar. revert H K T. induction E as [|y w l ws Ey E IHl]; intros H K T; [constructor|].
      inversion H; inversion K; inversion T; subst. constructor; auto. }
    cbn [cmp]. rewrite (forall2_len _ _ _ _ _ G), Nat.eqb_refl. apply is_perm_ok. auto.
  - cbn in H. destruct H as (l & -> & Hn & H & Ar). destruct K as [K1 K]. specialize (K1 l eq_refl). specialize (K l eq_refl).
    destruct T as [_ T]. specialize (T l eq_refl). cbn in E.
    apply map_shape in E. destruct E as (kxs & E & S & ->).
    assert (N : NoDup (map fst kxs)).
    { apply nodup_texts with (T := fun p s => stored k (fst p) (VStr s)) (l := l); auto.
      rewrite forall2_map_r. revert E. apply forall2_in. rewrite Forall_forall in H, K. intros p q Hp _ [E1 _].
      destruct (H p Hp). destruct (K p Hp). apply to_dart_stored; auto. }
    destruct (put_all_perm kxs N S) as (P & SS & Q). cbn [cmp].
    rewrite <- (Permutation_length P), <- (forall2_len _ _ _ _ _ E), Nat.eqb_refl.
    apply all_true_ok. apply Forall_map. apply Forall_forall. intros p Hp.
    destruct (forall2_in_l _ _ _ _ _ _ E Hp) as ([s w] & Hq & E1 & E2). cbn in E1, E2.
    rewrite (look_text _ _ s w SS E1).
    + cbn [bind]. rewrite Forall_forall in H, K, T. destruct (H p Hp). destruct (K p Hp). destruct (T p Hp). auto.
    + rewrite Q. apply JsonSame.in_lookup; auto.
  - cbn in H. destruct H as (l & -> & Hn & H & Ar). destruct K as [K1 K]. specialize (K1 l eq_refl). specialize (K l eq_refl).
    destruct T as [T1 T]. specialize (T l eq_refl). cbn [to_dart] in E. rewrite Forall_forall in H, K, T.
    assert (Hk : forall p s, In p l -> to_dart k (fst p) = Ok (VStr s) -> text_of k (fst p) s).
    { intros p s Hp Ep. destruct (H p Hp). destruct (K p Hp). apply to_dart_stored; auto. }
    destruct (multi_shape o k x l v Hn Hk K1 E) as (kxs & F & G & N & S & ->). clear E.
    destruct G as (G1 & G2 & G3 & G4). set (acc := accum_all o (to_dart x) l) in *.
    destruct (put_all_perm kxs N S) as (P & SS & Q). cbn [cmp].
    assert (GIN : forall g, In g acc -> exists p, In p l /\ fst p = fst g).
    { intros g Hg. apply accum_from in Hg. apply in_map_iff in Hg. destruct Hg as (p & ? & ?). eauto. }
    apply (cmp_multi_self o (cpp_eq x) (cmp x) (to_dart k) (text_of k) (put_all kxs []) l) with (l1 := []); auto.
    + intros y s s'. apply text_unique.
    + intros y s. apply text_to.
    + intros p Hp. destruct (G2 p Hp) as (g & Hg & Eg). destruct (GIN g Hg) as (q & Hq & Eq). rewrite <- Eq in Eg.
      apply (K1 p q Hp Hq) in Eg. destruct Eg as (s & ? & _). eauto.
    + apply Ar. auto.
    + intros i j p q Hij Hi Hj. destruct o as [lt|keq eqeq]; cbn.
      * destruct Ar as [[Ar _] _]. assert (X : lt (fst q) (fst p) = false).
        { apply (sorted_nth' lt _ _ i j _ _ Ar Hij); apply nth_map; auto. }
        rewrite X. auto.
      * cbn in T1. apply T1 with (l := l); auto; eapply nth_error_In; eauto.
    + intros p s Hp Ts. destruct (G2 p Hp) as (g & Hg & Eg). destruct (GIN g Hg) as (q & Hq & Eq). rewrite <- Eq in Eg.
      apply (K1 p q Hp Hq) in Eg. destruct Eg as (s' & S1 & S2). rewrite (text_unique _ _ _ _ S1 Ts) in *. clear S1 s'.
      destruct (forall2_in_l _ _ _ _ _ _ F Hg) as ([s1 w] & Hin & E1 & ws & E2 & E3). cbn in E1, E2. subst w.
      rewrite <- Eq in E1. pose proof (text_unique _ _ _ _ (Hk q s1 Hq E1) S2) as ->.
      exists ws. split; [rewrite Q; apply JsonSame.in_lookup; auto|].
      rewrite Forall_forall in G1. destruct (G1 g Hg) as [_ Gs]. rewrite Gs in E3. apply collect_map_ok in E3.
      rewrite (filter_ext_in (fun q0 => equiv o (fst q0) (fst p)) (fun q0 => equiv o (fst q0) (fst g))).
      * revert E3. apply forall2_in. intros a w Ha _ Ew. apply filter_In in Ha. destruct Ha as [Ha _].
        destruct (H a Ha). destruct (K a Ha). destruct (T a Ha). auto.
      * intros a Ha. apply eq_true_iff_eq. rewrite <- Eq. rewrite (K1 a p Ha Hp), (K1 a q Ha Hq).
        split; intros (s' & A1 & A2).
        -- rewrite (text_unique _ _ _ _ A2 Ts) in *. eauto.
        -- rewrite (text_unique _ _ _ _ A2 S2) in *. eauto.
    + intros a b [].
  - destruct K as [_ K]. destruct T as [_ T]. cbn in H. destruct H as [->|(y & -> & H)]; cbn in E.
    + apply Ok_inj in E. subst. auto.
    + cbn. auto.
  - destruct K as [_ K]. destruct T as [_ T]. cbn in H. destruct H as (y & z & -> & H1 & H2).
    destruct (K y z eq_refl). destruct (T y z eq_refl). cbn [to_dart] in E.
    apply push_all_ok in E; [|unfold zlen; cbn [length]; lia]. destruct E as (ws & E & ->).
    apply collect_ok in E. inversion E as [|? w ? ? E1 E2]; subst. inversion E2 as [|? u ? ? E3 E4]; subst. inversion E4; subst.
    cbn. rewrite IHa by auto. cbn. auto.
  - destruct K as [_ K]. destruct T as [_ T]. cbn in H. destruct H as (l & -> & Hn & H). specialize (K l eq_refl). specialize (T l eq_refl).
    cbn [to_dart] in E. pose proof (zip_len _ _ H) as Hl.
    assert (Hz : length (zip_with to_dart ts l) = length l).
    { clear -Hl. revert l Hl. induction ts; intros [|? ?] ?; cbn in *; auto; discriminate. }
    apply push_all_ok in E; [|unfold zlen in *; rewrite Hz; cbn [length]; lia]. destruct E as (ws & E & ->).
    apply collect_zip in E; auto. cbn [app cmp].
    assert (Hw : length ws = length ts).
    { clear -E. revert l ws E. induction ts as [|a ts IH]; intros [|y l] [|w ws] E; cbn in *; try tauto. f_equal. destruct E. eauto. }
    rewrite Hw, Nat.eqb_refl, zip_cmp. apply all_true_ok.
    clear Hn Hl Hz Hw. revert l ws H K T E. induction IH as [|a ts Ha _ IH]; intros [|y l] [|w ws] H K T E; cbn in *; try tauto; constructor.
    + destruct H, K, T, E. auto.
    + destruct H, K, T, E. eauto.
  - destruct K as [_ K]. destruct T as [_ T]. cbn in H. destruct H as (i & y & -> & H). specialize (K i y eq_refl). specialize (T i y eq_refl).
    cbn [to_dart] in E. rewrite pick_res_nth in E. apply pick_iff in H. apply pick_iff in K. apply pick_iff in T.
    destruct H as (a & En & H). destruct K as (a' & En' & K). rewrite En in En'. injection En' as <-.
    destruct T as (a' & En' & T). rewrite En in En', E. injection En' as <-. rewrite Forall_forall in IH.
    cbn [cmp]. rewrite pick_res_nth, En. apply (IH a (nth_error_In _ _ En)); auto.
Qed.
