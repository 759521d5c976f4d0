(** Out of a packet what went in. *)

From Coq Require Import ZArith List Bool Lia Sorting.Sorted Sorting.Permutation.
From Verif Require Import Base BaseFacts Keys KeysFacts Wire Spec SpecDec Ordered HeapOps HeapFacts Lookup JsonFacts JsonSame
  SpecConv Conv ConvBase ConvNum ConvRead ConvStore ConvEmplace.
Import ListNotations.
Open Scope Z_scope.

Lemma forall2_refl A (R : A -> A -> Prop) l : Forall (fun x => R x x) l -> Forall2 R l l.
Proof. induction 1; auto. Qed.

Lemma alike_refl t : forall c, has t c -> alike t c c.
Proof.
  induction t as [ | |i| | | |sk a IH|o m a IH|o k x IHk IHx|o k x IHk IHx|a IH|a b IHa IHb|ts IH|ts IH] using cty_ind';
    intros c H; cbn in H |- *; auto.
  - destruct H as (l & -> & _ & H & _). exists l, l. split; [auto|]. split; [auto|].
    apply forall2_refl. revert H. apply Forall_impl. auto.
  - destruct H as (l & -> & _ & H & _).
    assert (F : Forall2 (alike a) l l) by (apply forall2_refl; revert H; apply Forall_impl; auto).
    destruct o; [exists l, l; auto | exists l, l, l; auto].
  - destruct H as (l & -> & _ & H & _).
    assert (F : Forall2 (alike_entry (alike k) (alike x)) l l).
    { apply forall2_refl; revert H; apply Forall_impl. intros p []; split; auto. }
    destruct o; [exists l, l; auto | exists l, l, l; auto].
  - destruct H as (l & -> & _ & H & _).
    assert (F : Forall2 (alike_entry (alike k) (alike x)) l l).
    { apply forall2_refl; revert H; apply Forall_impl. intros p []; split; auto. }
    destruct o; [exists l, l; auto | exists l, l, l; auto].
  - destruct H as [->|(x & -> & H)]; [auto | right; exists x, x; auto].
  - destruct H as (x & y & -> & H1 & H2). exists x, y, x, y. auto.
  - destruct H as (l & -> & _ & H). exists l, l. split; [auto|]. split; [auto|].
    revert l H. induction IH as [|a ts Ha _ IH]; intros [|x l] H; cbn in *; try tauto. destruct H. auto.
  - destruct H as (i & x & -> & H). exists i, x, x. split; [auto|]. split; [auto|].
    apply pick_iff in H. apply pick_iff. destruct H as (a & E & H). exists a. split; auto.
    rewrite Forall_forall in IH. apply (IH a (nth_error_In _ _ E)). auto.
Qed.

(** A key is read back from its text. *)
Lemma text_back t : forall c s, stored t c (VStr s) -> everywhere told_apart t c -> from_dart t (VStr s) = Ok c.
Proof.
  induction t as [ | |i| | | |sk a IH|o m a IH|o k x IHk IHx|o k x IHk IHx|a IH|a b IHa IHb|ts IH|ts IH] using cty_ind';
    intros c s H T; cbn in H.
  - destruct H; discriminate.
  - destruct H as (b & _ & H); discriminate.
  - destruct H as (? & ? & _ & H & _); discriminate.
  - destruct H as (? & _ & H); discriminate.
  - destruct H as (? & ? & _ & H & _); discriminate.
  - destruct H as (s' & -> & [= ->]). auto.
  - destruct H as (? & ? & _ & H & _); discriminate.
  - destruct H as (? & ? & _ & H & _); discriminate.
  - destruct H as (? & ? & _ & H & _); discriminate.
  - destruct H as (? & ? & _ & H & _); discriminate.
  - destruct H as [[_ H]|(x & -> & H)]; [discriminate|]. destruct T as [_ T]. cbn. rewrite (IH x s H) by auto. auto.
  - destruct H as (? & ? & ? & ? & _ & H & _); discriminate.
  - destruct H as (? & ? & _ & H & _); discriminate.
  - destruct H as (i & x & -> & H). apply pick_iff in H. destruct H as (a & E & H).
    destruct T as [T1 T]. specialize (T i x eq_refl). apply pick_iff in T. destruct T as (a' & E' & T).
    rewrite E in E'. injection E' as <-. cbn in T1. specialize (T1 i x a (VStr s) eq_refl E H). cbn.
    rewrite Forall_forall in IH. pose proof (IH a (nth_error_In _ _ E) x s H T) as B.
    destruct (first_ok_spec (fun a => from_dart a (VStr s)) ts 0 (fun a => tame_from a (VStr s))) as [(j & b & c & H1 & H2 & H3 & ->)|[H1 _]].
    + destruct (Nat.lt_trichotomy j i) as [L|[->|L]].
      * exfalso. apply (T1 j b L H1). apply reads_ok. eauto.
      * rewrite E in H1. injection H1 as <-. cbn in H2. rewrite B in H2. apply Ok_inj in H2. subst. auto.
      * specialize (H3 i a L E). cbn in H3. rewrite B in H3. discriminate.
    + rewrite Forall_forall in H1. specialize (H1 a (nth_error_In _ _ E)). cbn in H1. rewrite B in H1. discriminate.
Qed.

Lemma sorted_fop A (R : A -> A -> Prop) l : StronglySorted R l <-> ForallOrdPairs R l.
Proof. split; induction 1; constructor; auto. Qed.

Lemma fop_map A B (f : A -> B) (R : B -> B -> Prop) l : ForallOrdPairs R (map f l) <-> ForallOrdPairs (fun x y => R (f x) (f y)) l.
Proof.
  induction l as [|a l IH]; cbn; [split; constructor|].
  split; intros H; inversion H as [|? ? H1 H2]; subst; constructor; try (apply IH; auto).
  - rewrite Forall_map in H1. auto.
  - rewrite Forall_map. auto.
Qed.

Lemma fop_impl A (R S : A -> A -> Prop) l : (forall x y, R x y -> S x y) -> ForallOrdPairs R l -> ForallOrdPairs S l.
Proof. intros H. induction 1 as [|a l H1 H2 IH]; constructor; auto. revert H1. apply Forall_impl. auto. Qed.

(** Lists that are alike under a relation the comparator respects. *)
Lemma fop_forall2 A B (R : A -> A -> Prop) (S : B -> B -> Prop) (Q : A -> B -> Prop) l r :
  (forall x x' y y', Q x x' -> Q y y' -> R x y -> S x' y') -> Forall2 Q l r -> ForallOrdPairs R l -> ForallOrdPairs S r.
Proof.
  intros H F. induction F as [|a b l r Hab F IH]; intros O; inversion O as [|? ? O1 O2]; subst; constructor; auto.
  clear IH O O2. induction F as [|a' b' l r Hab' F IH]; inversion O1; subst; constructor; eauto.
Qed.

Lemma map_eq_keys A (l m : list (cval * A)) : Forall2 (fun p q => fst p = fst q) l m -> map fst l = map fst m.
Proof. induction 1; cbn; congruence. Qed.

(** ** Maps *)
Lemma map_back o (l L m : list (cval * cval)) :
  arranged o false (map fst l) -> map fst l = map fst m -> Permutation m L ->
  Permutation m (emplace_all fst o false L) /\
  match o with Ordered _ => m = emplace_all fst o false L | Hashed _ _ => True end.
Proof.
  intros Ar Ek P. rewrite Ek in Ar. clear Ek l.
  assert (N : ForallOrdPairs (fun p q => equiv o (fst p) (fst q) = false /\ equiv o (fst q) (fst p) = false) m).
  { destruct o as [lt|keq eqeq]; cbn in Ar.
    - destruct Ar as [[Ar _] _]. apply sorted_fop in Ar. rewrite fop_map in Ar. revert Ar. apply fop_impl. intros p q [H1 H2]. cbn.
      rewrite H2 by auto. split; auto. apply andb_false_r.
    - destruct Ar as [Ar _]. specialize (Ar eq_refl). rewrite fop_map in Ar. revert Ar. apply fop_impl. auto. }
  assert (N' : ForallOrdPairs (fun p q => equiv o (fst p) (fst q) = false /\ equiv o (fst q) (fst p) = false) L).
  { revert N. apply fop_perm; auto. tauto. }
  assert (N1 : ForallOrdPairs (fun p q => equiv o (fst q) (fst p) = false) L) by (revert N'; apply fop_impl; tauto).
  assert (PE : Permutation m (emplace_all fst o false L)).
  { rewrite P. apply emplace_all_perm. auto. }
  split; auto. destruct o as [lt|keq eqeq]; auto. cbn in Ar. destruct Ar as [[Ar Irr] _].
  assert (anti : forall x y, In x (map fst m) -> In y (map fst m) -> lt x y = false -> lt y x = false -> x = y).
  { intros x y Hx Hy L1 L2. apply In_nth_error in Hx. apply In_nth_error in Hy. destruct Hx as [i Hi]. destruct Hy as [j Hj].
    assert (G : forall i j x y, nth_error (map fst m) i = Some x -> nth_error (map fst m) j = Some y -> (i < j)%nat -> lt x y = true).
    { clear -Ar. induction Ar as [|a l S IH F]; intros [|i] [|j] x y Hi Hj Hij; cbn in *; try discriminate; try lia.
      - injection Hi as <-. rewrite Forall_forall in F. apply F; auto. eapply nth_error_In; eauto.
      - apply (IH i j); auto. lia. }
    destruct (Nat.lt_trichotomy i j) as [Lij|[->|Lij]].
    - rewrite (G i j x y) in L1; auto; discriminate.
    - congruence.
    - rewrite (G j i y x) in L2; auto; discriminate. }
  assert (Sw : StronglySorted (fun x y => lt y x = false) (map fst m)).
  { apply sorted_fop. apply sorted_fop in Ar. revert Ar. apply fop_impl. tauto. }
  assert (trans : forall x y z, In x (map fst m) -> In y (map fst m) -> In z (map fst m) -> lt x y = true -> lt y z = true -> lt x z = true).
  { apply (lt_trans lt (map fst m)); auto. }
  assert (irr : forall x, In x (map fst m) -> lt x x = false) by (rewrite Forall_forall in Irr; auto).
  assert (I : Forall (fun p => In (fst p) (map fst m)) m).
  { apply Forall_forall. intros p Hp. apply in_map. auto. }
  assert (IL : Forall (fun p => In (fst p) (map fst m)) L) by (eapply Permutation_Forall; eauto).
  eapply (sorted_perm_unique fst (fun x => In x (map fst m)) lt); auto.
  - apply sorted_fop. apply sorted_fop in Sw. rewrite fop_map in Sw. auto.
  - eapply (emplace_all_map fst (fun x => In x (map fst m)) lt); auto.
  - revert N. apply fop_impl. tauto.
Qed.

(** ** Multimaps *)
Lemma multi_back (R : cval * cval -> cval * cval -> Prop) o l L :
  arranged o true (map fst l) ->
  (forall x y, In x (map fst l) -> In y (map fst l) -> (equiv o x y = true <-> x = y)) ->
  same_groups fst fst R (equiv o) (fun x => In x (map fst l)) l L ->
  match o with
  | Ordered _ => Forall2 R l (emplace_all fst o true L)
  | Hashed _ _ => exists m, Forall2 R l m /\ Permutation m (emplace_all fst o true L)
  end.
Proof.
  intros Ar Eq SG. destruct o as [lt|keq eqeq].
  - cbn in Ar. destruct Ar as [[Ar Irr] _].
    assert (anti : forall x y, In x (map fst l) -> In y (map fst l) -> lt x y = false -> lt y x = false -> x = y).
    { intros x y Hx Hy L1 L2. apply Eq; auto. cbn. rewrite L1, L2. auto. }
    assert (Sw : StronglySorted (fun x y => lt y x = false) (map fst l)).
    { apply sorted_fop. apply sorted_fop in Ar. revert Ar. apply fop_impl. tauto. }
    assert (trans : forall x y z, In x (map fst l) -> In y (map fst l) -> In z (map fst l) -> lt x y = true -> lt y z = true -> lt x z = true).
    { apply (lt_trans lt (map fst l)); auto. }
    assert (irr : forall x, In x (map fst l) -> lt x x = false) by (rewrite Forall_forall in Irr; auto).
    destruct SG as (D1 & D2 & G).
    destruct (emplace_all_multi fst (fun x => In x (map fst l)) lt irr trans anti L D2) as [S F].
    eapply (groups_sorted fst fst R (equiv (Ordered lt)) (fun x => In x (map fst l))); eauto.
    + apply sorted_fop. apply sorted_fop in Sw. rewrite fop_map in Sw. auto.
    + split; [auto|]. split.
      * eapply Permutation_Forall; [apply emplace_all_perm; auto | auto].
      * intros κ Dκ. rewrite F by auto. auto.
  - destruct (groups_permute fst fst R _ _ Eq l L SG) as (m & F & P). exists m. split; auto.
    rewrite P. apply emplace_all_perm. auto.
Qed.

Lemma filter_none A (f : A -> bool) l : (forall x, In x l -> f x = false) -> filter f l = [].
Proof. induction l as [|a l IH]; cbn; intros H; auto. rewrite H by auto. apply IH. auto. Qed.
Lemma filter_all A (f : A -> bool) l : (forall x, In x l -> f x = true) -> filter f l = l.
Proof. induction l as [|a l IH]; cbn; intros H; auto. rewrite H by auto. f_equal. apply IH. auto. Qed.

Lemma filter_groups (e : cval -> bool) (gs : list (cval * list cval)) g :
  In g gs -> e (fst g) = true -> ForallOrdPairs (fun a b => fst a <> fst b) gs ->
  (forall h, In h gs -> e (fst h) = true -> fst h = fst g) ->
  filter (fun q => e (fst q)) (concat (map (fun g => map (pair (fst g)) (snd g)) gs)) = map (pair (fst g)) (snd g).
Proof.
  intros Hin Hg N H. induction gs as [|h gs IH]; [destruct Hin|]. cbn [map concat]. rewrite filter_app.
  inversion N as [|? ? N1 N2]; subst. rewrite Forall_forall in N1.
  destruct Hin as [->|Hin].
  - rewrite filter_all.
    + rewrite filter_none; [apply app_nil_r|]. intros q Hq. apply in_concat in Hq. destruct Hq as (r & Hr & Hq).
      apply in_map_iff in Hr. destruct Hr as (h & <- & Hh). apply in_map_iff in Hq. destruct Hq as (y & <- & _). cbn.
      destruct (e (fst h)) eqn:E; auto. exfalso. apply (N1 h Hh). symmetry. apply H; cbn; auto.
    + intros q Hq. apply in_map_iff in Hq. destruct Hq as (y & <- & _). auto.
  - rewrite filter_none.
    + apply IH; auto. intros; apply H; cbn; auto.
    + intros q Hq. apply in_map_iff in Hq. destruct Hq as (y & <- & _). cbn.
      destruct (e (fst h)) eqn:E; auto. exfalso. apply (N1 g Hin). apply H; cbn; auto.
Qed.

Lemma forall2_in A B (R S : A -> B -> Prop) l r :
  (forall a b, In a l -> In b r -> R a b -> S a b) -> Forall2 R l r -> Forall2 S l r.
Proof.
  intros H F. induction F as [|a b l r Hab F IH]; constructor.
  - apply H; cbn; auto.
  - apply IH. intros; apply H; cbn; auto.
Qed.

Lemma fop_nodup A B (T : A -> str -> Prop) (R : A -> A -> Prop) (l : list A) (fs : list (str * B)) :
  (forall x y s s', T x s -> T y s' -> s <> s' -> R x y) ->
  Forall2 (fun p h => T h (fst p)) fs l -> NoDup (map fst fs) -> ForallOrdPairs R l.
Proof.
  intros H F. induction F as [|p h fs l Hp F IH]; intros N; [constructor|]. inversion N as [|? ? N1 N2]; subst. constructor; auto.
  apply Forall_forall. intros h' Hh'. destruct (forall2_in_r _ _ _ _ _ _ F Hh') as (q & Hq & Tq).
  apply (H h h' (fst p) (fst q)); auto. intros E. apply N1. rewrite E. apply in_map. auto.
Qed.

Lemma multi_round o k x l v :
  (forall y w, has x y -> everywhere keyed x y -> everywhere told_apart x y -> to_dart x y = Ok w ->
     exists y', from_dart x w = Ok y' /\ alike x y y') ->
  has (TMulti o k x) (CMap l) -> everywhere keyed (TMulti o k x) (CMap l) -> everywhere told_apart (TMulti o k x) (CMap l) ->
  to_dart (TMulti o k x) (CMap l) = Ok v ->
  exists c', from_dart (TMulti o k x) v = Ok c' /\ alike (TMulti o k x) (CMap l) c'.
Proof.
  intros IHx H K T E. cbn in H. destruct H as (l' & [= <-] & Hn & H & Ar).
  destruct K as [K1 K]. specialize (K l eq_refl). specialize (K1 l eq_refl).
  destruct T as [_ T]. specialize (T l eq_refl). rewrite Forall_forall in H, K, T. cbn in E.
  assert (Hk : forall p s, In p l -> to_dart k (fst p) = Ok (VStr s) -> text_of k (fst p) s).
  { intros p s Hp Ep. destruct (H p Hp). destruct (K p Hp). apply to_dart_stored; auto. }
  destruct (multi_shape o k x l v Hn Hk K1 E) as (kxs & F & G & N & S & ->). clear E.
  destruct G as (G1 & G2 & G3 & G4). set (acc := accum_all o (to_dart x) l) in *.
  assert (KEY : forall p q s, In p l -> In q l -> text_of k (fst p) s -> text_of k (fst q) s -> fst p = fst q).
  { intros p q s Hp Hq S1 S2. pose proof (text_back k (fst p) s S1 (proj1 (T p Hp))) as B1.
    pose proof (text_back k (fst q) s S2 (proj1 (T q Hq))) as B2. rewrite B1 in B2. apply Ok_inj in B2. auto. }
  assert (GIN : forall g, In g acc -> exists p, In p l /\ fst p = fst g).
  { intros g Hg. apply accum_from in Hg. apply in_map_iff in Hg. destruct Hg as (p & ? & ?). eauto. }
  assert (TXT : forall p, In p l -> exists s, text_of k (fst p) s).
  { intros p Hp. destruct (G2 p Hp) as (g & Hg & Eg). destruct (GIN g Hg) as (q & Hq & Eq). rewrite <- Eq in Eg.
    apply (K1 p q Hp Hq) in Eg. destruct Eg as (s & ? & _). eauto. }
  assert (EQ : forall a b, In a (map fst l) -> In b (map fst l) -> (equiv o a b = true <-> a = b)).
  { intros a b Ha Hb. apply in_map_iff in Ha. apply in_map_iff in Hb. destruct Ha as (p & <- & Hp). destruct Hb as (q & <- & Hq).
    rewrite (K1 p q Hp Hq). split.
    - intros (s & S1 & S2). eapply KEY; eauto.
    - intros Epq. destruct (TXT p Hp) as (s & Hs). exists s. split; [exact Hs|]. rewrite <- Epq. exact Hs. }
  destruct (put_all_perm kxs N S) as (P & SS & _). set (fs := put_all kxs []) in *.
  set (Q := fun (q : str * value) (h : cval * list cval) =>
    from_dart k (VStr (fst q)) = Ok (fst h) /\ text_of k (fst h) (fst q) /\ In (fst h) (map fst l) /\
    exists ws, snd q = VArr ws /\ Forall2 (fun w y => from_dart x w = Ok y) ws (snd h) /\
      Forall2 (fun p y => alike x (snd p) y) (filter (fun p => equiv o (fst p) (fst h)) l) (snd h)).
  assert (HQ : Forall (fun q => exists h, Q q h) kxs).
  { apply Forall_forall. intros q Hq. destruct (forall2_in_r _ _ _ _ _ _ F Hq) as (g & Hg & E1 & ws & E2 & E3).
    destruct (GIN g Hg) as (p & Hp & Ep). rewrite Forall_forall in G1. destruct (G1 g Hg) as [_ Gs].
    rewrite <- Ep in E1. pose proof (Hk p _ Hp E1) as Tp. rewrite Gs in E3. apply collect_map_ok in E3.
    assert (Y : exists ys, Forall2 (fun (pw : (cval * cval) * value) y => from_dart x (snd pw) = Ok y /\ alike x (snd (fst pw)) y)
                            (combine (filter (fun p => equiv o (fst p) (fst g)) l) ws) ys).
    { apply forall2_exist. apply Forall_forall. intros [p' w] Hpw.
      pose proof (in_combine_l _ _ _ _ Hpw) as Hl. apply filter_In in Hl. destruct Hl as [Hl _].
      assert (Ew : to_dart x (snd p') = Ok w).
      { clear -E3 Hpw. revert Hpw. induction E3 as [|a b r s Hab _ IH]; cbn; [tauto|]. intros [[= -> ->]|Hr]; auto. }
      destruct (H p' Hl). destruct (K p' Hl). destruct (T p' Hl). cbn. eapply IHx; eauto. }
    destruct Y as (ys & HY). pose proof (forall2_len _ _ _ _ _ E3) as Len.
    exists (fst p, ys). unfold Q. cbn [fst snd]. split; [|split; [|split]].
    - apply text_back; auto. apply T; auto.
    - auto.
    - apply in_map; auto.
    - exists ws. split; [auto|]. rewrite Ep. clear -HY Len. revert ws ys HY Len.
      induction (filter (fun p0 => equiv o (fst p0) (fst g)) l) as [|a r IH]; intros [|w ws] ys HY Len; cbn in *; try discriminate.
      + inversion HY; subst. auto.
      + inversion HY as [|? y ? ys' [Y1 Y2] HY']; subst. injection Len as Len. destruct (IH ws ys' HY' Len). split; constructor; auto. }
  assert (HQ' : Forall (fun q => exists h, Q q h) fs) by (eapply Permutation_Forall; eauto).
  apply forall2_exist in HQ'. destruct HQ' as (gs & HGS).
  set (L := concat (map (fun g => map (pair (fst g)) (snd g)) gs)).
  assert (CG : collect_groups (map (fun p => (from_dart k (VStr (fst p)), match snd p with VArr ws => map (from_dart x) ws | w => [from_dart x w] end)) fs) = Ok L).
  { apply groups_ok. exists gs. split; auto. rewrite forall2_map_l. revert HGS. apply forall2_impl.
    intros q h (A1 & _ & _ & ws & A2 & A3 & _). cbn. split; auto. rewrite A2. apply collect_map_ok. auto. }
  exists (CMap (emplace_all fst o true L)). cbn [from_dart]. rewrite CG. split; [auto|].
  assert (NG : ForallOrdPairs (fun a b : cval * list cval => fst a <> fst b) gs).
  { apply (fop_nodup _ _ (fun h s => text_of k (fst h) s) _ gs fs).
    - intros a b s s' A1 A2 A3 A4. apply A3. rewrite A4 in A1. eapply text_unique; eauto.
    - revert HGS. apply forall2_impl. intros q h (_ & A & _). auto.
    - apply sorted_nodup. auto. }
  assert (SG : same_groups fst fst (alike_entry (alike k) (alike x)) (equiv o) (fun y => In y (map fst l)) l L).
  { split; [|split].
    - apply Forall_forall. intros; apply in_map; auto.
    - apply Forall_forall. intros q Hq. apply in_concat in Hq. destruct Hq as (r & Hr & Hq).
      apply in_map_iff in Hr. destruct Hr as (h & <- & Hh). apply in_map_iff in Hq. destruct Hq as (y & <- & _). cbn.
      destruct (forall2_in_r _ _ _ _ _ _ HGS Hh) as (q & _ & _ & _ & A & _). auto.
    - intros κ Dκ. pose proof Dκ as Dκ'. apply in_map_iff in Dκ'. destruct Dκ' as (p & Ep & Hp).
      destruct (G2 p Hp) as (g & Hg & Eg). destruct (GIN g Hg) as (p' & Hp' & Ep').
      rewrite Ep in Eg. rewrite <- Ep' in Eg. apply EQ in Eg; [|auto|apply in_map; auto].
      destruct (forall2_in_l _ _ _ _ _ _ F Hg) as (q & Hq & E1 & _). rewrite <- Ep' in E1. pose proof (Hk p' _ Hp' E1) as Tp.
      assert (Hqf : In q fs) by (eapply Permutation_in; eauto).
      destruct (forall2_in_l _ _ _ _ _ _ HGS Hqf) as (h & Hh & A1 & A2 & A3 & ws & A4 & A5 & A6).
      assert (Eh : fst h = κ).
      { rewrite (text_back k (fst p') (fst q) Tp) in A1 by (apply T; auto). apply Ok_inj in A1. congruence. }
      unfold L. rewrite (filter_groups (equiv o κ) gs h Hh).
      + rewrite forall2_map_r, Eh. rewrite Eh in A6.
        rewrite (filter_ext_in (fun p0 => equiv o κ (fst p0)) (fun p0 => equiv o (fst p0) κ)).
        * revert A6. apply forall2_in. intros a y Ha _ Hy. apply filter_In in Ha. destruct Ha as [Ha Ea].
          apply EQ in Ea; [|apply in_map; auto|auto]. split; cbn; [|auto]. rewrite <- Ea. apply alike_refl. apply H; auto.
        * intros a Ha. apply eq_true_iff_eq. rewrite !EQ by (auto; apply in_map; auto). split; auto.
      + rewrite Eh. apply EQ; auto.
      + auto.
      + intros h' Hh' Eh'. destruct (forall2_in_r _ _ _ _ _ _ HGS Hh') as (q' & _ & _ & _ & A' & _).
        apply EQ in Eh'; auto. congruence. }
  pose proof (multi_back _ o l L Ar EQ SG) as M. cbn [alike]. destruct o as [lt|keq eqeq].
  - eexists _, _. split; [reflexivity|]. split; [reflexivity|]. auto.
  - destruct M as (m & M1 & M2). eexists _, _, m. split; [reflexivity|]. split; [reflexivity|]. auto.
Qed.

Lemma forall_back A (f : A -> Prop) (P Q : A -> Prop) l : Forall P l -> (forall a, P a -> Q a) -> Forall Q l.
Proof. intros H G. revert H. apply Forall_impl. auto. Qed.

Theorem round_trip t : sound t -> forall c v, has t c -> everywhere keyed t c -> everywhere told_apart t c -> to_dart t c = Ok v ->
  exists c', from_dart t v = Ok c' /\ alike t c c'.
Proof.
  induction t as [ | |i| | | |sk a IH|o m a IH|o k x IHk IHx|o k x IHk IHx|a IH|a b IHa IHb|ts IH|ts IH] using cty_ind';
    intros So c v H K T E.
  - cbn in H. subst. cbn in E. apply Ok_inj in E. subst. exists CNull. cbn. auto.
  - destruct H as (b & ->). cbn in E. apply Ok_inj in E. subst. exists (CBool b). cbn. auto.
  - destruct H as (z & -> & R & B). cbn [to_dart] in E. apply Ok_inj in E. subst. exists (CInt z). cbn [from_dart].
    rewrite conv_back by auto. cbn. auto.
  - destruct H as (d & -> & _). cbn in E. apply Ok_inj in E. subst. exists (CDouble d). cbn. auto.
  - destruct H as (f & -> & R). cbn in E. apply Ok_inj in E. subst. exists (CFloat (Float.to_float (Dec.widen f))). cbn [from_dart]. split; [auto|].
    cbn. destruct (to_float_widen f R) as [X|[X Y]]; [left; congruence|].
    right. exists f, (Float.to_float (Dec.widen f)). auto.
  - destruct H as (s & ->). cbn in E. apply Ok_inj in E. subst. exists (CStr s). cbn. auto.
  - cbn in H. destruct H as (l & -> & Hn & H & Hk). destruct K as [_ K]. specialize (K l eq_refl).
    destruct T as [_ T]. specialize (T l eq_refl). cbn in E, So.
    apply push_all_ok in E; [|unfold zlen in *; rewrite map_length; cbn [length]; lia].
    destruct E as (ws & E & ->). apply collect_map_ok in E. cbn [app].
    assert (G : exists l', Forall2 (fun w y => from_dart a w = Ok y) ws l' /\ Forall2 (alike a) l l').
    { clear Hn Hk. revert H K T. induction E as [|y w l ws Ey E IHl]; intros H K T.
      - exists []. auto.
      - inversion H; inversion K; inversion T; subst. destruct IHl as (l' & F1 & F2); auto.
        destruct (IH So y w) as (y' & Y1 & Y2); auto. exists (y' :: l'). auto. }
    destruct G as (l' & F1 & F2). exists (CList l'). split.
    + cbn [from_dart]. pose proof (proj2 (collect_map_ok _ _ (from_dart a) ws l') F1) as C.
      pose proof (proj2 (put_in_front_map _ _ (from_dart a) ws l') F1) as C'.
      destruct sk; try (rewrite C; auto).
      * rewrite C'. auto.
      * destruct Hk as [Hk _]. rewrite <- (forall2_len _ _ _ _ _ E), Hk, Nat.eqb_refl, gather_id, C. auto.
    + cbn. exists l, l'. auto.
  - cbn in H. destruct H as (l & -> & Hn & H & Ar). destruct K as [_ K]. specialize (K l eq_refl).
    destruct T as [_ T]. specialize (T l eq_refl). cbn in E, So. destruct So as [So Ss].
    apply push_all_ok in E; [|unfold zlen in *; rewrite map_length; cbn [length]; lia].
    destruct E as (ws & E & ->). apply collect_map_ok in E. cbn [app].
    assert (G : exists l', Forall2 (fun w y => from_dart a w = Ok y) ws l' /\ Forall2 (alike a) l l').
    { clear Hn Ar. revert H K T. induction E as [|y w l ws Ey E IHl]; intros H K T.
      - exists []. auto.
      - inversion H; inversion K; inversion T; subst. destruct IHl as (l' & F1 & F2); auto.
        destruct (IH So y w) as (y' & Y1 & Y2); auto. exists (y' :: l'). auto. }
    destruct G as (l' & F1 & F2). exists (CList (emplace_all (fun y => y) o m l')). cbn [from_dart].
    rewrite (proj2 (collect_map_ok _ _ (from_dart a) ws l') F1). split; [auto|]. cbn [alike].
    destruct o as [lt|keq eqeq]; cbn in Ar, Ss.
    + destruct Ar as [[Ar _] _]. rewrite emplace_all_sorted.
      * exists l, l'. auto.
      * apply sorted_fop in Ar. revert Ar. apply (fop_forall2 _ _ _ _ (alike a)); auto.
        intros x x' y y' A1 A2 [A3 A4]. rewrite <- (Ss y y' x x') by auto. split; auto.
        intros Hm. rewrite <- (Ss x x' y y') by auto. auto.
    + exists l, (emplace_all (fun y => y) (Hashed keq eqeq) m l'), l'. split; [auto|]. split; [auto|]. split; [auto|].
      apply emplace_all_perm. destruct m; auto. right. destruct Ar as [Ar _]. specialize (Ar eq_refl).
      revert Ar. apply (fop_forall2 _ _ _ _ (alike a)); auto.
      intros x x' y y' A1 A2 [A3 A4]. cbn. rewrite <- (Ss y y' x x') by auto. auto.
  - cbn in H. destruct H as (l & -> & Hn & H & Ar). destruct K as [K1 K]. specialize (K1 l eq_refl). specialize (K l eq_refl).
    destruct T as [_ T]. specialize (T l eq_refl). cbn in E, So. destruct So as [Sk Sx].
    apply map_shape in E. destruct E as (kxs & E & S & ->).
    assert (N : NoDup (map fst kxs)).
    { apply nodup_texts with (T := fun p s => stored k (fst p) (VStr s)) (l := l); auto.
      rewrite forall2_map_r. revert E. apply forall2_in. rewrite Forall_forall in H, K. intros p q Hp _ [E1 _].
      destruct (H p Hp). destruct (K p Hp). apply to_dart_stored; auto. }
    destruct (put_all_perm kxs N S) as (P & SS & _). set (fs := put_all kxs []) in *.
    assert (G : exists m, Forall2 (fun q y => pair_of (from_dart k (VStr (fst q))) (from_dart x (snd q)) = Ok y) kxs m /\
                  Forall2 (alike_entry (alike k) (alike x)) l m /\ Forall2 (fun p q => fst p = fst q) l m).
    { clear K1 Hn Ar N P SS S fs. revert H K T. induction E as [|p q l kxs [E1 E2] E IHl]; intros H K T.
      - exists []. auto.
      - inversion H as [|? ? [H1 H2] H3]; inversion K as [|? ? [K1 K2] K3]; inversion T as [|? ? [T1 T2] T3]; subst.
        destruct IHl as (m & F1 & F2 & F3); auto. destruct (IHx Sx (snd p) (snd q)) as (y & Y1 & Y2); auto.
        pose proof (text_back k (fst p) (fst q) (to_dart_stored k _ _ E1 H1 K1) T1) as B.
        exists ((fst p, y) :: m). split; [|split]; constructor; auto.
        + rewrite B, Y1. auto.
        + split; cbn; auto. apply alike_refl. auto. }
    destruct G as (m & F1 & F2 & F3).
    destruct (perm_forall2 _ _ _ _ _ _ P F1) as (L & PL & F1').
    exists (CMap (emplace_all fst o false L)). cbn [from_dart].
    rewrite (proj2 (collect_map_ok _ _ _ fs L) F1'). split; [auto|].
    destruct (map_back o l L m Ar (map_eq_keys _ _ _ F3) PL) as [PE M]. cbn [alike].
    destruct o as [lt|keq eqeq].
    + rewrite <- M. exists l, m. auto.
    + eexists _, _, m. split; [reflexivity|]. split; [reflexivity|]. auto.
  - pose proof H as H0. cbn in H. destruct H as (l & -> & _). cbn in So. destruct So as [Sk Sx].
    apply multi_round; auto.
  - destruct K as [_ K]. destruct T as [T1 T]. cbn in H, So. destruct H as [->|(y & -> & H)]; cbn in E.
    + apply Ok_inj in E. subst. exists (COpt None). cbn. auto.
    + destruct (IH So y v) as (y' & Y1 & Y2); auto.
      assert (NN : v <> VNull).
      { intros ->. apply (T1 y eq_refl). apply to_dart_stored; auto. }
      exists (COpt (Some y')). split.
      * cbn. destruct v; try (rewrite Y1; auto). congruence.
      * cbn. right. exists y, y'. auto.
  - destruct K as [_ K]. destruct T as [_ T]. cbn in H, So. destruct So as [Sa Sb]. destruct H as (y & z & -> & H1 & H2).
    destruct (K y z eq_refl). destruct (T y z eq_refl). cbn [to_dart] in E.
    apply push_all_ok in E; [|unfold zlen; cbn [length]; lia]. destruct E as (ws & E & ->).
    apply collect_ok in E. inversion E as [|? w ? ? E1 E2]; subst. inversion E2 as [|? u ? ? E3 E4]; subst. inversion E4; subst.
    destruct (IHa Sa y w) as (y' & Y1 & Y2); auto. destruct (IHb Sb z u) as (z' & Z1 & Z2); auto.
    exists (CList [y'; z']). cbn. rewrite Y1, Z1. cbn. split; [auto|]. exists y, z, y', z'. auto.
  - destruct K as [_ K]. destruct T as [_ T]. cbn in H, So. destruct H as (l & -> & Hn & H). specialize (K l eq_refl). specialize (T l eq_refl).
    cbn [to_dart] in E. pose proof (zip_len _ _ H) as Hl.
    assert (Hz : length (zip_with to_dart ts l) = length l).
    { clear -Hl. revert l Hl. induction ts; intros [|? ?] ?; cbn in *; auto; discriminate. }
    apply push_all_ok in E; [|unfold zlen in *; rewrite Hz; cbn [length]; lia]. destruct E as (ws & E & ->).
    apply collect_zip in E; auto. cbn [app].
    assert (Hw : length ws = length ts).
    { clear -E. revert l ws E. induction ts as [|a ts IH]; intros [|y l] [|w ws] E; cbn in *; try tauto. f_equal. destruct E. eauto. }
    assert (G : exists l', zip3 (fun a w y => from_dart a w = Ok y) ts ws l' /\ zip3 alike ts l l').
    { clear Hn Hl Hz Hw. revert l ws H K T E. induction IH as [|a ts Ha _ IH]; intros [|y l] [|w ws] H K T E; cbn in *; try tauto.
      - exists []. auto.
      - destruct H, K, T, E, So as [Sa St]. destruct (IH St l ws) as (l' & F1 & F2); auto.
        destruct (Ha Sa y w) as (y' & Y1 & Y2); auto. exists (y' :: l'). auto. }
    destruct G as (l' & F1 & F2). exists (CList l'). cbn [from_dart]. rewrite Hw, Nat.eqb_refl, gather_id.
    apply collect_zip in F1; auto. rewrite F1. split; [auto|]. cbn. exists l, l'. auto.
  - destruct K as [_ K]. destruct T as [T1 T]. cbn in H, So. destruct H as (i & y & -> & H). specialize (K i y eq_refl). specialize (T i y eq_refl).
    cbn [to_dart] in E. rewrite pick_res_nth in E. apply pick_iff in H. apply pick_iff in K. apply pick_iff in T.
    destruct H as (a & En & H). destruct K as (a' & En' & K). rewrite En in En'. injection En' as <-.
    destruct T as (a' & En' & T). rewrite En in En', E. injection En' as <-. apply all_iff in So. rewrite Forall_forall in So, IH.
    destruct (IH a (nth_error_In _ _ En) (So a (nth_error_In _ _ En)) y v) as (y' & Y1 & Y2); auto.
    specialize (T1 i y a v eq_refl En (to_dart_stored _ _ _ E H K)).
    exists (CVar i y'). split.
    + cbn [from_dart].
      destruct (first_ok_spec (fun a => from_dart a v) ts 0 (fun a => tame_from a v)) as [(j & b & c & H1 & H2 & H3 & ->)|[H1 _]].
      * destruct (Nat.lt_trichotomy j i) as [L|[->|L]].
        -- exfalso. apply (T1 j b L H1). apply reads_ok. eauto.
        -- rewrite En in H1. injection H1 as <-. cbn in H2. rewrite Y1 in H2. apply Ok_inj in H2. subst. auto.
        -- specialize (H3 i a L En). cbn in H3. rewrite Y1 in H3. discriminate.
      * rewrite Forall_forall in H1. specialize (H1 a (nth_error_In _ _ En)). cbn in H1. rewrite Y1 in H1. discriminate.
    + cbn. exists i, y, y'. split; [auto|]. split; [auto|]. apply pick_iff. eauto.
Qed.
