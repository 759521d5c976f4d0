(** Filling ordered and hashed containers. *)

From Coq Require Import ZArith List Bool Lia Sorting.Sorted Sorting.Permutation.
From Verif Require Import Base BaseFacts Keys Wire Spec Ordered SpecConv Conv ConvBase.
Import ListNotations.
Open Scope Z_scope.

Lemma perm_forall2 A B (R : A -> B -> Prop) l l' r :
  Permutation l l' -> Forall2 R l r -> exists r', Permutation r r' /\ Forall2 R l' r'.
Proof.
  intros P; revert r; induction P as [|x l l' P IH|x y l|l l' l'' P1 IH1 P2 IH2]; intros r H.
  - inversion H; subst. exists []. auto.
  - inversion H as [|? b ? r0 H1 H2]; subst. destruct (IH _ H2) as (r' & Q & F). exists (b :: r'). auto.
  - inversion H as [|? b ? r0 H1 H2]; subst. inversion H2 as [|? c ? r1 H3 H4]; subst.
    exists (c :: b :: r1). split; [constructor|]. auto.
  - destruct (IH1 _ H) as (r1 & Q1 & F1). destruct (IH2 _ F1) as (r2 & Q2 & F2).
    exists r2. split; auto. transitivity r1; auto.
Qed.

Lemma fop_perm A (R : A -> A -> Prop) l l' : (forall x y, R x y -> R y x) ->
  Permutation l l' -> ForallOrdPairs R l -> ForallOrdPairs R l'.
Proof.
  intros Sym P; induction P as [|x l l' P IH|x y l|l l' l'' P1 IH1 P2 IH2]; intros H; auto.
  - inversion H; subst. constructor; auto. eapply Permutation_Forall; eauto.
  - inversion H as [|? ? H1 H2]; subst. inversion H1; subst. inversion H2; subst.
    constructor; [constructor; auto|]. constructor; auto.
Qed.

Section Emplace.
  Context {A : Type} (key : A -> cval).

  Lemma emplace_at_perm lt (x : A) l : Permutation (x :: l) (emplace_at key lt x l).
  Proof.
    induction l as [|y l IH]; cbn; auto. destruct (lt (key x) (key y)); auto.
    rewrite perm_swap. constructor. auto.
  Qed.
  Lemma emplace_hashed_perm keq (x : A) l : Permutation (x :: l) (emplace_hashed key keq x l).
  Proof.
    induction l as [|y l IH]; cbn; auto.
    destruct (keq (key x) (key y) && _); [apply perm_swap|].
    rewrite perm_swap. constructor. auto.
  Qed.
  Lemma emplace_perm o multi (x : A) l :
    multi = true \/ Forall (fun y => equiv o (key x) (key y) = false) l ->
    emplace key o multi x l = match o with Ordered lt => emplace_at key lt x l | Hashed keq _ => emplace_hashed key keq x l end /\
    Permutation (x :: l) (emplace key o multi x l).
  Proof.
    intros H. unfold emplace.
    assert (E : negb multi && existsb (fun y => equiv o (key x) (key y)) l = false).
    { destruct H as [->|H]; auto. apply andb_false_intro2. apply not_true_iff_false. intros X.
      apply existsb_exists in X. destruct X as (y & Hy & X). rewrite Forall_forall in H. rewrite (H y Hy) in X. discriminate. }
    rewrite E. split; auto. destruct o; [apply emplace_at_perm | apply emplace_hashed_perm].
  Qed.

  Lemma emplace_all_snoc o multi l (x : A) :
    emplace_all key o multi (l ++ [x]) = emplace key o multi x (emplace_all key o multi l).
  Proof. unfold emplace_all. rewrite fold_left_app. auto. Qed.

  Lemma fop_snoc (R : A -> A -> Prop) l x : ForallOrdPairs R (l ++ [x]) -> ForallOrdPairs R l /\ Forall (fun y => R y x) l.
  Proof.
    induction l as [|y l IH]; cbn; intros H; [split; constructor|].
    inversion H as [|? ? H1 H2]; subst. destruct (IH H2) as [I1 I2]. apply Forall_app in H1. destruct H1 as [Ha Hb].
    inversion Hb; subst. split; constructor; auto.
  Qed.

  Lemma emplace_all_perm o multi l :
    multi = true \/ ForallOrdPairs (fun x y => equiv o (key y) (key x) = false) l ->
    Permutation l (emplace_all key o multi l).
  Proof.
    induction l as [|x l IH] using rev_ind; intros H; [constructor|].
    rewrite emplace_all_snoc.
    assert (H' : multi = true \/ ForallOrdPairs (fun x y => equiv o (key y) (key x) = false) l).
    { destruct H; auto. right. eapply fop_snoc; eauto. }
    assert (C : multi = true \/ Forall (fun y => equiv o (key x) (key y) = false) (emplace_all key o multi l)).
    { destruct H as [H|H]; auto. right. apply fop_snoc in H. destruct H as [_ H].
      eapply Permutation_Forall; [apply IH; auto | exact H]. }
    rewrite <- (proj2 (emplace_perm o multi x _ C)).
    rewrite <- Permutation_cons_append. constructor. auto.
  Qed.

  (** Already sorted *)
  Lemma emplace_at_end lt (x : A) l : Forall (fun y => lt (key x) (key y) = false) l -> emplace_at key lt x l = l ++ [x].
  Proof. induction 1 as [|y l Hy _ IH]; cbn; auto. rewrite Hy, IH. auto. Qed.

  Lemma emplace_all_sorted lt multi l :
    ForallOrdPairs (fun x y => lt (key y) (key x) = false /\ (multi = false -> lt (key x) (key y) = true)) l ->
    emplace_all key (Ordered lt) multi l = l.
  Proof.
    induction l as [|x l IH] using rev_ind; intros H; [auto|].
    apply fop_snoc in H. destruct H as [H1 H2]. rewrite emplace_all_snoc, IH by auto.
    assert (C : multi = true \/ Forall (fun y => equiv (Ordered lt) (key x) (key y) = false) l).
    { destruct multi; auto. right. revert H2. apply Forall_impl. intros y [H3 H4]. cbn. rewrite H4 by auto.
      apply andb_false_r. }
    rewrite (proj1 (emplace_perm (Ordered lt) multi x l C)).
    apply emplace_at_end. revert H2. apply Forall_impl. tauto.
  Qed.

  (** ** Ordered keys *)
  Section Total.
    Context (D : cval -> Prop) (lt : cval -> cval -> bool).
    Hypothesis irr : forall x, D x -> lt x x = false.
    Hypothesis trans : forall x y z, D x -> D y -> D z -> lt x y = true -> lt y z = true -> lt x z = true.
    Hypothesis anti : forall x y, D x -> D y -> lt x y = false -> lt y x = false -> x = y.

    Let sorted (l : list A) := StronglySorted (fun p q => lt (key q) (key p) = false) l.
    Let inD (l : list A) := Forall (fun p => D (key p)) l.

    Lemma asym x y : D x -> D y -> lt x y = true -> lt y x = false.
    Proof.
      intros Hx Hy H. destruct (lt y x) eqn:E; auto. pose proof (trans x y x Hx Hy Hx H E). rewrite irr in *; auto.
    Qed.

    Lemma emplace_at_sorted (x : A) l : inD l -> D (key x) -> sorted l -> sorted (emplace_at key lt x l).
    Proof.
      unfold inD, sorted. induction l as [|y l IH]; intros I Dx S; cbn.
      - constructor; constructor.
      - inversion I as [|? ? Dy I']; subst. inversion S as [|? ? S1 S2]; subst.
        destruct (lt (key x) (key y)) eqn:E.
        + constructor; auto. constructor; [apply asym; auto|].
          rewrite Forall_forall in *. intros z Hz. destruct (lt (key z) (key x)) eqn:X; auto.
          specialize (S2 z Hz). rewrite (trans (key z) (key x) (key y)) in S2 by auto. discriminate.
        + constructor; auto. eapply Permutation_Forall; [apply emplace_at_perm|]. constructor; auto.
    Qed.

    Lemma emplace_at_filter κ (x : A) l : inD l -> D (key x) -> D κ -> sorted l ->
      filter (fun q => equiv (Ordered lt) κ (key q)) (emplace_at key lt x l) =
      filter (fun q => equiv (Ordered lt) κ (key q)) l ++ (if equiv (Ordered lt) κ (key x) then [x] else []).
    Proof.
      unfold inD, sorted. intros I Dx Dκ. revert I. induction l as [|y l IH]; intros I S; cbn [emplace_at filter].
      - destruct (equiv _ κ (key x)); auto.
      - inversion I as [|? ? Dy I']; subst. inversion S as [|? ? S1 S2]; subst.
        destruct (lt (key x) (key y)) eqn:E.
        + cbn [filter]. destruct (equiv (Ordered lt) κ (key x)) eqn:Ex.
          2: rewrite app_nil_r; auto.
          cbn in Ex. apply andb_prop in Ex. destruct Ex as [X1 X2]. rewrite negb_true_iff in X1, X2.
          assert (κ = key x) by (apply anti; auto). subst κ.
          assert (Z : forall z, In z (y :: l) -> equiv (Ordered lt) (key x) (key z) = false).
          { intros z Hz. destruct (equiv (Ordered lt) (key x) (key z)) eqn:Ez; auto. exfalso.
            cbn in Ez. apply andb_prop in Ez. destruct Ez as [Y1 Y2]. rewrite negb_true_iff in Y1, Y2.
            rewrite Forall_forall in I', S2. destruct Hz as [->|Hz]; [congruence|].
            assert (key x = key z) by (apply anti; auto). specialize (S2 z Hz). congruence. }
          assert (W : filter (fun q => equiv (Ordered lt) (key x) (key q)) (y :: l) = []).
          { clear -Z. induction (y :: l) as [|z r IH]; cbn [filter]; auto.
            rewrite Z by (cbn; auto). apply IH. intros; apply Z; cbn; auto. }
          cbn [filter] in W. rewrite W. auto.
        + cbn [filter]. rewrite IH by auto. destruct (equiv _ κ (key y)); auto.
    Qed.

    Lemma emplace_all_multi l : inD l ->
      sorted (emplace_all key (Ordered lt) true l) /\
      forall κ, D κ -> filter (fun q => equiv (Ordered lt) κ (key q)) (emplace_all key (Ordered lt) true l) =
                       filter (fun q => equiv (Ordered lt) κ (key q)) l.
    Proof.
      unfold inD. induction l as [|x l IH] using rev_ind; intros I.
      - split; [constructor | auto].
      - apply Forall_app in I. destruct I as [I Ix]. inversion Ix; subst.
        destruct (IH I) as [S F]. rewrite emplace_all_snoc.
        rewrite (proj1 (emplace_perm (Ordered lt) true x _ (or_introl eq_refl))).
        assert (I' : Forall (fun p => D (key p)) (emplace_all key (Ordered lt) true l)).
        { eapply Permutation_Forall; [apply emplace_all_perm; auto | auto]. }
        split; [apply emplace_at_sorted; auto|].
        intros κ Dκ. rewrite emplace_at_filter by auto. rewrite F by auto.
        rewrite filter_app. cbn. destruct (_ && _); auto.
    Qed.

    Lemma emplace_all_map l : inD l ->
      ForallOrdPairs (fun x y => equiv (Ordered lt) (key y) (key x) = false) l ->
      sorted (emplace_all key (Ordered lt) false l).
    Proof.
      unfold inD. induction l as [|x l IH] using rev_ind; intros I N.
      - constructor.
      - apply Forall_app in I. destruct I as [I Ix]. inversion Ix; subst.
        apply fop_snoc in N. destruct N as [N Nx].
        assert (P : Permutation l (emplace_all key (Ordered lt) false l)) by (apply emplace_all_perm; auto).
        rewrite emplace_all_snoc. rewrite (proj1 (emplace_perm (Ordered lt) false x _ (or_intror (Permutation_Forall P Nx)))).
        apply emplace_at_sorted; auto. exact (Permutation_Forall P I).
    Qed.

    Lemma sorted_perm_unique l l' : inD l -> sorted l -> sorted l' -> Permutation l l' ->
      ForallOrdPairs (fun x y => equiv (Ordered lt) (key x) (key y) = false) l -> l = l'.
    Proof.
      unfold inD, sorted. revert l'. induction l as [|p l IH]; intros l' I S S' P N.
      - apply Permutation_nil in P. auto.
      - destruct l' as [|q l']; [symmetry in P; apply Permutation_nil in P; discriminate|].
        inversion I as [|? ? Dp I']; subst. inversion S as [|? ? S1 S2]; subst. inversion S' as [|? ? S3 S4]; subst.
        inversion N as [|? ? N1 N2]; subst.
        assert (Hq : In q (p :: l)) by (eapply Permutation_in; [symmetry; eauto | cbn; auto]).
        assert (Hp : In p (q :: l')) by (eapply Permutation_in; [eauto | cbn; auto]).
        assert (p = q).
        { destruct Hq as [Hq|Hq]; auto. destruct Hp as [Hp|Hp]; auto. exfalso.
          rewrite Forall_forall in *. specialize (S2 q Hq). specialize (S4 p Hp). specialize (N1 q Hq).
          cbn in N1. rewrite S2, S4 in N1. discriminate. }
        subst q. f_equal. apply IH; auto. eapply Permutation_cons_inv; eauto.
    Qed.
  End Total.
End Emplace.

(** ** Lists with the same groups *)
Section Same.
  Context {A B : Type} (ka : A -> cval) (kb : B -> cval) (R : A -> B -> Prop) (e : cval -> cval -> bool) (D : cval -> Prop).
  Hypothesis eD : forall x y, D x -> D y -> (e x y = true <-> x = y).

  Definition same_groups (l : list A) (r : list B) : Prop :=
    Forall (fun p => D (ka p)) l /\ Forall (fun q => D (kb q)) r /\
    forall κ, D κ -> Forall2 R (filter (fun p => e κ (ka p)) l) (filter (fun q => e κ (kb q)) r).

  Lemma groups_nil r : same_groups [] r -> r = [].
  Proof.
    intros (_ & H2 & H3). destruct r as [|q r]; auto. inversion H2 as [|? ? Dq _]; subst. specialize (H3 (kb q) Dq). cbn in H3.
    assert (X : e (kb q) (kb q) = true) by (apply eD; auto). rewrite X in H3. inversion H3.
  Qed.

  Lemma groups_remove p l r : same_groups (p :: l) r ->
    exists r1 q r2, r = r1 ++ q :: r2 /\ R p q /\ ka p = kb q /\ Forall (fun q' => kb q' <> ka p) r1 /\ same_groups l (r1 ++ r2).
  Proof.
    intros (H1 & H2 & H3). inversion H1 as [|? ? Dp H1']; subst.
    pose proof (H3 (ka p) Dp) as Hp. cbn [filter] in Hp.
    assert (X : e (ka p) (ka p) = true) by (apply eD; auto). rewrite X in Hp.
    inversion Hp as [|? q ? rest Rpq Hrest Ep Eq]. clear Hp.
    assert (S : exists r1 r2, r = r1 ++ q :: r2 /\ Forall (fun q' => kb q' <> ka p) r1 /\ kb q = ka p /\ rest = filter (fun q => e (ka p) (kb q)) r2).
    { clear -Eq H2 Dp eD. revert Eq. induction r as [|q' r IH]; cbn; intros Eq; [discriminate|].
      inversion H2 as [|? ? Dq H2']; subst. destruct (e (ka p) (kb q')) eqn:E.
      - injection Eq as -> ->. exists [], r. split; auto. split; [constructor|]. split; auto. symmetry. apply eD; auto.
      - destruct (IH H2' Eq) as (r1 & r2 & -> & F & E1 & E2). exists (q' :: r1), r2. split; auto. split; [|auto].
        constructor; auto. intros X. assert (e (ka p) (kb q') = true) by (apply eD; auto). congruence. }
    destruct S as (r1 & r2 & -> & F & Ekey & Erest).
    exists r1, q, r2. split; [auto|]. split; [auto|]. split; [auto|]. split; [auto|].
    apply Forall_app in H2. destruct H2 as [H2a H2b]. inversion H2b as [|? ? Dq H2c]; subst.
    split; [auto|]. split; [apply Forall_app; auto|].
    intros κ Dκ. specialize (H3 κ Dκ). cbn [filter] in H3. rewrite filter_app in *. cbn [filter] in H3.
    rewrite Ekey in H3.
    destruct (e κ (ka p)) eqn:E; auto.
    assert (κ = ka p) by (apply eD; auto). subst κ.
    assert (N : filter (fun q0 => e (ka p) (kb q0)) r1 = []).
    { clear -F H2a eD Dp. induction r1 as [|q' r1 IH]; cbn; auto. inversion F; inversion H2a; subst.
      destruct (e (ka p) (kb q')) eqn:E; auto. exfalso. apply eD in E; auto. }
    rewrite N in *. cbn [app] in *. inversion H3; auto.
  Qed.

  Lemma groups_permute l r : same_groups l r -> exists m, Forall2 R l m /\ Permutation m r.
  Proof.
    revert r. induction l as [|p l IH]; intros r H.
    - apply groups_nil in H. subst. exists []. auto.
    - apply groups_remove in H. destruct H as (r1 & q & r2 & -> & H1 & _ & _ & H2).
      destruct (IH _ H2) as (m & F & P). exists (q :: m). split; auto.
      rewrite <- Permutation_middle. auto.
  Qed.

  Lemma groups_sorted (lt : cval -> cval -> bool) l r :
    (forall x y, D x -> D y -> lt x y = false -> lt y x = false -> x = y) ->
    StronglySorted (fun p q => lt (ka q) (ka p) = false) l -> StronglySorted (fun p q => lt (kb q) (kb p) = false) r ->
    same_groups l r -> Forall2 R l r.
  Proof.
    intros anti. revert r. induction l as [|p l IH]; intros r Sl Sr H.
    - apply groups_nil in H. subst. constructor.
    - pose proof H as H0. apply groups_remove in H. destruct H as (r1 & q & r2 & -> & H1 & Ek & N & H2).
      destruct r1 as [|q1 r1].
      + cbn in *. inversion Sl; inversion Sr; subst. constructor; auto.
      + exfalso. cbn in *. inversion N as [|? ? N1 _]; subst. apply N1.
        destruct H0 as (D1 & D2 & H3). inversion D1 as [|? ? Dp D1']; subst. inversion D2 as [|? ? Dq1 _]; subst.
        inversion Sr as [|? ? _ Sr1]; subst. apply Forall_app in Sr1. destruct Sr1 as [_ Sr1]. inversion Sr1 as [|? ? Sq _]; subst.
        rewrite <- Ek in Sq.
        (* q1's key is in l *)
        destruct H2 as (_ & _ & H2). specialize (H2 (kb q1) Dq1). cbn [filter] in H2.
        assert (X : e (kb q1) (kb q1) = true) by (apply eD; auto). rewrite X in H2.
        inversion H2 as [|p' ? ? ? _ _ Ep' Eq']. assert (Hp' : In p' (filter (fun p => e (kb q1) (ka p)) l)) by (rewrite <- Ep'; cbn; auto).
        apply filter_In in Hp'. destruct Hp' as [Hp' Ep].
        rewrite Forall_forall in D1'. apply eD in Ep; auto.
        inversion Sl as [|? ? _ Sl1]; subst. rewrite Forall_forall in Sl1. specialize (Sl1 p' Hp'). rewrite <- Ep in Sl1.
        apply anti; auto.
  Qed.
End Same.

(** ** Positions give an order *)
Section Positions.
  Context (lt : cval -> cval -> bool) (ks : list cval).
  Hypothesis sorted : StronglySorted (fun x y => lt y x = false) ks.
  Hypothesis irr : Forall (fun x => lt x x = false) ks.
  Hypothesis anti : forall x y, In x ks -> In y ks -> lt x y = false -> lt y x = false -> x = y.

  Lemma sorted_nth i j x y : StronglySorted (fun x y => lt y x = false) ks ->
    nth_error ks i = Some x -> nth_error ks j = Some y -> (i < j)%nat -> lt y x = false.
  Proof.
    clear. intros S. revert i j. induction S as [|a l S IH F]; intros [|i] [|j] Hi Hj Hij; cbn in *; try discriminate; try lia.
    - injection Hi as <-. rewrite Forall_forall in F. apply F. eapply nth_error_In; eauto.
    - apply (IH i j); auto. lia.
  Qed.

  Lemma lt_index i j x y : nth_error ks i = Some x -> nth_error ks j = Some y -> lt x y = true -> (i < j)%nat.
  Proof.
    intros Hi Hj H. destruct (Nat.lt_trichotomy i j) as [L|[->|L]]; auto.
    - rewrite Hi in Hj. injection Hj as <-. rewrite Forall_forall in irr. rewrite irr in H; [discriminate|]. eapply nth_error_In; eauto.
    - rewrite (sorted_nth j i y x) in H by auto. discriminate.
  Qed.

  Lemma lt_trans x y z : In x ks -> In y ks -> In z ks -> lt x y = true -> lt y z = true -> lt x z = true.
  Proof.
    intros Hx Hy Hz H1 H2. destruct (lt x z) eqn:E; auto. exfalso.
    apply In_nth_error in Hx. apply In_nth_error in Hy. apply In_nth_error in Hz.
    destruct Hx as [i Hi]. destruct Hy as [j Hj]. destruct Hz as [k Hk].
    pose proof (lt_index i j x y Hi Hj H1). pose proof (lt_index j k y z Hj Hk H2).
    assert (lt z x = false) by (apply (sorted_nth i k); auto; lia).
    assert (x = z) by (apply anti; eauto using nth_error_In). subst z.
    pose proof (lt_index j i y x Hj Hi H2). lia.
  Qed.
End Positions.
