(** What a C++ value is kept as. *)

From Coq Require Import ZArith List Bool Lia Sorting.Sorted Sorting.Permutation.
From Verif Require Import Base BaseFacts Keys KeysFacts Wire Spec SpecDec Ordered HeapOps HeapFacts BufFacts Lookup Canon JsonFacts JsonSame MakeFacts
  SpecConv Conv ConvBase ConvNum.
Import ListNotations.
Open Scope Z_scope.

(** ** Objects *)
Definition field_of (e : res value * res value) (p : str * value) : Prop :=
  fst e = Ok (VStr (fst p)) /\ snd e = Ok (snd p).
Definition short (p : str * value) : Prop := zlen (fst p) <= 65535.

Lemma add_fields_ok l fs v : StronglySorted key_lt (map fst fs) ->
  (add_fields l (VObj fs) = Ok v <->
   exists kxs, Forall2 field_of l kxs /\ Forall short kxs /\ v = VObj (put_all kxs fs)).
Proof.
  revert fs; induction l as [|[ek ex] l IH]; intros fs S.
  - cbn. split.
    + intros [= <-]. exists []. auto.
    + intros (kxs & H & _ & ->). inversion H. auto.
  - cbn [add_fields].
    destruct ek as [k|e| | |]; cbn [bind].
    2-5: split; [discriminate | intros (kxs & H & _); inversion H as [|? ? ? ? [X _]]; discriminate].
    destruct ex as [x|e| | |]; cbn [bind].
    2-5: split; [discriminate | intros (kxs & H & _); inversion H as [|? ? ? ? [_ X]]; discriminate].
    destruct k as [gs|ws|s|z|d|b|].
    1,2,4,5,6,7: split; [intros X; discriminate | intros (kxs & H & _); inversion H as [|? ? ? ? [X _]]; discriminate].
    destruct (Z_le_gt_dec (zlen s) 65535) as [L|L].
    + destruct (put_ok s x fs S L) as (i & -> & S' & _). cbn [bind].
      rewrite IH by auto. split.
      * intros (kxs & H1 & H2 & ->). exists ((s, x) :: kxs).
        split; [constructor; [split; auto | auto]|]. split; [constructor; auto|]. auto.
      * intros (kxs & H1 & H2 & ->). inversion H1 as [|? [s' x'] ? kxs' [X Y] H1']; subst.
        apply Ok_inj in X. apply Ok_inj in Y. cbn in X, Y. injection X as <-. subst x'.
        inversion H2; subst. exists kxs'. auto.
    + rewrite insert_long by lia. cbn [bind]. split; [discriminate|].
      intros (kxs & H & K & _). inversion H as [|? [s' x'] ? kxs' [X Y] H']; subst.
      apply Ok_inj in X. cbn in X. injection X as <-. inversion K as [|? ? K1]; subst. unfold short in K1. cbn in K1. lia.
Qed.

Lemma perm_lookup (l r : list (str * value)) :
  NoDup (map fst l) -> NoDup (map fst r) -> (forall k, lookup k l = lookup k r) -> Permutation l r.
Proof.
  intros Nl Nr H. apply NoDup_Permutation.
  - eapply NoDup_map_inv; eauto.
  - eapply NoDup_map_inv; eauto.
  - assert (G : forall a b : list (str * value), NoDup (map fst a) -> (forall k, lookup k a = lookup k b) -> forall p, In p a -> In p b).
    { intros a b Na Hab [k x] Hin. apply lookup_in. rewrite <- Hab. apply JsonSame.in_lookup; auto. }
    intros p. split; [apply G; auto | apply G; auto].
Qed.

Lemma lookup_rev (l : list (str * value)) k : NoDup (map fst l) -> lookup k (rev l) = lookup k l.
Proof.
  intros N. symmetry. apply MakeFacts.lookup_perm; auto. apply Permutation_rev.
Qed.

Lemma put_all_perm kxs : NoDup (map fst kxs) -> Forall short kxs ->
  Permutation kxs (put_all kxs []) /\ StronglySorted key_lt (map fst (put_all kxs [])) /\
  forall k, lookup k (put_all kxs []) = lookup k kxs.
Proof.
  intros N K. destruct (put_all_lookup kxs K [] ltac:(constructor)) as [S Q].
  assert (Q' : forall k, lookup k (put_all kxs []) = lookup k kxs).
  { intros k. rewrite Q, lookup_rev by auto. cbn. destruct (lookup k kxs); auto. }
  split; [|auto]. apply perm_lookup; auto. apply sorted_nodup; auto.
Qed.

(** ** The text of a key *)
Lemma text_unique t c s s' : stored t c (VStr s) -> stored t c (VStr s') -> s = s'.
Proof.
  revert c; induction t as [ | |i| | | |k a IH|o m a IH|o k x IHk IHx|o k x IHk IHx|a IH|a b IHa IHb|ts IH|ts IH] using cty_ind';
    intros c; cbn.
  - intros [_ H]; discriminate.
  - intros (b & _ & H); discriminate.
  - intros (? & ? & _ & H & _); discriminate.
  - intros (? & _ & H); discriminate.
  - intros (? & ? & _ & H & _); discriminate.
  - intros (x & -> & H) (y & H1 & H2). injection H1 as <-. congruence.
  - intros (? & ? & _ & H & _); discriminate.
  - intros (? & ? & _ & H & _); discriminate.
  - intros (? & ? & _ & H & _); discriminate.
  - intros (? & ? & _ & H & _); discriminate.
  - intros [[_ H]|(x & -> & H)]; [discriminate|]. intros [[H' _]|(x' & H' & H2)]; [discriminate|].
    injection H' as <-. eauto.
  - intros (? & ? & ? & ? & _ & H & _); discriminate.
  - intros (? & ? & _ & H & _); discriminate.
  - intros (i & x & -> & H) (i' & x' & E & H'). injection E as <- <-.
    apply pick_iff in H. apply pick_iff in H'. destruct H as (a & E & H). destruct H' as (a' & E' & H').
    rewrite E in E'. injection E' as <-. rewrite Forall_forall in IH.
    apply (IH a (nth_error_In _ _ E) x); auto.
Qed.

(** ** Grouping *)
Section Group.
  Context (o : order) (T : cval -> str -> Prop) (f : cval -> res value).
  Hypothesis Tdet : forall x s s', T x s -> T x s' -> s = s'.

  Definition agree (l : list (cval * cval)) : Prop := forall p q, In p l -> In q l ->
    (equiv o (fst p) (fst q) = true <-> exists s, T (fst p) s /\ T (fst q) s).

  Definition grouped (l : list (cval * cval)) (acc : list (cval * list (res value))) : Prop :=
    Forall (fun g => In (fst g) (map fst l) /\ snd g = map (fun p => f (snd p)) (filter (fun p => equiv o (fst p) (fst g)) l)) acc /\
    (forall p, In p l -> exists g, In g acc /\ equiv o (fst p) (fst g) = true) /\
    (forall g, In g acc -> exists s, T (fst g) s) /\
    ForallOrdPairs (fun g h => equiv o (fst g) (fst h) = false) acc.

  Lemma accum_keys k x acc g : In g acc -> exists xs, In (fst g, xs) (accum_add o k x acc).
  Proof.
    induction acc as [|[k' xs] acc IH]; cbn; [tauto|].
    intros [<-|H].
    - destruct (equiv o k k'); cbn; eauto.
    - destruct (equiv o k k'); cbn.
      + exists (snd g). right. destruct g; auto.
      + destruct (IH H) as (ys & ?); eauto.
  Qed.

  Lemma equiv_text l p q s : agree l -> In p l -> In q l -> T (fst p) s ->
    (equiv o (fst p) (fst q) = true <-> T (fst q) s).
  Proof.
    intros A Hp Hq Hs. rewrite (A p q Hp Hq). split.
    - intros (s' & H1 & H2). rewrite (Tdet _ _ _ Hs H1). auto.
    - eauto.
  Qed.

  Lemma accum_add_spec k x acc :
    (exists a k' xs b, acc = a ++ (k', xs) :: b /\ Forall (fun g => equiv o k (fst g) = false) a /\ equiv o k k' = true /\
       accum_add o k x acc = a ++ (k', xs ++ [x]) :: b) \/
    (Forall (fun g => equiv o k (fst g) = false) acc /\ accum_add o k x acc = acc ++ [(k, [x])]).
  Proof.
    induction acc as [|[k' xs] acc IH]; cbn.
    - right; auto.
    - destruct (equiv o k k') eqn:E.
      + left. exists [], k', xs, acc. auto.
      + destruct IH as [(a & k2 & xs2 & b & -> & H1 & H2 & H3)|[H1 H2]].
        * left. exists ((k', xs) :: a), k2, xs2, b. rewrite H3. split; [auto|]. split; [constructor; auto|]. auto.
        * right. rewrite H2. auto.
  Qed.

  Lemma filter_snoc A (g : A -> bool) l x : filter g (l ++ [x]) = filter g l ++ (if g x then [x] else []).
  Proof. induction l as [|a l IH]; cbn; [auto|]. destruct (g a); cbn; rewrite IH; auto. Qed.

  Lemma fop_app A (R : A -> A -> Prop) l x : ForallOrdPairs R l -> Forall (fun y => R y x) l -> ForallOrdPairs R (l ++ [x]).
  Proof.
    induction 1 as [|a l Ha Hl IH]; intros H; cbn.
    - constructor; constructor.
    - inversion H; subst. constructor; auto. apply Forall_app; auto.
  Qed.

  Lemma fop_mid A (R : A -> A -> Prop) a x b :
    ForallOrdPairs R (a ++ x :: b) -> Forall (fun y => R y x) a /\ Forall (R x) b.
  Proof.
    induction a as [|y a IH]; cbn; intros H; inversion H as [|? ? H1 H2]; subst.
    - auto.
    - destruct (IH H2) as [H3 H4]. apply Forall_app in H1. destruct H1 as [_ H1]. inversion H1; subst. auto.
  Qed.

  Lemma accum_grouped l : agree l -> (forall g, In g (accum_all o f l) -> exists s, T (fst g) s) -> grouped l (accum_all o f l).
  Proof.
    induction l as [|p l IH] using rev_ind; intros A HT.
    - unfold accum_all; cbn. split; [constructor|]. split; [intros ? []|]. split; [intros ? []|]. constructor.
    - unfold accum_all in *. rewrite fold_left_app in *. cbn [fold_left] in *.
      set (acc := fold_left (fun acc p => accum_add o (fst p) (f (snd p)) acc) l []) in *.
      assert (A' : agree l).
      { intros u w Hu Hw. apply A; apply in_or_app; auto. }
      assert (HT' : forall g, In g acc -> exists s, T (fst g) s).
      { intros g Hg. destruct (accum_keys (fst p) (f (snd p)) acc g Hg) as (xs & Hx).
        apply (HT _ Hx). }
      destruct (IH A' HT') as (G1 & G2 & G3 & G4). clear IH.
      assert (Hin : forall g, In g acc -> exists q, In q l /\ fst q = fst g).
      { intros g Hg. rewrite Forall_forall in G1. destruct (G1 g Hg) as [Hi _].
        apply in_map_iff in Hi. destruct Hi as (q & E & Hq). eauto. }
      assert (Hp : In p (l ++ [p])) by (apply in_or_app; cbn; auto).
      assert (Hl : forall q, In q l -> In q (l ++ [p])) by (intros; apply in_or_app; auto).
      destruct (accum_add_spec (fst p) (f (snd p)) acc) as [(a & k' & xs & b & E & H1 & H2 & H3)|[H1 H2]].
      + rewrite H3 in *. clear H3.
        assert (Hg' : In (k', xs) acc) by (rewrite E; apply in_or_app; cbn; auto).
        destruct (Hin _ Hg') as (q' & Hq' & Eq'). cbn in Eq'.
        assert (Hb : Forall (fun g => equiv o (fst p) (fst g) = false) b).
        { apply Forall_forall. intros g Hg.
          assert (Hg2 : In g acc) by (rewrite E; apply in_or_app; cbn; auto).
          destruct (Hin _ Hg2) as (q & Hq & Eq).
          destruct (equiv o (fst p) (fst g)) eqn:X; auto. exfalso.
          rewrite <- Eq in X. rewrite <- Eq' in H2.
          apply (A p q' Hp (Hl _ Hq')) in H2. destruct H2 as (s & S1 & S2).
          rewrite (equiv_text _ p q s A Hp (Hl _ Hq) S1) in X.
          assert (Y : equiv o (fst q') (fst q) = true) by (apply (A q' q); eauto).
          rewrite E in G4. apply fop_mid in G4. destruct G4 as [_ G4]. rewrite Forall_forall in G4.
          specialize (G4 g Hg). cbn in G4. congruence. }
        split; [|split; [|split]].
        * rewrite E in G1. apply Forall_app in G1. destruct G1 as [Ga Gb]. inversion Gb as [|? ? Gk Gb']; subst.
          assert (Hskip : forall gs, Forall (fun g => equiv o (fst p) (fst g) = false) gs ->
            Forall (fun g => In (fst g) (map fst l) /\ snd g = map (fun p => f (snd p)) (filter (fun p => equiv o (fst p) (fst g)) l)) gs ->
            Forall (fun g => In (fst g) (map fst (l ++ [p])) /\ snd g = map (fun p => f (snd p)) (filter (fun p => equiv o (fst p) (fst g)) (l ++ [p]))) gs).
          { intros gs F1 F2. rewrite Forall_forall in *. intros g Hg. destruct (F2 g Hg) as [X Y].
            split; [rewrite map_app; apply in_or_app; auto|].
            rewrite filter_snoc, (F1 g Hg), app_nil_r. auto. }
          apply Forall_app. split; [apply Hskip; auto|]. constructor; [|apply Hskip; auto].
          cbn in Gk |- *. destruct Gk as [X Y]. split; [rewrite map_app; apply in_or_app; auto|].
          rewrite filter_snoc, H2, map_app, Y. auto.
        * intros q Hq. apply in_app_iff in Hq. destruct Hq as [Hq|[<-|[]]].
          -- destruct (G2 q Hq) as (g & Hg & Eg). rewrite E in Hg. apply in_app_iff in Hg. cbn in Hg.
             destruct Hg as [Hg|[<-|Hg]].
             ++ exists g. split; auto. apply in_or_app; auto.
             ++ exists (k', xs ++ [f (snd p)]). split; auto. apply in_or_app; cbn; auto.
             ++ exists g. split; auto. apply in_or_app; cbn; auto.
          -- exists (k', xs ++ [f (snd p)]). split; auto. apply in_or_app; cbn; auto.
        * auto.
        * rewrite E in G4. clear -G4. induction a as [|g a IH]; cbn in *.
          -- inversion G4; subst. constructor; auto.
          -- inversion G4 as [|? ? X Y]; subst. constructor; auto.
             apply Forall_app in X. destruct X as [X1 X2]. inversion X2; subst. apply Forall_app. auto.
      + rewrite H2 in *. split; [|split; [|split]].
        * apply Forall_app. split.
          -- rewrite Forall_forall in *. intros g Hg. destruct (G1 g Hg) as [X Y].
             split; [rewrite map_app; apply in_or_app; auto|].
             rewrite filter_snoc, (H1 g Hg), app_nil_r. auto.
          -- constructor; [|constructor]. cbn. split; [rewrite map_app; apply in_or_app; cbn; auto|].
             destruct (HT (fst p, [f (snd p)])) as [s Hs]; [apply in_or_app; cbn; auto|]. cbn in Hs.
             rewrite filter_snoc.
             assert (Epp : equiv o (fst p) (fst p) = true) by (apply (A p p); eauto).
             rewrite Epp.
             assert (Z : filter (fun q => equiv o (fst q) (fst p)) l = []).
             { assert (W : forall q, In q l -> equiv o (fst q) (fst p) = false).
               { intros q Hq. destruct (equiv o (fst q) (fst p)) eqn:X; auto. exfalso.
                 apply (A q p (Hl _ Hq) Hp) in X. destruct X as (s' & S1 & S2).
                 destruct (G2 q Hq) as (g & Hg & Eg). destruct (Hin g Hg) as (q2 & Hq2 & E2).
                 rewrite <- E2 in Eg. rewrite (equiv_text _ q q2 s' A (Hl _ Hq) (Hl _ Hq2) S1) in Eg.
                 assert (Y : equiv o (fst p) (fst q2) = true) by (apply (A p q2); eauto).
                 rewrite Forall_forall in H1. specialize (H1 g Hg). rewrite <- E2 in H1. congruence. }
               clear -W. induction l as [|q l IH]; cbn; auto. rewrite W by (cbn; auto). apply IH. intros; apply W; cbn; auto. }
             rewrite Z. auto.
        * intros q Hq. apply in_app_iff in Hq. destruct Hq as [Hq|[<-|[]]].
          -- destruct (G2 q Hq) as (g & Hg & Eg). exists g. split; auto. apply in_or_app; auto.
          -- exists (fst p, [f (snd p)]). split; [apply in_or_app; cbn; auto|]. cbn.
             destruct (HT (fst p, [f (snd p)])) as [s Hs]; [apply in_or_app; cbn; auto|]. cbn in Hs.
             apply (A p p); eauto.
        * auto.
        * apply fop_app; auto. rewrite Forall_forall in *. intros g Hg. cbn.
          destruct (equiv o (fst g) (fst p)) eqn:X; auto. exfalso.
          destruct (Hin g Hg) as (q & Hq & Eq). rewrite <- Eq in X.
          apply (A q p (Hl _ Hq) Hp) in X. destruct X as (s & S1 & S2).
          assert (Y : equiv o (fst p) (fst q) = true) by (apply (A p q); eauto).
          specialize (H1 g Hg). rewrite <- Eq in H1. congruence.
  Qed.
End Group.

(** ** Maps and multimaps *)
Definition text_of (k : cty) (c : cval) (s : str) : Prop := stored k c (VStr s).

Lemma map_shape k x l w :
  add_fields (map (fun p => (to_dart k (fst p), to_dart x (snd p))) l) (VObj []) = Ok w ->
  exists kxs, Forall2 (fun p q => to_dart k (fst p) = Ok (VStr (fst q)) /\ to_dart x (snd p) = Ok (snd q)) l kxs /\
    Forall short kxs /\ w = VObj (put_all kxs []).
Proof.
  intros H. apply add_fields_ok in H; [|constructor]. destruct H as (kxs & H & K & ->).
  rewrite forall2_map_l in H. exists kxs. split; auto.
Qed.

Lemma nodup_texts A (T : A -> str -> Prop) (l : list A) (ks : list str) :
  Forall2 T l ks -> ForallOrdPairs (fun p q => forall s, ~ (T p s /\ T q s)) l -> NoDup ks.
Proof.
  induction 1 as [|p s l ks Hp H IH]; intros F; inversion F as [|? ? F1 F2]; subst; constructor; auto.
  intros Hin. destruct (forall2_in_r _ _ _ _ _ _ H Hin) as (q & Hq & Hs).
  rewrite Forall_forall in F1. apply (F1 q Hq s). auto.
Qed.

Lemma accum_add_key o k x acc g : In g (accum_add o k x acc) -> fst g = k \/ In (fst g) (map fst acc).
Proof.
  induction acc as [|[k' xs] acc IH]; cbn.
  - intros [<-|[]]; auto.
  - destruct (equiv o k k'); cbn; intros [<-|H]; auto.
    + right. right. apply in_map. auto.
    + destruct (IH H); auto.
Qed.
Lemma accum_from o f l g : In g (accum_all o f l) -> In (fst g) (map fst l).
Proof.
  revert g; induction l as [|p l IH] using rev_ind; unfold accum_all in *; cbn; [tauto|].
  rewrite fold_left_app, map_app. cbn. intros g H. apply accum_add_key in H. apply in_or_app.
  destruct H as [->|H]; cbn; auto. left. apply in_map_iff in H. destruct H as (h & <- & Hh). auto.
Qed.

Lemma accum_size o f l g : In g (accum_all o f l) -> (length (snd g) <= length l)%nat.
Proof.
  revert g; induction l as [|p l IH] using rev_ind; unfold accum_all in *; cbn; [tauto|].
  rewrite fold_left_app, app_length. cbn.
  set (acc := fold_left _ l []) in *. intros g H.
  destruct (accum_add_spec o (fst p) (f (snd p)) acc) as [(a & k' & xs & b & E & _ & _ & E')|[_ E']]; rewrite E' in H; apply in_app_iff in H; cbn in H.
  - destruct H as [H|[<-|H]].
    + assert (X : In g acc) by (rewrite E; apply in_or_app; auto). apply IH in X. lia.
    + cbn. rewrite app_length. cbn. assert (X : In (k', xs) acc) by (rewrite E; apply in_or_app; cbn; auto).
      apply IH in X. cbn in X. lia.
    + assert (X : In g acc) by (rewrite E; apply in_or_app; cbn; auto). apply IH in X. lia.
  - destruct H as [H|[<-|[]]].
    + apply IH in H. lia.
    + cbn. lia.
Qed.

Lemma multi_shape o k x l w :
  zlen l < 2 ^ 63 ->
  (forall p s, In p l -> to_dart k (fst p) = Ok (VStr s) -> text_of k (fst p) s) ->
  agree o (text_of k) l ->
  add_fields (map (fun p => (to_dart k (fst p), push_all (snd p) (VArr []))) (accum_all o (to_dart x) l)) (VObj []) = Ok w ->
  exists kxs,
    Forall2 (fun g q => to_dart k (fst g) = Ok (VStr (fst q)) /\ exists ws, snd q = VArr ws /\ collect (snd g) = Ok ws)
            (accum_all o (to_dart x) l) kxs /\
    grouped o (text_of k) (to_dart x) l (accum_all o (to_dart x) l) /\
    NoDup (map fst kxs) /\ Forall short kxs /\ w = VObj (put_all kxs []).
Proof.
  intros Hn Hk A H. apply add_fields_ok in H; [|constructor]. destruct H as (kxs & H & K & ->).
  rewrite forall2_map_l in H. set (acc := accum_all o (to_dart x) l) in *.
  assert (HT : forall g s, In g acc -> to_dart k (fst g) = Ok (VStr s) -> text_of k (fst g) s).
  { intros g s Hg E. apply accum_from in Hg. apply in_map_iff in Hg. destruct Hg as (p & Ep & Hp).
    rewrite <- Ep in *. eauto. }
  assert (H' : Forall2 (fun g q => to_dart k (fst g) = Ok (VStr (fst q)) /\ exists ws, snd q = VArr ws /\ collect (snd g) = Ok ws) acc kxs).
  { assert (L : Forall (fun g => (length (snd g) <= length l)%nat) acc) by (apply Forall_forall; intros g; apply accum_size).
    pose proof (forall2_forall_l _ _ _ _ _ _ L H) as HL. revert HL. apply forall2_impl. intros g q [Hl [E1 E2]]. cbn in E1, E2.
    split; auto. apply push_all_ok in E2.
    - destruct E2 as (ws & E & E'). exists ws. auto.
    - unfold zlen in *. cbn [length]. lia. }
  assert (G : grouped o (text_of k) (to_dart x) l acc).
  { apply accum_grouped; auto.
    - intros y s s'. apply text_unique.
    - intros g Hg. destruct (forall2_in_l _ _ _ _ _ _ H' Hg) as (q & _ & E & _). exists (fst q). apply HT; auto. }
  exists kxs. split; [exact H'|]. split; [exact G|]. split; [|split; auto].
  destruct G as (G1 & _ & _ & G4).
  apply nodup_texts with (T := fun g s => text_of k (fst g) s) (l := acc).
  - rewrite forall2_map_r. clear -H' HT.
    assert (HI : Forall (fun g => In g acc) acc) by (apply Forall_forall; auto).
    pose proof (forall2_forall_l _ _ _ _ _ _ HI H') as HL. revert HL. apply forall2_impl.
    intros g q [Hg [E _]]. auto.
  - assert (HI : forall g, In g acc -> In (fst g) (map fst l)) by (intros; eapply accum_from; eauto).
    clear -G4 A HI. revert HI. induction G4 as [|g acc Hg _ IH]; intros HI; constructor.
    + revert Hg. rewrite !Forall_forall. intros Hg h Hh s [S1 S2].
      assert (X : equiv o (fst g) (fst h) = true).
      { assert (I1 : In (fst g) (map fst l)) by (apply HI; cbn; auto).
        assert (I2 : In (fst h) (map fst l)) by (apply HI; cbn; auto).
        apply in_map_iff in I1. apply in_map_iff in I2. destruct I1 as (p & E1 & H1). destruct I2 as (q & E2 & H2).
        rewrite <- E1, <- E2 in *. apply (A p q); eauto. }
      rewrite (Hg h Hh) in X. discriminate.
    + apply IH. intros; apply HI; cbn; auto.
Qed.

(** ** Everything *)
Lemma zip_len ts l : zip2 has ts l -> length ts = length l.
Proof. intros H. apply zip2_iff, forall2_len in H. auto. Qed.

Theorem to_dart_stored t : forall c v, to_dart t c = Ok v -> has t c -> everywhere keyed t c -> stored t c v.
Proof.
  induction t as [ | |i| | | |sk a IH|o m a IH|o k x IHk IHx|o k x IHk IHx|a IH|a b IHa IHb|ts IH|ts IH] using cty_ind';
    intros c v E H K; cbn in H, K |- *.
  - subst. cbn in E. apply Ok_inj in E. auto.
  - destruct H as (b & ->). cbn in E. apply Ok_inj in E. eauto.
  - destruct H as (z & -> & _). cbn in E. apply Ok_inj in E. subst.
    destruct (conv64 z). exists z, (conv int64 z). auto.
  - destruct H as (d & -> & _). cbn in E. apply Ok_inj in E. eauto.
  - destruct H as (f & -> & R). cbn in E. apply Ok_inj in E. subst. exists f, (Dec.widen f).
    split; auto. split; auto. apply denote_widen; auto.
  - destruct H as (s & ->). cbn in E. apply Ok_inj in E. eauto.
  - destruct H as (l & -> & Hn & H & _). destruct K as [_ K]. specialize (K l eq_refl). cbn in E.
    apply push_all_ok in E; [|unfold zlen in *; rewrite map_length; cbn [length]; lia].
    destruct E as (ws & E & ->). apply collect_map_ok in E. exists l, ws. split; [auto|]. split; [auto|].
    revert H K. clear Hn. induction E as [|y w l ws Ey E IHl]; intros H K; inversion H; inversion K; subst; constructor; auto.
  - destruct H as (l & -> & Hn & H & _). destruct K as [_ K]. specialize (K l eq_refl). cbn in E.
    apply push_all_ok in E; [|unfold zlen in *; rewrite map_length; cbn [length]; lia].
    destruct E as (ws & E & ->). apply collect_map_ok in E. exists l, ws. split; [auto|]. split; [auto|].
    revert H K. clear Hn. induction E as [|y w l ws Ey E IHl]; intros H K; inversion H; inversion K; subst; constructor; auto.
  - destruct H as (l & -> & Hn & H & _). destruct K as [K1 K]. specialize (K l eq_refl). specialize (K1 l eq_refl). cbn in E.
    apply map_shape in E. destruct E as (kxs & E & S & ->).
    assert (F : Forall2 (fun p q => stored k (fst p) (VStr (fst q)) /\ stored x (snd p) (snd q)) l kxs).
    { clear K1 Hn S. induction E as [|p q l kxs [E1 E2] E IHl]; inversion H as [|? ? [? ?] ?]; inversion K as [|? ? [? ?] ?]; subst; constructor; auto. }
    assert (N : NoDup (map fst kxs)).
    { apply nodup_texts with (T := fun p s => stored k (fst p) (VStr s)) (l := l); auto.
      rewrite forall2_map_r. revert F. apply forall2_impl. tauto. }
    destruct (put_all_perm kxs N S) as (P & _ & Q).
    exists l, (put_all kxs []). split; [auto|]. split; [auto|]. split; [|split].
    + rewrite <- (Permutation_length P). symmetry. eapply forall2_len; eauto.
    + intros s w L. rewrite Q in L. apply lookup_in in L.
      destruct (forall2_in_r _ _ _ _ _ _ F L) as (p & Hp & S1 & S2). eauto.
    + intros p Hp. destruct (forall2_in_l _ _ _ _ _ _ F Hp) as ([s w] & Hq & S1 & S2).
      exists s, w. split; [auto|]. split; [auto|]. rewrite Q. apply JsonSame.in_lookup; auto.
  - destruct H as (l & -> & Hn & H & _). destruct K as [K1 K]. specialize (K l eq_refl). specialize (K1 l eq_refl). cbn in E.
    rewrite Forall_forall in H, K.
    apply multi_shape in E; auto.
    2: { intros p s Hp Ep. destruct (H p Hp). destruct (K p Hp). apply IHk; auto. }
    destruct E as (kxs & E & G & N & S & ->). destruct G as (G1 & G2 & G3 & G4).
    set (acc := accum_all o (to_dart x) l) in *.
    destruct (put_all_perm kxs N S) as (P & _ & Q).
    exists l, (put_all kxs []). split; [auto|]. split; [auto|]. split.
    + intros s w L. rewrite Q in L. apply lookup_in in L.
      destruct (forall2_in_r _ _ _ _ _ _ E L) as (g & Hg & E1 & ws & E2 & E3). cbn in E1, E2.
      rewrite Forall_forall in G1. destruct (G1 g Hg) as [Gi Gs].
      apply in_map_iff in Gi. destruct Gi as (p & Ep & Hp).
      assert (T : text_of k (fst p) s) by (destruct (H p Hp); destruct (K p Hp); apply IHk; auto; congruence).
      rewrite <- Ep in Gs. rewrite Gs in E3. apply collect_map_ok in E3.
      exists (fun q => equiv o (fst q) (fst p)), ws. split; [auto|]. split; [|split].
      * intros ->. inversion E3 as [X|]. assert (Y : In p []); [|destruct Y].
        rewrite X. apply filter_In. split; auto. apply (K1 p p); eauto.
      * intros q Hq. rewrite (K1 q p Hq Hp). split.
        -- intros (s' & S1 & S2). rewrite (text_unique _ _ _ _ T S2). auto.
        -- intros S1. exists s. auto.
      * assert (X : Forall (fun q => In q l) (filter (fun q => equiv o (fst q) (fst p)) l)).
        { apply Forall_forall. intros q Hq. apply filter_In in Hq. tauto. }
        pose proof (forall2_forall_l _ _ _ _ _ _ X E3) as Y. revert Y. apply forall2_impl.
        intros q y [Hq Ey]. destruct (H q Hq). destruct (K q Hq). apply IHx; auto.
    + intros p Hp. destruct (G2 p Hp) as (g & Hg & Eg).
      destruct (forall2_in_l _ _ _ _ _ _ E Hg) as ([s w] & Hq & E1 & _). cbn in E1.
      rewrite Forall_forall in G1. destruct (G1 g Hg) as [Gi _].
      apply in_map_iff in Gi. destruct Gi as (q & Eq & Hq').
      assert (T : text_of k (fst q) s) by (destruct (H q Hq'); destruct (K q Hq'); apply IHk; auto; congruence).
      rewrite <- Eq in Eg. apply (K1 p q Hp Hq') in Eg. destruct Eg as (s' & S1 & S2).
      rewrite (text_unique _ _ _ _ T S2) in *. exists s', w. split; auto.
      rewrite Q. apply JsonSame.in_lookup; auto.
  - destruct K as [_ K]. destruct H as [->|(y & -> & H)]; cbn in E.
    + apply Ok_inj in E. auto.
    + right. exists y. split; auto.
  - destruct K as [_ K]. destruct H as (y & z & -> & H1 & H2). destruct (K y z eq_refl). cbn [to_dart] in E.
    apply push_all_ok in E; [|unfold zlen; cbn [length]; lia]. destruct E as (ws & E & ->).
    apply collect_ok in E. inversion E as [|? w ? ? E1 E2]; subst. inversion E2 as [|? u ? ? E3 E4]; subst. inversion E4; subst.
    exists y, z, w, u. auto.
  - destruct K as [_ K]. destruct H as (l & -> & Hn & H). specialize (K l eq_refl). cbn [to_dart] in E.
    pose proof (zip_len _ _ H) as Hl.
    assert (Hz : length (zip_with to_dart ts l) = length l).
    { clear -Hl. revert l Hl. induction ts; intros [|? ?] ?; cbn in *; auto; discriminate. }
    apply push_all_ok in E; [|unfold zlen in *; rewrite Hz; cbn [length]; lia]. destruct E as (ws & E & ->).
    apply collect_zip in E; auto. exists l, ws. split; [auto|]. split; [auto|]. cbn [app].
    clear Hn Hl Hz. revert l ws H K E. induction IH as [|a ts Ha _ IH]; intros [|y l] [|w ws] H K E; cbn in *; try tauto.
    destruct H, K, E. auto.
  - destruct K as [_ K]. destruct H as (i & y & -> & H). specialize (K i y eq_refl). cbn [to_dart] in E.
    rewrite pick_res_nth in E. apply pick_iff in H. apply pick_iff in K.
    destruct H as (a & En & H). destruct K as (a' & En' & K). rewrite En in *. injection En' as <-.
    exists i, y. split; auto. apply pick_iff. exists a. split; auto. rewrite Forall_forall in IH.
    apply (IH a (nth_error_In _ _ En)); auto.
Qed.
