(** The storage invariant and what each primitive of Store.v does to it. *)

From Coq Require Import ZArith List Bool Lia ZifyBool ZifyNat ZifyN.
From Verif Require Import Base BaseFacts Keys Wire Spec SpecOps HeapOps HeapFacts Store StoreSpec.
Import ListNotations.
Open Scope Z_scope.

(** ** Induction on what a handle shows *)
Section ShowsInd.
  Variables (cs : cells) (P : hval -> value -> Prop).
  Hypothesis Hnull : P HNull VNull.
  Hypothesis Hint : forall z, P (HInt z) (VInt z).
  Hypothesis Hdec : forall d, P (HDec d) (VDec d).
  Hypothesis Hbool : forall b, P (HBool b) (VBool b).
  Hypothesis Hstr : forall t, P (HStr t) (VStr t).
  Hypothesis Hobj : forall a n fs vs, cell_at cs a = Some (n, CObj fs) ->
    Forall2 (fun p q => fst p = fst q /\ shows cs (snd p) (snd q) /\ P (snd p) (snd q)) fs vs ->
    P (HObj a) (VObj vs).
  Hypothesis Harr : forall a n ms vs, cell_at cs a = Some (n, CArr ms) ->
    Forall2 (fun h v => shows cs h v /\ P h v) ms vs -> P (HArr a) (VArr vs).

  Lemma shows_ind' : forall h v, shows cs h v -> P h v.
  Proof using Hnull Hint Hdec Hbool Hstr Hobj Harr.
    fix IH 3. intros h v H. destruct H as [| | | | |a n fs vs E F|a n ms vs E F].
    - apply Hnull.
    - apply Hint.
    - apply Hdec.
    - apply Hbool.
    - apply Hstr.
    - apply (Hobj a n fs vs E). clear E. induction F as [|p q fs vs [Hk Hs] F IHF]; constructor.
      + split; [exact Hk|]. split; [exact Hs|]. apply IH. exact Hs.
      + exact IHF.
    - apply (Harr a n ms vs E). clear E. induction F as [|h v ms vs Hs F IHF]; constructor.
      + split; [exact Hs|]. apply IH. exact Hs.
      + exact IHF.
  Qed.
End ShowsInd.

Lemma Forall2_imp {A B} (R S : A -> B -> Prop) l m : (forall a b, R a b -> S a b) -> Forall2 R l m -> Forall2 S l m.
Proof. intros H F. induction F; constructor; auto. Qed.
Lemma Forall2_in_l {A B} (R : A -> B -> Prop) l m x : Forall2 R l m -> In x l -> exists y, In y m /\ R x y.
Proof. intros F. induction F; cbn; [tauto|]. intros [->|I]; [eauto|]. destruct (IHF I) as (z & ? & ?). eauto. Qed.

Lemma shows_det cs h v : shows cs h v -> forall w, shows cs h w -> v = w.
Proof.
  intros H. pattern h, v. revert h v H. apply shows_ind'; intros.
  1-5: match goal with H : shows _ _ _ |- _ => inversion H; reflexivity end.
  - inversion H1 as [| | | | |a' n' fs' vs' E F|]; subst. rewrite H in E. injection E as <- <-. f_equal.
    clear H H1. revert vs' F. induction H0 as [|p q fs vs (K & S & D) G IH]; intros vs' F; inversion F as [|? q' ? ? [K' S'] F']; subst; [reflexivity|].
    f_equal; [|auto]. destruct q, q'; cbn in *. f_equal; [congruence|auto].
  - inversion H1 as [| | | | | |a' n' ms' vs' E F]; subst. rewrite H in E. injection E as <- <-. f_equal.
    clear H H1. revert vs' F. induction H0 as [|p q fs vs (S & D) G IH]; intros vs' F; inversion F; subst; [reflexivity|].
    f_equal; auto.
Qed.

(** ** Cells *)
Lemma cell_at_split cs a p : cell_at cs a = Some p ->
  exists l r, cs = l ++ Some p :: r /\ length l = a.
Proof.
  unfold cell_at. destruct (nth_error cs a) as [[q|]|] eqn:E; try discriminate. intros H. injection H as ->.
  apply nth_error_split in E. destruct E as (l & r & -> & L). eauto.
Qed.
Lemma cell_at_mid l o r : cell_at (l ++ o :: r) (length l) = o.
Proof. unfold cell_at. rewrite nth_mid. destruct o; reflexivity. Qed.
Lemma cell_at_other l o o' r b : b <> length l -> cell_at (l ++ o :: r) b = cell_at (l ++ o' :: r) b.
Proof.
  intros N. unfold cell_at. destruct (lt_dec b (length l)).
  - rewrite !nth_error_app1 by lia. reflexivity.
  - rewrite !nth_error_app2 by lia. destruct (b - length l)%nat eqn:E; [lia|]. reflexivity.
Qed.
Lemma cell_at_lt cs a p : cell_at cs a = Some p -> (a < length cs)%nat.
Proof. unfold cell_at. intros H. apply nth_error_Some. destruct (nth_error cs a); congruence. Qed.
Lemma cell_set_same cs a p o : cell_at cs a = Some p -> cell_at (list_set a o cs) a = o.
Proof. intros H. destruct (cell_at_split _ _ _ H) as (l & r & -> & <-). rewrite list_set_mid. apply cell_at_mid. Qed.
Lemma cell_set_other cs a p o b : cell_at cs a = Some p -> b <> a -> cell_at (list_set a o cs) b = cell_at cs b.
Proof. intros H N. destruct (cell_at_split _ _ _ H) as (l & r & -> & <-). rewrite list_set_mid. apply cell_at_other. exact N. Qed.

Lemma all_kids_mid l o r : all_kids (l ++ o :: r) =
  all_kids l ++ match o with Some (_, c) => kids c | None => [] end ++ all_kids r.
Proof. unfold all_kids. rewrite flat_map_app. reflexivity. Qed.
Lemma kids_in cs a n c h : cell_at cs a = Some (n, c) -> In h (kids c) -> In h (all_kids cs).
Proof.
  intros H I. destruct (cell_at_split _ _ _ H) as (l & r & -> & _). rewrite all_kids_mid.
  apply in_or_app. right. apply in_or_app. left. exact I.
Qed.
Lemma all_kids_in cs h : In h (all_kids cs) -> exists a n c, cell_at cs a = Some (n, c) /\ In h (kids c).
Proof.
  unfold all_kids. intros I. apply in_flat_map in I. destruct I as (o & I & J).
  destruct o as [[n c]|]; [|contradiction]. apply in_split in I. destruct I as (l & r & ->).
  exists (length l), n, c. split; [apply cell_at_mid|assumption].
Qed.

(** ** Counting *)
Lemma nref_app a l m : nref a (l ++ m) = nref a l + nref a m.
Proof. induction l; cbn [app nref]; lia. Qed.
Lemma nref_nonneg a l : 0 <= nref a l.
Proof. induction l as [|h l IH]; cbn [nref]; [lia|]. destruct (href h) as [b|]; [destruct (Nat.eqb a b)|]; lia. Qed.
Lemma nref_in a h l : In h l -> href h = Some a -> 0 < nref a l.
Proof.
  induction l as [|x l IH]; cbn [In nref]; [tauto|]. intros [->|I] E.
  - rewrite E, Nat.eqb_refl. pose proof (nref_nonneg a l). lia.
  - specialize (IH I E). destruct (href x) as [b|]; [destruct (Nat.eqb a b)|]; lia.
Qed.
Lemma nref_pos a l : 0 < nref a l -> exists h, In h l /\ href h = Some a.
Proof.
  induction l as [|x l IH]; cbn [nref]; [lia|]. intros H. destruct (href x) as [b|] eqn:E.
  - destruct (Nat.eqb_spec a b) as [->|]; [exists x; cbn; auto|]. destruct IH as (h & ? & ?); [lia|]. exists h. cbn. auto.
  - destruct IH as (h & ? & ?); [lia|]. exists h. cbn. auto.
Qed.
Lemma nref_zero a h l : nref a l = 0 -> In h l -> href h <> Some a.
Proof. intros Z I E. pose proof (nref_in a h l I E). lia. Qed.

Definition hval_dec (x y : hval) : {x = y} + {x <> y}.
Proof. decide equality; try apply Z.eq_dec; try apply Nat.eq_dec; try apply Bool.bool_dec. apply (list_eq_dec Byte.byte_eq_dec). Defined.

Definition cnt (h : hval) (l : list hval) : nat := count_occ hval_dec l h.
Lemma cnt_app h l m : cnt h (l ++ m) = (cnt h l + cnt h m)%nat.
Proof. apply count_occ_app. Qed.
Lemma cnt_cons h x l : cnt h (x :: l) = (cnt h [x] + cnt h l)%nat.
Proof. unfold cnt. cbn. destruct (hval_dec x h); reflexivity. Qed.
Lemma cnt_nil h : cnt h [] = 0%nat.
Proof. reflexivity. Qed.

Definition meq (l m : list hval) : Prop := forall h, cnt h l = cnt h m.
Lemma meq_in l m h : meq l m -> In h l -> In h m.
Proof. intros M I. apply (count_occ_In hval_dec) in I. apply (count_occ_In hval_dec). specialize (M h). unfold cnt in M. lia. Qed.
Lemma cnt_remove x l : In x l -> exists l1 l2, l = l1 ++ x :: l2 /\ meq (x :: l1 ++ l2) l.
Proof.
  intros I. apply in_split in I. destruct I as (l1 & l2 & ->). exists l1, l2. split; [reflexivity|].
  intros y. rewrite cnt_app. rewrite (cnt_cons y x (l1 ++ l2)), (cnt_cons y x l2), cnt_app. lia.
Qed.
Lemma meq_nref l : forall m a, meq l m -> nref a l = nref a m.
Proof.
  induction l as [|x l IH]; intros m a M.
  - destruct m as [|y m]; [reflexivity|]. specialize (M y). rewrite (cnt_cons y y m), cnt_nil in M. unfold cnt in M at 1. cbn in M.
    destruct (hval_dec y y); [lia|congruence].
  - assert (I : In x m) by (eapply meq_in; [exact M|left; reflexivity]).
    destruct (cnt_remove x m I) as (m1 & m2 & E & M2).
    assert (M3 : meq l (m1 ++ m2)). { intros h. specialize (M h). rewrite (cnt_cons h x l) in M. specialize (M2 h). rewrite cnt_cons in M2. lia. }
    cbn [nref]. rewrite (IH _ a M3), E, !nref_app. cbn [nref]. lia.
Qed.

Ltac meq := intros ?h; repeat (rewrite ?cnt_app, ?cnt_nil; match goal with
  | |- context [cnt ?h (?x :: ?l)] => lazymatch l with [] => fail | _ => rewrite (cnt_cons h x l) end end);
  rewrite ?cnt_app, ?cnt_nil; try lia.

Lemma set_meq x (h old : hval) l : nth_error l x = Some old -> meq (old :: list_set x h l) (h :: l).
Proof.
  intros E. apply nth_error_split in E. destruct E as (l1 & l2 & -> & <-). rewrite list_set_mid. meq.
Qed.

(** ** The invariant: counts are exact, every handle shows a finite tree *)
Definition wf (cs : cells) (roots : list hval) : Prop :=
  (forall a n c, cell_at cs a = Some (n, c) -> n = nref a roots + nref a (all_kids cs) /\ 0 < n) /\
  (forall h, In h (roots ++ all_kids cs) -> exists v, shows cs h v).

Lemma wf_meq cs r1 r2 : meq r1 r2 -> wf cs r1 -> wf cs r2.
Proof.
  intros M [W1 W2]. split.
  - intros a n c E. rewrite <- (meq_nref r1 r2 a M). exact (W1 a n c E).
  - intros h I. apply W2. apply in_app_or in I. apply in_or_app. destruct I as [I|I]; [left|right; assumption].
    eapply meq_in; [|exact I]. intros x. symmetry. apply M.
Qed.

Lemma wf_scalar cs h r : href h = None -> wf cs (h :: r) <-> wf cs r.
Proof.
  intros E. split; intros [W1 W2]; split.
  - intros a n c H. specialize (W1 a n c H). cbn [nref] in W1. rewrite E in W1. exact W1.
  - intros x I. apply W2. right. exact I.
  - intros a n c H. specialize (W1 a n c H). cbn [nref]. rewrite E. exact W1.
  - intros x [<-|I]; [|apply W2; exact I]. destruct h; try discriminate; eexists; constructor.
Qed.

(** Same contents, counts aside. *)
Definition sub (cs cs' : cells) : Prop :=
  forall a n c, cell_at cs a = Some (n, c) -> exists n', cell_at cs' a = Some (n', c).
Lemma sub_refl cs : sub cs cs.
Proof. intros a n c E. eauto. Qed.
Lemma sub_trans a b c : sub a b -> sub b c -> sub a c.
Proof. intros H K x n y E. destruct (H _ _ _ E) as (n' & E'). exact (K _ _ _ E'). Qed.

Lemma shows_sub cs cs' h v : sub cs cs' -> shows cs h v -> shows cs' h v.
Proof.
  intros S H. revert h v H. apply (shows_ind' cs (fun h v => shows cs' h v)); intros; try (constructor; fail).
  - destruct (S _ _ _ H) as (n' & E). econstructor; [exact E|]. eapply Forall2_imp; [|exact H0]. cbn beta. tauto.
  - destruct (S _ _ _ H) as (n' & E). econstructor; [exact E|]. eapply Forall2_imp; [|exact H0]. cbn beta. tauto.
Qed.

(** Changing or removing a cell nothing else refers to. *)
Lemma shows_frame cs cs' a h v :
  (forall b n c, b <> a -> cell_at cs b = Some (n, c) -> (exists n', cell_at cs' b = Some (n', c)) /\ nref a (kids c) = 0) ->
  href h <> Some a -> shows cs h v -> shows cs' h v.
Proof.
  intros S N H. revert h v H N.
  apply (shows_ind' cs (fun h v => href h <> Some a -> shows cs' h v)); intros; try (constructor; fail).
  - cbn in H1. assert (N : a0 <> a) by congruence. destruct (S _ _ _ N H) as ((n' & E) & Z). econstructor; [exact E|].
    clear H. cbn [kids] in Z. clear E H1. induction H0 as [|p q fs vs (K & Sh & IH) F IHF]; constructor.
    + split; [exact K|]. apply IH. apply (nref_zero a _ _ Z). left. reflexivity.
    + apply IHF. cbn [map nref] in Z. pose proof (nref_nonneg a (map snd fs)).
      destruct (href (snd p)) as [b|]; [destruct (Nat.eqb a b)|]; lia.
  - cbn in H1. assert (N : a0 <> a) by congruence. destruct (S _ _ _ N H) as ((n' & E) & Z). econstructor; [exact E|].
    clear H. cbn [kids] in Z. clear E H1. induction H0 as [|p q ms vs (Sh & IH) F IHF]; constructor.
    + apply IH. apply (nref_zero a _ _ Z). left. reflexivity.
    + apply IHF. cbn [nref] in Z. pose proof (nref_nonneg a ms).
      destruct (href p) as [b|]; [destruct (Nat.eqb a b)|]; lia.
Qed.

Lemma shows_live cs h v a : shows cs h v -> href h = Some a -> exists n c, cell_at cs a = Some (n, c).
Proof. intros H E. destruct H; try discriminate; cbn in E; injection E as <-; eauto. Qed.

(** A recount that leaves the contents alone. *)
Lemma recount_kids cs a n c n' : cell_at cs a = Some (n, c) ->
  all_kids (list_set a (Some (n', c)) cs) = all_kids cs.
Proof.
  intros E. destruct (cell_at_split _ _ _ E) as (l & r & -> & <-). rewrite list_set_mid, !all_kids_mid. reflexivity.
Qed.
Lemma recount_sub cs a n c n' : cell_at cs a = Some (n, c) -> sub cs (list_set a (Some (n', c)) cs).
Proof.
  intros E b m d H. destruct (Nat.eq_dec b a) as [->|N].
  - rewrite (cell_set_same _ _ _ _ E). rewrite E in H. injection H as <- <-. eauto.
  - rewrite (cell_set_other _ _ _ _ _ E N). eauto.
Qed.
Lemma recount_sub' cs a n c n' : cell_at cs a = Some (n, c) -> sub (list_set a (Some (n', c)) cs) cs.
Proof.
  intros E b m d H. destruct (Nat.eq_dec b a) as [->|N].
  - rewrite (cell_set_same _ _ _ _ E) in H. injection H as <- <-. eauto.
  - rewrite (cell_set_other _ _ _ _ _ E N) in H. eauto.
Qed.

(** ** Copying a handle *)
Lemma inc_ok cs roots h : wf cs roots -> In h (roots ++ all_kids cs) ->
  exists cs', inc cs h = Ok cs' /\ wf cs' (h :: roots) /\ sub cs cs' /\ sub cs' cs /\ all_kids cs' = all_kids cs.
Proof.
  intros W I. unfold inc. destruct (href h) as [a|] eqn:E.
  - destruct W as [W1 W2]. destruct (W2 h I) as (v & Sh). destruct (shows_live _ _ _ _ Sh E) as (n & c & C). rewrite C.
    eexists. split; [reflexivity|]. pose proof (recount_sub _ _ _ _ (n + 1) C) as S1.
    pose proof (recount_kids _ _ _ _ (n + 1) C) as K.
    split; [|split; [exact S1|split; [exact (recount_sub' _ _ _ _ _ C)|exact K]]]. split.
    + intros b m d D. rewrite K. cbn [nref]. rewrite E. destruct (Nat.eqb_spec b a) as [->|N].
      * rewrite (cell_set_same _ _ _ _ C) in D. injection D as <- <-. destruct (W1 _ _ _ C). lia.
      * rewrite (cell_set_other _ _ _ _ _ C N) in D. destruct (W1 _ _ _ D). lia.
    + intros x J. rewrite K in J. assert (J' : In x (roots ++ all_kids cs)).
      { destruct J as [<-|J]; [exact I|exact J]. }
      destruct (W2 x J') as (w & Hw). exists w. eapply shows_sub; eassumption.
  - eexists. split; [reflexivity|]. split; [apply wf_scalar; assumption|]. auto using sub_refl.
Qed.

Lemma inc_all_ok hs : forall cs roots, wf cs roots -> (forall h, In h hs -> In h (roots ++ all_kids cs)) ->
  exists cs', inc_all cs hs = Ok cs' /\ wf cs' (hs ++ roots) /\ sub cs cs' /\ sub cs' cs /\ all_kids cs' = all_kids cs.
Proof.
  induction hs as [|h hs IH]; intros cs roots W I; cbn [inc_all].
  - exists cs. split; [reflexivity|]. split; [exact W|]. auto using sub_refl.
  - destruct (inc_ok cs roots h W (I h (or_introl eq_refl))) as (cs1 & -> & W1 & S1 & S1' & K1). cbn [bind].
    destruct (IH cs1 (h :: roots) W1) as (cs2 & E2 & W2 & S2 & S2' & K2).
    { intros x J. rewrite K1. right. apply I. right. exact J. }
    exists cs2. split; [exact E2|]. split; [|split; [|split]].
    + eapply wf_meq; [|exact W2]. meq.
    + eapply sub_trans; eassumption.
    + eapply sub_trans; eassumption.
    + congruence.
Qed.

(** ** Destroying handles *)
Definition lower (cs' cs : cells) : Prop :=
  forall a n' c, cell_at cs' a = Some (n', c) -> exists n, cell_at cs a = Some (n, c) /\ n' <= n.
Lemma lower_refl cs : lower cs cs.
Proof. intros a n c E. exists n. split; [exact E|lia]. Qed.
Lemma drop_ok fuel : forall cs hs roots, wf cs (hs ++ roots) ->
  (length hs + length (all_kids cs) <= fuel)%nat ->
  exists cs', drop_n fuel cs hs = Ok cs' /\ wf cs' roots /\ lower cs' cs /\
    (forall h v, In h roots -> shows cs h v -> shows cs' h v) /\ length cs' = length cs.
Proof.
  induction fuel as [|fuel IH]; intros cs hs roots W L.
  - destruct hs; [|cbn in L; lia]. exists cs. split; [reflexivity|]. split; [exact W|]. split; [apply lower_refl|]. auto.
  - destruct hs as [|h hs]; cbn [drop_n].
    + exists cs. split; [reflexivity|]. split; [exact W|]. split; [apply lower_refl|]. auto.
    + cbn [length] in L. cbn [app] in W. destruct (href h) as [a|] eqn:E.
      2: { apply wf_scalar in W; [|exact E]. apply IH; [exact W|lia]. }
      destruct (proj2 W h (or_introl eq_refl)) as (v & Sh). destruct (shows_live _ _ _ _ Sh E) as (n & c & C). rewrite C.
      destruct W as [W1 W2]. destruct (W1 _ _ _ C) as [Cn Cp].
      cbn [nref] in Cn. rewrite E, Nat.eqb_refl in Cn.
      pose proof (nref_nonneg a (hs ++ roots)). pose proof (nref_nonneg a (all_kids cs)).
      destruct (n =? 1) eqn:N1.
      * (* the last handle: the container goes too *)
        assert (Z1 : nref a (hs ++ roots) = 0) by lia. assert (Z2 : nref a (all_kids cs) = 0) by lia.
        set (cs1 := list_set a None cs).
        assert (K1 : exists l r, all_kids cs = l ++ kids c ++ r /\ all_kids cs1 = l ++ r).
        { destruct (cell_at_split _ _ _ C) as (l & r & -> & <-). unfold cs1. rewrite list_set_mid, !all_kids_mid.
          exists (all_kids l), (all_kids r). auto. }
        destruct K1 as (kl & kr & K & K').
        assert (FR : forall x w, href x <> Some a -> shows cs x w -> shows cs1 x w).
        { intros x w Nx Hx. apply (shows_frame cs cs1 a x w); [|exact Nx|exact Hx].
          intros b m d Nb D. split.
          - exists m. unfold cs1. rewrite (cell_set_other _ _ _ _ _ C Nb). exact D.
          - assert (forall y, In y (kids d) -> href y <> Some a).
            { intros y Iy. apply (nref_zero a y _ Z2). eapply kids_in; eassumption. }
            pose proof (nref_nonneg a (kids d)). destruct (Z.eq_dec (nref a (kids d)) 0); [assumption|].
            destruct (nref_pos a (kids d)) as (y & Iy & Ey); [lia|]. exfalso. apply (H1 y Iy Ey). }
        destruct (IH cs1 (kids c ++ hs) roots) as (cs2 & E2 & W2' & S2 & F2 & L2).
        { split.
          - intros b m d D. assert (Nb : b <> a).
            { intros ->. unfold cs1 in D. rewrite (cell_set_same _ _ _ _ C) in D. discriminate. }
            unfold cs1 in D. rewrite (cell_set_other _ _ _ _ _ C Nb) in D. destruct (W1 _ _ _ D) as [Q1 Q2].
            split; [|exact Q2]. rewrite Q1, K, K'. cbn [nref]. rewrite E. rewrite !nref_app.
            replace (Nat.eqb b a) with false by (symmetry; apply Nat.eqb_neq; exact Nb). lia.
          - intros x J. assert (J' : In x ((hs ++ roots) ++ all_kids cs)).
            { rewrite K, K' in *. rewrite !in_app_iff in *. tauto. }
            destruct (W2 x (or_intror J')) as (w & Hw). exists w. apply FR; [|exact Hw].
            apply in_app_or in J'. destruct J' as [J'|J']; [exact (nref_zero a x _ Z1 J')|exact (nref_zero a x _ Z2 J')]. }
        { rewrite K' . rewrite K in L. rewrite !app_length in *. lia. }
        exists cs2. split; [exact E2|]. split; [exact W2'|]. split; [|split].
        -- intros b m d D. destruct (S2 _ _ _ D) as (m' & D' & Lm). assert (Nb : b <> a).
           { intros ->. unfold cs1 in D'. rewrite (cell_set_same _ _ _ _ C) in D'. discriminate. }
           unfold cs1 in D'. rewrite (cell_set_other _ _ _ _ _ C Nb) in D'. eauto.
        -- intros x w I Hx. apply F2; [exact I|]. apply FR; [|exact Hx]. apply (nref_zero a x _ Z1). apply in_or_app. auto.
        -- rewrite L2. unfold cs1. clear. revert a. induction cs as [|o cs IH]; intros [|a]; cbn; auto.
      * destruct (IH (list_set a (Some (n - 1, c)) cs) hs roots) as (cs2 & E2 & W2' & S2 & F2 & L2).
        { pose proof (recount_kids _ _ _ _ (n - 1) C) as K. split.
          - intros b m d D. rewrite K. destruct (Nat.eqb_spec b a) as [->|Nb].
            + rewrite (cell_set_same _ _ _ _ C) in D. injection D as <- <-. lia.
            + rewrite (cell_set_other _ _ _ _ _ C Nb) in D. destruct (W1 _ _ _ D) as [Q1 Q2]. cbn [nref] in Q1. rewrite E in Q1.
              replace (Nat.eqb b a) with false in Q1 by (symmetry; apply Nat.eqb_neq; exact Nb). lia.
          - intros x J. rewrite K in J. destruct (W2 x (or_intror J)) as (w & Hw). exists w.
            eapply shows_sub; [|exact Hw]. eapply recount_sub. exact C. }
        { rewrite (recount_kids _ _ _ _ (n - 1) C). lia. }
        exists cs2. split; [exact E2|]. split; [exact W2'|]. split; [|split].
        -- intros b m d D. destruct (S2 _ _ _ D) as (m' & D' & Lm). destruct (Nat.eq_dec b a) as [->|Nb].
           ++ rewrite (cell_set_same _ _ _ _ C) in D'. injection D' as <- <-. exists n. split; [exact C|lia].
           ++ rewrite (cell_set_other _ _ _ _ _ C Nb) in D'. eauto.
        -- intros x w I Hx. apply F2; [exact I|]. eapply shows_sub; [|exact Hx]. eapply recount_sub. exact C.
        -- rewrite L2. clear. revert a. induction cs as [|o cs IH]; intros [|a]; cbn; auto.
Qed.

(** ** A new container *)
Definition handle (c : cell) (a : nat) : hval := match c with CObj _ => HObj a | CArr _ => HArr a end.
Lemma handle_ref c a : href (handle c a) = Some a.
Proof. destruct c; reflexivity. Qed.

Definition cell_shows (cs : cells) (c : cell) (v : value) : Prop :=
  match c, v with
  | CObj fs, VObj vs => Forall2 (fun p q => fst p = fst q /\ shows cs (snd p) (snd q)) fs vs
  | CArr ms, VArr vs => Forall2 (shows cs) ms vs
  | _, _ => False
  end.
Lemma shows_handle cs c a n v : cell_at cs a = Some (n, c) -> cell_shows cs c v -> shows cs (handle c a) v.
Proof. intros E H. destruct c, v; try contradiction; econstructor; eassumption. Qed.
Lemma shows_cell cs h v a : shows cs h v -> href h = Some a ->
  exists n c, cell_at cs a = Some (n, c) /\ h = handle c a /\ cell_shows cs c v.
Proof. intros H E. destruct H; try discriminate; cbn in E; injection E as <-; eexists _, _; split; eauto; split; eauto. Qed.
Lemma cell_shows_map cs cs' c v : (forall h w, In h (kids c) -> shows cs h w -> shows cs' h w) ->
  cell_shows cs c v -> cell_shows cs' c v.
Proof.
  destruct c as [fs|ms], v as [vs|vs| | | | |]; cbn [cell_shows kids]; try tauto; intros H F.
  - induction F as [|p q fs vs [K S] F IH]; constructor.
    + split; [exact K|]. apply H; [left; reflexivity|exact S].
    + apply IH. intros h w I. apply H. right. exact I.
  - induction F as [|p q fs vs S F IH]; constructor.
    + apply H; [left; reflexivity|exact S].
    + apply IH. intros h w I. apply H. right. exact I.
Qed.
Lemma cell_shows_exists cs c : (forall h, In h (kids c) -> exists v, shows cs h v) -> exists v, cell_shows cs c v.
Proof.
  destruct c as [fs|ms]; cbn [kids]; intros H.
  - assert (exists vs, Forall2 (fun (p : str * hval) q => fst p = fst q /\ shows cs (snd p) (snd q)) fs vs) as (vs & F).
    { induction fs as [|[k h] fs IH]; [eexists; constructor|].
      destruct (H h (or_introl eq_refl)) as (v & Hv). destruct IH as (vs & F); [intros x I; apply H; right; exact I|].
      exists ((k, v) :: vs). constructor; [split; [reflexivity|exact Hv]|exact F]. }
    exists (VObj vs). exact F.
  - assert (exists vs, Forall2 (shows cs) ms vs) as (vs & F).
    { induction ms as [|h ms IH]; [eexists; constructor|].
      destruct (H h (or_introl eq_refl)) as (v & Hv). destruct IH as (vs & F); [intros x I; apply H; right; exact I|].
      exists (v :: vs). constructor; assumption. }
    exists (VArr vs). exact F.
Qed.

Lemma alloc_sub cs c : sub cs (cs ++ [Some (1, c)]).
Proof.
  intros a n d E. exists n. pose proof (cell_at_lt _ _ _ E). unfold cell_at in *. rewrite nth_error_app1 by assumption. exact E.
Qed.
Lemma cell_at_last cs o : cell_at (cs ++ [o]) (length cs) = o.
Proof. apply cell_at_mid. Qed.

Lemma alloc_ok cs c roots : wf cs (kids c ++ roots) ->
  wf (cs ++ [Some (1, c)]) (handle c (length cs) :: roots).
Proof.
  intros [W1 W2].
  assert (LT : forall h a, In h ((kids c ++ roots) ++ all_kids cs) -> href h = Some a -> (a < length cs)%nat).
  { intros h a I E. destruct (W2 h I) as (v & Sh). destruct (shows_live _ _ _ _ Sh E) as (n & d & D). eapply cell_at_lt; eassumption. }
  assert (K : all_kids (cs ++ [Some (1, c)]) = all_kids cs ++ kids c).
  { rewrite all_kids_mid. cbn. rewrite app_nil_r. reflexivity. }
  assert (Z : nref (length cs) ((kids c ++ roots) ++ all_kids cs) = 0).
  { pose proof (nref_nonneg (length cs) ((kids c ++ roots) ++ all_kids cs)).
    destruct (Z.eq_dec (nref (length cs) ((kids c ++ roots) ++ all_kids cs)) 0); [assumption|].
    destruct (nref_pos (length cs) ((kids c ++ roots) ++ all_kids cs)) as (h & I & E); [lia|]. specialize (LT h _ I E). lia. }
  rewrite !nref_app in Z. pose proof (nref_nonneg (length cs) (kids c)). pose proof (nref_nonneg (length cs) roots).
  pose proof (nref_nonneg (length cs) (all_kids cs)).
  split.
  - intros a n d D. rewrite K. cbn [nref]. rewrite handle_ref. rewrite nref_app.
    destruct (Nat.eqb_spec a (length cs)) as [->|N].
    + rewrite cell_at_last in D. injection D as <- <-. lia.
    + assert (D' : cell_at cs a = Some (n, d)).
      { pose proof (cell_at_lt _ _ _ D) as L. rewrite app_length in L. cbn in L. unfold cell_at in *.
        rewrite nth_error_app1 in D by lia. exact D. }
      destruct (W1 _ _ _ D') as [Q1 Q2]. rewrite nref_app in Q1. lia.
  - intros h I. rewrite K in I. destruct I as [<-|I].
    + destruct (cell_shows_exists (cs ++ [Some (1, c)]) c) as (v & Hv).
      { intros h I. destruct (W2 h) as (v & Hv). { rewrite !in_app_iff. tauto. }
        exists v. eapply shows_sub; [apply alloc_sub|exact Hv]. }
      exists v. eapply shows_handle; [apply cell_at_last|exact Hv].
    + destruct (W2 h) as (v & Hv). { rewrite !in_app_iff in *. tauto. }
      exists v. eapply shows_sub; [apply alloc_sub|exact Hv].
Qed.

(** ** Changing a container held by one handle *)
Lemma put_ok cs a c c' news olds roots :
  cell_at cs a = Some (1, c) -> In (handle c a) roots -> handle c' a = handle c a ->
  wf cs (news ++ roots) -> meq (kids c' ++ olds) (kids c ++ news) ->
  exists cs', put cs a c' = Ok cs' /\ cell_at cs' a = Some (1, c') /\ wf cs' (olds ++ roots) /\
    (forall h v, href h <> Some a -> shows cs h v -> shows cs' h v) /\
    (forall b, b <> a -> cell_at cs' b = cell_at cs b).
Proof.
  intros C I HH [W1 W2] M. unfold put. rewrite C. eexists. split; [reflexivity|].
  split; [exact (cell_set_same _ _ _ _ C)|].
  destruct (W1 _ _ _ C) as [Q _]. rewrite nref_app in Q.
  pose proof (nref_nonneg a (all_kids cs)). pose proof (nref_nonneg a news).
  pose proof (nref_in a _ _ I (handle_ref c a)).
  assert (Z1 : nref a (all_kids cs) = 0) by lia. assert (Z2 : nref a news = 0) by lia.
  assert (Z3 : nref a roots = 1) by lia.
  assert (K1 : exists l r, all_kids cs = l ++ kids c ++ r /\ all_kids (list_set a (Some (1, c')) cs) = l ++ kids c' ++ r).
  { destruct (cell_at_split _ _ _ C) as (l & r & -> & <-). rewrite list_set_mid, !all_kids_mid.
    exists (all_kids l), (all_kids r). auto. }
  destruct K1 as (kl & kr & K & K').
  assert (FR : forall x w, href x <> Some a -> shows cs x w -> shows (list_set a (Some (1, c')) cs) x w).
  { intros x w Nx Hx. apply (shows_frame cs _ a x w); [|exact Nx|exact Hx].
    intros b m d Nb D. split.
    - exists m. rewrite (cell_set_other _ _ _ _ _ C Nb). exact D.
    - pose proof (nref_nonneg a (kids d)). destruct (Z.eq_dec (nref a (kids d)) 0); [assumption|].
      destruct (nref_pos a (kids d)) as (y & Iy & Ey); [lia|]. exfalso.
      exact (nref_zero a y _ Z1 (kids_in _ _ _ _ _ D Iy) Ey). }
  assert (Z4 : nref a (kids c') = 0 /\ nref a olds = 0).
  { pose proof (meq_nref _ _ a M) as Q'. rewrite !nref_app in Q'. rewrite K, !nref_app in Z1.
    pose proof (nref_nonneg a (kids c')). pose proof (nref_nonneg a olds).
    pose proof (nref_nonneg a kl). pose proof (nref_nonneg a kr). pose proof (nref_nonneg a (kids c)). lia. }
  destruct Z4 as [Z4 Z5].
  assert (SH : forall x, In x (kids c' ++ olds) -> exists v, shows cs x v).
  { intros x J. apply W2. apply (meq_in _ _ x M) in J. rewrite K. rewrite !in_app_iff in *. tauto. }
  split; [|split; [exact FR|intros b Nb; exact (cell_set_other _ _ _ _ _ C Nb)]].
  split.
  - intros b n d D. rewrite K', !nref_app. pose proof (meq_nref _ _ b M) as Q'. rewrite !nref_app in Q'.
    destruct (Nat.eq_dec b a) as [->|Nb].
    + rewrite (cell_set_same _ _ _ _ C) in D. injection D as <- <-. rewrite K, !nref_app in Z1, Q. lia.
    + rewrite (cell_set_other _ _ _ _ _ C Nb) in D. destruct (W1 _ _ _ D) as [Q1 Q2]. rewrite K, !nref_app in Q1. lia.
  - intros x J. rewrite K', !in_app_iff in J.
    destruct (href x) as [b|] eqn:E; [|destruct x; try discriminate; eexists; constructor].
    destruct (Nat.eq_dec b a) as [->|Nb].
    + assert (x = handle c a) as ->.
      { destruct J as [[J|J]|[J|[J|J]]].
        - exfalso. exact (nref_zero a x _ Z5 J E).
        - clear - W2 J E C. destruct (W2 x) as (v & Sh). { rewrite !in_app_iff. tauto. }
          destruct (shows_cell _ _ _ _ Sh E) as (n & d & D & -> & _). rewrite C in D. injection D as <- <-. reflexivity.
        - exfalso. apply (nref_zero a x _ Z1); [|exact E]. rewrite K, !in_app_iff. tauto.
        - exfalso. exact (nref_zero a x _ Z4 J E).
        - exfalso. apply (nref_zero a x _ Z1); [|exact E]. rewrite K, !in_app_iff. tauto. }
      rewrite <- HH. destruct (cell_shows_exists (list_set a (Some (1, c')) cs) c') as (v & Hv).
      { intros y Iy. destruct (SH y) as (v & Hv). { apply in_or_app. auto. }
        exists v. apply FR; [|exact Hv]. exact (nref_zero a y _ Z4 Iy). }
      exists v. eapply shows_handle; [exact (cell_set_same _ _ _ _ C)|exact Hv].
    + assert (exists v, shows cs x v) as (v & Hv).
      { destruct J as [[J|J]|[J|[J|J]]].
        - apply SH. apply in_or_app. auto.
        - apply W2. rewrite !in_app_iff. tauto.
        - apply W2. rewrite K, !in_app_iff. tauto.
        - apply SH. apply in_or_app. auto.
        - apply W2. rewrite K, !in_app_iff. tauto. }
      exists v. apply FR; [congruence|exact Hv].
Qed.
