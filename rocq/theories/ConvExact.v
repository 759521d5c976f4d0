(** When conversion succeeds, and when a comparison holds. *)

From Coq Require Import ZArith List Bool Lia Sorting.Sorted Sorting.Permutation.
From Verif Require Import Base BaseFacts Keys KeysFacts Dec Wire Spec SpecDec SpecCmp Ordered HeapOps HeapFacts BufFacts Lookup JsonFacts JsonSame MakeFacts Compare CompareFacts
  SpecConv Conv ConvBase ConvNum ConvStore ConvBack ConvSelf.
Import ListNotations.
Open Scope Z_scope.

(** ** Conversion succeeds *)
Theorem to_dart_ok t : forall c, has t c -> everywhere texted t c -> exists v, to_dart t c = Ok v.
Proof.
  induction t as [ | |i| | | |sk a IH|o m a IH|o k x IHk IHx|o k x IHk IHx|a IH|a b IHa IHb|ts IH|ts IH] using cty_ind';
    intros c H K.
  - cbn in H. subst. cbn. eauto.
  - destruct H as (b & ->). cbn. eauto.
  - destruct H as (z & -> & _). cbn [to_dart]. eauto.
  - destruct H as (d & -> & _). cbn. eauto.
  - destruct H as (f & -> & _). cbn [to_dart]. eauto.
  - destruct H as (s & ->). cbn. eauto.
  - cbn in H. destruct H as (l & -> & Hn & H & _). destruct K as [_ K]. specialize (K l eq_refl).
    assert (G : exists ws, Forall2 (fun y w => to_dart a y = Ok w) l ws).
    { apply forall2_exist. rewrite Forall_forall in *. auto. }
    destruct G as (ws & G). exists (VArr ([] ++ ws)). cbn [to_dart]. apply push_all_ok.
    + unfold zlen in *. rewrite map_length. cbn [length]. lia.
    + exists ws. split; auto. apply collect_map_ok. auto.
  - cbn in H. destruct H as (l & -> & Hn & H & _). destruct K as [_ K]. specialize (K l eq_refl).
    assert (G : exists ws, Forall2 (fun y w => to_dart a y = Ok w) l ws).
    { apply forall2_exist. rewrite Forall_forall in *. auto. }
    destruct G as (ws & G). exists (VArr ([] ++ ws)). cbn [to_dart]. apply push_all_ok.
    + unfold zlen in *. rewrite map_length. cbn [length]. lia.
    + exists ws. split; auto. apply collect_map_ok. auto.
  - cbn in H. destruct H as (l & -> & Hn & H & _). destruct K as [K1 K]. specialize (K1 l eq_refl). specialize (K l eq_refl).
    assert (G : exists kxs, Forall2 (fun p q => field_of (to_dart k (fst p), to_dart x (snd p)) q /\ short q) l kxs).
    { apply forall2_exist. rewrite Forall_forall in *. intros p Hp. destruct (K1 p Hp) as (s & S1 & S2).
      destruct (H p Hp). destruct (K p Hp). destruct (IHx (snd p)) as (w & Ew); auto. exists (s, w).
      split; [split; cbn; auto using text_to | exact S2]. }
    destruct G as (kxs & G). exists (VObj (put_all kxs [])). cbn [to_dart]. apply add_fields_ok; [constructor|].
    exists kxs. rewrite forall2_map_l. split; [revert G; apply forall2_impl; tauto|]. split; auto.
    clear -G. induction G; constructor; tauto.
  - cbn in H. destruct H as (l & -> & Hn & H & _). destruct K as [K1 K]. specialize (K1 l eq_refl). specialize (K l eq_refl).
    set (acc := accum_all o (to_dart x) l).
    assert (AX : forall g e, In g acc -> In e (snd g) -> exists w, e = Ok w).
    { rewrite Forall_forall in H, K. assert (V : forall p, In p l -> exists w, to_dart x (snd p) = Ok w).
      { intros p Hp. destruct (H p Hp). destruct (K p Hp). auto. }
      clear -V. unfold acc. clear acc. induction l as [|p l IH] using rev_ind; [intros ? ? []|].
      unfold accum_all in *. rewrite fold_left_app. cbn [fold_left].
      set (acc := fold_left _ l []) in *. intros g e Hg He.
      assert (V' : forall p, In p l -> exists w, to_dart x (snd p) = Ok w) by (intros; apply V; apply in_or_app; auto).
      assert (Vp : exists w, to_dart x (snd p) = Ok w) by (apply V; apply in_or_app; cbn; auto).
      destruct (accum_add_spec o (fst p) (to_dart x (snd p)) acc) as [(a & k' & xs & b & E & _ & _ & E')|[_ E']]; rewrite E' in Hg; apply in_app_iff in Hg; cbn in Hg.
      - destruct Hg as [Hg|[<-|Hg]].
        + apply (IH V' g e); auto. rewrite E. apply in_or_app; auto.
        + cbn in He. apply in_app_iff in He. destruct He as [He|[<-|[]]]; auto.
          apply (IH V' (k', xs) e); auto. rewrite E. apply in_or_app; cbn; auto.
        + apply (IH V' g e); auto. rewrite E. apply in_or_app; cbn; auto.
      - destruct Hg as [Hg|[<-|[]]]; [apply (IH V' g e); auto|].
        cbn in He. destruct He as [<-|[]]. auto. }
    assert (G : exists kxs, Forall2 (fun g q => field_of (to_dart k (fst g), push_all (snd g) (VArr [])) q /\ short q) acc kxs).
    { apply forall2_exist. apply Forall_forall. intros g Hg. pose proof (accum_from _ _ _ _ Hg) as Hk.
      pose proof (accum_size _ _ _ _ Hg) as Hs.
      apply in_map_iff in Hk. destruct Hk as (p & Ep & Hp). rewrite Forall_forall in K1. destruct (K1 p Hp) as (s & S1 & S2). rewrite Ep in S1.
      assert (W : exists ws, collect (snd g) = Ok ws).
      { assert (X : exists ws, Forall2 (fun e w => e = Ok w) (snd g) ws).
        { apply forall2_exist. apply Forall_forall. intros e He. eapply AX; eauto. }
        destruct X as (ws & X). exists ws. apply collect_ok. auto. }
      destruct W as (ws & W). exists (s, VArr ([] ++ ws)). split; [split; cbn [fst snd]; auto using text_to | exact S2].
      apply push_all_ok; eauto. unfold zlen in *. cbn [length]. lia. }
    destruct G as (kxs & G). exists (VObj (put_all kxs [])). cbn [to_dart]. apply add_fields_ok; [constructor|].
    exists kxs. rewrite forall2_map_l. split; [revert G; apply forall2_impl; tauto|]. split; auto.
    clear -G. induction G; constructor; tauto.
  - destruct K as [_ K]. cbn in H. destruct H as [->|(y & -> & H)]; cbn; eauto.
  - destruct K as [_ K]. cbn in H. destruct H as (y & z & -> & H1 & H2). destruct (K y z eq_refl).
    destruct (IHa y) as (w & Ew); auto. destruct (IHb z) as (u & Eu); auto.
    exists (VArr ([] ++ [w; u])). cbn [to_dart]. apply push_all_ok; [unfold zlen; cbn [length]; lia|].
    exists [w; u]. cbn. rewrite Ew, Eu. auto.
  - destruct K as [_ K]. cbn in H. destruct H as (l & -> & Hn & H). specialize (K l eq_refl).
    pose proof (zip_len _ _ H) as Hl.
    assert (Hz : length (zip_with to_dart ts l) = length l).
    { clear -Hl. revert l Hl. induction ts; intros [|? ?] ?; cbn in *; auto; discriminate. }
    assert (G : exists ws, collect (zip_with to_dart ts l) = Ok ws).
    { clear Hn Hl Hz. revert l H K. induction IH as [|a ts Ha _ IH]; intros [|y l] H K; cbn in *; try tauto; eauto.
      destruct H, K. destruct (Ha y) as (w & ->); auto. destruct (IH l) as (ws & ->); auto. cbn. eauto. }
    destruct G as (ws & G). exists (VArr ([] ++ ws)). cbn [to_dart]. apply push_all_ok; eauto.
    unfold zlen in *. rewrite Hz. cbn [length]. lia.
  - destruct K as [_ K]. cbn in H. destruct H as (i & y & -> & H). specialize (K i y eq_refl).
    apply pick_iff in H. apply pick_iff in K. destruct H as (a & En & H). destruct K as (a' & En' & K).
    rewrite En in En'. injection En' as <-. cbn [to_dart]. rewrite pick_res_nth, En.
    rewrite Forall_forall in IH. apply (IH a (nth_error_In _ _ En)); auto.
Qed.

(** ** Comparison *)
Definition verdict (r : res bool) (P : Prop) : Prop := exists b, r = Ok b /\ (b = true <-> P).

Lemma verdict_ok b P : (b = true <-> P) -> verdict (Ok b) P.
Proof. intros H. exists b. auto. Qed.
Lemma verdict_no (P : Prop) : ~ P -> verdict (Ok false) P.
Proof. intros H. exists false. split; auto. split; [discriminate | tauto]. Qed.
Lemma verdict_iff r P Q : (P <-> Q) -> verdict r P -> verdict r Q.
Proof. intros H (b & E & I). exists b. split; auto. rewrite I. auto. Qed.
Lemma verdict_and (r : res bool) P (k : res bool) Q :
  verdict r P -> (P -> verdict k Q) -> verdict (bind r (fun b => if b : bool then k else Ok false)) (P /\ Q).
Proof.
  intros (b & -> & I) H. cbn. destruct b.
  - destruct (H (proj1 I eq_refl)) as (b' & -> & J). exists b'. split; auto. rewrite J. intuition.
  - exists false. split; auto. split; [discriminate|]. intros [X _]. apply I in X. auto.
Qed.

Lemma verdict_all A (f : A -> res bool) (P : A -> Prop) l :
  Forall (fun x => verdict (f x) (P x)) l -> verdict (all_true (map f l)) (Forall P l).
Proof.
  induction 1 as [|x l Hx _ IH]; cbn.
  - apply verdict_ok. split; auto.
  - eapply verdict_iff; [|apply (verdict_and _ _ _ (Forall P l) Hx (fun _ => IH))]. rewrite Forall_cons_iff. tauto.
Qed.

Lemma zip_with_map A B C (f : A -> B -> C) l r : length l = length r -> zip_with f l r = map (fun p => f (fst p) (snd p)) (combine l r).
Proof. revert r; induction l as [|a l IH]; intros [|b r] H; cbn; auto; try discriminate. rewrite IH; auto. Qed.

Lemma forall_combine A B (P : A -> B -> Prop) l r : length l = length r ->
  (Forall (fun p => P (fst p) (snd p)) (combine l r) <-> Forall2 P l r).
Proof.
  revert r; induction l as [|a l IH]; intros [|b r] H; cbn; try discriminate.
  - split; auto.
  - injection H as H. rewrite Forall_cons_iff, IH by auto. cbn. split; [intros []; auto | intros X; inversion X; auto].
Qed.

Lemma unmixed_elem vs ws i x y : unmixed (VArr vs) (VArr ws) -> nth_error vs i = Some x -> nth_error ws i = Some y -> unmixed x y.
Proof.
  intros U. inversion U as [a b H| |v w _ H _]; subst; [eauto|]. exfalso. apply (H vs ws). auto.
Qed.
Lemma unmixed_field fs gs k x y : unmixed (VObj fs) (VObj gs) -> lookup k fs = Some x -> lookup k gs = Some y -> unmixed x y.
Proof.
  intros U. inversion U as [|a b H|v w _ _ H]; subst; [eauto|]. exfalso. apply (H fs gs). auto.
Qed.
Lemma unmixed_null w : unmixed VNull w.
Proof. apply um_other; intros; split || intros [? ?]; try intros [? ?]; discriminate. Qed.
Lemma mixed_num v w : unmixed v w ->
  match v, w with VInt _, VDec _ | VDec _, VInt _ => False | _, _ => True end.
Proof.
  destruct v as [| | |z|d| |], w as [| | |z'|d'| |]; auto; intros U; inversion U as [| |v w H _ _]; subst.
  - destruct (H z d') as [A _]. apply A. auto.
  - destruct (H z' d) as [_ B]. apply B. auto.
Qed.

Lemma heap_dec d : heap_value (VDec d) -> 0 <= d < 2 ^ 64.
Proof. intros H. inversion H as [| | | |? N| |]; subst. exact N. Qed.
Lemma heap_null : heap_value VNull.
Proof. constructor. cbn. auto. Qed.

Lemma nn_field fs k x : no_null_members (VObj fs) -> In (k, x) fs -> no_null_members x /\ x <> VNull.
Proof.
  intros H Hin. inversion H as [fs' N F| | | | | |]; subst. rewrite Forall_forall in F. split; [apply (F (k, x)); auto|].
  intros ->. apply N. apply in_map_iff. exists (k, VNull). auto.
Qed.
Lemma nn_elems vs : no_null_members (VArr vs) -> Forall no_null_members vs.
Proof. intros H. inversion H; auto. Qed.

Lemma arr_verdict (f : value -> cval -> res bool) (l : list cval) vs ws :
  length vs = length l -> length ws = length l ->
  (forall i v y w, nth_error vs i = Some v -> nth_error l i = Some y -> nth_error ws i = Some w -> verdict (f v y) (content_eq v w)) ->
  verdict (all_true (zip_with f vs l)) (content_eq (VArr vs) (VArr ws)).
Proof.
  intros H1 H2 H. eapply verdict_iff with (P := Forall2 content_eq vs ws).
  { split; intros X; [constructor; auto | inversion X; auto]. }
  revert l ws H1 H2 H. induction vs as [|v vs IH]; intros [|y l] [|w ws] H1 H2 H; try discriminate; cbn.
  - apply verdict_ok. split; auto.
  - eapply verdict_iff; [|apply (verdict_and _ (content_eq v w) _ (Forall2 content_eq vs ws))].
    + split; [intros []; auto | intros X; inversion X; auto].
    + apply (H O); auto.
    + intros _. apply IH; auto. intros i a b c A B C. apply (H (S i)); auto.
Qed.

Lemma content_arr vs ws : content_eq (VArr vs) (VArr ws) -> length vs = length ws.
Proof. intros H. inversion H; subst. eapply forall2_len; eauto. Qed.

Lemma content_keys fs gs : StronglySorted key_lt (map fst fs) -> StronglySorted key_lt (map fst gs) ->
  content_eq (VObj fs) (VObj gs) -> length fs = length gs.
Proof.
  intros S1 S2 H. apply content_obj in H; auto. eapply forall2_len; eauto.
Qed.

Theorem compare_exact t : exact t -> forall v c w,
  has t c -> everywhere keyed t c -> to_dart t c = Ok w -> heap_value v -> unmixed v w -> no_null_members w ->
  verdict (cmp t v c) (content_eq v w).
Proof.
  induction t as [ | |i| | | |sk a IH|o m a IH|o k x IHk IHx|o k x IHk IHx|a IH|a b IHa IHb|ts IH|ts IH] using cty_ind';
    intros X v c w H K E HV U NN.
  - cbn in H. subst. cbn in E. apply Ok_inj in E. subst. cbn.
    apply verdict_ok. destruct v; split; intros Q; try discriminate; try (inversion Q; fail); constructor.
  - destruct H as (b & ->). cbn in E. apply Ok_inj in E. subst. cbn.
    apply verdict_ok. destruct v; split; intros Q; try discriminate; try (inversion Q; fail).
    + apply Bool.eqb_prop in Q. subst. constructor.
    + inversion Q; subst. apply Bool.eqb_reflx.
  - destruct H as (z & -> & _). cbn [to_dart] in E. apply Ok_inj in E. subst. cbn [cmp].
    apply verdict_ok. destruct v as [| | |z'|d| |]; split; intros Q; try discriminate; try (inversion Q; fail).
    + apply Z.eqb_eq in Q. subst. constructor.
    + inversion Q. apply Z.eqb_refl.
    + destruct (mixed_num _ _ U).
  - destruct H as (d & -> & R). cbn [to_dart] in E. apply Ok_inj in E. subst. cbn [cmp].
    apply verdict_ok. destruct v as [| | |z'|d'| |]; split; intros Q; try discriminate; try (inversion Q; fail).
    + destruct (mixed_num _ _ U).
    + apply ieee_denote in Q; auto using heap_dec. destruct Q. constructor; auto.
    + apply ieee_denote; auto using heap_dec. inversion Q; subst; auto.
  - destruct H as (f & -> & R). cbn [to_dart] in E. apply Ok_inj in E. subst. cbn [cmp].
    pose proof (widen_range f R) as R'.
    apply verdict_ok. destruct v as [| | |z'|d'| |]; split; intros Q; try discriminate; try (inversion Q; fail).
    + destruct (mixed_num _ _ U).
    + apply ieee_denote in Q; auto using heap_dec. destruct Q. constructor; auto.
    + apply ieee_denote; auto using heap_dec. inversion Q; subst; auto.
  - destruct H as (s & ->). cbn in E. apply Ok_inj in E. subst. cbn [cmp].
    apply verdict_ok. destruct v as [| |s'| | | |]; split; intros Q; try discriminate; try (inversion Q; fail).
    + apply sv_eqb_eq in Q. subst. constructor.
    + inversion Q; subst. apply sv_eqb_eq. auto.
  - cbn in H. destruct H as (l & -> & Hn & H & Hk). destruct K as [_ K]. specialize (K l eq_refl).
    cbn [to_dart] in E. apply push_all_ok in E; [|unfold zlen in *; rewrite map_length; cbn [length]; lia].
    destruct E as (ws & E & ->). apply collect_map_ok in E. cbn [app] in *.
    assert (Xa : exact a) by (destruct sk; auto; destruct X).
    assert (G : verdict (match v with VArr vs => if Nat.eqb (length vs) (length l) then all_true (zip_with (cmp a) vs l) else Ok false
                         | _ => Ok false end) (content_eq v (VArr ws))).
    { destruct v as [|vs| | | | |]; try (apply verdict_no; intros Q; inversion Q; fail).
      pose proof (forall2_len _ _ _ _ _ E) as L.
      destruct (Nat.eqb_spec (length vs) (length l)) as [L'|L'].
      - apply arr_verdict; auto. intros i v y w Hv Hy Hw. apply nn_elems in NN. rewrite Forall_forall in *.
        assert (Ey : to_dart a y = Ok w).
        { clear -E Hy Hw. revert i Hy Hw. induction E as [|y' w' l ws Ey _ IH]; intros [|i] Hy Hw; cbn in *; try discriminate.
          - congruence.
          - eapply IH; eauto. }
        apply IH; auto.
        + apply H. eapply nth_error_In; eauto.
        + apply K. eapply nth_error_In; eauto.
        + eapply heap_elem; eauto. eapply nth_error_In; eauto.
        + eapply unmixed_elem; eauto.
        + apply NN. eapply nth_error_In; eauto.
      - apply verdict_no. intros Q. apply content_arr in Q. lia. }
    cbn [cmp]. destruct v; try exact G. destruct sk; try exact G. destruct X.
  - destruct X.
  - destruct X as [-> Xx]. cbn in H. destruct H as (l & -> & Hn & H & Ar). destruct K as [K1 K]. specialize (K1 l eq_refl). specialize (K l eq_refl).
    cbn [to_dart] in E. apply (map_shape TStr) in E. destruct E as (kxs & E & S & ->).
    assert (N : NoDup (map fst kxs)).
    { apply nodup_texts with (T := fun p s => stored TStr (fst p) (VStr s)) (l := l); auto.
      rewrite forall2_map_r. revert E. apply forall2_in. rewrite Forall_forall in H, K. intros p q Hp _ [E1 _].
      destruct (H p Hp). destruct (K p Hp). apply to_dart_stored; auto. }
    destruct (put_all_perm kxs N S) as (P & SS & Q). cbn [cmp]. set (gs := put_all kxs []) in *.
    destruct v as [fs| | | | | |]; try (apply verdict_no; intros Z; inversion Z; fail).
    pose proof (heap_sorted _ HV) as SF. pose proof (forall2_len _ _ _ _ _ E) as L. pose proof (Permutation_length P) as L2.
    destruct (Nat.eqb_spec (length fs) (length l)) as [L'|L'].
    2: { apply verdict_no. intros Z. apply content_keys in Z; auto. congruence. }
    assert (F : Forall (fun p => verdict (bind (look (VObj fs) (to_dart TStr (fst p))) (fun w => cmp x w (snd p)))
                  (exists s v w, fst p = CStr s /\ lookup s fs = Some v /\ lookup s gs = Some w /\ content_eq v w)) l).
    { apply Forall_forall. intros p Hp. destruct (forall2_in_l _ _ _ _ _ _ E Hp) as ([s w] & Hq & E1 & E2). cbn [fst snd] in E1, E2.
      rewrite Forall_forall in H, K. destruct (H p Hp) as [H1 H2]. destruct (K p Hp) as [K2 K3].
      cbn in H1. destruct H1 as (s' & Es). rewrite Es in *. cbn in E1. injection E1 as ->.
      assert (Lg : lookup s gs = Some w) by (rewrite Q; apply JsonSame.in_lookup; auto).
      assert (Hg : In (s, w) gs) by (eapply Permutation_in; eauto).
      destruct (nn_field _ _ _ NN Hg) as [NN1 NN2].
      unfold look. cbn [to_dart bind]. rewrite h_get_spec by auto. cbn [bind].
      destruct (lookup s fs) as [v|] eqn:Lf.
      - eapply verdict_iff; [|apply (IHx Xx v (snd p) w); auto].
        + split.
          * intros Z. exists s, v, w. auto.
          * intros (s2 & v2 & w2 & [= <-] & Z1 & Z2 & Z3). congruence.
        + apply lookup_in in Lf. eapply heap_field; eauto.
        + eapply unmixed_field; eauto.
      - eapply verdict_iff; [|apply (IHx Xx VNull (snd p) w); auto using heap_null, unmixed_null].
        split.
        + intros Z. inversion Z. congruence.
        + intros (s2 & v2 & w2 & [= <-] & Z1 & _). congruence. }
    eapply verdict_iff; [|apply verdict_all; exact F].
    assert (LK : forall s w, lookup s gs = Some w -> exists p, In p l /\ fst p = CStr s).
    { intros s w Lg. rewrite Q in Lg. apply lookup_in in Lg. destruct (forall2_in_r _ _ _ _ _ _ E Lg) as (p & Hp & E1 & _).
      rewrite Forall_forall in H. destruct (H p Hp) as [(s' & Es) _]. rewrite Es in E1. cbn in E1. injection E1 as ->. eauto. }
    split.
    + intros Z. rewrite Forall_forall in Z. constructor.
      * (* keys of gs are among those of fs, and there are as many *)
        assert (I : incl (map fst fs) (map fst gs)).
        { apply NoDup_length_incl.
          - apply sorted_nodup. auto.
          - rewrite !map_length. lia.
          - intros s Hs. apply in_map_iff in Hs. destruct Hs as ([s' w] & <- & Hs). cbn.
            assert (Lg : lookup s' gs = Some w) by (apply JsonSame.in_lookup; auto; apply sorted_nodup; auto).
            destruct (LK s' w Lg) as (p & Hp & Ep). destruct (Z p Hp) as (s2 & v2 & w2 & Z1 & Z2 & _).
            rewrite Ep in Z1. injection Z1 as <-. apply lookup_in in Z2. apply in_map_iff. exists (s', v2). auto. }
        intros s v Lf. assert (Hs : In s (map fst gs)) by (apply I; apply in_map_iff; exists (s, v); split; auto; apply lookup_in; auto).
        destruct (lookup s gs) as [w|] eqn:Lg; [|apply lookup_none in Lg; tauto].
        exists w. split; auto. destruct (LK s w Lg) as (p & Hp & Ep). destruct (Z p Hp) as (s2 & v2 & w2 & Z1 & Z2 & Z3 & Z4).
        rewrite Ep in Z1. injection Z1 as <-. congruence.
      * intros s Lf. destruct (lookup s gs) as [w|] eqn:Lg; auto. exfalso.
        destruct (LK s w Lg) as (p & Hp & Ep). destruct (Z p Hp) as (s2 & v2 & w2 & Z1 & Z2 & _).
        rewrite Ep in Z1. injection Z1 as <-. congruence.
    + intros Z. inversion Z as [fs' gs' Z1 Z2| | | | | |]; subst. apply Forall_forall. intros p Hp.
      destruct (forall2_in_l _ _ _ _ _ _ E Hp) as ([s w] & Hq & E1 & E2). cbn [fst snd] in E1, E2.
      rewrite Forall_forall in H. destruct (H p Hp) as [(s' & Es) _]. rewrite Es in E1. cbn in E1. injection E1 as ->.
      assert (Lg : lookup s gs = Some w) by (rewrite Q; apply JsonSame.in_lookup; auto).
      destruct (lookup s fs) as [v|] eqn:Lf.
      * destruct (Z1 s v Lf) as (w' & Lw & C). exists s, v, w'. auto.
      * rewrite (Z2 s Lf) in Lg. discriminate.
  - destruct X.
  - destruct K as [_ K]. cbn in H. destruct H as [->|(y & -> & H)]; cbn in E.
    + apply Ok_inj in E. subst. cbn. apply verdict_ok. destruct v; split; intros Q; try discriminate; try (inversion Q; fail); constructor.
    + cbn. apply IH; auto.
  - destruct K as [_ K]. cbn in H. destruct H as (y & z & -> & H1 & H2). destruct X as [Xa Xb].
    destruct (K y z eq_refl). cbn [to_dart] in E.
    apply push_all_ok in E; [|unfold zlen; cbn [length]; lia]. destruct E as (ws & E & ->).
    apply collect_ok in E. inversion E as [|? w1 ? ? E1 E2]; subst. inversion E2 as [|? w2 ? ? E3 E4]; subst. inversion E4; subst.
    cbn [app] in *. cbn [cmp].
    destruct v as [|vs| | | | |]; try (apply verdict_no; intros Q; inversion Q; fail).
    destruct vs as [|v1 [|v2 [|]]]; try (apply verdict_no; intros Q; apply content_arr in Q; discriminate).
    apply nn_elems in NN. inversion NN as [|? ? NN1 NN']; subst. inversion NN' as [|? ? NN2 _]; subst.
    eapply verdict_iff; [|apply (verdict_and _ (content_eq v1 w1) _ (content_eq v2 w2))].
    + split.
      * intros []. constructor. auto.
      * intros Q. inversion Q as [|? ? Q'| | | | |]; subst. inversion Q' as [|? ? ? ? Q1 Q2]; subst. inversion Q2; subst. auto.
    + apply IHa; auto.
      * eapply heap_elem; eauto. cbn; auto.
      * apply (unmixed_elem _ _ O _ _ U); auto.
    + intros _. apply IHb; auto.
      * eapply heap_elem; eauto. cbn; auto.
      * apply (unmixed_elem _ _ 1%nat _ _ U); auto.
  - destruct K as [_ K]. cbn in H. destruct H as (l & -> & Hn & H). specialize (K l eq_refl).
    cbn [to_dart] in E. pose proof (zip_len _ _ H) as Hl.
    assert (Hz : length (zip_with to_dart ts l) = length l).
    { clear -Hl. revert l Hl. induction ts; intros [|? ?] ?; cbn in *; auto; discriminate. }
    apply push_all_ok in E; [|unfold zlen in *; rewrite Hz; cbn [length]; lia]. destruct E as (ws & E & ->).
    apply collect_zip in E; auto. cbn [app cmp] in *.
    assert (Hw : length ws = length ts).
    { clear -E. revert l ws E. induction ts as [|a ts IH]; intros [|y l] [|w ws] E; cbn in *; try tauto. f_equal. destruct E. eauto. }
    destruct v as [|vs| | | | |]; try (apply verdict_no; intros Q; inversion Q; fail).
    destruct (Nat.eqb_spec (length vs) (length ts)) as [L|L].
    2: { apply verdict_no. intros Q. apply content_arr in Q. lia. }
    rewrite zip_cmp. eapply verdict_iff with (P := Forall2 content_eq vs ws).
    { split; intros Z; [constructor; auto | inversion Z; auto]. }
    assert (HV' : forall v, In v vs -> heap_value v) by (intros; eapply heap_elem; eauto).
    assert (U' : forall i x y, nth_error vs i = Some x -> nth_error ws i = Some y -> unmixed x y) by (intros; eapply unmixed_elem; eauto).
    apply nn_elems in NN. clear HV U Hn Hl Hz. cbn in X.
    revert l vs ws H K E HV' U' NN Hw L. induction IH as [|a ts Ha _ IH]; intros [|y l] [|v vs] [|w ws] H K E HV U NN Hw L; try discriminate; cbn in *; try tauto.
    + apply verdict_ok. split; auto.
    + destruct H, K, E. destruct X as [Xa Xs]. inversion NN; subst.
      eapply verdict_iff; [|apply (verdict_and _ (content_eq v w) _ (Forall2 content_eq vs ws))].
      * split; [intros []; auto | intros Z; inversion Z; auto].
      * apply Ha; auto. apply (U O); auto.
      * intros _. apply IH; auto. intros i x' y' A B. apply (U (S i)); auto.
  - destruct K as [_ K]. cbn in H, X. destruct H as (i & y & -> & H). specialize (K i y eq_refl).
    cbn [to_dart] in E. rewrite pick_res_nth in E. apply pick_iff in H. apply pick_iff in K.
    destruct H as (a & En & H). destruct K as (a' & En' & K). rewrite En in En', E. injection En' as <-.
    apply all_iff in X. rewrite Forall_forall in IH, X. cbn [cmp]. rewrite pick_res_nth, En.
    apply (IH a (nth_error_In _ _ En)); auto. apply X. eapply nth_error_In; eauto.
Qed.

(** ** Forward lists *)
Theorem fwd_exact a ws l us : exact a ->
  has (TSeq Fwd a) (CList l) -> everywhere keyed (TSeq Fwd a) (CList l) -> to_dart (TSeq Fwd a) (CList l) = Ok (VArr us) ->
  heap_value (VArr ws) -> unmixed (VArr ws) (VArr us) -> no_null_members (VArr us) ->
  ((length ws <= length l)%nat -> verdict (cmp (TSeq Fwd a) (VArr ws) (CList l)) (content_eq (VArr ws) (VArr us))) /\
  ((length l < length ws)%nat ->
     (Forall2 content_eq (firstn (length l) ws) us -> cmp (TSeq Fwd a) (VArr ws) (CList l) = Oob) /\
     (~ Forall2 content_eq (firstn (length l) ws) us -> cmp (TSeq Fwd a) (VArr ws) (CList l) = Ok false)).
Proof.
  intros X H K E HV U NN. cbn in H. destruct H as (l' & El & Hn & H & _). injection El as <-.
  destruct K as [_ K]. specialize (K l eq_refl).
  cbn [to_dart] in E. apply push_all_ok in E; [|unfold zlen in *; rewrite map_length; cbn [length]; lia].
  destruct E as (us' & E & Eu). injection Eu as ->. apply collect_map_ok in E. cbn [app] in *.
  assert (V : forall i v y u, nth_error ws i = Some v -> nth_error l i = Some y -> nth_error us' i = Some u -> verdict (cmp a v y) (content_eq v u)).
  { intros i v y u Hv Hy Hu. apply nn_elems in NN. rewrite Forall_forall in *.
    apply compare_exact; auto.
    - apply H. eapply nth_error_In; eauto.
    - apply K. eapply nth_error_In; eauto.
    - clear -E Hy Hu. revert i Hy Hu. induction E as [|y' w' l ws Ey _ IH]; intros [|i] Hy Hw; cbn in *; try discriminate.
      + congruence.
      + eapply IH; eauto.
    - eapply heap_elem; eauto. eapply nth_error_In; eauto.
    - eapply unmixed_elem; eauto.
    - apply NN. eapply nth_error_In; eauto. }
  apply forall2_len in E. clear -V E. cbn [cmp].
  revert l us' V E. induction ws as [|v ws IH]; intros [|y l] [|u us] V E; try discriminate; cbn [cmp_fwd length firstn].
  - split; [intros _; apply verdict_ok; split; auto; constructor; auto | lia].
  - split; [intros _; apply verdict_no; intros Q; apply content_arr in Q; discriminate | lia].
  - split; [lia | intros _; split; auto]. intros Q. destruct Q. constructor.
  - destruct (IH l us) as [I1 I2]; [intros i ? ? ? A B C; apply (V (S i)); auto | injection E; auto|].
    assert (V0 : verdict (cmp a v y) (content_eq v u)) by (apply (V O); auto).
    split.
    + intros Hl. eapply verdict_iff; [|apply (verdict_and _ _ _ (content_eq (VArr ws) (VArr us)) V0); intros _; apply I1; lia].
      split; [intros [A B]; inversion B; subst; constructor; auto | intros Q; inversion Q as [|? ? Q'| | | | |]; subst; inversion Q'; subst; split; auto; constructor; auto].
    + intros Hl. destruct I2 as [I2 I3]; [lia|]. destruct V0 as (b & -> & I). cbn [bind]. split.
      * intros Q. inversion Q; subst. rewrite (proj2 I) by auto. auto.
      * intros Q. destruct b; auto. apply I3. intros Q'. apply Q. constructor; auto. apply I; auto.
Qed.

(** ** Multimaps look only at the keys they have. *)
Theorem multi_blind o k x fs gs l :
  StronglySorted key_lt (map fst fs) -> StronglySorted key_lt (map fst gs) ->
  (forall p s, In p l -> to_dart k (fst p) = Ok (VStr s) -> lookup s fs = lookup s gs) ->
  cmp (TMulti o k x) (VObj fs) (CMap l) = cmp (TMulti o k x) (VObj gs) (CMap l).
Proof.
  intros S1 S2. cbn [cmp]. generalize (length l) as fuel. intros fuel. revert l.
  induction fuel as [|fuel IH]; intros [|p l] H; cbn [cmp_multi]; auto.
  destruct (group o (fst p) l) as [g rest] eqn:Eg.
  assert (L : look (VObj fs) (to_dart k (fst p)) = look (VObj gs) (to_dart k (fst p))).
  { unfold look. destruct (to_dart k (fst p)) as [v| | | |] eqn:Ep; cbn [bind]; auto. destruct v as [| |s| | | |]; auto.
    rewrite !h_get_spec, (H p s) by (cbn; auto). auto. }
  rewrite L. destruct (look (VObj gs) (to_dart k (fst p))) as [w| | | |]; cbn [bind]; auto.
  destruct w as [|ws| | | | |]; auto. destruct (Nat.eqb _ _); auto.
  destruct (is_perm _ _ _ _) as [b| | | |]; cbn [bind]; auto. destruct b; auto.
  apply IH. intros q s Hq. apply H. right.
  assert (R : forall q, In q rest -> In q l); auto.
  clear -Eg. revert g rest Eg. induction l as [|q l IH]; cbn; intros g rest Eg.
  - injection Eg as <- <-. intros ? [].
  - destruct (same_group o (fst p) (fst q)).
    + destruct (group o (fst p) l) as [g' r'] eqn:E'. injection Eg as <- <-. intros. right. eapply IH; eauto.
    + injection Eg as <- <-. auto.
Qed.
