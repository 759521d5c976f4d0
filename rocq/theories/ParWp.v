(** Calls of Par.v step by step: what a call needs from its thread's handles so that
    it runs to the end whatever the other threads do, and what it then returns. *)

From Coq Require Import ZArith List Bool Lia ZifyBool ZifyNat ZifyN.
From Verif Require Import Base BaseFacts Keys Wire Spec SpecOps HeapOps HeapFacts Store StoreSpec StoreFacts StoreSteps Par SpecPar ParFacts.
Import ListNotations.
Open Scope Z_scope.

(** [hand]: the handles of the thread.  Before every access others may have run. *)
Fixpoint wp (acq : bool) (p : prog) (c : cells) (sy : nat -> clock) (hand : list hval) (V : clock)
    (Q : cells -> list hval -> list hval -> ans -> Prop) : Prop :=
  match p with
  | Stuck => False
  | Ret vs r => forall c' sy' others, rely hand c sy c' sy' -> wf c' (hand ++ others) -> Q c' hand vs r
  | Do x k => forall c' sy' V' others, rely hand c sy c' sy' -> vle V V' -> wf c' (hand ++ others) ->
      match x with
      | Count a => (exists h, In h hand /\ href h = Some a) /\
          forall n d, cell_at c' a = Some (n, d) ->
            wp acq (k (R_count n)) c' sy' hand (if acq then join V' (sy' a) else V') Q
      | Inc h => reach c' hand h /\ href h <> None /\
          forall c2, inc c' h = Ok c2 -> wf c2 ((h :: hand) ++ others) -> sub c' c2 -> wp acq (k R_unit) c2 sy' (h :: hand) V' Q
      | Read a => (exists h, reach c' hand h /\ href h = Some a) /\
          forall n d, cell_at c' a = Some (n, d) -> wp acq (k (R_cell d)) c' sy' hand V' Q
      | Write a d' => exists d news olds r0,
          cell_at c' a = Some (1, d) /\ In (handle d a) r0 /\ handle d' a = handle d a /\ vle (sy' a) V' /\
          req hand (news ++ r0) /\ meq (kids d' ++ olds) (kids d ++ news) /\
          forall c2, put c' a d' = Ok c2 -> wp acq (k R_unit) c2 sy' (olds ++ r0) V' Q
      | New d => exists r0, req hand (kids d ++ r0) /\
          (sy' (length c') = zero -> wp acq (k (R_addr (length c'))) (c' ++ [Some (1, d)]) sy' (handle d (length c') :: r0) V' Q)
      | Toss h => exists r0, req hand (h :: r0) /\ wp acq (k R_unit) c' sy' r0 V' Q
      end
  end.

Lemma wp_rely acq p c sy hand V Q c' sy' V' : wp acq p c sy hand V Q -> rely hand c sy c' sy' -> vle V V' ->
  wp acq p c' sy' hand V' Q.
Proof.
  destruct p as [vs r| |x k]; cbn [wp]; [| |]; [intros H R L|auto|intros H R L].
  - intros c2 sy2 o R2 W. apply (H c2 sy2 o); [eapply rely_trans; eassumption|exact W].
  - intros c2 sy2 V2 o R2 L2 W. apply (H c2 sy2 V2 o); [eapply rely_trans; eassumption|eapply vle_trans; eassumption|exact W].
Qed.

(** ** Where a call stands *)
Definition At (c : cells) (hand vs : list hval) (e : env) (temps : list hval) : Prop :=
  req hand (temps ++ vs) /\ exists others, Inv (St c vs) e (temps ++ others).
Lemma wf_req_out c hand temps vs others : req hand (temps ++ vs) -> wf c (hand ++ others) -> wf c ((temps ++ others) ++ vs).
Proof.
  intros R W. apply (wf_req c ((temps ++ vs) ++ others)).
  - intros h _. rewrite !cnt_app. lia.
  - eapply wf_req; [|exact W]. apply req_app; [exact R|apply req_refl].
Qed.
Lemma wf_req_in c hand temps vs others : req hand (temps ++ vs) -> wf c ((temps ++ others) ++ vs) -> wf c (hand ++ others).
Proof.
  intros R W. apply (wf_req c ((temps ++ vs) ++ others)).
  - apply req_app; [apply req_sym; exact R|apply req_refl].
  - eapply wf_req; [|exact W]. intros h _. rewrite !cnt_app. lia.
Qed.
Lemma root_shows c sy c' sy' hand h v : rely hand c sy c' sy' -> (href h <> None -> In h hand) -> shows c h v -> shows c' h v.
Proof.
  intros R I Sh. destruct (href h) as [a|] eqn:E.
  - eapply rely_shows; [exact R|apply rc_root; apply I; congruence|exact Sh].
  - inversion Sh; subst; try constructor; discriminate.
Qed.
Lemma var_in hand temps vs h : req hand (temps ++ vs) -> In h (temps ++ vs) -> href h <> None -> In h hand.
Proof. intros R I N. eapply req_in; [apply req_sym; exact R|exact N|exact I]. Qed.

Lemma At_rely c sy c' sy' hand vs e temps others : At c hand vs e temps -> rely hand c sy c' sy' ->
  wf c' (hand ++ others) -> Inv (St c' vs) e (temps ++ others).
Proof.
  intros [R (o & [W F])] Y W'. cbn [heap vars] in *. split; cbn [heap vars].
  - eapply wf_req_out; eassumption.
  - apply Forall2_nth_intro; [exact (Forall2_length F)|]. intros i h v Hi Vi.
    pose proof (Forall2_nth _ _ _ i F) as Q. rewrite Hi, Vi in Q. eapply root_shows; [exact Y| |exact Q].
    intros N. eapply var_in; [exact R| |exact N]. apply in_or_app. right. eapply nth_error_In. exact Hi.
Qed.
Lemma At_intro c hand vs e temps others : req hand (temps ++ vs) -> Inv (St c vs) e (temps ++ others) -> At c hand vs e temps.
Proof. intros R I. split; [exact R|exists others; exact I]. Qed.
Lemma At_step c sy c' sy' hand vs e temps others : At c hand vs e temps -> rely hand c sy c' sy' ->
  wf c' (hand ++ others) -> At c' hand vs e temps.
Proof. intros A Y W. eapply At_intro; [apply A|]. eapply At_rely; eassumption. Qed.
Lemma At_get c hand vs e temps x : At c hand vs e temps -> (x < length e)%nat ->
  exists h, nth_error vs x = Some h /\ shows c h (val e x) /\ (href h <> None -> In h hand).
Proof.
  intros [R (o & I)] L. destruct (L_get _ _ _ _ I L) as (h & N & _ & Sh). exists h. split; [exact N|]. split; [exact Sh|].
  intros Nn. eapply var_in; [exact R| |exact Nn]. apply in_or_app. right. eapply nth_error_In. exact N.
Qed.

(** A container nobody else has, and whose history the thread knows. *)
Definition Excl (c : cells) (sy : nat -> clock) (hand : list hval) (V : clock) (a : nat) (d : cell) : Prop :=
  cell_at c a = Some (1, d) /\ In (handle d a) hand /\ vle (sy a) V.
Lemma Excl_rely c sy c' sy' hand V V' a d : Excl c sy hand V a d -> rely hand c sy c' sy' -> vle V V' -> Excl c' sy' hand V' a d.
Proof.
  intros (C & I & L) Y K. destruct (rl_own _ _ _ _ _ Y _ _ _ I (handle_ref d a) C) as [C' S]. split; [exact C'|]. split; [exact I|].
  rewrite S. eapply vle_trans; eassumption.
Qed.
Definition Own c sy hand V (vs : list hval) x a d := nth_error vs x = Some (handle d a) /\ Excl c sy hand V a d.
Lemma Own_owned c sy hand V vs x a d : Own c sy hand V vs x a d -> owned (St c vs) x a d.
Proof. intros (N & C & _). split; [exact N|exact C]. Qed.

(** A container that can be seen. *)
Definition Sees (c : cells) (hand : list hval) (a : nat) (d : cell) : Prop :=
  exists n h, In h hand /\ href h = Some a /\ cell_at c a = Some (n, d).
Lemma Sees_rely c sy c' sy' hand a d : Sees c hand a d -> rely hand c sy c' sy' -> Sees c' hand a d.
Proof.
  intros (n & h & I & E & C) Y. destruct (rl_same _ _ _ _ _ Y _ _ _ _ (rc_root _ _ _ I) E C) as (n' & C'). exists n', h. auto.
Qed.
Lemma Sees_sub c c' hand h a d : Sees c hand a d -> sub c c' -> Sees c' (h :: hand) a d.
Proof. intros (n & x & I & E & C) S. destruct (S _ _ _ C) as (n' & C'). exists n', x. cbn. auto. Qed.
Lemma Sees_kid c hand a d k : Sees c hand a d -> In k (kids d) -> reach c hand k.
Proof. intros (n & x & I & E & C) K. eapply rc_kid; [apply rc_root; exact I|exact E|exact C|exact K]. Qed.

(** ** The steps *)
Section Rules.
  Context (acq : bool) (Q : cells -> list hval -> list hval -> ans -> Prop).

  Lemma wp_get vs x k c sy hand V h : nth_error vs x = Some h -> wp acq (k h) c sy hand V Q -> wp acq (p_get vs x k) c sy hand V Q.
  Proof using. intros E H. unfold p_get. rewrite E. exact H. Qed.

  Lemma wp_read vs e temps k c sy hand V a d : At c hand vs e temps -> Sees c hand a d ->
    (forall c1 sy1 V1, At c1 hand vs e temps -> Sees c1 hand a d -> rely hand c sy c1 sy1 -> vle V V1 -> wp acq (k d) c1 sy1 hand V1 Q) ->
    wp acq (p_read a k) c sy hand V Q.
  Proof using.
    intros A S H. unfold p_read. cbn [wp]. intros c' sy' V' o Y L W. pose proof (Sees_rely _ _ _ _ _ _ _ S Y) as S'. split.
    - destruct S' as (n & h & I & E & _). exists h. split; [apply rc_root; exact I|exact E].
    - intros n d0 C. assert (d0 = d) as -> by (destruct S' as (m & h & _ & _ & C'); congruence).
      apply H; auto. eapply At_step; eassumption.
  Qed.

  Lemma At_inc c c2 hand vs e temps others h : req hand (temps ++ vs) -> Inv (St c vs) e (temps ++ others) ->
    wf c2 ((h :: hand) ++ others) -> sub c c2 -> At c2 (h :: hand) vs e (h :: temps).
  Proof using.
    intros R [W F] W2 S. cbn [heap vars] in *.
    assert (R' : req (h :: hand) ((h :: temps) ++ vs)) by (apply (req_app [h] [h]); [apply req_refl|exact R]).
    eapply At_intro with (others := others); [exact R'|]. split; cbn [heap vars].
    - eapply wf_req_out; [exact R'|exact W2].
    - eapply Forall2_imp; [|exact F]. intros x y. apply shows_sub. exact S.
  Qed.

  (** Copying a handle. *)
  Lemma wp_inc vs e temps k c sy hand V h : At c hand vs e temps -> reach c hand h ->
    (forall c1 sy1 V1 hand1, At c1 hand1 vs e (h :: temps) ->
       (forall a d, Sees c hand a d -> Sees c1 hand1 a d) ->
       (forall a d, Excl c sy hand V a d -> href h <> Some a -> Excl c1 sy1 hand1 V1 a d) ->
       (forall x v, reach c hand x -> shows c x v -> shows c1 x v) ->
       wp acq k c1 sy1 hand1 V1 Q) ->
    wp acq (p_inc h k) c sy hand V Q.
  Proof using.
    intros A R H. unfold p_inc. destruct (href h) as [b|] eqn:E.
    - cbn [wp]. intros c' sy' V' o Y L W. pose proof (rely_reach _ _ _ _ _ _ Y R) as R'. split; [exact R'|]. split; [congruence|].
      intros c2 I W2 S. pose proof (At_rely _ _ _ _ _ _ _ _ _ A Y W) as I'.
      apply H.
      + eapply At_inc; [apply A|exact I'|exact W2|exact S].
      + intros a d Se. eapply Sees_sub; [|exact S]. eapply Sees_rely; eassumption.
      + intros a d X N. destruct (Excl_rely _ _ _ _ _ _ _ _ _ X Y L) as (C & J & K). split; [|split; [right; exact J|exact K]].
        eapply inc_other; [exact I|exact E| |exact C]. congruence.
      + intros x v Rx Sx. eapply shows_sub; [exact S|]. eapply rely_shows; eassumption.
    - apply H; auto.
      destruct A as [Rq (o & [W F])]. assert (Rq' : req hand ((h :: temps) ++ vs)).
      { eapply req_trans; [exact Rq|]. apply req_sym. cbn [app]. apply req_scalar. exact E. }
      apply (At_intro _ _ _ _ _ o Rq'). split; [|exact F]. cbn [heap vars app] in *. apply wf_scalar; assumption.
  Qed.

  Lemma wp_inc_all vs e k hs a d : forall temps c sy hand V, At c hand vs e temps -> Sees c hand a d ->
    (forall h, In h hs -> In h (kids d)) ->
    (forall c1 sy1 V1 hand1 temps1, At c1 hand1 vs e temps1 -> req temps1 (hs ++ temps) -> Sees c1 hand1 a d -> wp acq k c1 sy1 hand1 V1 Q) ->
    wp acq (p_inc_all hs k) c sy hand V Q.
  Proof using.
    induction hs as [|h hs IH]; intros temps c sy hand V A Se K H; cbn [p_inc_all].
    - apply (H c sy V hand temps); auto. apply req_refl.
    - apply (wp_inc vs e temps); [exact A|eapply Sees_kid; [exact Se|apply K; left; reflexivity]|].
      intros c1 sy1 V1 hand1 A1 S1 _ _. apply (IH (h :: temps)); [exact A1|apply S1; exact Se|intros x J; apply K; right; exact J|].
      intros c2 sy2 V2 hand2 temps2 A2 R2 S2. apply (H c2 sy2 V2 hand2 temps2); auto. eapply req_trans; [exact R2|].
      intros y _. cbn [app]. rewrite (cnt_app y hs), (cnt_cons y h temps), (cnt_cons y h (hs ++ temps)), cnt_app. lia.
  Qed.

  (** Destroying one. *)
  Lemma wp_toss vs e temps k c sy hand V h : At c hand vs e (h :: temps) ->
    (forall c1 sy1 V1 hand1, At c1 hand1 vs e temps -> rely hand1 c sy c1 sy1 -> vle V V1 ->
       (forall x, In x hand1 -> href x <> None -> In x hand) -> (forall x, In x (temps ++ vs) -> href x <> None -> In x hand1) ->
       wp acq k c1 sy1 hand1 V1 Q) ->
    wp acq (p_toss h k) c sy hand V Q.
  Proof using.
    intros A H. unfold p_toss. destruct (href h) as [b|] eqn:E.
    - cbn [wp]. intros c' sy' V' o Y L W. exists (temps ++ vs). split; [apply A|].
      assert (J : forall x, In x (temps ++ vs) -> href x <> None -> In x hand).
      { intros x I N. eapply var_in; [apply A| |exact N]. right. exact I. }
      apply H; auto.
      + pose proof (At_rely _ _ _ _ _ _ _ _ _ A Y W) as I'. apply (At_intro _ _ _ _ _ (h :: o)); [apply req_refl|].
        eapply Inv_meq; [|exact I']. intros y. cbn [app]. rewrite (cnt_cons y h (temps ++ o)), !cnt_app, (cnt_cons y h o). lia.
      + eapply rely_incl; [exact J|exact Y].
    - assert (Rq : req hand (temps ++ vs)).
      { eapply req_trans; [apply A|]. apply req_scalar. exact E. }
      apply H; auto using rely_refl, vle_refl.
      + destruct A as [_ (o & [W F])]. apply (At_intro _ _ _ _ _ o Rq). split; [|exact F]. cbn [heap vars app] in *.
        apply wf_scalar in W; assumption.
      + intros x I N. eapply var_in; [exact Rq|exact I|exact N].
  Qed.

  (** A new container. *)
  Lemma wp_new vs e temps temps1 k c sy hand V d : At c hand vs e temps1 -> req temps1 (kids d ++ temps) ->
    (forall c1 sy1 V1 hand1 a, At c1 hand1 vs e (handle d a :: temps) -> Excl c1 sy1 hand1 V1 a d ->
       (forall b n d', cell_at c b = Some (n, d') -> (exists h, In h hand /\ href h = Some b) -> exists n', cell_at c1 b = Some (n', d')) ->
       (forall x v, (href x <> None -> In x hand) -> shows c x v -> shows c1 x v) ->
       wp acq (k a) c1 sy1 hand1 V1 Q) ->
    wp acq (p_new d k) c sy hand V Q.
  Proof using.
    intros A R1 H. unfold p_new. cbn [wp]. intros c' sy' V' o Y L W. exists (temps ++ vs).
    assert (Rq : req hand (kids d ++ temps ++ vs)).
    { eapply req_trans; [apply A|]. rewrite app_assoc. apply req_app; [exact R1|apply req_refl]. }
    split; [exact Rq|]. intros Z. pose proof (At_rely _ _ _ _ _ _ _ _ _ A Y W) as [_ F]. cbn [heap vars] in F.
    apply H.
    - apply (At_intro _ _ _ _ _ o); [apply req_refl|]. split; cbn [heap vars].
      + assert (W2 : wf c' (kids d ++ (temps ++ o) ++ vs)).
        { eapply wf_req; [|exact W]. eapply req_trans; [apply req_app; [exact Rq|apply req_refl]|]. intros y _. rewrite !cnt_app. lia. }
        apply alloc_ok in W2. exact W2.
      + eapply Forall2_imp; [|exact F]. intros x y. apply shows_sub. apply alloc_sub.
    - split; [apply cell_at_last|]. split; [left; reflexivity|]. rewrite Z. intros t. unfold zero. lia.
    - intros b n d' C (h & I & E). destruct (rl_same _ _ _ _ _ Y _ _ _ _ (rc_root _ _ _ I) E C) as (n1 & C1).
      destruct (alloc_sub c' d _ _ _ C1) as (n2 & C2). eauto.
    - intros x v I Sx. eapply shows_sub; [apply alloc_sub|]. eapply root_shows; eassumption.
  Qed.

  (** Changing one in place. *)
  Lemma wp_write vs e news temps olds v' x a d d' k c sy hand V : At c hand vs e (news ++ temps) ->
    Own c sy hand V vs x a d -> handle d' a = handle d a -> meq (kids d' ++ olds) (kids d ++ news) -> cell_shows c d' v' ->
    (forall c1 sy1 V1 hand1, At c1 hand1 vs (list_set x v' e) (olds ++ temps) -> wp acq k c1 sy1 hand1 V1 Q) ->
    wp acq (p_write a d' k) c sy hand V Q.
  Proof using.
    intros A O HH M CS H. unfold p_write. cbn [wp]. intros c' sy' V' o Y L W.
    pose proof (At_rely _ _ _ _ _ _ _ _ _ A Y W) as I'. destruct O as [N X].
    pose proof (Excl_rely _ _ _ _ _ _ _ _ _ X Y L) as (C & J & K).
    exists d, news, olds, (temps ++ vs). split; [exact C|]. split.
    { apply in_or_app. right. eapply nth_error_In. exact N. }
    split; [exact HH|]. split; [exact K|]. split. { rewrite app_assoc. apply A. }
    split; [exact M|]. intros c2 P. rewrite <- app_assoc in I'.
    destruct (L_store (St c' vs) e news (temps ++ o) x a d d' olds v' I') as (s' & E & I2 & _); auto.
    - split; [exact N|exact C].
    - cbn [heap]. eapply cell_shows_map; [|exact CS]. intros h w I Sh.
      assert (I2 : In h (kids d ++ news)) by (eapply meq_in; [exact M|apply in_or_app; left; exact I]).
      apply in_app_or in I2. destruct I2 as [I2|I2].
      + eapply rely_shows; [exact Y| |exact Sh]. destruct X as (C0 & J0 & _).
        eapply rc_kid; [apply rc_root; exact J0|apply handle_ref|exact C0|exact I2].
      + eapply root_shows; [exact Y| |exact Sh]. intros Nn. eapply var_in; [apply A| |exact Nn].
        rewrite !in_app_iff. auto.
    - unfold put_s in E. cbn [heap vars] in E. rewrite P in E. cbn [bind] in E. injection E as <-.
      apply H. apply (At_intro _ _ _ _ _ o); [rewrite <- app_assoc; apply req_refl|]. rewrite <- app_assoc. exact I2.
  Qed.

End Rules.

(** copy_on_write: afterwards the variable has its container for itself. *)
Lemma handle_kind d a b : same_kind (handle d a) b = handle d b.
Proof. destruct d; reflexivity. Qed.
Lemma wp_unshare Q vs e x k c sy hand V : At c hand vs e [] -> (x < length e)%nat ->
  (forall c1 sy1 V1 hand1 vs1 h, At c1 hand1 vs1 e [] -> nth_error vs1 x = Some h -> shows c1 h (val e x) ->
     (forall a, href h = Some a -> exists d, h = handle d a /\ Own c1 sy1 hand1 V1 vs1 x a d) ->
     wp true (k vs1 h) c1 sy1 hand1 V1 Q) ->
  wp true (p_unshare vs x k) c sy hand V Q.
Proof.
  intros A L H. destruct (At_get _ _ _ _ _ _ A L) as (h & N & Sh & J). unfold p_unshare. apply (wp_get _ _ _ _ _ _ _ _ _ h N).
  destruct (href h) as [a|] eqn:E. 2: { apply (H c sy V hand vs h); auto. congruence. }
  cbn [wp]. intros c' sy' V' o Y Lv W. assert (Jh : In h hand) by (apply J; congruence). split; [exists h; auto|].
  intros n d C. pose proof (At_step _ _ _ _ _ _ _ _ _ A Y W) as A'.
  destruct (At_get _ _ _ _ _ _ A' L) as (h' & N' & Sh' & _). rewrite N in N'. injection N' as <-.
  destruct (shows_cell _ _ _ _ Sh' E) as (n' & d' & C' & Eh & CS). rewrite C in C'. injection C' as <- <-.
  destruct (1 <? n) eqn:Ln.
  2: { apply H; auto. intros b Eb. rewrite E in Eb. injection Eb as <-. exists d. split; [exact Eh|]. split; [congruence|].
       assert (n = 1) as -> by (destruct W as [W _]; destruct (W _ _ _ C); lia).
       split; [exact C|]. split; [congruence|]. apply vle_join_r. }
  assert (Se : Sees c' hand a d) by (exists n, h; auto).
  apply (wp_read true Q vs e []) with (d := d); [exact A'|exact Se|]. intros c1 sy1 V1 A1 S1 _ _.
  apply (wp_inc_all true Q vs e) with (temps := []) (a := a) (d := d); auto.
  intros c2 sy2 V2 hand2 temps2 A2 R2 S2. rewrite app_nil_r in R2.
  assert (CS2 : cell_shows c2 d (val e x)).
  { destruct (At_get _ _ _ _ _ _ A2 L) as (h2 & N2 & Sh2 & _). rewrite N in N2. injection N2 as <-.
    destruct (shows_cell _ _ _ _ Sh2 E) as (m & d2 & C2 & _ & CS2). destruct S2 as (m' & ? & _ & _ & C2'). congruence. }
  apply (wp_new true Q vs e []) with (temps1 := temps2); [exact A2|rewrite app_nil_r; exact R2|].
  intros c3 sy3 V3 hand3 b A3 X3 _ S3. rewrite Eh at 2 3. rewrite !handle_kind. set (h' := handle d b) in *.
  assert (NX : nth_error (list_set x h' vs) x = Some h').
  { apply nth_set_same. apply nth_error_Some. congruence. }
  assert (Sx : shows c3 h' (val e x)).
  { eapply shows_handle; [apply X3|]. eapply cell_shows_map; [|exact CS2]. intros y w Iy. apply S3. intros Ny.
    eapply var_in; [apply A2| |exact Ny]. apply in_or_app. left. eapply req_in; [apply req_sym; exact R2|exact Ny|exact Iy]. }
  assert (A4 : At c3 hand3 (list_set x h' vs) e [h]).
  { destruct A3 as [R3 (o3 & [W3 F3])]. cbn [heap vars] in *. assert (M : meq ([h] ++ list_set x h' vs) ([h'] ++ vs)) by (apply set_meq; exact N).
    apply (At_intro _ _ _ _ _ o3).
    - eapply req_trans; [exact R3|]. apply meq_req. intros y. symmetry. apply M.
    - split; cbn [heap vars].
      + eapply wf_meq; [|exact W3]. intros y. specialize (M y). rewrite !cnt_app in *. lia.
      + rewrite <- (list_set_id e x). apply Forall2_set; [exact F3|exact Sx]. }
  apply (wp_toss true Q (list_set x h' vs) e []); [exact A4|]. intros c4 sy4 V4 hand4 A5 Y4 L4 I4 I5.
  assert (J4 : In h' hand4) by (apply I5; [cbn [app]; eapply nth_error_In; exact NX|unfold h'; rewrite handle_ref; discriminate]).
  apply H; auto.
  - eapply root_shows; [exact Y4|auto|exact Sx].
  - intros b' Eb. unfold h' in Eb. rewrite handle_ref in Eb. injection Eb as <-. exists d. split; [reflexivity|]. split; [exact NX|].
    eapply Excl_rely; [|exact Y4|exact L4]. destruct X3 as (C3 & _ & K3). split; [exact C3|]. split; [exact J4|exact K3].
Qed.

(** ** The calls *)
Definition Post (p : env * ans) : cells -> list hval -> list hval -> ans -> Prop :=
  fun c hand vs r => At c hand vs (fst p) [] /\ r = snd p.

Section Calls.
  Context (acq : bool).

  Lemma wp_ret c sy hand V vs e r p : At c hand vs e [] -> p = (e, r) -> wp acq (Ret vs r) c sy hand V (Post p).
  Proof using. intros A -> c' sy' o Y W. split; [|reflexivity]. eapply At_step; eassumption. Qed.

  Section Any.
  Context (Q : cells -> list hval -> list hval -> ans -> Prop).

  Lemma wp_fields vs e temps h v k c sy hand V : At c hand vs e temps -> shows c h v -> (href h <> None -> In h hand) ->
    (forall c1 sy1 V1 a fs fv, v = VObj fv -> h = HObj a -> At c1 hand vs e temps -> rely hand c sy c1 sy1 -> vle V V1 ->
       Sees c1 hand a (CObj fs) -> Forall2 (pair_shows c1) fs fv -> wp acq (k (Some (a, fs))) c1 sy1 hand V1 Q) ->
    ((forall fv, v <> VObj fv) -> (forall a, h <> HObj a) -> wp acq (k None) c sy hand V Q) ->
    wp acq (p_fields h k) c sy hand V Q.
  Proof using.
    intros A Sh J H1 H2. inversion Sh as [| | | | |a n fs fv C F|a n ms mv C F]; subst; cbn [p_fields]; try (apply H2; discriminate).
    assert (Jh : In (HObj a) hand) by (apply J; discriminate).
    assert (Se : Sees c hand a (CObj fs)) by (exists n, (HObj a); auto).
    apply (wp_read acq Q vs e temps) with (d := CObj fs); [exact A|exact Se|]. intros c1 sy1 V1 A1 S1 Y L.
    apply (H1 c1 sy1 V1 a fs fv); auto.
    assert (Sh1 : shows c1 (HObj a) (VObj fv)) by (eapply rely_shows; [exact Y|apply rc_root; exact Jh|exact Sh]).
    inversion Sh1 as [| | | | |? m fs1 ? C1 F1|]; subst. destruct S1 as (m' & ? & _ & _ & C1'). rewrite C1 in C1'. injection C1' as _ ->. exact F1.
  Qed.
  Lemma wp_elements vs e temps h v k c sy hand V : At c hand vs e temps -> shows c h v -> (href h <> None -> In h hand) ->
    (forall c1 sy1 V1 a ms mv, v = VArr mv -> h = HArr a -> At c1 hand vs e temps -> rely hand c sy c1 sy1 -> vle V V1 ->
       Sees c1 hand a (CArr ms) -> Forall2 (shows c1) ms mv -> wp acq (k (Some (a, ms))) c1 sy1 hand V1 Q) ->
    ((forall mv, v <> VArr mv) -> (forall a, h <> HArr a) -> wp acq (k None) c sy hand V Q) ->
    wp acq (p_elements h k) c sy hand V Q.
  Proof using.
    intros A Sh J H1 H2. inversion Sh as [| | | | |a n fs fv C F|a n ms mv C F]; subst; cbn [p_elements]; try (apply H2; discriminate).
    assert (Jh : In (HArr a) hand) by (apply J; discriminate).
    assert (Se : Sees c hand a (CArr ms)) by (exists n, (HArr a); auto).
    apply (wp_read acq Q vs e temps) with (d := CArr ms); [exact A|exact Se|]. intros c1 sy1 V1 A1 S1 Y L.
    apply (H1 c1 sy1 V1 a ms mv); auto.
    assert (Sh1 : shows c1 (HArr a) (VArr mv)) by (eapply rely_shows; [exact Y|apply rc_root; exact Jh|exact Sh]).
    inversion Sh1 as [| | | | | |? m fs1 ? C1 F1]; subst. destruct S1 as (m' & ? & _ & _ & C1'). rewrite C1 in C1'. injection C1' as _ ->. exact F1.
  Qed.

  (** Taking the argument. *)
  Lemma Own_other c sy hand V vs e temps x a d y h : At c hand vs e temps -> Own c sy hand V vs x a d ->
    y <> x -> nth_error vs y = Some h -> href h <> Some a.
  Proof using.
    intros [_ (o & [W _])] O N E. destruct (owned_nref (St c vs) _ x a d W) as (_ & _ & Z); [eapply Own_owned; exact O|]. exact (Z y h N E).
  Qed.
  Lemma wp_p_copy vs e temps v k c sy hand V : At c hand vs e temps -> src_in (length e) v ->
    (forall c1 sy1 V1 hand1 hv, At c1 hand1 vs e (hv :: temps) -> shows c1 hv (src_value e v) ->
       (forall x a d, Own c sy hand V vs x a d -> ~ names v x -> Own c1 sy1 hand1 V1 vs x a d) ->
       wp acq (k vs hv) c1 sy1 hand1 V1 Q) ->
    wp acq (p_copy vs v k) c sy hand V Q.
  Proof using.
    intros A Si H. assert (CASE : forall y, (y < length e)%nat -> (forall x, ~ names v x -> y <> x) -> src_value e v = val e y ->
      wp acq (p_get vs y (fun h => p_inc h (k vs h))) c sy hand V Q).
    { intros y L NM SV. destruct (At_get _ _ _ _ _ _ A L) as (h & N & Sh & J). apply (wp_get _ _ _ _ _ _ _ _ _ h N).
      destruct (href h) as [b|] eqn:E.
      - assert (R : reach c hand h) by (apply rc_root; apply J; congruence).
        apply (wp_inc acq Q vs e temps); [exact A|exact R|]. intros c1 sy1 V1 hand1 A1 _ X1 S1. apply H; auto.
        + rewrite SV. apply S1; assumption.
        + intros x a d O Nx. pose proof (Own_other _ _ _ _ _ _ _ _ _ _ y h A O (NM x Nx) N) as D.
          destruct O as [O1 O2]. split; [exact O1|]. apply X1; [exact O2|exact D].
      - unfold p_inc. rewrite E. apply H; auto; [|rewrite SV; exact Sh].
        destruct A as [Rq (o & [W F])]. assert (Rq' : req hand ((h :: temps) ++ vs)).
        { eapply req_trans; [exact Rq|]. apply req_sym. cbn [app]. apply req_scalar. exact E. }
        apply (At_intro _ _ _ _ _ o Rq'). split; [|exact F]. cbn [heap vars app] in *. apply wf_scalar; assumption. }
    destruct v as [l|y|y|y]; cbn [src_in p_copy] in *.
    2-4: apply (CASE y); [exact Si|cbn [names]; auto|reflexivity].
    clear CASE. destruct (lit_h l) as [h|] eqn:E; [|contradiction Si; exact E].
    assert (HR : href h = None) by (destruct l; try discriminate; injection E as <-; reflexivity).
    apply H; auto.
    - destruct A as [Rq (o & [W F])]. assert (Rq' : req hand ((h :: temps) ++ vs)).
      { eapply req_trans; [exact Rq|]. apply req_sym. cbn [app]. apply req_scalar. exact HR. }
      apply (At_intro _ _ _ _ _ o Rq'). split; [|exact F]. cbn [heap vars app] in *. apply wf_scalar; assumption.
    - cbn [src_value]. destruct l; try discriminate; injection E as <-; constructor.
  Qed.
  Lemma wp_p_move vs e y k c sy hand V : At c hand vs e [] -> (y < length e)%nat ->
    (forall vs1 hv, At c hand vs1 (list_set y VNull e) [hv] -> shows c hv (val e y) -> vs1 = list_set y HNull vs ->
       wp acq (k vs1 hv) c sy hand V Q) ->
    wp acq (p_get vs y (fun h => k (list_set y HNull vs) h)) c sy hand V Q.
  Proof using.
    intros A L H. destruct (At_get _ _ _ _ _ _ A L) as (h & N & Sh & J). apply (wp_get _ _ _ _ _ _ _ _ _ h N).
    apply H; auto. destruct A as [Rq (o & [W F])]. cbn [heap vars app] in *.
    pose proof (set_meq y HNull h vs N) as M.
    assert (R2 : req vs ([h] ++ list_set y HNull vs)).
    { apply req_sym. eapply req_trans; [apply meq_req; exact M|]. apply req_scalar. reflexivity. }
    apply (At_intro _ _ _ _ _ o); [eapply req_trans; [exact Rq|exact R2]|]. split; cbn [heap vars].
    - eapply wf_req; [|exact W]. eapply req_trans; [apply req_app; [apply req_refl|exact R2]|]. intros z _. rewrite !cnt_app. lia.
    - apply Forall2_set; [exact F|constructor].
  Qed.
  Lemma wp_take (mv : bool) vs e v x a d k c sy hand V : At c hand vs e [] -> src_in (length e) v ->
    Own c sy hand V vs x a d -> ~ names v x ->
    (forall c1 sy1 V1 hand1 vs1 hv, At c1 hand1 vs1 (taken mv v e) [hv] -> shows c1 hv (src_value e v) ->
       Own c1 sy1 hand1 V1 vs1 x a d -> wp acq (k vs1 hv) c1 sy1 hand1 V1 Q) ->
    wp acq ((if mv then p_move else p_copy) vs v k) c sy hand V Q.
  Proof using.
    intros A Si O NM H.
    assert (CP : taken mv v e = e -> wp acq (p_copy vs v k) c sy hand V Q).
    { intros T. rewrite T in H. apply (wp_p_copy vs e []); auto. }
    assert (MV : forall y, (y < length e)%nat -> y <> x -> taken mv v e = list_set y VNull e -> src_value e v = val e y ->
      wp acq (p_get vs y (fun h => k (list_set y HNull vs) h)) c sy hand V Q).
    { intros y L Ny T SV. rewrite T, SV in H. apply (wp_p_move vs e y); auto. intros vs1 hv A1 S1 ->. apply H; auto.
      destruct O as [O1 O2]. split; [|exact O2]. rewrite nth_set_other by auto. exact O1. }
    destruct mv; cbn [taken] in *.
    - destruct v as [l|y|y|y]; cbn [names src_in p_move taken] in *.
      + apply CP; reflexivity.
      + apply CP; reflexivity.
      + apply (MV y); auto.
      + apply (MV y); auto.
    - apply CP. destruct v; reflexivity.
  Qed.
  Lemma forward_as vs v k : p_forward vs v k = (if match v with Rref _ => true | _ => false end then p_move else p_copy) vs v k.
  Proof using. destruct v; reflexivity. Qed.
  Lemma wp_forward vs e v x a d k c sy hand V : At c hand vs e [] -> src_in (length e) v ->
    Own c sy hand V vs x a d -> ~ names v x ->
    (forall c1 sy1 V1 hand1 vs1 hv, At c1 hand1 vs1 (emptied e v) [hv] -> shows c1 hv (src_value e v) ->
       Own c1 sy1 hand1 V1 vs1 x a d -> wp acq (k vs1 hv) c1 sy1 hand1 V1 Q) ->
    wp acq (p_forward vs v k) c sy hand V Q.
  Proof using. intros A Si O NM H. rewrite forward_as. eapply wp_take; try eassumption. rewrite <- emptied_as. exact H. Qed.
  End Any.

  (** What the variable shows, from the container it owns. *)
  Lemma own_fields c sy hand V vs e temps x a fs : At c hand vs e temps -> (x < length e)%nat -> Own c sy hand V vs x a (CObj fs) ->
    exists fv, val e x = VObj fv /\ Forall2 (pair_shows c) fs fv.
  Proof using.
    intros A L O. destruct (At_get _ _ _ _ _ _ A L) as (h & N & Sh & _). destruct O as (O1 & O2 & _). rewrite N in O1. injection O1 as ->.
    cbn [handle] in Sh. inversion Sh as [| | | | |? n fs' fv C F|]; subst. rewrite O2 in C. injection C as <- ->. eauto.
  Qed.
  Lemma own_elements c sy hand V vs e temps x a ms : At c hand vs e temps -> (x < length e)%nat -> Own c sy hand V vs x a (CArr ms) ->
    exists mv, val e x = VArr mv /\ Forall2 (shows c) ms mv.
  Proof using.
    intros A L O. destruct (At_get _ _ _ _ _ _ A L) as (h & N & Sh & _). destruct O as (O1 & O2 & _). rewrite N in O1. injection O1 as ->.
    cbn [handle] in Sh. inversion Sh as [| | | | | |? n fs' fv C F]; subst. rewrite O2 in C. injection C as <- ->. eauto.
  Qed.

  (** Storing. *)
  Lemma wp_insert_field c sy hand V vs e x a fs fv i key hv w p :
    At c hand vs e [hv] -> Own c sy hand V vs x a (CObj fs) -> Forall2 (pair_shows c) fs fv -> shows c hv w -> (i <= length fs)%nat ->
    p = (list_set x (VObj (list_insert i (key, w) fv)) e, A_unit) ->
    wp acq (p_write a (CObj (list_insert i (key, hv) fs)) (Ret vs A_unit)) c sy hand V (Post p).
  Proof using.
    intros A O F Sh L ->.
    apply (wp_write acq _ vs e [hv] [] [] (VObj (list_insert i (key, w) fv)) x a (CObj fs)); auto.
    - rewrite <- (firstn_skipn i fs) at 1 2. assert (length (firstn i fs) = i) as Li by (apply firstn_length_le; exact L).
      rewrite <- Li at 1. rewrite list_insert_mid. cbn [kids]. rewrite !map_app. cbn [map snd]. meq.
    - cbn [cell_shows]. apply Forall2_insert; [exact F|]. split; [reflexivity|exact Sh].
    - intros c1 sy1 V1 hand1 A1. eapply wp_ret; [exact A1|reflexivity].
  Qed.
  Lemma wp_insert_elem c sy hand V vs e x a ms mv i hv w p :
    At c hand vs e [hv] -> Own c sy hand V vs x a (CArr ms) -> Forall2 (shows c) ms mv -> shows c hv w -> (i <= length ms)%nat ->
    p = (list_set x (VArr (list_insert i w mv)) e, A_unit) ->
    wp acq (p_write a (CArr (list_insert i hv ms)) (Ret vs A_unit)) c sy hand V (Post p).
  Proof using.
    intros A O F Sh L ->.
    apply (wp_write acq _ vs e [hv] [] [] (VArr (list_insert i w mv)) x a (CArr ms)); auto.
    - rewrite <- (firstn_skipn i ms) at 1 2. assert (length (firstn i ms) = i) as Li by (apply firstn_length_le; exact L).
      rewrite <- Li at 1. rewrite list_insert_mid. cbn [kids]. meq.
    - cbn [cell_shows]. apply Forall2_insert; assumption.
    - intros c1 sy1 V1 hand1 A1. eapply wp_ret; [exact A1|reflexivity].
  Qed.
  Lemma wp_assign_field c sy hand V vs e x a fs fv j k old hv w p :
    At c hand vs e [hv] -> Own c sy hand V vs x a (CObj fs) -> Forall2 (pair_shows c) fs fv -> shows c hv w ->
    nth_error fs j = Some (k, old) -> p = (list_set x (VObj (list_set j (k, w) fv)) e, A_unit) ->
    wp acq (p_assign_field vs a fs j hv) c sy hand V (Post p).
  Proof using.
    intros A O F Sh N ->. unfold p_assign_field. rewrite N.
    apply (wp_write acq _ vs e [hv] [] [old] (VObj (list_set j (k, w) fv)) x a (CObj fs)); auto.
    - apply nth_error_split in N. destruct N as (f1 & f2 & -> & <-). rewrite list_set_mid. cbn [kids]. rewrite !map_app. cbn [map snd]. meq.
    - cbn [cell_shows]. apply Forall2_set; [exact F|]. split; [reflexivity|exact Sh].
    - intros c1 sy1 V1 hand1 A1. eapply wp_toss; [exact A1|]. intros. eapply wp_ret; [eassumption|reflexivity].
  Qed.
  Lemma wp_assign_elem c sy hand V vs e x a ms mv j old hv w p :
    At c hand vs e [hv] -> Own c sy hand V vs x a (CArr ms) -> Forall2 (shows c) ms mv -> shows c hv w ->
    nth_error ms j = Some old -> p = (list_set x (VArr (list_set j w mv)) e, A_unit) ->
    wp acq (p_assign_element vs a ms j hv) c sy hand V (Post p).
  Proof using.
    intros A O F Sh N ->. unfold p_assign_element. rewrite N.
    apply (wp_write acq _ vs e [hv] [] [old] (VArr (list_set j w mv)) x a (CArr ms)); auto.
    - apply nth_error_split in N. destruct N as (f1 & f2 & -> & <-). rewrite list_set_mid. cbn [kids]. meq.
    - cbn [cell_shows]. apply Forall2_set; assumption.
    - intros c1 sy1 V1 hand1 A1. eapply wp_toss; [exact A1|]. intros. eapply wp_ret; [eassumption|reflexivity].
  Qed.
  Lemma wp_erase_field c sy hand V vs e x a fs fv j k old p :
    At c hand vs e [] -> Own c sy hand V vs x a (CObj fs) -> Forall2 (pair_shows c) fs fv ->
    nth_error fs j = Some (k, old) -> p = (list_set x (VObj (list_erase j fv)) e, A_unit) ->
    wp acq (p_write a (CObj (list_erase j fs)) (p_toss old (Ret vs A_unit))) c sy hand V (Post p).
  Proof using.
    intros A O F N ->.
    apply (wp_write acq _ vs e [] [] [old] (VObj (list_erase j fv)) x a (CObj fs)); auto.
    - apply nth_error_split in N. destruct N as (f1 & f2 & -> & <-). rewrite list_erase_mid. cbn [kids]. rewrite !map_app. cbn [map snd]. meq.
    - cbn [cell_shows]. apply Forall2_erase; exact F.
    - intros c1 sy1 V1 hand1 A1. eapply wp_toss; [exact A1|]. intros. eapply wp_ret; [eassumption|reflexivity].
  Qed.
  Lemma wp_erase_elem c sy hand V vs e x a ms mv j old p :
    At c hand vs e [] -> Own c sy hand V vs x a (CArr ms) -> Forall2 (shows c) ms mv ->
    nth_error ms j = Some old -> p = (list_set x (VArr (list_erase j mv)) e, A_unit) ->
    wp acq (p_write a (CArr (list_erase j ms)) (p_toss old (Ret vs A_unit))) c sy hand V (Post p).
  Proof using.
    intros A O F N ->.
    apply (wp_write acq _ vs e [] [] [old] (VArr (list_erase j mv)) x a (CArr ms)); auto.
    - apply nth_error_split in N. destruct N as (f1 & f2 & -> & <-). rewrite list_erase_mid. cbn [kids]. meq.
    - cbn [cell_shows]. apply Forall2_erase; exact F.
    - intros c1 sy1 V1 hand1 A1. eapply wp_toss; [exact A1|]. intros. eapply wp_ret; [eassumption|reflexivity].
  Qed.

  (** Construction, destruction and reading need nothing of the count. *)
  Lemma wp_overwrite c sy hand V vs e x h v p : At c hand vs e [h] -> shows c h v -> (x < length e)%nat ->
    p = (list_set x v e, A_unit) -> wp acq (p_overwrite vs x h) c sy hand V (Post p).
  Proof using.
    intros A Sh L ->. destruct (At_get _ _ _ _ _ _ A L) as (old & N & _ & _). unfold p_overwrite. apply (wp_get _ _ _ _ _ _ _ _ _ old N).
    assert (A2 : At c hand (list_set x h vs) (list_set x v e) [old]).
    { destruct A as [Rq (o & [W F])]. cbn [heap vars] in *. pose proof (set_meq x h old vs N) as M. apply (At_intro _ _ _ _ _ o).
      - eapply req_trans; [exact Rq|]. apply meq_req. intros y. symmetry. apply M.
      - split; cbn [heap vars].
        + eapply wf_meq; [|exact W]. intros y. specialize (M y). change (h :: vs) with ([h] ++ vs) in M. change (old :: list_set x h vs) with ([old] ++ list_set x h vs) in M.
          rewrite !cnt_app in *. lia.
        + apply Forall2_set; assumption. }
    eapply wp_toss; [exact A2|]. intros. eapply wp_ret; [eassumption|reflexivity].
  Qed.
  Lemma At_scalar c hand vs e h : At c hand vs e [] -> href h = None -> At c hand vs e [h].
  Proof using.
    intros [Rq (o & [W F])] E. apply (At_intro _ _ _ _ _ o).
    - eapply req_trans; [exact Rq|]. apply req_sym. cbn [app]. apply req_scalar. exact E.
    - split; [|exact F]. cbn [heap vars app] in *. apply wf_scalar; assumption.
  Qed.
  Lemma wp_make c sy hand V vs e x f : At c hand vs e [] -> call_ok (length e) (O_make x f) ->
    wp acq (p_make vs x f) c sy hand V (Post (v_exec e (O_make x f))).
  Proof using.
    intros A [L Sc]. destruct f as [| |v]; cbn [p_make v_exec].
    - apply (wp_new acq _ vs e [] []); [exact A|apply req_refl|]. intros c1 sy1 V1 hand1 a A1 (C & _) _ _.
      eapply wp_overwrite; [exact A1|econstructor; [exact C|constructor]|exact L|reflexivity].
    - apply (wp_new acq _ vs e [] []); [exact A|apply req_refl|]. intros c1 sy1 V1 hand1 a A1 (C & _) _ _.
      eapply wp_overwrite; [exact A1|econstructor; [exact C|constructor]|exact L|reflexivity].
    - unfold scalar in Sc. destruct (lit_h v) as [h|] eqn:E; [|contradiction].
      assert (HR : href h = None) by (destruct v; try discriminate; injection E as <-; reflexivity).
      eapply wp_overwrite; [apply At_scalar; [exact A|exact HR]| |exact L|reflexivity].
      destruct v; try discriminate; injection E as <-; constructor.
  Qed.
End Calls.
