(** What one access does to storage shared by threads: the storage invariant of
    StoreFacts.v, what other threads rely on, and happens-before. *)

From Coq Require Import ZArith List Bool Lia ZifyBool ZifyNat ZifyN.
From Verif Require Import Base BaseFacts Keys Wire Spec SpecOps HeapOps HeapFacts Store StoreSpec StoreFacts StoreSteps Par SpecPar.
Import ListNotations.
Open Scope Z_scope.

(** ** Handles up to those that refer to nothing *)
Definition req (l m : list hval) : Prop := forall h, href h <> None -> cnt h l = cnt h m.
Lemma req_refl l : req l l.
Proof. intros h _. reflexivity. Qed.
Lemma req_sym l m : req l m -> req m l.
Proof. intros H h E. symmetry. auto. Qed.
Lemma req_trans l m n : req l m -> req m n -> req l n.
Proof. intros H K h E. rewrite H by assumption. auto. Qed.
Lemma meq_req l m : meq l m -> req l m.
Proof. intros M h _. apply M. Qed.
Lemma req_app l l' m m' : req l l' -> req m m' -> req (l ++ m) (l' ++ m').
Proof. intros H K h E. rewrite !cnt_app. rewrite H, K by assumption. reflexivity. Qed.
Lemma req_scalar h l : href h = None -> req (h :: l) l.
Proof. intros E x N. rewrite cnt_cons. unfold cnt at 1. cbn. destruct (hval_dec h x); [subst; congruence|lia]. Qed.
Lemma cnt_in h l : In h l <-> (0 < cnt h l)%nat.
Proof. unfold cnt. rewrite (count_occ_In hval_dec). lia. Qed.
Lemma req_in l m h : req l m -> href h <> None -> In h l -> In h m.
Proof. intros H N I. apply cnt_in. rewrite <- H by assumption. apply cnt_in. exact I. Qed.
Definition refs (l : list hval) : list hval := filter (fun h => match href h with Some _ => true | None => false end) l.
Lemma refs_nref a l : nref a (refs l) = nref a l.
Proof. induction l as [|h l IH]; [reflexivity|]. unfold refs in *. cbn [filter nref]. destruct (href h) as [b|] eqn:E; cbn [nref]; rewrite ?E; lia. Qed.
Lemma refs_cnt h l : href h <> None -> cnt h (refs l) = cnt h l.
Proof.
  intros N. induction l as [|x l IH]; [reflexivity|]. unfold refs in *. cbn [filter]. destruct (href x) as [b|] eqn:E.
  - rewrite (cnt_cons h x), (cnt_cons h x l). lia.
  - rewrite (cnt_cons h x l). replace (cnt h [x]) with 0%nat; [exact IH|]. unfold cnt. cbn. destruct (hval_dec x h); [subst; congruence|reflexivity].
Qed.
Lemma refs_cnt0 h l : href h = None -> cnt h (refs l) = 0%nat.
Proof.
  intros N. destruct (cnt h (refs l)) as [|m] eqn:E; [reflexivity|]. exfalso. assert (I : In h (refs l)) by (apply cnt_in; lia).
  unfold refs in I. apply filter_In in I. destruct I as [_ I]. rewrite N in I. discriminate.
Qed.
Lemma req_meq l m : req l m -> meq (refs l) (refs m).
Proof.
  intros H h. destruct (href h) as [a|] eqn:E.
  - rewrite !refs_cnt by congruence. apply H. congruence.
  - rewrite !refs_cnt0 by assumption. reflexivity.
Qed.
Lemma req_nref l m a : req l m -> nref a l = nref a m.
Proof. intros H. rewrite <- (refs_nref a l), <- (refs_nref a m). apply meq_nref. apply req_meq. exact H. Qed.
Lemma scalar_shows c h : href h = None -> exists v, shows c h v.
Proof. destruct h; try discriminate; intros _; eexists; constructor. Qed.
Lemma wf_req c r1 r2 : req r1 r2 -> wf c r1 -> wf c r2.
Proof.
  intros M [W1 W2]. split.
  - intros a n d E. rewrite <- (req_nref _ _ a M). exact (W1 a n d E).
  - intros h I. destruct (href h) as [a|] eqn:E; [|apply scalar_shows; exact E].
    apply W2. apply in_app_or in I. apply in_or_app. destruct I as [I|I]; [left|right; assumption].
    eapply req_in; [apply req_sym; exact M|congruence|exact I].
Qed.

(** ** What handles lead to *)
Inductive reach (c : cells) (roots : list hval) : hval -> Prop :=
| rc_root h : In h roots -> reach c roots h
| rc_kid h p n d k : reach c roots h -> href h = Some p -> cell_at c p = Some (n, d) -> In k (kids d) -> reach c roots k.

Lemma reach_in c roots h : reach c roots h -> In h (roots ++ all_kids c).
Proof. intros H. apply in_or_app. destruct H; [left; assumption|right]. eapply kids_in; eassumption. Qed.
Lemma reach_incl c l m h : (forall x, In x l -> href x <> None -> In x m) -> href h <> None -> reach c l h -> reach c m h.
Proof.
  intros S N H. induction H as [h I|h p n d k H IH E C K]; [apply rc_root; auto|].
  eapply rc_kid; [apply IH; congruence|exact E|exact C|exact K].
Qed.
Lemma reach_req c l m h : req l m -> href h <> None -> reach c l h -> reach c m h.
Proof. intros R N. apply reach_incl; [|exact N]. intros x I Nx. eapply req_in; eassumption. Qed.

(** A container with one handle, held here, is out of reach elsewhere. *)
Lemma nref_reach c roots h a : reach c roots h -> href h = Some a -> 0 < nref a roots + nref a (all_kids c).
Proof. intros H E. apply reach_in in H. rewrite <- nref_app. eapply nref_in; eassumption. Qed.
Lemma private c r o a d h x : wf c (r ++ o) -> cell_at c a = Some (1, d) -> In h r -> href h = Some a ->
  reach c o x -> href x <> Some a.
Proof.
  intros [W _] C I E R Ex. destruct (W _ _ _ C) as [Q _]. rewrite nref_app in Q.
  pose proof (nref_in _ _ _ I E). pose proof (nref_reach _ _ _ _ R Ex). lia.
Qed.
Lemma wf_swap c r o : wf c (r ++ o) -> wf c (o ++ r).
Proof. apply wf_meq. intros h. rewrite !cnt_app. lia. Qed.

(** ** What the holders of some handles rely on while others run *)
Record rely (hand : list hval) (c : cells) (sy : nat -> clock) (c' : cells) (sy' : nat -> clock) : Prop := {
  rl_same : forall h a n d, reach c hand h -> href h = Some a -> cell_at c a = Some (n, d) -> exists n', cell_at c' a = Some (n', d);
  rl_own : forall h a d, In h hand -> href h = Some a -> cell_at c a = Some (1, d) -> cell_at c' a = Some (1, d) /\ sy' a = sy a }.
Lemma rely_refl hand c sy : rely hand c sy c sy.
Proof. split; eauto. Qed.
Lemma rely_reach hand c sy c' sy' h : rely hand c sy c' sy' -> reach c hand h -> reach c' hand h.
Proof.
  intros R H. induction H as [h I|h p n d k H IH E C K]; [apply rc_root; exact I|].
  destruct (rl_same _ _ _ _ _ R _ _ _ _ H E C) as (n' & C'). eapply rc_kid; eassumption.
Qed.
Lemma rely_trans hand c sy c1 sy1 c2 sy2 : rely hand c sy c1 sy1 -> rely hand c1 sy1 c2 sy2 -> rely hand c sy c2 sy2.
Proof.
  intros R1 R2. split.
  - intros h a n d H E C. destruct (rl_same _ _ _ _ _ R1 _ _ _ _ H E C) as (n1 & C1).
    eapply (rl_same _ _ _ _ _ R2); [|exact E|exact C1]. eapply rely_reach; eassumption.
  - intros h a d H E C. destruct (rl_own _ _ _ _ _ R1 _ _ _ H E C) as [C1 S1].
    destruct (rl_own _ _ _ _ _ R2 _ _ _ H E C1) as [C2 S2]. split; [exact C2|congruence].
Qed.
Lemma rely_incl l m c sy c' sy' : (forall x, In x l -> href x <> None -> In x m) -> rely m c sy c' sy' -> rely l c sy c' sy'.
Proof.
  intros S R. split.
  - intros h a n d H E C. eapply (rl_same _ _ _ _ _ R); [|exact E|exact C]. eapply reach_incl; [exact S|congruence|exact H].
  - intros h a d H E C. eapply (rl_own _ _ _ _ _ R); [|exact E|exact C]. apply S; [exact H|congruence].
Qed.
Lemma rely_shows hand c sy c' sy' h v : rely hand c sy c' sy' -> reach c hand h -> shows c h v -> shows c' h v.
Proof.
  intros R H S. revert h v S H. apply (shows_ind' c (fun h v => reach c hand h -> shows c' h v)); intros; try (constructor; fail).
  - destruct (rl_same _ _ _ _ _ R (HObj a) a n _ H1 eq_refl H) as (n' & C'). econstructor; [exact C'|].
    assert (K : forall p, In p fs -> reach c hand (snd p)).
    { intros p I. eapply rc_kid; [exact H1|reflexivity|exact H|]. cbn. apply in_map. exact I. }
    clear H H1 C'. induction H0 as [|p q fs vs (E & S & IH) F IHF]; constructor.
    + split; [exact E|]. apply IH. apply K. left. reflexivity.
    + apply IHF. intros y I. apply K. right. exact I.
  - destruct (rl_same _ _ _ _ _ R (HArr a) a n _ H1 eq_refl H) as (n' & C'). econstructor; [exact C'|].
    assert (K : forall p, In p ms -> reach c hand p).
    { intros p I. eapply rc_kid; [exact H1|reflexivity|exact H|]. cbn. exact I. }
    clear H H1 C'. induction H0 as [|p q fs vs (S & IH) F IHF]; constructor.
    + apply IH. apply K. left. reflexivity.
    + apply IHF. intros y I. apply K. right. exact I.
Qed.

(** ** Happens-before *)
Definition vle (u v : clock) : Prop := forall t, (u t <= v t)%nat.
Lemma vle_refl v : vle v v.
Proof. intros t. lia. Qed.
Lemma vle_trans u v w : vle u v -> vle v w -> vle u w.
Proof. intros H K t. specialize (H t). specialize (K t). lia. Qed.
Lemma vle_join_l u v : vle u (join u v).
Proof. intros t. unfold join. lia. Qed.
Lemma vle_join_r u v : vle v (join u v).
Proof. intros t. unfold join. lia. Qed.
Lemma vle_tick t v : vle v (tick t v).
Proof. intros u. unfold tick. destruct (Nat.eqb u t); lia. Qed.
Lemma before_le x u v : vle u v -> before x u = true -> before x v = true.
Proof. unfold before. intros H K. specialize (H (who x)). lia. Qed.
Lemma before_self k t v : before (Acc k t (v t)) v = true.
Proof. unfold before. cbn. lia. Qed.

Definition views := list (list hval * clock).
Definition roots (ths : views) : list hval := flat_map fst ths.
(** An earlier access is known to whoever will be the last to let go of the cell. *)
Inductive cov (c : cells) (sy : nat -> clock) (ths : views) (x : access) : nat -> Prop :=
| cv_sync a : before x (sy a) = true -> cov c sy ths x a
| cv_root r v h a : In (r, v) ths -> In h r -> href h = Some a -> before x v = true -> cov c sy ths x a
| cv_kid p n d h a : cov c sy ths x p -> cell_at c p = Some (n, d) -> In h (kids d) -> href h = Some a -> cov c sy ths x a.

Definition writes (k : kind) : bool := match k with K_new | K_write | K_free => true | _ => false end.
Record world (c : cells) (sy : nat -> clock) (hs : nat -> list access) (ths : views) : Prop := {
  w_wf : wf c (roots ths);
  w_cov : forall a n d x, cell_at c a = Some (n, d) -> In x (hs a) -> cov c sy ths x a;
  w_vis : forall r v h a x, In (r, v) ths -> reach c r h -> href h = Some a -> In x (hs a) -> writes (how x) = true -> before x v = true;
  w_new : forall a, (length c <= a)%nat -> sy a = zero /\ hs a = [] }.

Lemma reach_cov c sy ths x r v h a : In (r, v) ths -> before x v = true -> reach c r h -> href h = Some a -> cov c sy ths x a.
Proof.
  intros I B H. revert a. induction H as [h H|h p n d k H IH E C K]; intros a Ea.
  - eapply cv_root; eassumption.
  - eapply cv_kid; [apply IH; exact E|exact C|exact K|exact Ea].
Qed.

(** The views of the others stay; the one of the thread that runs is replaced. *)
Lemma roots_mid l r v m : roots (l ++ (r, v) :: m) = roots l ++ r ++ roots m.
Proof. unfold roots. rewrite flat_map_app. reflexivity. Qed.
Definition rest (l m : views) : list hval := roots l ++ roots m.
Lemma wf_out c l r v m : wf c (roots (l ++ (r, v) :: m)) -> wf c (r ++ rest l m).
Proof. rewrite roots_mid. unfold rest. apply wf_meq; intros h; rewrite !cnt_app; lia. Qed.
Lemma wf_in c l r v m : wf c (r ++ rest l m) -> wf c (roots (l ++ (r, v) :: m)).
Proof. rewrite roots_mid. unfold rest. apply wf_meq; intros h; rewrite !cnt_app; lia. Qed.
Lemma in_rest l m r v h : In (r, v) (l ++ m) -> In h r -> In h (rest l m).
Proof. intros I H. unfold rest, roots. rewrite <- flat_map_app. apply in_flat_map. exists (r, v). auto. Qed.
Lemma in_views (l m : views) p q : In q (l ++ p :: m) -> q = p \/ In q (l ++ m).
Proof. rewrite !in_app_iff. cbn [In]. intuition auto. Qed.
Lemma in_views' (l m : views) p q : q = p \/ In q (l ++ m) -> In q (l ++ p :: m).
Proof. rewrite !in_app_iff. cbn [In]. intuition auto. Qed.

(** Only what changes matters. *)
Lemma cov_mono c sy ths c' sy' ths' x :
  (forall a, before x (sy a) = true -> cov c' sy' ths' x a) ->
  (forall r v h a, In (r, v) ths -> In h r -> href h = Some a -> before x v = true -> cov c' sy' ths' x a) ->
  (forall p n d h a, cov c sy ths x p -> cov c' sy' ths' x p -> cell_at c p = Some (n, d) -> In h (kids d) -> href h = Some a -> cov c' sy' ths' x a) ->
  forall a, cov c sy ths x a -> cov c' sy' ths' x a.
Proof.
  intros H1 H2 H3 a H. induction H as [a B|r v h a I J E B|p n d h a H IH C K E]; eauto.
Qed.

Lemma rely_views l m c sy c' sy' r v : rely (rest l m) c sy c' sy' -> In (r, v) (l ++ m) -> rely r c sy c' sy'.
Proof. intros R I. eapply rely_incl; [|exact R]. intros x J _. eapply in_rest; eassumption. Qed.

(** The clock of a thread grows. *)
Lemma world_clock c sy hs l m r v v' : world c sy hs (l ++ (r, v) :: m) -> vle v v' -> world c sy hs (l ++ (r, v') :: m).
Proof.
  intros W L. split.
  - rewrite roots_mid. pose proof (w_wf _ _ _ _ W) as Q. rewrite roots_mid in Q. exact Q.
  - intros a n d x C I. apply (cov_mono c sy (l ++ (r, v) :: m)); [|..|exact (w_cov _ _ _ _ W a n d x C I)].
    + intros b B. apply cv_sync. exact B.
    + intros r0 v0 h b J K E B. apply in_views in J. destruct J as [J|J].
      * injection J as -> ->. apply (cv_root _ _ _ _ r v' h); [apply in_views'; auto|exact K|exact E|eapply before_le; eassumption].
      * apply (cv_root _ _ _ _ r0 v0 h); [apply in_views'; auto|exact K|exact E|exact B].
    + intros p n0 d0 h b _ P C0 K E. eapply cv_kid; eassumption.
  - intros r0 v0 h b x J R E I K. apply in_views in J. destruct J as [J|J].
    + injection J as -> ->. eapply before_le; [exact L|].
      apply (w_vis _ _ _ _ W r v h b x); auto. apply in_views'. auto.
    + apply (w_vis _ _ _ _ W r0 v0 h b x); auto. apply in_views'. auto.
  - exact (w_new _ _ _ _ W).
Qed.

(** Handles that refer to nothing come and go. *)
Lemma world_req c sy hs l m r r' v : world c sy hs (l ++ (r, v) :: m) -> req r r' -> world c sy hs (l ++ (r', v) :: m).
Proof.
  intros W Q. split.
  - apply wf_in. eapply wf_req; [|exact (wf_out _ _ _ _ _ (w_wf _ _ _ _ W))]. apply req_app; [exact Q|apply req_refl].
  - intros a n d x C I. apply (cov_mono c sy (l ++ (r, v) :: m)); [|..|exact (w_cov _ _ _ _ W a n d x C I)].
    + intros b B. apply cv_sync. exact B.
    + intros r0 v0 h b J K E B. apply in_views in J. destruct J as [J|J].
      * injection J as -> ->. apply (cv_root _ _ _ _ r' v h); [apply in_views'; auto| |exact E|exact B].
        eapply req_in; [exact Q|congruence|exact K].
      * apply (cv_root _ _ _ _ r0 v0 h); [apply in_views'; auto|exact K|exact E|exact B].
    + intros p n0 d0 h b _ P C0 K E. eapply cv_kid; eassumption.
  - intros r0 v0 h b x J R E I K. apply in_views in J. destruct J as [J|J].
    + injection J as -> ->. apply (w_vis _ _ _ _ W r v h b x); auto. { apply in_views'. auto. }
      eapply reach_req; [apply req_sym; exact Q|congruence|exact R].
    + apply (w_vis _ _ _ _ W r0 v0 h b x); auto. apply in_views'. auto.
  - exact (w_new _ _ _ _ W).
Qed.

(** ** Each access *)

(** Reading, or an update of the count, of a cell within reach. *)
Lemma touch_reads c sy hs l m r v t k h a n d : world c sy hs (l ++ (r, v) :: m) ->
  reach c r h -> href h = Some a -> cell_at c a = Some (n, d) -> k = K_read \/ k = K_count ->
  exists hs', touch t k a v (Mem c sy hs) = Ok (Mem c sy hs') /\ world c sy hs' (l ++ (r, v) :: m) /\
    hs' = upd a (Acc k t (v t) :: hs a) hs.
Proof.
  intros W R E C K. unfold touch. cbn [cs sync hist].
  assert (F : forallb (fun x => implb (conflict k (how x)) (before x v)) (hs a) = true).
  { apply forallb_forall. intros x I. destruct (conflict k (how x)) eqn:Q; [|reflexivity]. cbn.
    apply (w_vis _ _ _ _ W r v h a x); auto; [apply in_views'; auto|]. destruct K as [-> | ->]; destruct (how x); try discriminate; reflexivity. }
  rewrite F. eexists. split; [reflexivity|]. split; [|reflexivity]. split.
  - exact (w_wf _ _ _ _ W).
  - intros b n0 d0 x C0 I. unfold upd in I. destruct (Nat.eqb_spec b a) as [->|N]; [destruct I as [<-|I]|].
    + eapply reach_cov; [apply in_views'; left; reflexivity|apply before_self|exact R|exact E].
    + exact (w_cov _ _ _ _ W _ _ _ _ C0 I).
    + exact (w_cov _ _ _ _ W _ _ _ _ C0 I).
  - intros r0 v0 h0 b x J R0 E0 I Kw. unfold upd in I. destruct (Nat.eqb_spec b a) as [->|N]; [destruct I as [<-|I]|].
    + cbn in Kw. destruct K as [-> | ->]; discriminate.
    + exact (w_vis _ _ _ _ W _ _ _ _ _ J R0 E0 I Kw).
    + exact (w_vis _ _ _ _ W _ _ _ _ _ J R0 E0 I Kw).
  - intros b L. destruct (w_new _ _ _ _ W b L) as [Z1 Z2]. split; [exact Z1|]. unfold upd.
    destruct (Nat.eqb_spec b a) as [->|N]; [|exact Z2]. apply cell_at_lt in C. lia.
Qed.

Lemma reach_sub c c' r h : sub c c' -> reach c r h -> reach c' r h.
Proof.
  intros S H. induction H as [h I|h p n d k H IH E C K]; [apply rc_root; exact I|].
  destruct (S _ _ _ C) as (n' & C'). eapply rc_kid; eassumption.
Qed.
Lemma reach_roots c l m h : (forall x, In x l -> href x <> None -> reach c m x) -> href h <> None -> reach c l h -> reach c m h.
Proof.
  intros S N H. induction H as [h I|h p n d k H IH E C K]; [apply S; assumption|].
  eapply rc_kid; [apply IH; congruence|exact E|exact C|exact K].
Qed.

Lemma inc_length c h c' : inc c h = Ok c' -> length c' = length c.
Proof.
  unfold inc. destruct (href h) as [a|]; [|intros E; injection E as <-; reflexivity].
  destruct (cell_at c a) as [[n d]|]; [|discriminate]. intros E. injection E as <-. apply list_set_length.
Qed.
Lemma inc_other c h c' a b p : inc c h = Ok c' -> href h = Some a -> b <> a -> cell_at c b = Some p -> cell_at c' b = Some p.
Proof.
  unfold inc. intros E Eh N C. rewrite Eh in E. destruct (cell_at c a) as [[n d]|] eqn:Ca; [|discriminate]. injection E as <-.
  rewrite (cell_set_other _ _ _ _ _ Ca N). exact C.
Qed.

(** Copying a handle within reach. *)
Lemma world_inc c sy hs l m r v h a : world c sy hs (l ++ (r, v) :: m) -> reach c r h -> href h = Some a ->
  exists c', inc c h = Ok c' /\ world c' sy hs (l ++ (h :: r, v) :: m) /\ rely (rest l m) c sy c' sy.
Proof.
  intros W R Eh. pose proof (wf_out _ _ _ _ _ (w_wf _ _ _ _ W)) as F.
  destruct (inc_ok c (r ++ rest l m) h F) as (c' & E & F' & S & S' & _).
  { apply reach_in in R. rewrite !in_app_iff in *. tauto. }
  pose proof (inc_length _ _ _ E) as L. exists c'. split; [exact E|]. split.
  - split.
    + apply wf_in. exact F'.
    + intros b n d x C I. destruct (S' _ _ _ C) as (n' & C').
      apply (cov_mono c sy (l ++ (r, v) :: m)); [|..|exact (w_cov _ _ _ _ W b n' d x C' I)].
      * intros y B. apply cv_sync. exact B.
      * intros r0 v0 h0 y J K Ey B. apply in_views in J. destruct J as [J|J].
        -- injection J as -> ->. apply (cv_root _ _ _ _ (h :: r) v h0); [apply in_views'; auto|right; exact K|exact Ey|exact B].
        -- apply (cv_root _ _ _ _ r0 v0 h0); [apply in_views'; auto|exact K|exact Ey|exact B].
      * intros p n0 d0 h0 y _ P C0 K Ey. destruct (S _ _ _ C0) as (n1 & C1). eapply cv_kid; eassumption.
    + intros r0 v0 h0 b x J R0 Eb I K. apply (reach_sub _ _ _ _ S') in R0. apply in_views in J. destruct J as [J|J].
      * injection J as -> ->. apply (w_vis _ _ _ _ W r v h0 b x); auto; [apply in_views'; auto|].
        eapply reach_roots; [|congruence|exact R0]. intros y [<-|Iy] _; [exact R|apply rc_root; exact Iy].
      * apply (w_vis _ _ _ _ W r0 v0 h0 b x); auto. apply in_views'. auto.
    + intros b Lb. apply (w_new _ _ _ _ W). lia.
  - split.
    + intros h0 b n d _ _ C. exact (S _ _ _ C).
    + intros h0 b d I Eb C. split; [|reflexivity]. apply (inc_other _ _ _ _ _ _ E Eh); [|exact C].
      intros ->. apply (private c (rest l m) r a d h0 h); auto. apply wf_swap. exact F.
Qed.

(** A new container. *)
Lemma wf_lt c rs h a : wf c rs -> In h (rs ++ all_kids c) -> href h = Some a -> (a < length c)%nat.
Proof. intros [_ W] I E. destruct (W h I) as (v & S). destruct (shows_live _ _ _ _ S E) as (n & d & C). eapply cell_at_lt; exact C. Qed.
Lemma alloc_cell c d b p : cell_at (c ++ [Some (1, d)]) b = Some p -> b = length c /\ p = (1, d) \/ cell_at c b = Some p.
Proof.
  intros E. pose proof (cell_at_lt _ _ _ E) as L. rewrite app_length in L. cbn in L.
  destruct (Nat.eq_dec b (length c)) as [->|N].
  - rewrite cell_at_last in E. injection E as <-. auto.
  - right. unfold cell_at in *. rewrite nth_error_app1 in E by lia. exact E.
Qed.
Lemma reach_alloc c d rs h : wf c rs -> forall r, (forall x, In x r -> In x rs) -> reach (c ++ [Some (1, d)]) r h -> reach c r h.
Proof.
  intros W r I H. induction H as [h J|h p n e k H IH E C K]; [apply rc_root; exact J|].
  apply alloc_cell in C. destruct C as [[-> Q]|C]; [|eapply rc_kid; eassumption]. exfalso.
  assert (length c < length c)%nat; [|lia]. apply (wf_lt c rs h); auto. apply reach_in in IH. rewrite in_app_iff in *. intuition auto.
Qed.
Lemma world_alloc c sy hs l m r v t d r0 : world c sy hs (l ++ (r, v) :: m) -> req r (kids d ++ r0) ->
  let a := length c in let c' := c ++ [Some (1, d)] in
  exists hs', touch t K_new a v (Mem c sy hs) = Ok (Mem c sy hs') /\
    world c' sy hs' (l ++ (handle d a :: r0, v) :: m) /\ rely (rest l m) c sy c' sy /\ rely r c sy c' sy.
Proof.
  intros W Q a c'. pose proof (wf_out _ _ _ _ _ (w_wf _ _ _ _ W)) as F.
  assert (F1 : wf c (kids d ++ r0 ++ rest l m)).
  { rewrite app_assoc. eapply wf_req; [|exact F]. apply req_app; [exact Q|apply req_refl]. }
  pose proof (alloc_ok _ _ _ F1) as F2. fold c' in F2. fold a in F2.
  assert (KR : forall x, In x (kids d ++ r0) -> href x <> None -> In x r).
  { intros x I N. eapply req_in; [apply req_sym; exact Q|exact N|exact I]. }
  destruct (w_new _ _ _ _ W a) as [Z1 Z2]; [unfold a; lia|].
  assert (SUB : sub c c') by apply alloc_sub.
  assert (Ca : cell_at c' a = Some (1, d)) by apply cell_at_last.
  unfold touch. cbn [cs sync hist]. rewrite Z2. cbn [forallb]. eexists. split; [reflexivity|].
  assert (OTH : forall r0 v0 h, In (r0, v0) (l ++ m) -> reach c' r0 h -> reach c r0 h).
  { intros r1 v1 h I. apply (reach_alloc c d _ h F). intros x Ix. apply in_or_app. right. eapply in_rest; eassumption. }
  assert (OWN : forall h b, reach c' (handle d a :: r0) h -> href h = Some b -> b = a \/ reach c r h).
  { intros h b H. revert b. induction H as [h J|h p n e k H IH E C K]; intros b Eb.
    - destruct J as [<-|J]; [left; rewrite handle_ref in Eb; congruence|right]. apply rc_root. apply KR; [|congruence].
      apply in_or_app. auto.
    - destruct (alloc_cell _ _ _ _ C) as [[-> Qc]|C'].
      + injection Qc as -> ->. right. apply rc_root. apply KR; [apply in_or_app; auto|congruence].
      + right. destruct (IH p E) as [->|R]; [|eapply rc_kid; eassumption]. apply cell_at_lt in C'. unfold a in C'. lia. }
  assert (RL : forall o, rely o c sy c' sy).
  { intros o. split.
    - intros h b n e _ _ C. exact (SUB _ _ _ C).
    - intros h b e _ _ C. split; [|reflexivity]. pose proof (cell_at_lt _ _ _ C). unfold c', cell_at in *. rewrite nth_error_app1 by assumption. exact C. }
  split; [|split; apply RL]. split.
  - apply wf_in. exact F2.
  - intros b n e x C I. unfold upd in I. destruct (Nat.eqb_spec b a) as [->|N].
    + destruct I as [<-|[]]. apply (cv_root _ _ _ _ (handle d a :: r0) v (handle d a)); [apply in_views'; auto|left; reflexivity|apply handle_ref|apply before_self].
    + destruct (alloc_cell _ _ _ _ C) as [[-> _]|C']; [unfold a in N; lia|].
      apply (cov_mono c sy (l ++ (r, v) :: m)); [|..|exact (w_cov _ _ _ _ W b n e x C' I)].
      * intros y B. apply cv_sync. exact B.
      * intros r1 v1 h0 y J K Ey B. apply in_views in J. destruct J as [J|J].
        -- injection J as -> ->. assert (K' : In h0 (kids d ++ r0)) by (eapply req_in; [exact Q|congruence|exact K]).
           apply in_app_or in K'. destruct K' as [K'|K'].
           ++ apply (cv_kid _ _ _ _ a 1 d h0 y); auto.
              apply (cv_root _ _ _ _ (handle d a :: r0) v (handle d a)); [apply in_views'; auto|left; reflexivity|apply handle_ref|exact B].
           ++ apply (cv_root _ _ _ _ (handle d a :: r0) v h0); [apply in_views'; auto|right; exact K'|exact Ey|exact B].
        -- apply (cv_root _ _ _ _ r1 v1 h0); [apply in_views'; auto|exact K|exact Ey|exact B].
      * intros p n0 d0 h0 y _ P C0 K Ey. destruct (SUB _ _ _ C0) as (n1 & C1). eapply cv_kid; eassumption.
  - intros r1 v1 h0 b x J R0 Eb I K. unfold upd in I. apply in_views in J. destruct (Nat.eqb_spec b a) as [->|N].
    + destruct I as [<-|[]]. destruct J as [J|J].
      * injection J as -> ->. apply before_self.
      * exfalso. pose proof (OTH _ _ _ J R0) as R1. apply reach_in in R1. assert (a < length c)%nat; [|unfold a in *; lia].
        apply (wf_lt c _ h0 a F); [|exact Eb]. rewrite in_app_iff in R1. rewrite !in_app_iff. destruct R1 as [R1|R1]; [left; right; eapply in_rest; eassumption|auto].
    + destruct J as [J|J].
      * injection J as -> ->. destruct (OWN h0 b R0 Eb) as [->|R1]; [contradiction|].
        apply (w_vis _ _ _ _ W r v h0 b x); auto. apply in_views'. auto.
      * apply (w_vis _ _ _ _ W r1 v1 h0 b x); auto; [apply in_views'; auto|]. eapply OTH; eassumption.
  - intros b Lb. unfold c' in Lb. rewrite app_length in Lb. cbn in Lb. destruct (w_new _ _ _ _ W b ltac:(lia)) as [Y1 Y2].
    split; [exact Y1|]. unfold upd. destruct (Nat.eqb_spec b a) as [->|N]; [unfold a in Lb; lia|exact Y2].
Qed.

(** Whoever holds the only handle of a cell, and has acquired its count, knows of all
    accesses to it. *)
Lemma cov_private c sy l m r v h a d x : wf c (r ++ rest l m) -> cell_at c a = Some (1, d) -> In h r -> href h = Some a ->
  cov c sy (l ++ (r, v) :: m) x a -> before x (join v (sy a)) = true.
Proof.
  intros F C I E H. inversion H as [? B|r1 v1 h1 ? J K E1 B|p n e h1 ? P C1 K E1]; subst.
  - eapply before_le; [apply vle_join_r|exact B].
  - apply in_views in J. destruct J as [J|J].
    + injection J as -> ->. eapply before_le; [apply vle_join_l|exact B].
    + exfalso. apply (private c r (rest l m) a d h h1); auto. apply rc_root. eapply in_rest; eassumption.
  - exfalso. destruct F as [F _]. destruct (F _ _ _ C) as [Q _]. rewrite nref_app in Q.
    pose proof (nref_in _ _ _ I E). pose proof (nref_in a h1 (all_kids c) (kids_in _ _ _ _ _ C1 K) E1).
    pose proof (nref_nonneg a (rest l m)). lia.
Qed.

(** Changing a container in place. *)
Lemma world_put c sy hs l m r v t a d d' news olds r0 : world c sy hs (l ++ (r, v) :: m) ->
  cell_at c a = Some (1, d) -> In (handle d a) r0 -> handle d' a = handle d a -> vle (sy a) v ->
  req r (news ++ r0) -> meq (kids d' ++ olds) (kids d ++ news) ->
  exists hs' c', touch t K_write a v (Mem c sy hs) = Ok (Mem c sy hs') /\ put c a d' = Ok c' /\
    world c' sy hs' (l ++ (olds ++ r0, v) :: m) /\ rely (rest l m) c sy c' sy.
Proof.
  intros W C I HH A Q M. pose proof (wf_out _ _ _ _ _ (w_wf _ _ _ _ W)) as F.
  assert (F1 : wf c (news ++ r0 ++ rest l m)).
  { rewrite app_assoc. eapply wf_req; [|exact F]. apply req_app; [exact Q|apply req_refl]. }
  destruct (put_ok c a d d' news olds (r0 ++ rest l m) C) as (c' & P & C' & F2 & _ & OC); auto.
  { apply in_or_app. auto. }
  assert (RI : forall x, In x (news ++ r0) -> href x <> None -> In x r).
  { intros x J N. eapply req_in; [apply req_sym; exact Q|exact N|exact J]. }
  assert (Ir : In (handle d a) r).
  { apply RI; [apply in_or_app; auto|]. rewrite handle_ref. discriminate. }
  assert (JV : forall x, before x (join v (sy a)) = true -> before x v = true).
  { intros x. apply before_le. intros u. unfold join. specialize (A u). lia. }
  assert (KN : forall x, cov c sy (l ++ (r, v) :: m) x a -> before x v = true).
  { intros x H. apply JV. eapply cov_private; [exact F|exact C|exact Ir|apply handle_ref|exact H]. }
  unfold touch. cbn [cs sync hist].
  assert (T : forallb (fun x => implb (conflict K_write (how x)) (before x v)) (hs a) = true).
  { apply forallb_forall. intros x J. destruct (conflict K_write (how x)); [|reflexivity]. cbn. apply KN.
    exact (w_cov _ _ _ _ W _ _ _ _ C J). }
  rewrite T. exists (upd a (Acc K_write t (v t) :: hs a) hs), c'. split; [reflexivity|]. split; [exact P|].
  assert (Z : forall h, reach c (rest l m) h -> href h <> Some a).
  { intros h. apply (private c r (rest l m) a d (handle d a) h F C Ir (handle_ref d a)). }
  assert (OTH : forall o h, (forall x, In x o -> In x (rest l m)) -> reach c' o h -> reach c o h).
  { intros o h S H. induction H as [h J|h p n e k H IH E Cp K]; [apply rc_root; exact J|].
    assert (Np : p <> a).
    { intros ->. apply (Z h); [|exact E]. eapply reach_incl; [|congruence|exact IH]. auto. }
    rewrite (OC p Np) in Cp. eapply rc_kid; eassumption. }
  assert (OWN : forall h, href h <> None -> reach c' (olds ++ r0) h -> reach c r h).
  { assert (KD : forall x, In x (kids d' ++ olds) -> href x <> None -> reach c r x).
    { intros x J N. apply (meq_in _ _ _ M) in J. apply in_app_or in J. destruct J as [J|J].
      - eapply rc_kid; [apply rc_root; exact Ir|apply handle_ref|exact C|exact J].
      - apply rc_root. apply RI; [apply in_or_app; auto|exact N]. }
    intros h N H. induction H as [h J|h p n e k H IH E Cp K].
    - apply in_app_or in J. destruct J as [J|J]; [apply KD; [apply in_or_app; auto|exact N]|].
      apply rc_root. apply RI; [apply in_or_app; auto|exact N].
    - destruct (Nat.eq_dec p a) as [->|Np].
      + rewrite C' in Cp. injection Cp as <- <-. apply KD; [apply in_or_app; auto|exact N].
      + rewrite (OC p Np) in Cp. eapply rc_kid; [apply IH; congruence|exact E|exact Cp|exact K]. }
  assert (CA : forall x, before x v = true -> cov c' sy (l ++ (olds ++ r0, v) :: m) x a).
  { intros x B. apply (cv_root _ _ _ _ (olds ++ r0) v (handle d a)); [apply in_views'; auto|apply in_or_app; auto|apply handle_ref|exact B]. }
  assert (CK : forall x h b, before x v = true -> In h (kids d' ++ olds) -> href h = Some b -> cov c' sy (l ++ (olds ++ r0, v) :: m) x b).
  { intros x h b B J E. apply in_app_or in J. destruct J as [J|J].
    - apply (cv_kid _ _ _ _ a 1 d' h b); auto.
    - apply (cv_root _ _ _ _ (olds ++ r0) v h); [apply in_views'; auto|apply in_or_app; auto|exact E|exact B]. }
  assert (MS : forall h, In h (kids d ++ news) -> In h (kids d' ++ olds)).
  { intros h. apply meq_in. intros y. symmetry. apply M. }
  split.
  - split.
    + apply wf_in. rewrite <- app_assoc. exact F2.
    + intros b n e x Cb J. assert (Cb' : exists n0 e0, cell_at c b = Some (n0, e0)).
      { destruct (Nat.eq_dec b a) as [->|Nb]; [eauto|]. rewrite (OC b Nb) in Cb. eauto. }
      assert (H : cov c' sy (l ++ (olds ++ r0, v) :: m) x b \/ In x (hs b)).
      { unfold upd in J. destruct (Nat.eqb_spec b a) as [->|Nb]; [|auto]. destruct J as [<-|J]; [left|auto].
        apply CA. apply before_self. }
      destruct H as [H|J']; [exact H|]. destruct Cb' as (n0 & e0 & Cb'). clear J.
      apply (cov_mono c sy (l ++ (r, v) :: m)); [|..|exact (w_cov _ _ _ _ W b n0 e0 x Cb' J')].
      * intros y B. apply cv_sync. exact B.
      * intros r1 v1 h0 y J K Ey B. apply in_views in J. destruct J as [J|J].
        -- injection J as -> ->. assert (K' : In h0 (news ++ r0)) by (eapply req_in; [exact Q|congruence|exact K]).
           apply in_app_or in K'. destruct K' as [K'|K'].
           ++ apply (CK x h0 y B); [|exact Ey]. apply MS. apply in_or_app. auto.
           ++ apply (cv_root _ _ _ _ (olds ++ r0) v h0); [apply in_views'; auto|apply in_or_app; auto|exact Ey|exact B].
        -- apply (cv_root _ _ _ _ r1 v1 h0); [apply in_views'; auto|exact K|exact Ey|exact B].
      * intros p n1 d1 h0 y P0 P1 C0 K Ey. destruct (Nat.eq_dec p a) as [->|Np].
        -- rewrite C in C0. injection C0 as <- <-. apply (CK x h0 y (KN x P0)); [|exact Ey]. apply MS. apply in_or_app. auto.
        -- rewrite <- (OC p Np) in C0. eapply cv_kid; eassumption.
    + intros r1 v1 h0 b x J R0 Eb Ix K. apply in_views in J. destruct J as [J|J].
      * injection J as -> ->. apply OWN in R0; [|congruence]. unfold upd in Ix.
        assert (V : In x (hs b) -> before x v = true).
        { intros Ix'. apply (w_vis _ _ _ _ W r v h0 b x); auto. apply in_views'. auto. }
        destruct (Nat.eqb_spec b a) as [->|Nb]; [destruct Ix as [<-|Ix]; [apply before_self|]|]; auto.
      * assert (SO : forall y, In y r1 -> In y (rest l m)) by (intros y; eapply in_rest; exact J).
        apply (OTH r1 h0 SO) in R0. unfold upd in Ix.
        destruct (Nat.eqb_spec b a) as [->|Nb].
        -- exfalso. apply (Z h0); [|exact Eb]. eapply reach_incl; [|congruence|exact R0]. auto.
        -- apply (w_vis _ _ _ _ W r1 v1 h0 b x); auto. apply in_views'. auto.
    + intros b Lb. assert (length c' = length c).
      { unfold put in P. rewrite C in P. injection P as <-. apply list_set_length. }
      destruct (w_new _ _ _ _ W b ltac:(lia)) as [Y1 Y2]. split; [exact Y1|]. unfold upd.
      destruct (Nat.eqb_spec b a) as [->|Nb]; [|exact Y2]. apply cell_at_lt in C. lia.
  - split.
    + intros h b n e R E Cb. assert (Nb : b <> a) by (intros ->; apply (Z h R E)). exists n. rewrite (OC b Nb). exact Cb.
    + intros h b e J E Cb. split; [|reflexivity]. assert (Nb : b <> a) by (intros ->; apply (Z h); [apply rc_root; exact J|exact E]).
      rewrite (OC b Nb). exact Cb.
Qed.

(** Letting go of a handle that is not the last. *)
Lemma dec_ok c h a n d rs : wf c (h :: rs) -> href h = Some a -> cell_at c a = Some (n, d) -> n <> 1 ->
  wf (list_set a (Some (n - 1, d)) c) rs.
Proof.
  intros [W1 W2] E C N1. destruct (W1 _ _ _ C) as [Cn Cp]. cbn [nref] in Cn. rewrite E, Nat.eqb_refl in Cn.
  pose proof (nref_nonneg a rs). pose proof (nref_nonneg a (all_kids c)).
  pose proof (recount_kids _ _ _ _ (n - 1) C) as K. split.
  - intros b m e D. rewrite K. destruct (Nat.eqb_spec b a) as [->|Nb].
    + rewrite (cell_set_same _ _ _ _ C) in D. injection D as <- <-. lia.
    + rewrite (cell_set_other _ _ _ _ _ C Nb) in D. destruct (W1 _ _ _ D) as [Q1 Q2]. cbn [nref] in Q1. rewrite E in Q1.
      replace (Nat.eqb b a) with false in Q1 by (symmetry; apply Nat.eqb_neq; exact Nb). lia.
  - intros x J. rewrite K in J. destruct (W2 x (or_intror J)) as (w & Hw). exists w.
    eapply shows_sub; [|exact Hw]. eapply recount_sub. exact C.
Qed.

(** The last one: the container's own handles are left over. *)
Lemma free_ok c h a d rs : wf c (h :: rs) -> href h = Some a -> cell_at c a = Some (1, d) ->
  wf (list_set a None c) (kids d ++ rs) /\ nref a rs = 0 /\ nref a (all_kids c) = 0.
Proof.
  intros [W1 W2] E C. destruct (W1 _ _ _ C) as [Cn Cp]. cbn [nref] in Cn. rewrite E, Nat.eqb_refl in Cn.
  pose proof (nref_nonneg a rs). pose proof (nref_nonneg a (all_kids c)).
  assert (Z1 : nref a rs = 0) by lia. assert (Z2 : nref a (all_kids c) = 0) by lia. split; [|auto].
  set (c1 := list_set a None c).
  assert (K1 : exists l r, all_kids c = l ++ kids d ++ r /\ all_kids c1 = l ++ r).
  { destruct (cell_at_split _ _ _ C) as (l & r & -> & <-). unfold c1. rewrite list_set_mid, !all_kids_mid.
    exists (all_kids l), (all_kids r). auto. }
  destruct K1 as (kl & kr & K & K').
  assert (FR : forall x w, href x <> Some a -> shows c x w -> shows c1 x w).
  { intros x w Nx Hx. apply (shows_frame c c1 a x w); [|exact Nx|exact Hx].
    intros b m e Nb D. split.
    - exists m. unfold c1. rewrite (cell_set_other _ _ _ _ _ C Nb). exact D.
    - pose proof (nref_nonneg a (kids e)). destruct (Z.eq_dec (nref a (kids e)) 0); [assumption|].
      destruct (nref_pos a (kids e)) as (y & Iy & Ey); [lia|]. exfalso.
      exact (nref_zero a y _ Z2 (kids_in _ _ _ _ _ D Iy) Ey). }
  split.
  - intros b m e D. assert (Nb : b <> a).
    { intros ->. unfold c1 in D. rewrite (cell_set_same _ _ _ _ C) in D. discriminate. }
    unfold c1 in D. rewrite (cell_set_other _ _ _ _ _ C Nb) in D. destruct (W1 _ _ _ D) as [Q1 Q2].
    split; [|exact Q2]. rewrite Q1, K, K'. cbn [nref]. rewrite E. rewrite !nref_app.
    replace (Nat.eqb b a) with false by (symmetry; apply Nat.eqb_neq; exact Nb). lia.
  - intros x J. assert (J' : In x (rs ++ all_kids c)).
    { rewrite K, K' in *. rewrite !in_app_iff in *. tauto. }
    destruct (W2 x (or_intror J')) as (w & Hw). exists w. apply FR; [|exact Hw].
    apply in_app_or in J'. destruct J' as [J'|J']; [exact (nref_zero a x _ Z1 J')|exact (nref_zero a x _ Z2 J')].
Qed.

Lemma world_dec c sy hs l m r0 v t h a n d : world c sy hs (l ++ (h :: r0, v) :: m) ->
  href h = Some a -> cell_at c a = Some (n, d) -> n <> 1 ->
  let c' := list_set a (Some (n - 1, d)) c in let sy' := upd a (join (sy a) v) sy in
  exists hs', touch t K_count a v (Mem c sy hs) = Ok (Mem c sy hs') /\
    world c' sy' hs' (l ++ (r0, v) :: m) /\ rely (r0 ++ rest l m) c sy c' sy'.
Proof.
  intros W E C N1 c' sy'. pose proof (wf_out _ _ _ _ _ (w_wf _ _ _ _ W)) as F. cbn [app] in F.
  destruct (touch_reads c sy hs l m (h :: r0) v t K_count h a n d W) as (hs' & T & W' & EH); auto.
  { apply rc_root. left. reflexivity. }
  exists hs'. split; [exact T|]. clear W T. subst hs'. set (hs' := upd a _ hs) in *.
  pose proof (dec_ok _ _ _ _ _ _ F E C N1) as F'. fold c' in F'.
  pose proof (recount_sub _ _ _ _ (n - 1) C) as S. pose proof (recount_sub' _ _ _ _ (n - 1) C) as S'. fold c' in S, S'.
  assert (SY : forall b x, before x (sy b) = true -> before x (sy' b) = true).
  { intros b x. apply before_le. unfold sy', upd. destruct (Nat.eqb_spec b a) as [->|]; [apply vle_join_l|apply vle_refl]. }
  assert (SA : forall x, before x v = true -> before x (sy' a) = true).
  { intros x. apply before_le. unfold sy', upd. rewrite Nat.eqb_refl. apply vle_join_r. }
  split.
  - split.
    + apply wf_in. exact F'.
    + intros b n0 e x Cb J. destruct (S' _ _ _ Cb) as (n1 & Cb').
      apply (cov_mono c sy (l ++ (h :: r0, v) :: m)); [|..|exact (w_cov _ _ _ _ W' b n1 e x Cb' J)].
      * intros y B. apply cv_sync. auto.
      * intros r1 v1 h0 y J0 K Ey B. apply in_views in J0. destruct J0 as [J0|J0].
        -- injection J0 as -> ->. destruct K as [<-|K].
           ++ rewrite E in Ey. injection Ey as <-. apply cv_sync. auto.
           ++ apply (cv_root _ _ _ _ r0 v h0); [apply in_views'; auto|exact K|exact Ey|exact B].
        -- apply (cv_root _ _ _ _ r1 v1 h0); [apply in_views'; auto|exact K|exact Ey|exact B].
      * intros p n2 d2 h0 y _ P C0 K Ey. destruct (S _ _ _ C0) as (n3 & C1). eapply cv_kid; eassumption.
    + intros r1 v1 h0 b x J R0 Eb Ix K. apply (reach_sub _ _ _ _ S') in R0. apply in_views in J. destruct J as [J|J].
      * injection J as -> ->. apply (w_vis _ _ _ _ W' (h :: r0) v h0 b x); auto; [apply in_views'; auto|].
        eapply reach_incl; [|congruence|exact R0]. intros y Iy _. right. exact Iy.
      * apply (w_vis _ _ _ _ W' r1 v1 h0 b x); auto. apply in_views'. auto.
    + intros b Lb. unfold c' in Lb. rewrite list_set_length in Lb. destruct (w_new _ _ _ _ W' b Lb) as [Y1 Y2]. split; [|exact Y2].
      unfold sy', upd. destruct (Nat.eqb_spec b a) as [->|]; [|exact Y1]. apply cell_at_lt in C. lia.
  - split.
    + intros h0 b n0 e _ _ Cb. exact (S _ _ _ Cb).
    + intros h0 b e J Eb Cb. assert (Nb : b <> a).
      { intros ->. rewrite C in Cb. injection Cb as -> ->. lia. }
      unfold c', sy', upd. rewrite (cell_set_other _ _ _ _ _ C Nb). destruct (Nat.eqb_spec b a); [contradiction|auto].
Qed.

Lemma world_free c sy hs l m r0 v t h a d : world c sy hs (l ++ (h :: r0, v) :: m) ->
  href h = Some a -> cell_at c a = Some (1, d) ->
  let c' := list_set a None c in let sy' := upd a (join (sy a) v) sy in let v' := join v (sy a) in
  exists hs1 hs2, touch t K_count a v (Mem c sy hs) = Ok (Mem c sy hs1) /\
    touch t K_free a v' (Mem c sy hs1) = Ok (Mem c sy hs2) /\
    world c' sy' hs2 (l ++ (kids d ++ r0, v') :: m) /\ rely (r0 ++ rest l m) c sy c' sy'.
Proof.
  intros W E C c' sy' v'. pose proof (wf_out _ _ _ _ _ (w_wf _ _ _ _ W)) as F. cbn [app] in F.
  destruct (touch_reads c sy hs l m (h :: r0) v t K_count h a 1 d W) as (hs1 & T & W' & EH); auto.
  { apply rc_root. left. reflexivity. }
  exists hs1. assert (ALL : forall x, cov c sy (l ++ (h :: r0, v) :: m) x a -> before x v' = true).
  { intros x. apply (cov_private c sy l m (h :: r0) v h a d x F C (or_introl eq_refl) E). }
  assert (FB : forallb (fun x => implb (conflict K_free (how x)) (before x v')) (hs1 a) = true).
  { apply forallb_forall. intros x J. cbn. apply ALL. exact (w_cov _ _ _ _ W' _ _ _ _ C J). }
  unfold touch at 2. cbn [cs sync hist]. rewrite FB. eexists. split; [exact T|]. split; [reflexivity|].
  clear W T EH. destruct (free_ok _ _ _ _ _ F E C) as (F' & Z1 & Z2). fold c' in F'.
  assert (C' : cell_at c' a = None) by (apply (cell_set_same _ _ _ _ C)).
  assert (OC : forall b, b <> a -> cell_at c' b = cell_at c b) by (intros b Nb; apply (cell_set_other _ _ _ _ _ C Nb)).
  assert (NZ : forall o x, (forall y, In y o -> In y (r0 ++ rest l m)) -> reach c o x -> href x <> Some a).
  { intros o x S R Ex. apply reach_in in R. apply in_app_or in R. destruct R as [R|R].
    - exact (nref_zero a x _ Z1 (S x R) Ex).
    - exact (nref_zero a x _ Z2 R Ex). }
  assert (BACK : forall o x, reach c' o x -> reach c o x).
  { intros o x H. induction H as [x J|x p n e k H IH Ep Cp K]; [apply rc_root; exact J|].
    destruct (Nat.eq_dec p a) as [->|Np]; [congruence|]. rewrite (OC p Np) in Cp. eapply rc_kid; eassumption. }
  split.
  - split.
    + apply wf_in. rewrite <- app_assoc. exact F'.
    + intros b n e x Cb J. assert (Nb : b <> a) by (intros ->; congruence).
      unfold upd in J. destruct (Nat.eqb_spec b a) as [->|_]; [contradiction|].
      rewrite (OC b Nb) in Cb. pose proof (w_cov _ _ _ _ W' b n e x Cb J) as H. clear - H Nb E C OC ALL Z1 Z2.
      assert (G : forall y, cov c sy (l ++ (h :: r0, v) :: m) x y -> y <> a -> cov c' sy' (l ++ (kids d ++ r0, v') :: m) x y).
      { intros y H0. induction H0 as [y B|r1 v1 h1 y J K E1 B|p n1 d1 h1 y P IH C1 K E1]; intros Ny.
        - apply cv_sync. unfold sy', upd. destruct (Nat.eqb_spec y a); [contradiction|exact B].
        - apply in_views in J. destruct J as [J|J].
          + injection J as -> ->. destruct K as [<-|K]; [congruence|].
            apply (cv_root _ _ _ _ (kids d ++ r0) v' h1); [apply in_views'; auto|apply in_or_app; auto|exact E1|].
            eapply before_le; [apply vle_join_l|exact B].
          + apply (cv_root _ _ _ _ r1 v1 h1); [apply in_views'; auto|exact K|exact E1|exact B].
        - destruct (Nat.eq_dec p a) as [->|Np].
          + rewrite C in C1. injection C1 as <- <-.
            apply (cv_root _ _ _ _ (kids d ++ r0) v' h1); [apply in_views'; auto|apply in_or_app; auto|exact E1|].
            apply ALL. exact P.
          + rewrite <- (OC p Np) in C1. eapply cv_kid; [apply IH; exact Np|exact C1|exact K|exact E1]. }
      apply G; assumption.
    + intros r1 v1 h0 b x J R0 Eb Ix K. apply BACK in R0. apply in_views in J. destruct J as [J|J].
      * injection J as -> ->. assert (R1 : reach c (h :: r0) h0).
        { eapply reach_roots; [|congruence|exact R0]. intros y Iy _. apply in_app_or in Iy. destruct Iy as [Iy|Iy].
          - eapply rc_kid; [apply rc_root; left; reflexivity|exact E|exact C|exact Iy].
          - apply rc_root. right. exact Iy. }
        unfold upd in Ix. assert (V : In x (hs1 b) -> before x v' = true).
        { intros Ix'. eapply before_le; [apply vle_join_l|]. apply (w_vis _ _ _ _ W' (h :: r0) v h0 b x); auto. apply in_views'. auto. }
        destruct (Nat.eqb_spec b a) as [->|Nb]; [destruct Ix as [<-|Ix]; [apply before_self|]|]; auto.
      * assert (R1 : href h0 <> Some a).
        { apply (NZ r1); [|exact R0]. intros y Iy. apply in_or_app. right. eapply in_rest; eassumption. }
        unfold upd in Ix. destruct (Nat.eqb_spec b a) as [->|Nb]; [congruence|].
        apply (w_vis _ _ _ _ W' r1 v1 h0 b x); auto. apply in_views'. auto.
    + intros b Lb. unfold c' in Lb. rewrite list_set_length in Lb. destruct (w_new _ _ _ _ W' b Lb) as [Y1 Y2].
      apply cell_at_lt in C. unfold sy', upd. destruct (Nat.eqb_spec b a) as [->|]; [lia|]. auto.
  - split.
    + intros h0 b n0 e R Eb Cb. exists n0. rewrite OC; [exact Cb|]. intros ->. apply (NZ (r0 ++ rest l m) h0); auto.
    + intros h0 b e J Eb Cb. assert (Nb : b <> a).
      { intros ->. apply (NZ (r0 ++ rest l m) h0); auto. apply rc_root. exact J. }
      rewrite OC by exact Nb. unfold sy', upd. destruct (Nat.eqb_spec b a); [contradiction|auto].
Qed.
