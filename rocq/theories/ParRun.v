(** Any number of threads, any schedule. *)

From Coq Require Import ZArith List Bool Lia ZifyBool ZifyNat ZifyN.
From Verif Require Import Base BaseFacts Keys Wire Spec SpecOps HeapOps HeapFacts Store StoreSpec StoreFacts StoreSteps StoreRun Par SpecPar ParFacts ParWp ParCalls.
Import ListNotations.
Open Scope Z_scope.

(** ** One thread *)
Definition good (acq : bool) (e : env) (os : list hop) : Prop := orderly e os /\ (acq = true \/ forallb looks os = true).
(** Between calls the thread stands where its own program alone would; within a call
    it will get there. *)
Definition TI (acq : bool) (c : cells) (sy : nat -> clock) (p : list hval * thread) (sp : env * list hop) : Prop :=
  let '(hand, th) := p in
  match code th with
  | None => exists ds e, snd sp = ds ++ todo th /\ v_run (fst sp) ds = (e, out th) /\
      At c hand (vars_ th) e [] /\ good acq e (todo th)
  | Some q => exists ds o e, snd sp = ds ++ o :: todo th /\ v_run (fst sp) ds = (e, out th) /\
      wp acq q c sy hand (clk th) (Post (v_exec e o)) /\ good acq (fst (v_exec e o)) (todo th)
  end.
Lemma v_run_snoc os : forall e o e1 l, v_run e os = (e1, l) -> v_run e (os ++ [o]) = (fst (v_exec e1 o), l ++ [snd (v_exec e1 o)]).
Proof.
  induction os as [|x os IH]; intros e o e1 l; cbn [v_run app].
  - intros E. injection E as <- <-. destruct (v_exec e o). reflexivity.
  - destruct (v_exec e x) as [e2 a]. destruct (v_run e2 os) as [e3 l3] eqn:V. intros E. injection E as <- <-.
    rewrite (IH _ o _ _ V). reflexivity.
Qed.
Definition view (p : list hval * thread) : list hval * clock := (fst p ++ junk (snd p), clk (snd p)).
Definition GI (acq : bool) (g : global) (sps : list (env * list hop)) : Prop :=
  exists ps, map snd ps = threads g /\ world (cs (mem_ g)) (sync (mem_ g)) (hist (mem_ g)) (map view ps) /\
    Forall2 (TI acq (cs (mem_ g)) (sync (mem_ g))) ps sps.

Lemma TI_rely acq c sy c' sy' p sp others : TI acq c sy p sp -> rely (fst p) c sy c' sy' -> wf c' (fst p ++ others) -> TI acq c' sy' p sp.
Proof.
  destruct p as [hand th]. cbn [TI fst]. intros H Y W. destruct (code th) as [q|].
  - destruct H as (ds & o & e & S & V & H & R). exists ds, o, e. split; [exact S|]. split; [exact V|]. split; [|exact R].
    eapply wp_rely; [exact H|exact Y|apply vle_refl].
  - destruct H as (ds & e & S & V & H & R). exists ds, e. split; [exact S|]. split; [exact V|]. split; [|exact R]. eapply At_step; eassumption.
Qed.

Lemma world_part c sy hs ths r v : world c sy hs ths -> In (r, v) ths -> exists others, wf c (r ++ others).
Proof.
  intros W I. apply in_split in I. destruct I as (l & m & ->). exists (rest l m). eapply wf_out. apply W.
Qed.

Lemma others_ok acq c sy c' sy' hs' ths L SL l m : Forall2 (TI acq c sy) L SL ->
  (forall p, In p L -> In (view p) ths) -> (forall p, In p L -> In (view p) (l ++ m)) ->
  world c' sy' hs' ths -> rely (rest l m) c sy c' sy' -> Forall2 (TI acq c' sy') L SL.
Proof.
  intros F I1 I2 W Y. induction F as [|p sp L SL T F IH]; constructor; [|apply IH; intros; [apply I1|apply I2]; right; assumption].
  destruct (world_part _ _ _ _ (fst p ++ junk (snd p)) (clk (snd p)) W (I1 p (or_introl eq_refl))) as (o & Wo).
  rewrite <- app_assoc in Wo. eapply TI_rely; [exact T| |exact Wo].
  eapply rely_incl; [|exact Y]. intros x J _. eapply in_rest; [apply I2; left; reflexivity|]. cbn [view fst]. apply in_or_app. left. exact J.
Qed.

(** Thread [t] has moved, the others rely on it. *)
Lemma moved acq c sy L M SL SM sp hand' th th' c' sy' hs' hand : Forall2 (TI acq c sy) L SL -> Forall2 (TI acq c sy) M SM ->
  world c' sy' hs' (map view L ++ view (hand', th') :: map view M) -> rely (rest (map view L) (map view M)) c sy c' sy' ->
  TI acq c' sy' (hand', th') sp ->
  GI acq (Gl (Mem c' sy' hs') (list_set (length L) th' (map snd (L ++ (hand, th) :: M)))) (SL ++ sp :: SM).
Proof.
  intros FL FM W Y T. exists (L ++ (hand', th') :: M). cbn [mem_ threads cs sync hist]. split; [|split].
  - rewrite !map_app. cbn [map snd]. rewrite <- (map_length snd L). rewrite list_set_mid. reflexivity.
  - rewrite map_app. exact W.
  - apply Forall2_app; [|constructor; [exact T|]].
    + eapply others_ok; [exact FL| | |exact W|exact Y]; intros p I; apply in_or_app; left; apply in_map; exact I.
    + eapply others_ok; [exact FM| | |exact W|exact Y]; intros p I; apply in_or_app; right; [right|]; apply in_map; exact I.
Qed.

Lemma step_ok acq g sps t : GI acq g sps -> exists g', g_step acq g t = Ok g' /\ GI acq g' sps.
Proof.
  intros (ps & PS & W & F). unfold g_step. destruct (nth_error (threads g) t) as [th|] eqn:NT.
  2: { exists g. split; [reflexivity|]. exists ps. auto. }
  destruct g as [[c sy hs] ths]. cbn [mem_ threads cs sync hist] in *. subst ths.
  assert (exists L hand M, ps = L ++ (hand, th) :: M /\ length L = t) as (L & hand & M & -> & <-).
  { rewrite nth_error_map in NT. destruct (nth_error ps t) as [[hand th0]|] eqn:E; [|discriminate]. injection NT as ->.
    apply nth_error_split in E. destruct E as (L & M & -> & Lt). exists L, hand, M. auto. }
  clear NT. apply Forall2_app_inv_l in F. destruct F as (SL & SR & FL & FR & ->).
  inversion FR as [|? sp ? SM T FM]; subst. clear FR. rewrite map_app in W. cbn [map] in W.
  set (l := map view L) in *. set (m := map view M) in *. set (t := length L) in *. unfold view in W; cbn [fst snd] in W.
  assert (GO : forall hand' th' c' sy' hs', world c' sy' hs' (l ++ view (hand', th') :: m) -> rely (rest l m) c sy c' sy' ->
     TI acq c' sy' (hand', th') sp ->
     GI acq (Gl (Mem c' sy' hs') (list_set t th' (map snd (L ++ (hand, th) :: M)))) (SL ++ sp :: SM)).
  { intros. eapply moved; eassumption. }
  destruct th as [vs q jk td ot v]. cbn [junk code clk vars_ todo out] in *.
  destruct jk as [|h r].
  - rewrite app_nil_r in W. pose proof (wf_out _ _ _ _ _ (w_wf _ _ _ _ W)) as Wf.
    destruct q as [[vs' a| |x k]|].
    + (* a call returns *)
      eexists. split; [reflexivity|]. apply (GO hand); [unfold view; cbn [fst snd junk clk]; rewrite app_nil_r; exact W|apply rely_refl|].
      cbn [TI code todo out vars_] in *. destruct T as (ds & o & e & S & V & H & G). cbn [wp] in H.
      destruct (H c sy _ (rely_refl _ _ _) Wf) as [A ->]. exists (ds ++ [o]), (fst (v_exec e o)). split; [rewrite <- app_assoc; exact S|].
      split; [apply v_run_snoc; exact V|]. split; [exact A|exact G].
    + cbn [TI code wp] in T. destruct T as (? & ? & ? & _ & _ & [] & _).
    + (* an access *)
      cbn [TI code todo out clk] in T. destruct T as (ds & o & e & S & V & H & G). cbn [wp] in H.
      specialize (H c sy v _ (rely_refl _ _ _) (vle_refl v) Wf).
      assert (FIN : forall y hand' jk' v' c' sy' hs', world c' sy' hs' (l ++ (hand' ++ jk', v') :: m) -> rely (rest l m) c sy c' sy' ->
        wp acq (k y) c' sy' hand' v' (Post (v_exec e o)) ->
        GI acq (Gl (Mem c' sy' hs') (list_set t (Th vs (Some (k y)) jk' td ot (tick t v')) (map snd (L ++ (hand, Th vs (Some (Do x k)) [] td ot v) :: M)))) (SL ++ sp :: SM)).
      { intros y hand' jk' v' c' sy' hs' W' Y' H'. apply (GO hand'); [|exact Y'|].
        - unfold view. cbn [fst snd junk clk]. eapply world_clock; [exact W'|apply vle_tick].
        - cbn [TI code todo out clk]. exists ds, o, e. split; [exact S|]. split; [exact V|]. split; [|exact G]. eapply wp_rely; [exact H'|apply rely_refl|apply vle_tick]. }
      clear GO. destruct x as [a|h|a|a d'|d|h]; cbn [perform cs sync hist].
      * destruct H as ((h & I & E) & H). assert (R : reach c hand h) by (apply rc_root; exact I).
        destruct (proj2 Wf h) as (w & Sh); [apply in_or_app; left; apply in_or_app; left; exact I|].
        destruct (shows_live _ _ _ _ Sh E) as (n & d & C). rewrite C. specialize (H n d C).
        set (v1 := if acq then join v (sy a) else v) in *.
        assert (W1 : world c sy hs (l ++ (hand, v1) :: m)).
        { eapply world_clock; [exact W|]. unfold v1. destruct acq; [apply vle_join_l|apply vle_refl]. }
        destruct (touch_reads c sy hs l m hand v1 t K_count h a n d W1 R E C (or_intror eq_refl)) as (hs' & -> & W2 & _). cbn [bind].
        eexists. split; [reflexivity|]. apply (FIN (R_count n) hand [] v1); [rewrite app_nil_r; exact W2|apply rely_refl|exact H].
      * destruct H as (R & E & H). destruct (href h) as [a|] eqn:Eh; [|congruence].
        destruct (proj2 Wf h) as (w & Sh).
        { apply reach_in in R. rewrite in_app_iff in R. rewrite !in_app_iff. tauto. }
        destruct (shows_live _ _ _ _ Sh Eh) as (n & d & C).
        destruct (touch_reads c sy hs l m hand v t K_count h a n d W R Eh C (or_intror eq_refl)) as (hs' & -> & W2 & _). cbn [bind sync hist].
        destruct (world_inc c sy hs' l m hand v h a W2 R Eh) as (c' & I & W3 & Y). rewrite I. cbn [bind].
        eexists. split; [reflexivity|]. apply (FIN R_unit (h :: hand) [] v); [rewrite app_nil_r; exact W3|exact Y|].
        apply (H c' I); [eapply wf_out; apply W3|].
        unfold inc in I. rewrite Eh, C in I. injection I as <-. eapply recount_sub. exact C.
      * destruct H as ((h & R & E) & H).
        destruct (proj2 Wf h) as (w & Sh).
        { apply reach_in in R. rewrite in_app_iff in R. rewrite !in_app_iff. tauto. }
        destruct (shows_live _ _ _ _ Sh E) as (n & d & C). rewrite C. specialize (H n d C).
        destruct (touch_reads c sy hs l m hand v t K_read h a n d W R E C (or_introl eq_refl)) as (hs' & -> & W2 & _). cbn [bind].
        eexists. split; [reflexivity|]. apply (FIN (R_cell d) hand [] v); [rewrite app_nil_r; exact W2|apply rely_refl|exact H].
      * destruct H as (d & news & olds & r0 & C & I & HH & Lv & Rq & M0 & H).
        destruct (world_put c sy hs l m hand v t a d d' news olds r0 W C I HH Lv Rq M0) as (hs' & c' & -> & P & W2 & Y). cbn [bind sync hist].
        rewrite P. cbn [bind]. eexists. split; [reflexivity|]. apply (FIN R_unit (olds ++ r0) [] v); [rewrite app_nil_r; exact W2|exact Y|exact (H c' P)].
      * destruct H as (r0 & Rq & H). destruct (world_alloc c sy hs l m hand v t d r0 W Rq) as (hs' & TO & W2 & Y & _).
        cbn [alloc]. rewrite TO. cbn [bind sync hist]. eexists. split; [reflexivity|].
        apply (FIN (R_addr (length c)) (handle d (length c) :: r0) [] v); [rewrite app_nil_r; exact W2|exact Y|].
        apply H. apply (w_new _ _ _ _ W). lia.
      * destruct H as (r0 & Rq & H). eexists. split; [reflexivity|]. apply (FIN R_unit r0 [h] v); [|apply rely_refl|exact H].
        eapply world_req; [exact W|]. eapply req_trans; [exact Rq|]. intros y _. rewrite (cnt_app y r0 [h]), (cnt_cons y h r0). lia.
    + (* the next call *)
      cbn [TI code todo out vars_] in T. destruct T as (ds & e & S & V & A & G). destruct td as [|o td].
      * eexists. split; [reflexivity|]. exists (L ++ (hand, Th vs None [] [] ot v) :: M). split; [reflexivity|]. split.
        -- cbn [mem_ cs sync hist]. rewrite map_app. cbn [map]. change (world c sy hs (l ++ (hand ++ [], v) :: m)). rewrite app_nil_r. exact W.
        -- apply Forall2_app; [exact FL|]. constructor; [|exact FM]. cbn [TI code todo out vars_]. exists ds, e. auto.
      * destruct G as [[CO [PO OR]] AQ]. eexists. split; [reflexivity|].
        apply (GO hand); [unfold view; cbn [fst snd junk clk]; rewrite app_nil_r; exact W|apply rely_refl|].
        cbn [TI code todo out clk]. exists ds, o, e. split; [exact S|]. split; [exact V|]. split; [|split; [exact OR|]].
        -- apply wp_exec; auto. destruct AQ as [AQ|AQ]; [auto|]. cbn [forallb] in AQ. apply andb_true_iff in AQ. tauto.
        -- destruct AQ as [AQ|AQ]; [auto|]. cbn [forallb] in AQ. apply andb_true_iff in AQ. tauto.
  - (* destroying *)
    assert (W1 : world c sy hs (l ++ (h :: hand ++ r, v) :: m)).
    { eapply world_req; [exact W|]. intros y _. rewrite (cnt_app y hand (h :: r)), (cnt_cons y h r), (cnt_cons y h (hand ++ r)), cnt_app. lia. }
    clear W. pose proof (wf_out _ _ _ _ _ (w_wf _ _ _ _ W1)) as Wf.
    assert (FIN : forall jk' v' c' sy' hs', world c' sy' hs' (l ++ (hand ++ jk', v') :: m) -> vle v v' -> rely ((hand ++ r) ++ rest l m) c sy c' sy' ->
        GI acq (Gl (Mem c' sy' hs') (list_set t (Th vs q jk' td ot (tick t v')) (map snd (L ++ (hand, Th vs q (h :: r) td ot v) :: M)))) (SL ++ sp :: SM)).
    { intros jk' v' c' sy' hs' W' Lv Y'. apply (GO hand).
      - unfold view. cbn [fst snd junk clk]. eapply world_clock; [exact W'|apply vle_tick].
      - eapply rely_incl; [|exact Y']. intros x I _. apply in_or_app. auto.
      - assert (YH : rely hand c sy c' sy') by (eapply rely_incl; [|exact Y']; intros x I _; rewrite !in_app_iff; auto).
        pose proof (wf_out _ _ _ _ _ (w_wf _ _ _ _ W')) as Wf'. rewrite <- app_assoc in Wf'.
        cbn [TI code todo out clk vars_] in *. destruct q as [q|].
        + destruct T as (ds & o & e & S & V & H & R). exists ds, o, e. split; [exact S|]. split; [exact V|]. split; [|exact R].
          eapply wp_rely; [exact H|exact YH|]. eapply vle_trans; [exact Lv|apply vle_tick].
        + destruct T as (ds & e & S & V & H & R). exists ds, e. split; [exact S|]. split; [exact V|]. split; [|exact R]. eapply At_step; eassumption. }
    unfold drop_one. cbn [cs sync hist]. destruct (href h) as [a|] eqn:E.
    + destruct (proj2 Wf h) as (w & Sh); [left; reflexivity|]. destruct (shows_live _ _ _ _ Sh E) as (n & d & C). rewrite C.
      destruct (n =? 1) eqn:N1.
      * assert (n = 1) as -> by lia.
        destruct (world_free c sy hs l m (hand ++ r) v t h a d W1 E C) as (hs1 & hs2 & -> & T2 & W2 & Y). cbn [bind]. rewrite T2. cbn [bind hist].
        eexists. split; [reflexivity|]. apply FIN; [|apply vle_join_l|exact Y].
        eapply world_req; [exact W2|]. intros y _. rewrite !cnt_app. lia.
      * destruct (world_dec c sy hs l m (hand ++ r) v t h a n d W1 E C ltac:(lia)) as (hs1 & -> & W2 & Y). cbn [bind hist].
        eexists. split; [reflexivity|]. apply FIN; [exact W2|apply vle_refl|exact Y].
    + cbn [bind]. eexists. split; [reflexivity|]. apply FIN; [|apply vle_refl|apply rely_refl].
      eapply world_req; [exact W1|]. apply (req_scalar h (hand ++ r)). exact E.
Qed.

Lemma run_ok acq sched : forall g sps, GI acq g sps -> exists g', g_run acq g sched = Ok g' /\ GI acq g' sps.
Proof.
  induction sched as [|t sched IH]; intros g sps G; cbn [g_run]; [eauto|].
  destruct (step_ok acq g sps t G) as (g1 & -> & G1). cbn [bind]. apply IH. exact G1.
Qed.

(** ** The start *)
Fixpoint start (t : nat) (jobs : list (nat * list hop)) (vs : list hval) : list (list hval * thread) :=
  match jobs with
  | [] => []
  | (n, os) :: r => (firstn n vs, Th (firstn n vs) None [] os [] (tick t zero)) :: start (S t) r (skipn n vs)
  end.
Lemma start_deal jobs : forall t vs, map snd (start t jobs vs) = deal t jobs vs.
Proof. induction jobs as [|[n os] jobs IH]; intros t vs; cbn; [reflexivity|]. rewrite IH. reflexivity. Qed.
Lemma start_roots jobs : forall t vs, total jobs = length vs -> roots (map view (start t jobs vs)) = vs.
Proof.
  induction jobs as [|[n os] jobs IH]; intros t vs E; cbn [total fold_right fst] in E.
  - destruct vs; [reflexivity|discriminate].
  - fold (total jobs) in E. cbn [start map roots flat_map view fst snd junk]. fold (roots (map view (start (S t) jobs (skipn n vs)))).
    rewrite app_nil_r, IH; [apply firstn_skipn|]. rewrite skipn_length. lia.
Qed.
Lemma start_ok acq c sy jobs : forall t vs e pre, Forall2 (shows c) vs e -> wf c (pre ++ vs) ->
  Forall (fun p => good acq (fst p) (snd p)) (shares jobs e) ->
  Forall2 (TI acq c sy) (start t jobs vs) (shares jobs e).
Proof.
  induction jobs as [|[n os] jobs IH]; intros t vs e pre F W G; cbn [start shares] in *; constructor.
  - inversion G as [|? ? G1 G2]; subst. cbn [TI code todo out vars_ fst snd] in *. exists [], (firstn n e).
    split; [reflexivity|]. split; [reflexivity|]. split; [|exact G1].
    apply (At_intro _ _ _ _ _ (pre ++ skipn n vs)); [apply req_refl|]. split; cbn [heap vars].
    + eapply wf_meq; [|exact W]. intros h. cbn [app]. rewrite !cnt_app. rewrite <- (firstn_skipn n vs) at 1. rewrite cnt_app. lia.
    + apply Forall2_firstn. exact F.
  - inversion G as [|? ? G1 G2]; subst. apply (IH (S t) (skipn n vs) (skipn n e) (pre ++ firstn n vs)); [|rewrite <- app_assoc, firstn_skipn; exact W|exact G2].
    clear - F. revert n. induction F as [|x y vs e S F IH]; intros [|n]; cbn; try constructor; auto.
Qed.
Lemma fork_ok acq s e jobs : Inv s e [] -> total jobs = length e ->
  Forall (fun p => good acq (fst p) (snd p)) (shares jobs e) -> GI acq (fork s jobs) (shares jobs e).
Proof.
  intros I T G. pose proof (Inv_len _ _ _ I) as Ln. destruct I as [W F]. cbn [app] in W. exists (start 0 jobs (vars s)).
  unfold fork. cbn [mem_ threads cs sync hist]. split; [apply start_deal|]. split.
  - split.
    + rewrite start_roots by congruence. exact W.
    + intros a n d x _ [].
    + intros r v h a x _ _ _ [].
    + auto.
  - apply (start_ok acq _ _ jobs 0 _ _ []); assumption.
Qed.

(** ** A thread left alone comes to its end *)
Definition at_ (g : global) (t : nat) := nth_error (threads g) t.
Lemma step_other acq g t g' u : g_step acq g t = Ok g' -> u <> t -> at_ g' u = at_ g u.
Proof.
  unfold g_step, at_. intros E N. destruct (nth_error (threads g) t) as [th|]; [|injection E as <-; reflexivity].
  assert (B : forall m th', nth_error (threads (Gl m (list_set t th' (threads g)))) u = nth_error (threads g) u)
    by (intros; cbn [threads]; apply nth_set_other; exact N).
  destruct (junk th) as [|h r].
  - destruct (code th) as [[vs a| |x k]|].
    + injection E as <-. apply B.
    + discriminate.
    + destruct (perform acq t x (clk th) (mem_ g)) as [[[y v1] m1]|?| | |]; try discriminate. cbn [bind] in E. injection E as <-. apply B.
    + destruct (todo th); injection E as <-; [reflexivity|apply B].
  - destruct (drop_one t h r (clk th) (mem_ g)) as [[[y v1] m1]|?| | |]; try discriminate. cbn [bind] in E. injection E as <-. apply B.
Qed.
Lemma run_app acq s1 : forall g s2, g_run acq g (s1 ++ s2) = (g1 <- g_run acq g s1 ;; g_run acq g1 s2).
Proof.
  induction s1 as [|t s1 IH]; intros g s2; cbn [g_run app bind]; [reflexivity|]. destruct (g_step acq g t); cbn [bind]; auto.
Qed.
Lemma kids_freed c a n d : cell_at c a = Some (n, d) -> (length (all_kids (list_set a None c)) + length (kids d) = length (all_kids c))%nat.
Proof.
  intros C. destruct (cell_at_split _ _ _ C) as (l & r & -> & <-). rewrite list_set_mid, !all_kids_mid, !app_length. cbn [length]. lia.
Qed.

(** [t] moves from [th] to [th'], and nobody else does. *)
Definition alone acq (g : global) (t : nat) (P : thread -> Prop) : Prop :=
  exists n g' th', g_run acq g (repeat t n) = Ok g' /\ at_ g' t = Some th' /\ P th' /\ (forall u, u <> t -> at_ g' u = at_ g u).
Lemma alone_step acq g t g1 P : g_step acq g t = Ok g1 -> alone acq g1 t P -> alone acq g t P.
Proof.
  intros E (n & g' & th' & R & A & H & O). exists (S n), g', th'. cbn [repeat g_run]. rewrite E. cbn [bind].
  split; [exact R|]. split; [exact A|]. split; [exact H|]. intros u N. rewrite (O u N). eapply step_other; eassumption.
Qed.
Lemma alone_here acq g t th (P : thread -> Prop) : at_ g t = Some th -> P th -> alone acq g t P.
Proof. intros A H. exists 0%nat, g, th. auto. Qed.
Lemma alone_then acq g t sps (P R : thread -> Prop) : GI acq g sps -> alone acq g t P ->
  (forall g1 th1, GI acq g1 sps -> at_ g1 t = Some th1 -> P th1 -> alone acq g1 t R) -> alone acq g t R.
Proof.
  intros G (n & g1 & th1 & E & A & H & O) K. destruct (run_ok acq (repeat t n) g sps G) as (g1' & E' & G1). rewrite E in E'. injection E' as <-.
  destruct (K g1 th1 G1 A H) as (m & g2 & th2 & E2 & A2 & H2 & O2). exists (n + m)%nat, g2, th2.
  rewrite repeat_app, run_app, E. cbn [bind]. split; [exact E2|]. split; [exact A2|]. split; [exact H2|].
  intros u N. rewrite (O2 u N). apply O. exact N.
Qed.

Lemma at_set g t th m th' : at_ g t = Some th -> at_ (Gl m (list_set t th' (threads g))) t = Some th'.
Proof. unfold at_. cbn [threads]. intros A. apply nth_set_same. apply nth_error_Some. congruence. Qed.

Lemma touch_cs t k a v m m' : touch t k a v m = Ok m' -> cs m' = cs m.
Proof. unfold touch. destruct (forallb _ _); [|discriminate]. intros E. injection E as <-. reflexivity. Qed.
Lemma drop_one_less t h r v m r1 v1 m1 : drop_one t h r v m = Ok (r1, v1, m1) ->
  (length r1 + length (all_kids (cs m1)) < length (h :: r) + length (all_kids (cs m)))%nat.
Proof.
  unfold drop_one. destruct (href h) as [a|]; [|intros E; injection E as <- <- <-; cbn [length]; lia].
  destruct (cell_at (cs m) a) as [[n d]|] eqn:C; [|discriminate].
  destruct (touch t K_count a v m) as [m2|?| | |]; try discriminate. cbn [bind]. destruct (n =? 1).
  - destruct (touch t K_free a _ m2) as [m3|?| | |]; try discriminate. cbn [bind]. intros E. injection E as <- <- <-. cbn [cs].
    pose proof (kids_freed _ _ _ _ C). rewrite app_length. cbn [length]. lia.
  - intros E. injection E as <- <- <-. cbn [cs]. rewrite (recount_kids _ _ _ _ _ C). cbn [length]. lia.
Qed.
Lemma drain acq sps t : forall f g th, GI acq g sps -> at_ g t = Some th -> (length (junk th) + length (all_kids (cs (mem_ g))) <= f)%nat ->
  alone acq g t (fun th' => code th' = code th /\ todo th' = todo th /\ junk th' = []).
Proof.
  induction f as [|f IH]; intros g th G A L.
  - apply (alone_here acq g t th); [exact A|]. destruct (junk th); [auto|cbn [length] in L; lia].
  - destruct (junk th) as [|h r] eqn:J; [apply (alone_here acq g t th); auto|].
    destruct (step_ok acq g sps t G) as (g1 & E & G1). eapply alone_step; [exact E|].
    unfold g_step in E. unfold at_ in A. rewrite A, J in E.
    destruct (drop_one t h r (clk th) (mem_ g)) as [[[y v1] m1]|?| | |] eqn:D; try discriminate. cbn [bind] in E. injection E as <-.
    apply drop_one_less in D. cbn [length] in L, D. pose proof (IH _ _ G1 (at_set g t th m1 _ A)) as H.
    cbn [junk mem_ code todo] in H. apply H. lia.
Qed.
Lemma call_ends acq sps t : forall q g th, GI acq g sps -> at_ g t = Some th -> code th = Some q -> junk th = [] ->
  alone acq g t (fun th' => code th' = None /\ todo th' = todo th /\ junk th' = []).
Proof.
  induction q as [vs a| |x k IH]; intros g th G A C J; destruct (step_ok acq g sps t G) as (g1 & E & G1);
    pose proof E as E0; unfold g_step in E; unfold at_ in A; rewrite A, J, C in E.
  - injection E as <-. eapply alone_step; [exact E0|]. eapply alone_here; [eapply at_set; exact A|]. auto.
  - discriminate.
  - destruct (perform acq t x (clk th) (mem_ g)) as [[[y v1] m1]|?| | |]; try discriminate. cbn [bind] in E. injection E as <-.
    eapply alone_step; [exact E0|]. eapply alone_then; [exact G1| |].
    + eapply (drain acq sps t _ _ _ G1); [eapply at_set; exact A|]. apply Nat.le_refl.
    + intros g2 th2 G2 A2 (C2 & T2 & J2). cbn [code todo] in *. rewrite <- T2. apply (IH y g2 th2); auto.
Qed.
Lemma thread_ends acq sps t : forall os g th, GI acq g sps -> at_ g t = Some th -> todo th = os -> code th = None -> junk th = [] ->
  alone acq g t (fun th' => finished th' = true).
Proof.
  induction os as [|o os IH]; intros g th G A T C J.
  - eapply alone_here; [exact A|]. unfold finished. rewrite C, J, T. reflexivity.
  - destruct (step_ok acq g sps t G) as (g1 & E & G1). pose proof E as E0. unfold g_step in E. unfold at_ in A. rewrite A, J, C, T in E. injection E as <-.
    eapply alone_step; [exact E0|]. eapply alone_then; [exact G1| |].
    + eapply call_ends; [exact G1|eapply at_set; exact A|reflexivity|reflexivity].
    + intros g2 th2 G2 A2 (C2 & T2 & J2). cbn [todo] in T2. eapply IH; eauto.
Qed.
Lemma solo acq sps g t th : GI acq g sps -> at_ g t = Some th -> alone acq g t (fun th' => finished th' = true).
Proof.
  intros G A. eapply alone_then; [exact G|eapply (drain acq sps t _ _ _ G A); apply Nat.le_refl|].
  intros g1 th1 G1 A1 (C1 & T1 & J1). destruct (code th1) as [q|] eqn:C.
  - eapply alone_then; [exact G1|eapply call_ends; eassumption|]. intros g2 th2 G2 A2 (C2 & T2 & J2). eapply thread_ends; eauto.
  - eapply thread_ends; eauto.
Qed.
Lemma run_length acq sched : forall g g', g_run acq g sched = Ok g' -> length (threads g') = length (threads g).
Proof.
  induction sched as [|t sched IH]; intros g g'; cbn [g_run]; [intros E; injection E as <-; reflexivity|].
  destruct (g_step acq g t) as [g1|?| | |] eqn:E1; try discriminate. cbn [bind]. intros E. rewrite (IH _ _ E). clear E IH.
  unfold g_step in E1. destruct (nth_error (threads g) t) as [th|]; [|injection E1 as <-; reflexivity].
  destruct (junk th) as [|h r].
  - destruct (code th) as [[vs a| |x k]|].
    + injection E1 as <-. apply list_set_length.
    + discriminate.
    + destruct (perform acq t x (clk th) (mem_ g)) as [[[y v1] m1]|?| | |]; try discriminate. cbn [bind] in E1. injection E1 as <-. apply list_set_length.
    + destruct (todo th); injection E1 as <-; [reflexivity|apply list_set_length].
  - destruct (drop_one t h r (clk th) (mem_ g)) as [[[y v1] m1]|?| | |]; try discriminate. cbn [bind] in E1. injection E1 as <-. apply list_set_length.
Qed.
Lemma all_end acq sps : forall n g, GI acq g sps -> (n <= length (threads g))%nat ->
  exists sched g', g_run acq g sched = Ok g' /\ GI acq g' sps /\ length (threads g') = length (threads g) /\
    forall t th, (t < n)%nat -> at_ g' t = Some th -> finished th = true.
Proof.
  induction n as [|n IH]; intros g G L.
  - exists [], g. split; [reflexivity|]. split; [exact G|]. split; [reflexivity|]. intros; lia.
  - destruct (IH g G) as (s1 & g1 & E1 & G1 & L1 & F1); [lia|].
    destruct (at_ g1 n) as [th|] eqn:A; [|unfold at_ in A; apply nth_error_None in A; lia].
    destruct (solo acq sps g1 n th G1 A) as (m & g2 & th2 & E2 & A2 & F2 & O2).
    exists (s1 ++ repeat n m), g2. rewrite run_app, E1. cbn [bind]. split; [exact E2|].
    destruct (run_ok acq (repeat n m) g1 sps G1) as (g2' & E2' & G2). rewrite E2 in E2'. injection E2' as <-. split; [exact G2|].
    split; [rewrite (run_length _ _ _ _ E2); exact L1|]. intros t u Lt At. destruct (Nat.eq_dec t n) as [->|N].
    + rewrite A2 in At. injection At as <-. exact F2.
    + rewrite (O2 t N) in At. apply (F1 t u); [lia|exact At].
Qed.
