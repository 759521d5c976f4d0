(** Building cells for a value, reading a value off cells, and the temporary of a mutator. *)

From Coq Require Import ZArith List Bool Lia ZifyBool ZifyNat ZifyN.
From Verif Require Import Base BaseFacts Keys Wire Read Spec SpecOps HeapOps HeapFacts Enc NestedFacts Canon SpecBufHold
  Store StoreSpec StoreFacts StoreSteps StoreRun SpecPackHold PackHold.
From Verif Require BufHold BufHoldRun.
Import ListNotations.
Open Scope Z_scope.

(** ** Building *)

Definition grows (cs cs' : cells) : Prop :=
  (length cs <= length cs')%nat /\ forall a, (a < length cs)%nat -> cell_at cs' a = cell_at cs a.
Lemma grows_refl cs : grows cs cs.
Proof. split; [lia|auto]. Qed.
Lemma grows_trans a b c : grows a b -> grows b c -> grows a c.
Proof. intros [L H] [L1 H1]. split; [lia|]. intros i Li. rewrite H1 by lia. apply H. exact Li. Qed.
Lemma grows_sub cs cs' : grows cs cs' -> sub cs cs'.
Proof. intros [_ H] a n c E. exists n. rewrite H; [exact E|exact (cell_at_lt _ _ _ E)]. Qed.
Lemma grows_alloc cs c : grows cs (cs ++ [Some (1, c)]).
Proof.
  split; [rewrite app_length; lia|]. intros a L. unfold cell_at. rewrite nth_error_app1 by exact L. reflexivity.
Qed.

Definition builds (v : value) : Prop := forall cs roots, wf cs roots ->
  exists cs' h, build cs v = (cs', h) /\ wf cs' (h :: roots) /\ shows cs' h v /\ grows cs cs'.

Definition build_fields := fix go (cs : cells) (fs : list (str * value)) : cells * list (str * hval) :=
  match fs with
  | [] => (cs, [])
  | (k, x) :: r =>
      let '(cs1, h) := build cs x in
      let '(cs2, l) := go cs1 r in (cs2, (k, h) :: l)
  end.
Definition build_elems := fix go (cs : cells) (vs : list value) : cells * list hval :=
  match vs with
  | [] => (cs, [])
  | x :: r =>
      let '(cs1, h) := build cs x in
      let '(cs2, l) := go cs1 r in (cs2, h :: l)
  end.

Lemma fields_ok fs : Forall (fun kv => builds (snd kv)) fs -> forall cs roots, wf cs roots ->
  exists cs' l, build_fields cs fs = (cs', l) /\ wf cs' (map snd l ++ roots) /\ Forall2 (pair_shows cs') l fs /\ grows cs cs'.
Proof.
  intros A. induction A as [|[k x] r B A IH]; intros cs roots W; cbn [build_fields].
  - exists cs, []. split; [reflexivity|]. split; [exact W|]. split; [constructor|apply grows_refl].
  - destruct (B cs roots W) as (cs1 & h & E1 & W1 & S1 & G1). cbn [snd] in E1, S1. rewrite E1.
    destruct (IH cs1 (h :: roots) W1) as (cs2 & l & E2 & W2 & F2 & G2). rewrite E2.
    exists cs2, ((k, h) :: l). split; [reflexivity|]. split; [|split; [|eapply grows_trans; eassumption]].
    + eapply wf_meq; [|exact W2]. cbn [map snd app]. meq.
    + constructor; [|exact F2]. split; [reflexivity|]. cbn [snd]. eapply shows_sub; [apply grows_sub; exact G2|exact S1].
Qed.
Lemma elems_ok vs : Forall builds vs -> forall cs roots, wf cs roots ->
  exists cs' l, build_elems cs vs = (cs', l) /\ wf cs' (l ++ roots) /\ Forall2 (shows cs') l vs /\ grows cs cs'.
Proof.
  intros A. induction A as [|x r B A IH]; intros cs roots W; cbn [build_elems].
  - exists cs, []. split; [reflexivity|]. split; [exact W|]. split; [constructor|apply grows_refl].
  - destruct (B cs roots W) as (cs1 & h & E1 & W1 & S1 & G1). rewrite E1.
    destruct (IH cs1 (h :: roots) W1) as (cs2 & l & E2 & W2 & F2 & G2). rewrite E2.
    exists cs2, (h :: l). split; [reflexivity|]. split; [|split; [|eapply grows_trans; eassumption]].
    + eapply wf_meq; [|exact W2]. cbn [app]. meq.
    + constructor; [|exact F2]. eapply shows_sub; [apply grows_sub; exact G2|exact S1].
Qed.

Lemma build_ok : forall v, builds v.
Proof.
  fix IH 1. intros v. destruct v as [fs|vs|t|z|d|f|]; intros cs roots W; cbn [build].
  1: { assert (A : Forall (fun kv => builds (snd kv)) fs) by (induction fs as [|[k x] r IHr]; constructor; [apply IH|exact IHr]).
       destruct (fields_ok fs A cs roots W) as (cs1 & l & E & W1 & F & G). fold build_fields. rewrite E. cbn [alloc].
       eexists _, _. split; [reflexivity|]. split; [exact (alloc_ok cs1 (CObj l) roots W1)|]. split.
       - apply (sh_obj _ _ 1 l); [apply cell_at_last|]. exact (pairs_sub _ _ _ _ (alloc_sub cs1 (CObj l)) F).
       - eapply grows_trans; [exact G|apply grows_alloc]. }
  1: { assert (A : Forall builds vs) by (induction vs as [|x r IHr]; constructor; [apply IH|exact IHr]).
       destruct (elems_ok vs A cs roots W) as (cs1 & l & E & W1 & F & G). fold build_elems. rewrite E. cbn [alloc].
       eexists _, _. split; [reflexivity|]. split; [exact (alloc_ok cs1 (CArr l) roots W1)|]. split.
       - apply (sh_arr _ _ 1 l); [apply cell_at_last|]. exact (elems_sub _ _ _ _ (alloc_sub cs1 (CArr l)) F).
       - eapply grows_trans; [exact G|apply grows_alloc]. }
  all: eexists _, _; split; [reflexivity|]; split; [apply wf_scalar; [reflexivity|exact W]|]; split; [constructor|apply grows_refl].
Qed.

(** ** Reading off *)

Definition show_fields (fuel : nat) (cs : cells) := fix go (l : list (str * hval)) : res (list (str * value)) :=
  match l with
  | [] => Ok []
  | (k, m) :: r => v <- h_show fuel cs m ;; vs <- go r ;; Ok ((k, v) :: vs)
  end.
Definition show_elems (fuel : nat) (cs : cells) := fix go (l : list hval) : res (list value) :=
  match l with
  | [] => Ok []
  | m :: r => v <- h_show fuel cs m ;; vs <- go r ;; Ok (v :: vs)
  end.

(** No cell occurs twice on a path, so the number of cells bounds its length: [path]
    are the cells above [h]. *)
Lemma show_deep cs fuel : forall h v path, shows cs h v -> NoDup path ->
  (forall a, In a path -> exists n c w, cell_at cs a = Some (n, c) /\ shows cs (handle c a) w /\ (weight v < weight w)%nat) ->
  (length cs < fuel + length path)%nat -> h_show fuel cs h = Ok v.
Proof.
  induction fuel as [|fuel IH]; intros h v path Sh ND Up L.
  { exfalso. assert (I : incl path (seq 0 (length cs))).
    { intros a Ia. destruct (Up a Ia) as (n & c & w & C & _). apply in_seq. pose proof (cell_at_lt _ _ _ C). lia. }
    pose proof (NoDup_incl_length ND I) as Q. rewrite seq_length in Q. lia. }
  assert (STEP : forall a n c, cell_at cs a = Some (n, c) -> h = handle c a -> cell_shows cs c v ->
    forall m w, In m (kids c) -> shows cs m w -> h_show fuel cs m = Ok w).
  { intros a n c C Eh CS m w Im Sm.
    assert (Sa : shows cs (handle c a) v) by (subst h; exact Sh).
    assert (NI : ~ In a path).
    { intros Ia. destruct (Up a Ia) as (n' & c' & w' & C' & S' & Lt). rewrite C in C'. injection C' as <- <-.
      rewrite (shows_det _ _ _ Sa _ S') in Lt. lia. }
    pose proof (kid_weight _ _ _ _ _ CS Im Sm) as KW.
    apply (IH m w (a :: path)); [exact Sm|constructor; assumption| |cbn [length]; lia].
    intros b [<-|Ib].
    - exists n, c, v. split; [exact C|]. split; [exact Sa|lia].
    - destruct (Up b Ib) as (n' & c' & w' & C' & S' & Lt). exists n', c', w'. split; [exact C'|]. split; [exact S'|lia]. }
  pose proof Sh as Sh'. destruct Sh' as [| | | | |a n fs vs C F|a n ms vs C F]; cbn [h_show]; try reflexivity.
  - rewrite C. fold (show_fields fuel cs). specialize (STEP a n (CObj fs) C eq_refl F). cbn [kids] in STEP.
    assert (Q : show_fields fuel cs fs = Ok vs).
    { clear - F STEP. induction F as [|[k m] [k' w] fs vs [Hk Hs] F IHF]; [reflexivity|]. cbn [fst snd] in *. subst k'.
      cbn [show_fields]. rewrite (STEP m w (or_introl eq_refl) Hs). cbn [bind]. rewrite IHF; [reflexivity|].
      intros m' w' I. apply STEP. right. exact I. }
    rewrite Q. reflexivity.
  - rewrite C. fold (show_elems fuel cs). specialize (STEP a n (CArr ms) C eq_refl F). cbn [kids] in STEP.
    assert (Q : show_elems fuel cs ms = Ok vs).
    { clear - F STEP. induction F as [|m w ms vs Hs F IHF]; [reflexivity|].
      cbn [show_elems]. rewrite (STEP m w (or_introl eq_refl) Hs). cbn [bind]. rewrite IHF; [reflexivity|].
      intros m' w' I. apply STEP. right. exact I. }
    rewrite Q. reflexivity.
Qed.
Lemma show_ok s e t x : Inv s e t -> (x < length e)%nat -> show s x = Ok (val e x).
Proof.
  intros I L. destruct (L_get _ _ _ _ I L) as (h & N & G & Sh). unfold show. rewrite G. cbn [bind].
  apply (show_deep (heap s) _ h (val e x) []); [exact Sh|constructor|intros a []|cbn [length]; lia].
Qed.

(** ** The temporary *)

Definition mine (s : state) (x : nat) (h : hval) : Prop :=
  forall a, href h = Some a -> exists c, owned s x a c /\ h = handle c a.

Lemma null_handle s e t x : Inv s e t -> (x < length e)%nat -> val e x = VNull -> nth_error (vars s) x = Some HNull.
Proof. intros I L V. destruct (L_get _ _ _ _ I L) as (h & N & G & Sh). rewrite V in Sh. inversion Sh. subst. exact N. Qed.

Lemma set_temp s e t hv w : Inv s e [hv] -> nth_error (vars s) t = Some HNull -> shows (heap s) hv w -> (t < length e)%nat ->
  Inv (set_var s t hv) (list_set t w e) [].
Proof.
  intros I N Sh L. destruct (L_overwrite s e t hv w [] I Sh L) as (s' & E & I').
  unfold overwrite, get_var in E. rewrite N in E. cbn [bind] in E. unfold drop_s, drop in E. cbn [length Nat.add drop_n href] in E.
  destruct (length (all_kids (heap (set_var s t hv)))); cbn [drop_n bind] in E; apply Ok_inj in E; subst s'; exact I'.
Qed.

Lemma move_out s e y : Inv s e [] -> (y < length e)%nat ->
  exists hv, take_move s (Rref y) = Ok (set_var s y HNull, hv) /\ Inv (set_var s y HNull) (list_set y VNull e) [hv] /\
    shows (heap s) hv (val e y).
Proof.
  intros I L. destruct (L_get _ _ _ _ I L) as (h & N & G & Sh). exists h. cbn [take_move]. rewrite G. cbn [bind].
  split; [reflexivity|]. split; [|exact Sh]. destruct I as [W F]. split; unfold set_var; cbn [heap vars].
  - eapply wf_meq; [intros z; symmetry; apply (set_meq y HNull h (vars s) N)|]. apply wf_scalar; [reflexivity|exact W].
  - apply Forall2_set; [exact F|constructor].
Qed.

Lemma owned_vars s s' x a c : heap s' = heap s -> nth_error (vars s') x = nth_error (vars s) x -> owned s x a c -> owned s' x a c.
Proof. intros E N [O1 O2]. split; congruence. Qed.

Lemma build_s s e v : Inv s e [] -> exists cs h, build (heap s) v = (cs, h) /\ Inv (St cs (vars s)) e [h] /\ shows cs h v /\
  forall x a c, owned s x a c -> owned (St cs (vars s)) x a c.
Proof.
  intros [W F]. destruct (build_ok v (heap s) (vars s) W) as (cs & h & E & W1 & Sh & G). exists cs, h. split; [exact E|]. split.
  - split; [exact W1|]. cbn [heap vars]. exact (elems_sub _ _ _ _ (grows_sub _ _ G) F).
  - split; [exact Sh|]. intros x a c [O1 O2]. split; [exact O1|]. cbn [heap]. destruct G as [_ G].
    rewrite G; [exact O2|exact (cell_at_lt _ _ _ O2)].
Qed.

(** ** Lifting *)
Lemma lift_value b sp y : BufHoldRun.Inv b sp -> (y < length (handles sp))%nat ->
  exists h, nth_error (BufHold.vars b) y = Some h /\
    BufHold.look (BufHold.heap b) (BufHold.raw h) (BufHold.home h)
      (fun a m => from_buffer (S (length m)) a m (BufHold.raw h)) = Ok (seen (SpecBufHold.handle sp y)).
Proof.
  intros I L. destruct (BufHoldRun.var_at _ _ _ _ _ I L) as (h & E & H). exists h. split; [exact E|].
  pose proof (BufHoldRun.at_counts _ _ _ _ I) as C. destruct H as [FH _].
  pose proof (BufHoldRun.look_ok _ _ _ _ _ C FH) as Q. destruct (SpecBufHold.handle sp y) as [[d v]|] eqn:EY.
  - destruct Q as (_ & bl & EB & R & Lk). { intros d' v' q. injection q as <- <-. exact (BufHoldRun.shown_counted _ _ _ _ EY). }
    rewrite Lk. apply from_buffer_spec; [exact R|exact (walk_fuel _ _ _ _ R)].
  - destruct Q as (_ & Lk); [discriminate|]. rewrite Lk. cbn [BufHoldRun.fine] in FH. cbn [length from_buffer]. rewrite FH. reflexivity.
Qed.
