(** Histories of calls on shared storage: every call, every run. *)

From Coq Require Import ZArith List Bool Lia ZifyBool ZifyNat ZifyN.
From Verif Require Import Base BaseFacts Keys Wire Spec SpecOps HeapOps HeapFacts Store StoreSpec StoreFacts StoreSteps.
Import ListNotations.
Open Scope Z_scope.

(** ** clear and resize *)
Lemma L_unshared s e x : Inv s e [] -> (x < length e)%nat -> unshared s x ->
  exists h, get_var s x = Ok h /\ shows (heap s) h (val e x) /\
    (forall a, href h = Some a -> exists c, owned s x a c /\ h = handle c a).
Proof.
  intros I L U. destruct (L_get _ _ _ _ I L) as (h & N & G & Sh). exists h. split; [exact G|]. split; [exact Sh|].
  intros a E. destruct (shows_cell _ _ _ _ Sh E) as (n & c & C & H & CS). exists c. split; [|exact H]. split; [congruence|].
  specialize (U h N). unfold refcount in U. rewrite E, C in U. rewrite C. repeat f_equal.
  destruct I as [[W _] _]. destruct (W _ _ _ C). lia.
Qed.

Lemma S_clear s e x : Inv s e [] -> (x < length e)%nat -> unshared s x ->
  let r := settle e x e (h_clear (val e x)) in
  exists s', s_clear s x = Ok (s', snd r) /\ Inv s' (fst r) [].
Proof.
  intros I L U r. subst r. destruct (L_unshared _ _ _ I L U) as (h & G & Sh & O). unfold s_clear. rewrite G. cbn [bind].
  destruct (L_kind s x h (val e x) Sh O) as [(a & fs & vs & -> & EV & Ow & F & -> & _)|[(a & ms & vs & -> & EV & Ow & F & _ & ->)|(R & _ & _ & NO & NA)]].
  - rewrite EV. cbn [bind h_clear settle fst snd].
    destruct (L_store s e [] [] x a (CObj fs) (CObj []) (map snd fs) (VObj []) I Ow eq_refl) as (s1 & E1 & I1 & _).
    { cbn [kids map]. meq. } { constructor. }
    rewrite E1. cbn [bind]. destruct (L_drop _ _ _ _ I1) as (s2 & E2 & I2 & _). rewrite E2. cbn [bind]. eauto.
  - rewrite EV. cbn [bind h_clear settle fst snd].
    destruct (L_store s e [] [] x a (CArr ms) (CArr []) ms (VArr []) I Ow eq_refl) as (s1 & E1 & I1 & _).
    { cbn [kids map]. meq. } { constructor. }
    rewrite E1. cbn [bind]. destruct (L_drop _ _ _ _ I1) as (s2 & E2 & I2 & _). rewrite E2. cbn [bind]. eauto.
  - assert (CL : h_clear (val e x) = Throw type_error).
    { destruct (val e x); try reflexivity; [destruct (NO fs)|destruct (NA vs)]; reflexivity. }
    rewrite CL. exists s. destruct h; try discriminate; (split; [reflexivity|exact I]).
Qed.

Definition empty_cell (c : cell) : cell := match c with CObj _ => CObj [] | CArr _ => CArr [] end.
Lemma empty_shows cs cs' a n c h v : cell_at cs a = Some (n, c) -> cell_at cs' a = Some (n, empty_cell c) ->
  (forall b, b <> a -> cell_at cs' b = cell_at cs b) -> shows cs h v -> exists w, shows cs' h w.
Proof.
  intros C C' O H. revert h v H. apply (shows_ind' cs (fun h _ => exists w, shows cs' h w)); intros; try (eexists; constructor; fail).
  - destruct (Nat.eq_dec a0 a) as [->|N].
    + rewrite C in H. injection H as -> ->. exists (VObj []). econstructor; [exact C'|constructor].
    + rewrite <- (O _ N) in H. destruct (cell_shows_exists cs' (CObj fs)) as (w & W).
      { cbn [kids]. intros h I. apply in_map_iff in I. destruct I as (p & <- & I).
        destruct (Forall2_in_l _ _ _ _ H0 I) as (q & _ & _ & _ & Q). exact Q. }
      exists w. exact (shows_handle cs' (CObj fs) a0 n0 w H W).
  - destruct (Nat.eq_dec a0 a) as [->|N].
    + rewrite C in H. injection H as -> ->. exists (VArr []). econstructor; [exact C'|constructor].
    + rewrite <- (O _ N) in H. destruct (cell_shows_exists cs' (CArr ms)) as (w & W).
      { cbn [kids]. intros h I. destruct (Forall2_in_l _ _ _ _ H0 I) as (q & _ & _ & Q). exact Q. }
      exists w. exact (shows_handle cs' (CArr ms) a0 n0 w H W).
Qed.

Lemma wf_env cs vs t : wf cs (t ++ vs) -> exists e, Forall2 (shows cs) vs e.
Proof.
  intros [_ W]. assert (H : forall h, In h vs -> exists v, shows cs h v) by (intros h I; apply W; rewrite !in_app_iff; auto).
  clear W. induction vs as [|h vs IH]; [eexists; constructor|].
  destruct (H h (or_introl eq_refl)) as (v & Hv). destruct IH as (e & F); [intros x I; apply H; right; exact I|]. eauto.
Qed.

(** Emptying a container, shared or not. *)
Lemma L_empty s e t a n c : Inv s e t -> cell_at (heap s) a = Some (n, c) ->
  exists s' e', put_s s a (empty_cell c) = Ok s' /\ Inv s' e' (kids c ++ t) /\ length e' = length e.
Proof.
  intros [W F] C. unfold put_s, put. rewrite C. cbn [bind].
  assert (K1 : exists l r, all_kids (heap s) = l ++ kids c ++ r /\ all_kids (list_set a (Some (n, empty_cell c)) (heap s)) = l ++ r).
  { destruct (cell_at_split _ _ _ C) as (l & r & -> & <-). rewrite list_set_mid, !all_kids_mid.
    exists (all_kids l), (all_kids r). destruct c; auto. }
  destruct K1 as (kl & kr & K & K').
  pose proof (cell_set_same (heap s) a _ (Some (n, empty_cell c)) C) as C'.
  assert (W' : wf (list_set a (Some (n, empty_cell c)) (heap s)) ((kids c ++ t) ++ vars s)).
  { destruct W as [W1 W2]. split.
    - intros b m d D. rewrite K', !nref_app.
      assert (m = nref b (t ++ vars s) + nref b (all_kids (heap s)) /\ 0 < m) as [Q1 Q2].
      { destruct (Nat.eq_dec b a) as [->|N].
        - rewrite C' in D. injection D as <- <-. exact (W1 _ _ _ C).
        - rewrite (cell_set_other _ _ _ _ _ C N) in D. exact (W1 _ _ _ D). }
      rewrite K, !nref_app in Q1. lia.
    - intros h I. destruct (W2 h) as (v & Hv). { rewrite K' in I. rewrite K. rewrite !in_app_iff in *. tauto. }
      eapply empty_shows; [exact C|exact C'| |exact Hv]. intros b N. exact (cell_set_other _ _ _ _ _ C N). }
  destruct (wf_env _ _ _ W') as (e' & F'). eexists _, e'. split; [reflexivity|]. split; [split; [exact W'|exact F']|].
  rewrite <- (Forall2_length F'), <- (Forall2_length F). reflexivity.
Qed.

Lemma S_clear_shared s e x : Inv s e [] -> (x < length e)%nat ->
  exists s' e', s_clear s x = Ok (s', snd (settle e x e (h_clear (val e x)))) /\ Inv s' e' [] /\ length e' = length e.
Proof.
  intros I L. destruct (L_get _ _ _ _ I L) as (h & N & G & Sh). unfold s_clear. rewrite G. cbn [bind].
  destruct Sh as [| | | | |a n fs vs C F|a n ms vs C F]; cbn [h_clear settle snd];
    try (exists s, e; split; [reflexivity|]; split; [exact I|reflexivity]).
  - cbn [fields_of]. rewrite C. cbn [bind]. destruct (L_empty _ _ _ _ _ _ I C) as (s1 & e1 & E1 & I1 & L1). cbn [empty_cell] in E1.
    rewrite E1. cbn [bind]. destruct (L_drop _ _ _ _ I1) as (s2 & E2 & I2 & _). cbn [kids] in E2. rewrite E2. cbn [bind]. eauto.
  - cbn [elements_of]. rewrite C. cbn [bind]. destruct (L_empty _ _ _ _ _ _ I C) as (s1 & e1 & E1 & I1 & L1). cbn [empty_cell] in E1.
    rewrite E1. cbn [bind]. destruct (L_drop _ _ _ _ I1) as (s2 & E2 & I2 & _). cbn [kids] in E2. rewrite E2. cbn [bind]. eauto.
Qed.

Lemma nref_repeat a h n : href h <> Some a -> nref a (repeat h n) = 0.
Proof.
  intros N. induction n; cbn [repeat nref]; [reflexivity|]. destruct (href h) as [b|]; [|lia].
  destruct (Nat.eqb_spec a b); [congruence|lia].
Qed.

Lemma S_resize s e x n v : Inv s e [] -> (x < length e)%nat -> src_in (length e) v -> ~ names v x -> unshared s x ->
  let r := settle e x e (h_resize (val e x) n (src_value e v)) in
  exists s', s_resize s x n v = Ok (s', snd r) /\ Inv s' (fst r) [].
Proof.
  intros I L Si NM U r. subst r. destruct (L_unshared _ _ _ I L U) as (h & G & Sh & O). unfold s_resize. rewrite G. cbn [bind].
  destruct (L_kind s x h (val e x) Sh O) as [(a & fs & vs & -> & EV & Ow & F & _ & ->)|[(a & ms & vs & -> & EV & Ow & F & _ & ->)|(_ & _ & -> & _ & NO)]]; cbn [bind].
  - rewrite EV. exists s. split; [reflexivity|exact I].
  - rewrite EV. cbn [h_resize h_elements settle fst snd].
    set (v' := match v with Lref y | Rref y => Cref y | _ => v end).
    assert (Si' : src_in (length e) v') by (destruct v; exact Si).
    assert (NM' : ~ names v' x) by (destruct v; exact NM).
    assert (SV : src_value e v' = src_value e v) by (destruct v; reflexivity).
    destruct (L_copy _ _ _ _ I Si') as (cs & hv & E & I1 & Shv & Su & Ow1). destruct (Ow1 _ _ _ Ow NM') as [Ow2 HN].
    rewrite SV in Shv. clear Ow1. rewrite E. cbn [bind heap vars].
    set (k := (Z.to_nat n - length ms)%nat). destruct I1 as [W1 F1]. cbn [heap vars] in *.
    destruct (inc_all_ok (repeat hv k) cs (hv :: vars s)) as (cs2 & E2 & W2 & S2 & S2' & K2).
    { exact W1. } { intros y Iy. apply repeat_spec in Iy. subst y. left. reflexivity. }
    rewrite E2. cbn [bind].
    assert (I2 : Inv (St cs2 (vars s)) e (repeat hv k ++ [hv])).
    { split; cbn [heap vars]; [rewrite <- app_assoc; exact W2|]. eapply elems_sub; eassumption. }
    destruct (owned_nref (St cs (vars s)) [hv] _ _ _ W1 Ow2) as (Z1 & Z2 & Z3).
    assert (Ow3 : owned (St cs2 (vars s)) x a (CArr ms)).
    { destruct Ow2 as [O1 O2]. destruct (S2 _ _ _ O2) as (m & D). destruct I2 as [W3 _].
      apply (owned_intro (St cs2 (vars s)) (repeat hv k ++ [hv]) x a (CArr ms) m W3 O1 D).
      - rewrite nref_app, nref_repeat by exact HN. lia.
      - cbn [heap]. rewrite K2. exact Z2.
      - exact Z3. }
    assert (Su2 : sub (heap s) cs2) by (eapply sub_trans; eassumption).
    destruct (L_store (St cs2 (vars s)) e (repeat hv k) [hv] x a (CArr ms) (CArr (firstn (Z.to_nat n) ms ++ repeat hv k)) (skipn (Z.to_nat n) ms)
      (VArr (firstn (Z.to_nat n) vs ++ repeat (src_value e v) (Z.to_nat n - length vs))) I2 Ow3 eq_refl) as (s3 & E3 & I3 & _).
    { cbn [kids]. rewrite <- (firstn_skipn (Z.to_nat n) ms) at 3. meq. }
    { cbn [cell_shows heap]. apply Forall2_app; [apply Forall2_firstn; exact (elems_sub _ _ _ _ Su2 F)|].
      unfold k. rewrite (Forall2_length F). apply Forall2_repeat. exact (shows_sub _ _ _ _ S2 Shv). }
    rewrite E3. cbn [bind].
    destruct (L_drop s3 (list_set x (VArr (firstn (Z.to_nat n) vs ++ repeat (src_value e v) (Z.to_nat n - length vs))) e) (hv :: skipn (Z.to_nat n) ms) []) as (s4 & E4 & I4 & _).
    { eapply Inv_meq; [|exact I3]. cbn [app]. rewrite app_nil_r. meq. }
    rewrite E4. cbn [bind]. eauto.
  - exists s. destruct (val e x); try (split; [reflexivity|exact I]). destruct (NO vs eq_refl).
Qed.

(** ** Handles *)
Lemma S_make s e x f : Inv s e [] -> call_ok (length e) (O_make x f) ->
  exists s', s_make s x f = Ok (s', A_unit) /\ Inv s' (fst (v_exec e (O_make x f))) [].
Proof.
  intros I [L Sc].
  assert (NEW : forall c v, kids c = [] -> (forall cs, cell_shows cs c v) ->
    exists s', overwrite (St (heap s ++ [Some (1, c)]) (vars s)) x (handle c (length (heap s))) = Ok s' /\ Inv s' (list_set x v e) []).
  { intros c v K CS. destruct I as [W F]. apply L_overwrite; [| |exact L].
    - split; cbn [heap vars]; [|exact (elems_sub _ _ _ _ (alloc_sub _ _) F)]. apply alloc_ok. rewrite K. exact W.
    - cbn [heap]. eapply shows_handle; [apply cell_at_last|apply CS]. }
  destruct f as [| |v]; cbn [s_make alloc v_exec fst].
  - destruct (NEW (CObj []) (VObj []) eq_refl) as (s' & E & I'); [constructor|]. cbn [handle] in E. rewrite E. cbn [bind]. eauto.
  - destruct (NEW (CArr []) (VArr []) eq_refl) as (s' & E & I'); [constructor|]. cbn [handle] in E. rewrite E. cbn [bind]. eauto.
  - destruct (lit_h v) as [h|] eqn:E; [|contradiction]. destruct (L_overwrite s e x h v [] ) as (s' & E' & I').
    + destruct I as [W F]. split; [|exact F]. cbn [app] in *. apply wf_scalar; [|exact W].
      destruct v; try discriminate; injection E as <-; reflexivity.
    + destruct v; try discriminate; injection E as <-; constructor.
    + exact L.
    + rewrite E'. cbn [bind]. eauto.
Qed.

Lemma S_copy s e x y : Inv s e [] -> (x < length e)%nat -> (y < length e)%nat ->
  exists s', s_copy s x y = Ok (s', A_unit) /\ Inv s' (list_set x (val e y) e) [].
Proof.
  intros I Lx Ly. destruct (L_copy s e [] (Cref y) I Ly) as (cs & hv & E & I1 & Shv & _). unfold s_copy. rewrite E. cbn [bind].
  destruct (L_overwrite _ _ x hv (val e y) [] I1 Shv Lx) as (s' & E' & I'). rewrite E'. cbn [bind]. eauto.
Qed.

Lemma S_move s e x y : Inv s e [] -> (x < length e)%nat -> (y < length e)%nat -> x <> y ->
  exists s', s_move s x y = Ok (s', A_unit) /\ Inv s' (list_set x (val e y) (list_set y VNull e)) [].
Proof.
  intros I Lx Ly N. unfold s_move. replace (Nat.eqb x y) with false by (symmetry; apply Nat.eqb_neq; exact N).
  destruct (L_get _ _ _ _ I Ly) as (h & Nh & G & Sh). cbn [take_move]. rewrite G. cbn [bind].
  destruct I as [W F]. cbn [app] in W.
  destruct (L_overwrite (set_var s y HNull) (list_set y VNull e) x h (val e y) []) as (s' & E & I').
  - split; unfold set_var; cbn [heap vars app].
    + eapply wf_meq. { intros z. symmetry. apply (set_meq y HNull h (vars s) Nh). } apply wf_scalar; [reflexivity|exact W].
    + apply Forall2_set; [exact F|constructor].
  - exact Sh.
  - rewrite list_set_length. exact Lx.
  - rewrite E. cbn [bind]. eauto.
Qed.

Lemma S_destroy s e x : Inv s e [] -> (x < length e)%nat ->
  exists s', s_destroy s x = Ok (s', A_unit) /\ Inv s' (list_set x VNull e) [].
Proof.
  intros I L. unfold s_destroy. destruct (L_overwrite s e x HNull VNull []) as (s' & E & I').
  - destruct I as [W F]. split; [|exact F]. apply wf_scalar; [reflexivity|exact W].
  - constructor.
  - exact L.
  - rewrite E. cbn [bind]. eauto.
Qed.

Lemma L_read s h V r : shows (heap s) h V -> match r with R_get_idx i | R_at_idx i => 0 <= i | _ => True end ->
  match v_read V r with
  | Ok w => exists m, read_member s h r = Ok (inr m) /\ shows (heap s) m w /\ (href m = None \/ In m (all_kids (heap s)))
  | Throw er => read_member s h r = Ok (inl er)
  | _ => False
  end.
Proof.
  intros Sh P.
  assert (KEY : forall a n fs vs k, cell_at (heap s) a = Some (n, CObj fs) -> Forall2 (pair_shows (heap s)) fs vs ->
    match map_find k vs with
    | Some i => exists w m, map_find k fs = Some i /\ nth_error vs i = Some w /\ nth_error fs i = Some m /\ shows (heap s) (snd m) (snd w) /\ In (snd m) (all_kids (heap s))
    | None => map_find k fs = None
    end).
  { intros a n fs vs k C F. rewrite (same_find k fs vs (pair_keys _ _ _ F)). destruct (map_find k vs) as [i|] eqn:E; [|reflexivity].
    destruct (map_find_lt _ _ _ E) as (w & Nw). pose proof (Forall2_nth _ _ _ i F) as Q. rewrite Nw in Q.
    destruct (nth_error fs i) as [m|] eqn:Nm; [|contradiction]. exists w, m. destruct Q as [Q1 Q2]. repeat split; auto.
    eapply kids_in; [exact C|]. cbn [kids]. apply in_map. eapply nth_error_In; exact Nm. }
  assert (IDX : forall a n ms vs i, cell_at (heap s) a = Some (n, CArr ms) -> Forall2 (shows (heap s)) ms vs -> (i < length vs)%nat ->
    exists w m, nth_error vs i = Some w /\ nth_error ms i = Some m /\ shows (heap s) m w /\ In m (all_kids (heap s))).
  { intros a n ms vs i C F L. pose proof (Forall2_nth _ _ _ i F) as Q.
    destruct (nth_error vs i) as [w|] eqn:Nw; [|apply nth_error_None in Nw; lia].
    destruct (nth_error ms i) as [m|] eqn:Nm; [|contradiction]. exists w, m. repeat split; auto.
    eapply kids_in; [exact C|]. eapply nth_error_In; exact Nm. }
  destruct Sh as [| | | | |a n fs vs C F|a n ms vs C F];
    try (destruct r; cbn; try reflexivity; match goal with |- context [if ?b then _ else _] => destruct b end; reflexivity).
  - destruct r as [k|k|i|i| |]; cbn [v_read read_member h_get h_at h_fields fields_of elements_of h_get_idx h_elements h_at_idx h_front h_back h_size bind];
      try reflexivity; try rewrite C; cbn [bind]; try reflexivity.
    + specialize (KEY a n fs vs k C F). destruct (map_find k vs).
      * destruct KEY as (w & m & -> & -> & -> & Sw & Im). destruct w, m. eauto.
      * rewrite KEY. exists HNull. repeat split; [constructor|auto].
    + specialize (KEY a n fs vs k C F). destruct (map_find k vs).
      * destruct KEY as (w & m & -> & -> & -> & Sw & Im). destruct w, m. eauto.
      * rewrite KEY. reflexivity.
    + rewrite (Forall2_zlen _ _ _ F). destruct (i <? zlen vs); reflexivity.
  - destruct r as [k|k|i|i| |]; cbn [v_read read_member h_get h_at h_fields fields_of elements_of h_get_idx h_elements h_at_idx h_front h_back h_size bind];
      try reflexivity; try rewrite C; cbn [bind]; try reflexivity.
    + rewrite (Forall2_zlen _ _ _ F). destruct (i <? zlen vs) eqn:Li.
      * destruct (IDX a n ms vs (Z.to_nat i) C F) as (w & m & -> & -> & Sw & Im); [unfold zlen in Li; lia|]. eauto.
      * exists HNull. repeat split; [constructor|auto].
    + rewrite (Forall2_zlen _ _ _ F). destruct (i <? zlen vs) eqn:Li; [|reflexivity].
      destruct (IDX a n ms vs (Z.to_nat i) C F) as (w & m & -> & -> & Sw & Im); [unfold zlen in Li; lia|]. eauto.
    + destruct F as [|m w ms vs Sw F]; [exists HNull; repeat split; [constructor|auto]|].
      exists m. repeat split; [exact Sw|]. right. eapply kids_in; [exact C|left; reflexivity].
    + pose proof (Forall2_length F) as LE. destruct vs as [|w0 vs].
      * inversion F; subst. exists HNull. repeat split; [constructor|auto].
      * destruct (IDX a n ms (w0 :: vs) (length (w0 :: vs) - 1)%nat C F) as (w & m & Nw & Nm & Sw & Im); [cbn; lia|].
        rewrite Nw. destruct ms as [|m0 ms]; [inversion F|]. rewrite LE, Nm. eauto.
Qed.

Lemma S_read s e x y r : Inv s e [] -> call_ok (length e) (O_read x y r) ->
  exists s', s_read s x y r = Ok (s', snd (v_exec e (O_read x y r))) /\ Inv s' (fst (v_exec e (O_read x y r))) [].
Proof.
  intros I (Lx & Ly & P). destruct (L_get _ _ _ _ I Ly) as (h & N & G & Sh). unfold s_read. rewrite G. cbn [bind v_exec].
  pose proof (L_read s h (val e y) r Sh P) as Q. destruct (v_read (val e y) r) as [w|er| | |]; try contradiction; cbn [settle fst snd].
  - destruct Q as (m & -> & Sm & Im). cbn [bind]. destruct I as [W F]. cbn [app] in W.
    assert (exists cs, inc (heap s) m = Ok cs /\ wf cs (m :: vars s) /\ sub (heap s) cs) as (cs & E & W1 & Su).
    { destruct Im as [R|Im].
      - unfold inc. rewrite R. exists (heap s). split; [reflexivity|]. split; [apply wf_scalar; assumption|apply sub_refl].
      - destruct (inc_ok _ _ m W) as (cs & E & W1 & Su & _); [apply in_or_app; auto|]. eauto. }
    rewrite E. cbn [bind]. destruct (L_overwrite (St cs (vars s)) e x m w []) as (s' & E' & I').
    + split; [exact W1|]. exact (elems_sub _ _ _ _ Su F).
    + eapply shows_sub; eassumption.
    + exact Lx.
    + rewrite E'. cbn [bind]. eauto.
  - rewrite Q. cbn [bind]. eauto.
Qed.

(** ** One call, any run *)
Lemma w_insert_len e x k v : length (fst (w_insert e x k v)) = length e.
Proof.
  unfold w_insert, settle. destruct (result _); cbn [fst]; try reflexivity. rewrite list_set_length.
  destruct (overwrites _ _); [|reflexivity]. destruct (val e x), v; cbn; rewrite ?list_set_length; reflexivity.
Qed.
Lemma w_insert_ans e x k v : snd (w_insert e x k v) = snd (v_insert e x k v).
Proof. unfold w_insert, v_insert, settle. destruct (result _); reflexivity. Qed.
Lemma w_insert_env e x k v :
  match v with Lref _ => match val e x with VObj _ => overwrites (val e x) k = false | _ => True end | _ => True end ->
  w_insert e x k v = v_insert e x k v.
Proof.
  intros H. unfold w_insert, v_insert. destruct (val e x) eqn:E, v; cbn [taken emptied]; try reflexivity.
  rewrite H. reflexivity.
Qed.
Lemma settle_len e x e' r : length e' = length e -> length (fst (settle e x e' r)) = length e.
Proof. intros H. destruct r; cbn; rewrite ?list_set_length; auto. Qed.

Lemma v_exec_len e o : length (fst (v_exec e o)) = length e.
Proof.
  assert (EM : forall v, length (emptied e v) = length e) by (intros [ | | |]; cbn; rewrite ?list_set_length; reflexivity).
  assert (VI : forall x k v, length (fst (v_insert e x k v)) = length e).
  { intros x k v. apply settle_len. destruct (overwrites _ _); auto. }
  destruct o as [x f|x y|x y|x|x y r|x k v|x k v|x k|x v|x v|x|x|x|x n v]; cbn [v_exec]; auto; try (apply settle_len; auto).
  - destruct f; apply list_set_length.
  - apply list_set_length.
  - destruct (Nat.eqb x y); cbn [fst]; rewrite ?list_set_length; reflexivity.
  - apply list_set_length.
  - destruct (h_size (val e x)); auto.
Qed.

Lemma step s e o : Inv s e [] -> call_ok (length e) o -> storable s o ->
  exists s' e', s_exec s o = Ok (s', snd (v_exec e o)) /\ Inv s' e' [] /\ length e' = length e /\
    (allowed s e o -> e' = fst (v_exec e o)).
Proof.
  intros I CO St.
  assert (D : (exists s', s_exec s o = Ok (s', snd (v_exec e o)) /\ Inv s' (fst (v_exec e o)) []) ->
    exists s' e', s_exec s o = Ok (s', snd (v_exec e o)) /\ Inv s' e' [] /\ length e' = length e /\ (allowed s e o -> e' = fst (v_exec e o))).
  { intros (s' & E & I'). exists s', (fst (v_exec e o)). split; [exact E|]. split; [exact I'|]. split; [apply v_exec_len|auto]. }
  assert (INS : forall x k v, (x < length e)%nat -> src_in (length e) v -> ~ names v x ->
    s_exec s o = s_insert s x k v -> v_exec e o = v_insert e x k v ->
    (allowed s e o -> match v with Lref _ => match val e x with VObj _ => overwrites (val e x) k = false | _ => True end | _ => True end) ->
    exists s' e', s_exec s o = Ok (s', snd (v_exec e o)) /\ Inv s' e' [] /\ length e' = length e /\ (allowed s e o -> e' = fst (v_exec e o))).
  { intros x k v Lx Si NM -> -> AL. destruct (S_insert s e x k v I Lx Si NM) as (s' & E & I').
    exists s', (fst (w_insert e x k v)). rewrite E, w_insert_ans. split; [reflexivity|]. split; [exact I'|]. split; [apply w_insert_len|].
    intros A. rewrite (w_insert_env _ _ _ _ (AL A)). reflexivity. }
  destruct o as [x f|x y|x y|x|x y r|x k v|x k v|x k|x v|x v|x|x|x|x n v]; cbn [call_ok storable] in CO, St.
  - apply D. destruct (S_make s e x f I CO) as (s' & E & I'). exists s'. split; [|exact I']. destruct f; exact E.
  - apply D. apply S_copy; tauto.
  - apply D. cbn [s_exec v_exec]. destruct (Nat.eqb_spec x y) as [->|N].
    + exists s. unfold s_move. rewrite Nat.eqb_refl. auto.
    + apply S_move; tauto.
  - apply D. apply S_destroy; tauto.
  - apply D. apply S_read; assumption.
  - apply (INS x k v); try tauto; try reflexivity. intros [_ A]. destruct v; auto.
  - apply D. apply S_set; tauto.
  - apply D. cbn [s_exec v_exec]. unfold s_erase, h_erase. destruct k; try (exists s; split; [reflexivity|exact I]).
    + apply S_erase_key; assumption.
    + apply S_erase_idx; [assumption|assumption|apply mod_nonneg].
  - apply (INS x (VInt 0) v); try tauto; try reflexivity. intros _. destruct v; auto. destruct (val e x); auto.
  - destruct (h_size (val e x)) as [n|er| | |] eqn:HS.
    1: { apply (INS x (VInt n) v); try tauto.
         - cbn [s_exec]. unfold s_push_back. rewrite (S_size _ _ _ _ I) by tauto. rewrite HS. reflexivity.
         - cbn [v_exec]. rewrite HS. reflexivity.
         - intros _. destruct v; auto. destruct (val e x); auto. }
    all: apply D; exists s; cbn [s_exec v_exec]; unfold s_push_back; rewrite (S_size _ _ _ _ I) by tauto; rewrite HS; split; [reflexivity|exact I].
  - apply D. cbn [s_exec v_exec]. apply S_erase_idx; [assumption|assumption|lia].
  - apply D. cbn [s_exec v_exec]. unfold s_pop_back, h_pop_back. rewrite (S_size _ _ _ _ I) by assumption.
    destruct (h_size (val e x)) as [n|er| | |] eqn:HS; cbn [bind].
    + apply S_erase_idx; [assumption|assumption|apply mod_nonneg].
    + exists s. split; [|exact I]. destruct (val e x); try discriminate HS; injection HS as <-; reflexivity.
    + destruct (val e x); discriminate HS.
    + destruct (val e x); discriminate HS.
    + destruct (val e x); discriminate HS.
  - cbn [s_exec v_exec]. destruct (S_clear_shared s e x I CO) as (s' & e' & E & I' & L').
    exists s', e'. split; [exact E|]. split; [exact I'|]. split; [exact L'|]. intros [_ U].
    destruct (S_clear s e x I CO U) as (s'' & E'' & I''). rewrite E in E''. injection E'' as <-.
    destruct I' as [_ F]. destruct I'' as [_ F''].
    clear - F F''. revert F''. generalize (fst (settle e x e (h_clear (val e x)))). induction F as [|h v hs e' S F IH]; intros e'' F''.
    + inversion F''. reflexivity.
    + inversion F'' as [|? v'' ? e3 S'' F3]; subst. f_equal; [eapply shows_det; eassumption|auto].
  - apply D. apply S_resize; tauto.
Qed.

Lemma Inv_init n : Inv (init n) (repeat VNull n) [].
Proof.
  split; cbn [init heap vars].
  - split.
    + intros a m c E. unfold cell_at in E. destruct a; discriminate E.
    + intros h I. cbn [app all_kids flat_map] in I. rewrite app_nil_r in I. apply repeat_spec in I. subst h. eexists; constructor.
  - apply Forall2_repeat. constructor.
Qed.

Lemma run_allowed os : forall s e, Inv s e [] -> Forall (call_ok (length e)) os -> all_allowed s e os ->
  exists s', s_run s os = Ok (s', snd (v_run e os)) /\ Inv s' (fst (v_run e os)) [] /\ length (fst (v_run e os)) = length e.
Proof.
  induction os as [|o os IH]; intros s e I CO A; cbn [s_run v_run].
  - exists s. auto.
  - inversion CO as [|? ? C1 C2]; subst. cbn [all_allowed] in A. destruct A as [A1 A2].
    destruct (step s e o I C1 (proj1 A1)) as (s1 & e1 & E & I1 & L1 & V). specialize (V A1). subst e1.
    rewrite E in *. cbn [bind]. destruct (IH s1 (fst (v_exec e o)) I1) as (s2 & E2 & I2 & L2).
    { rewrite L1. exact C2. } { exact A2. }
    rewrite E2. cbn [bind]. destruct (v_exec e o) as [e1 a]. cbn [fst snd] in *. destruct (v_run e1 os) as [e2 l]. cbn [fst snd] in *.
    exists s2. split; [reflexivity|]. split; [exact I2|congruence].
Qed.

Lemma run_storable os : forall s e, Inv s e [] -> Forall (call_ok (length e)) os -> all_storable s os ->
  exists s' e' l, s_run s os = Ok (s', l) /\ Inv s' e' [] /\ length e' = length e.
Proof.
  induction os as [|o os IH]; intros s e I CO A; cbn [s_run].
  - exists s, e, []. auto.
  - inversion CO as [|? ? C1 C2]; subst. cbn [all_storable] in A. destruct A as [A1 A2].
    destruct (step s e o I C1 A1) as (s1 & e1 & E & I1 & L1 & _). rewrite E in *. cbn [bind].
    destruct (IH s1 e1 I1) as (s2 & e2 & l & E2 & I2 & L2). { rewrite L1. exact C2. } { exact A2. }
    rewrite E2. cbn [bind]. eexists s2, e2, _. split; [reflexivity|]. split; [exact I2|]. congruence.
Qed.

(** ** Nothing is left once no variable refers to storage *)
Fixpoint weight (v : value) : nat :=
  match v with
  | VObj fs => S ((fix go l := match l with [] => O | kv :: r => (weight (snd kv) + go r)%nat end) fs)
  | VArr vs => S ((fix go l := match l with [] => O | x :: r => (weight x + go r)%nat end) vs)
  | _ => O
  end.

Lemma kid_weight cs c v h w : cell_shows cs c v -> In h (kids c) -> shows cs h w -> (weight w < weight v)%nat.
Proof.
  destruct c as [fs|ms], v as [vs|vs| | | | |]; cbn [cell_shows kids]; try tauto; intros F I Sh; cbn [weight].
  - apply Nat.lt_succ_r. induction F as [|p q fs vs [_ S] F IH]; cbn in I; [contradiction|]. destruct I as [<-|I].
    + rewrite (shows_det _ _ _ Sh _ S). lia.
    + specialize (IH I). lia.
  - apply Nat.lt_succ_r. induction F as [|p q fs vs S F IH]; cbn in I; [contradiction|]. destruct I as [<-|I].
    + rewrite (shows_det _ _ _ Sh _ S). lia.
    + specialize (IH I). lia.
Qed.

Lemma nothing_left cs roots : wf cs roots -> (forall h, In h roots -> href h = None) -> forall a, cell_at cs a = None.
Proof.
  intros [W1 W2] NR.
  assert (LIVE : forall a n c, cell_at cs a = Some (n, c) -> exists v, shows cs (handle c a) v).
  { intros a n c C. destruct (W1 _ _ _ C) as [Q P].
    assert (NZ : nref a roots = 0).
    { pose proof (nref_nonneg a roots). destruct (Z.eq_dec (nref a roots) 0); [assumption|].
      destruct (nref_pos a roots) as (h & I & E); [lia|]. rewrite (NR h I) in E. discriminate. }
    destruct (nref_pos a (all_kids cs)) as (h & I & E); [lia|].
    destruct (W2 h) as (v & Sh); [apply in_or_app; auto|]. destruct (shows_cell _ _ _ _ Sh E) as (m & d & D & -> & _).
    rewrite C in D. injection D as <- <-. eauto. }
  assert (UP : forall a n c v, cell_at cs a = Some (n, c) -> shows cs (handle c a) v ->
    exists b m d w, cell_at cs b = Some (m, d) /\ shows cs (handle d b) w /\ (weight v < weight w)%nat).
  { intros a n c v C Sh. destruct (W1 _ _ _ C) as [Q P].
    assert (NZ : nref a roots = 0).
    { pose proof (nref_nonneg a roots). destruct (Z.eq_dec (nref a roots) 0); [assumption|].
      destruct (nref_pos a roots) as (h & I & E); [lia|]. rewrite (NR h I) in E. discriminate. }
    destruct (nref_pos a (all_kids cs)) as (h & I & E); [lia|].
    destruct (all_kids_in _ _ I) as (b & m & d & D & K). destruct (LIVE _ _ _ D) as (w & Sw).
    destruct (shows_cell _ _ _ _ Sw (handle_ref d b)) as (m' & d' & D' & _ & CS). rewrite D in D'. injection D' as <- <-.
    destruct (W2 h) as (u & Su); [apply in_or_app; auto|].
    destruct (shows_cell _ _ _ _ Su E) as (m2 & d2 & D2 & -> & _). rewrite C in D2. injection D2 as <- <-.
    rewrite (shows_det _ _ _ Sh _ Su). exists b, m, d, w. repeat split; auto. eapply kid_weight; eassumption. }
  assert (BOUND : forall k, exists M, forall a n c v, (a < k)%nat -> cell_at cs a = Some (n, c) -> shows cs (handle c a) v -> (weight v <= M)%nat).
  { induction k as [|k [M HM]]; [exists O; intros; lia|]. destruct (cell_at cs k) as [[n c]|] eqn:C.
    - destruct (LIVE _ _ _ C) as (v & Sv). exists (Nat.max M (weight v)). intros a n' c' v' L C' Sh.
      destruct (Nat.eq_dec a k) as [->|N].
      + rewrite C in C'. injection C' as <- <-. rewrite (shows_det _ _ _ Sh _ Sv). lia.
      + specialize (HM a n' c' v' ltac:(lia) C' Sh). lia.
    - exists M. intros a n' c' v' L C' Sh. destruct (Nat.eq_dec a k) as [->|N]; [congruence|]. exact (HM a n' c' v' ltac:(lia) C' Sh). }
  destruct (BOUND (length cs)) as (M & HM).
  assert (CLIMB : forall k a n c v, cell_at cs a = Some (n, c) -> shows cs (handle c a) v -> (M < weight v + k)%nat -> False).
  { induction k as [|k IH]; intros a n c v C Sh L.
    - specialize (HM a n c v (cell_at_lt _ _ _ C) C Sh). lia.
    - destruct (UP a n c v C Sh) as (b & m & d & w & D & Sw & Lw). apply (IH b m d w D Sw). lia. }
  intros a. destruct (cell_at cs a) as [[n c]|] eqn:C; [|reflexivity]. destruct (LIVE _ _ _ C) as (v & Sv).
  exfalso. apply (CLIMB (S M) a n c v C Sv). lia.
Qed.

(** ** A call that throws changes nothing anyone sees *)
Ltac bind_inv H := let x := fresh "r" in let E := fresh "E" in
  apply bind_Ok in H; destruct H as (x & E & H).

Ltac err_inv := repeat match goal with
  | H : Ok _ = Ok _ |- _ => apply Ok_inj in H
  | H : (_, _) = (_, A_err _) |- _ => injection H as; subst; try discriminate
  | H : bind _ _ = Ok _ |- _ => bind_inv H
  | p : _ * _ |- _ => destruct p
  | H : (if ?b then _ else _) = Ok _ |- _ => destruct b
  | H : (let '(_, _) := ?r in _) = Ok _ |- _ => destruct r
  | H : match ?r with _ => _ end = Ok _ |- _ => destruct r; try discriminate
  end.

Lemma insert_err s x k v s' er : s_insert s x k v = Ok (s', A_err er) -> exists h, unshare s x = Ok (s', h).
Proof. unfold s_insert, insert_in. intros H. err_inv; eauto. Qed.
Lemma set_err s x k v s' er : s_set s x k v = Ok (s', A_err er) -> exists h, unshare s x = Ok (s', h).
Proof. unfold s_set, set_in. intros H. err_inv; eauto. Qed.
Lemma erase_key_err s x k s' er : s_erase_key s x k = Ok (s', A_err er) -> exists h, unshare s x = Ok (s', h).
Proof. unfold s_erase_key. intros H. err_inv; eauto. Qed.
Lemma erase_idx_err s x k s' er : s_erase_idx s x k = Ok (s', A_err er) -> exists h, unshare s x = Ok (s', h).
Proof. unfold s_erase_idx. intros H. err_inv; eauto. Qed.

Lemma exec_err s o s' er : s_exec s o = Ok (s', A_err er) ->
  s' = s \/ exists x h, unshare s x = Ok (s', h) /\
    match o with
    | O_insert y _ _ | O_set y _ _ | O_erase y _ | O_push_front y _ | O_push_back y _
    | O_pop_front y | O_pop_back y => y = x
    | _ => False
    end.
Proof.
  destruct o; cbn [s_exec]; intros H.
  - unfold s_make in H. err_inv; eauto.
  - unfold s_copy in H. err_inv; eauto.
  - unfold s_move in H. err_inv; eauto.
  - unfold s_destroy in H. err_inv; eauto.
  - unfold s_read in H. err_inv; eauto.
  - apply insert_err in H. destruct H. right. eauto.
  - apply set_err in H. destruct H. right. eauto.
  - unfold s_erase in H. destruct k; try (apply Ok_inj in H; injection H as -> _; auto).
    + apply erase_key_err in H. destruct H. right. eauto.
    + apply erase_idx_err in H. destruct H. right. eauto.
  - apply insert_err in H. destruct H. right. eauto.
  - unfold s_push_back in H. bind_inv H. destruct r; [|apply Ok_inj in H; injection H as -> _; auto].
    apply insert_err in H. destruct H. right. eauto.
  - apply erase_idx_err in H. destruct H. right. eauto.
  - unfold s_pop_back in H. bind_inv H. destruct r; [|apply Ok_inj in H; injection H as -> _; auto].
    apply erase_idx_err in H. destruct H. right. eauto.
  - unfold s_clear in H. err_inv; eauto.
  - unfold s_resize in H. err_inv; eauto.
Qed.

Lemma err_keeps s e o s' er : Inv s e [] -> call_ok (length e) o -> s_exec s o = Ok (s', A_err er) -> Inv s' e [].
Proof.
  intros I CO E. destruct (exec_err _ _ _ _ E) as [->|(x & h & U & X)]; [exact I|].
  assert (L : (x < length e)%nat) by (destruct o; cbn [call_ok] in CO; subst; tauto).
  destruct (L_unshare _ _ _ I L) as (s1 & h1 & U1 & I1 & _). rewrite U in U1. apply Ok_inj in U1. injection U1 as <- <-. exact I1.
Qed.
