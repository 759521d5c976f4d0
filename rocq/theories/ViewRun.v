(** Facts behind C52: the views of the model show what the specification says. *)

From Coq Require Import ZArith List Bool Lia Sorted ZifyBool ZifyNat ZifyN.
From Verif Require Import Base BaseFacts Keys Wire Spec SpecOps HeapOps HeapFacts
  Store StoreSpec StoreFacts StoreSteps StoreRun Views Cursor SpecCursor SpecView CursorFacts CursorRun ViewFrame.
Import ListNotations.
Open Scope Z_scope.

Definition spot_cell (p : spot) : option nat :=
  match p with At_var _ => None | At_field a _ | At_elem a _ => Some a end.

Definition view_ok (s : state) (e : env) (u : sview) (w : wview) : Prop :=
  match u with
  | S_val v => exists h, w = V_val h /\ href h = None /\ shows (heap s) h v
  | S_root x obj => w = V_at (At_var x) obj /\ (x < length e)%nat /\ kind_is obj (val e x) = true
  | S_in x v =>
      (x < length e)%nat /\ tidy v /\
      exists p obj h hx a, w = V_at p obj /\ spot_handle s p = Some h /\ holds obj h = true /\ shows (heap s) h v /\
        nth_error (vars s) x = Some hx /\ spot_cell p = Some a /\ reach (heap s) hx a
  | S_stale => True
  end.

Definition VInv (t : vstate) (st : vspec) : Prop :=
  Inv (base t) (fst st) [] /\ Forall tidy (fst st) /\ Forall2 (view_ok (base t) (fst st)) (snd st) (views t).

Lemma shows_kind cs h v obj : shows cs h v -> holds obj h = kind_is obj v.
Proof. intros Sh. destruct Sh; reflexivity. Qed.
Lemma holds_obj obj h : holds obj h = true -> exists a, h = if obj then HObj a else HArr a.
Proof. destruct h, obj; try discriminate; intros _; eauto. Qed.

Definition owner_of (u : sview) : option nat := match u with S_root x _ | S_in x _ => Some x | _ => None end.

Lemma spot_in s p h a : spot_handle s p = Some h -> spot_cell p = Some a ->
  exists n c, cell_at (heap s) a = Some (n, c) /\ In h (kids c).
Proof.
  destruct p as [x|b k|b i]; cbn [spot_handle spot_cell]; [discriminate| |]; intros H E; injection E as <-.
  - destruct (cell_at (heap s) b) as [[n [fs|vs]]|]; try discriminate. destruct (map_find k fs) as [j|]; [|discriminate].
    destruct (nth_error fs j) as [[k' m]|] eqn:N; [|discriminate]. injection H as <-. eexists _, _. split; [reflexivity|]. cbn [kids].
    change m with (snd (k', m)). apply in_map. exact (nth_error_In _ _ N).
  - destruct (cell_at (heap s) b) as [[n [fs|vs]]|]; try discriminate. eexists _, _. split; [reflexivity|]. exact (nth_error_In _ _ H).
Qed.

Lemma worth_ok s e u w v : Inv s e [] -> Forall tidy e -> view_ok s e u w -> worth e u = Some v ->
  exists h, through s w = Ok h /\ shows (heap s) h v /\ tidy v /\ (href h = None \/ In h (vars s ++ all_kids (heap s))) /\
    (forall a, href h = Some a -> exists x hx, owner_of u = Some x /\ (x < length e)%nat /\ nth_error (vars s) x = Some hx /\ reach (heap s) hx a).
Proof.
  intros I T V E. destruct u as [v0|x obj|x v0|]; cbn [worth view_ok owner_of] in *; try discriminate; injection E as <-.
  - destruct V as (h & -> & R & Sh). exists h. split; [reflexivity|]. split; [exact Sh|]. split.
    { destruct Sh; try discriminate; constructor; exact Logic.I. }
    split; [auto|]. intros a Q. congruence.
  - destruct V as (-> & L & K). destruct (L_get _ _ _ _ I L) as (h & N & _ & Sh). exists h. cbn [through spot_handle]. rewrite N, (shows_kind _ _ _ obj Sh), K.
    split; [reflexivity|]. split; [exact Sh|]. split; [apply val_tidy; exact T|]. split; [right; apply in_or_app; left; exact (nth_error_In _ _ N)|].
    intros a Q. exists x, h. repeat split; auto. apply reach_top. exact Q.
  - destruct V as (L & Tv & p & obj & h & hx & a & -> & P & K & Sh & N & C & R). exists h. cbn [through]. rewrite P, K.
    destruct (spot_in _ _ _ _ P C) as (n & c & D & J).
    split; [reflexivity|]. split; [exact Sh|]. split; [exact Tv|]. split; [right; apply in_or_app; right; exact (kids_in _ _ _ _ _ D J)|].
    intros b Q. exists x, hx. repeat split; auto. eapply reach_kid; eassumption.
Qed.

(** ** Members *)
Lemma member_spot_ok s h r hm b : read_member s h r = Ok (inr hm) -> href hm = Some b ->
  exists a, href h = Some a /\ spot_handle s (member_spot s h r) = Some hm /\ spot_cell (member_spot s h r) = Some a.
Proof.
  intros H B.
  assert (KEY : forall k q, (f <- fields_of s h ;; match f with
      | None => Ok (inl type_error)
      | Some (_, fs) => match map_find k fs with
          | Some j => match nth_error fs j with Some (_, m) => Ok (inr m) | None => Oob end
          | None => q end end) = Ok (inr hm) -> q <> Ok (inr hm) ->
      exists a, h = HObj a /\ spot_handle s (At_field a k) = Some hm).
  { intros k q Q NQ. destruct h; try discriminate. exists a. cbn [fields_of spot_handle] in *. destruct (cell_at (heap s) a) as [[n [fs|vs]]|]; try discriminate.
    cbn [bind] in Q. split; [reflexivity|]. destruct (map_find k fs) as [j|]; [|contradiction].
    destruct (nth_error fs j) as [[k' m]|]; [|discriminate]. apply Ok_inj in Q. injection Q as ->. reflexivity. }
  destruct r as [k|k|i|i| |]; cbn [read_member] in H.
  - destruct (KEY k _ H) as (a & -> & Q). { intros E. apply Ok_inj in E. injection E as <-. discriminate. } cbn. eauto.
  - destruct (KEY k _ H) as (a & -> & Q). { discriminate. } cbn. eauto.
  - destruct h; try discriminate. cbn [elements_of] in H. cbn [member_spot spot_handle spot_cell href]. exists a. split; [reflexivity|]. split; [|reflexivity].
    destruct (cell_at (heap s) a) as [[n [fs|vs]]|]; try discriminate. cbn [bind] in H. destruct (i <? zlen vs); [|apply Ok_inj in H; injection H as <-; discriminate].
    destruct (nth_error vs (Z.to_nat i)); [|discriminate]. apply Ok_inj in H. congruence.
  - destruct h; try discriminate.
    + cbn [fields_of] in H. destruct (cell_at (heap s) a) as [[n [fs|vs]]|]; discriminate.
    + cbn [elements_of] in H. cbn [member_spot spot_handle spot_cell href]. exists a. split; [reflexivity|]. split; [|reflexivity].
      destruct (cell_at (heap s) a) as [[n [fs|vs]]|]; try discriminate. cbn [bind] in H. destruct (i <? zlen vs); [|discriminate].
      destruct (nth_error vs (Z.to_nat i)); [|discriminate]. apply Ok_inj in H. congruence.
  - destruct h; try discriminate. cbn [elements_of] in H. cbn [member_spot spot_handle spot_cell href]. exists a. split; [reflexivity|]. split; [|reflexivity].
    destruct (cell_at (heap s) a) as [[n [fs|vs]]|]; try discriminate. cbn [bind] in H. destruct vs as [|m vs]; apply Ok_inj in H; injection H as <-; [discriminate|reflexivity].
  - destruct h; try discriminate. cbn [elements_of] in H. cbn [member_spot spot_handle spot_cell href]. exists a. split; [reflexivity|]. split; [|reflexivity].
    destruct (cell_at (heap s) a) as [[n [fs|vs]]|]; try discriminate. cbn [bind] in H. destruct vs as [|m vs]; [apply Ok_inj in H; injection H as <-; discriminate|].
    destruct (nth_error (m :: vs) (length (m :: vs) - 1)); [|discriminate]. apply Ok_inj in H. congruence.
Qed.

Lemma inner_ok s e u h p hm m : 
  (forall a, href h = Some a -> exists x hx, owner_of u = Some x /\ (x < length e)%nat /\ nth_error (vars s) x = Some hx /\ reach (heap s) hx a) ->
  shows (heap s) hm m -> tidy m ->
  (forall b, href hm = Some b -> exists a, href h = Some a /\ spot_handle s p = Some hm /\ spot_cell p = Some a) ->
  view_ok s e (inner_view u m) (view_of p hm).
Proof.
  intros O Sh Tm P.
  assert (AG : forall b obj, href hm = Some b -> holds obj hm = true ->
    exists x, owner_of u = Some x /\ view_ok s e (S_in x m) (V_at p obj)).
  { intros b obj B K. destruct (P b B) as (a & A & Q & C). destruct (O a A) as (x & hx & U & L & N & R). exists x. split; [exact U|].
    cbn [view_ok]. split; [exact L|]. split; [exact Tm|]. exists p, obj, hm, hx, a. auto 8. }
  destruct Sh as [|z|d|b|t|a n fs vs C F|a n ms vs C F]; cbn [inner_view view_of];
    try (cbn [view_ok]; eexists; split; [reflexivity|]; split; [reflexivity|constructor]).
  - destruct (AG a true eq_refl eq_refl) as (x & U & V). destruct u; try discriminate; cbn [owner_of] in U; injection U as <-; exact V.
  - destruct (AG a false eq_refl eq_refl) as (x & U & V). destruct u; try discriminate; cbn [owner_of] in U; injection U as <-; exact V.
Qed.

(** ** Views across calls *)
Lemma view_keep s e s' e' xs u w : Inv s e [] -> Inv s' e' [] -> length e' = length e -> framed s xs s' -> others xs s s' ->
  (forall y, ~ In y xs -> val e' y = val e y) -> view_ok s e u w -> view_ok s' e' (outlive xs e' u) (kept_view s s' w).
Proof.
  intros I I' LE FR OT VE V. destruct u as [v|x obj|x v|]; cbn [outlive view_ok] in *.
  - destruct V as (h & -> & R & Sh). exists h. split; [reflexivity|]. split; [exact R|]. destruct Sh; try discriminate; constructor.
  - destruct V as (-> & L & K). destruct (kind_is obj (val e' x)) eqn:K'; [|exact Logic.I].
    assert (L' : (x < length e')%nat) by lia. destruct (L_get _ _ _ _ I' L') as (h & N & _ & Sh).
    cbn [kept_view spot_handle view_ok]. rewrite N, (shows_kind _ _ _ obj Sh), K'. cbn [andb]. auto.
  - destruct V as (L & Tv & p & obj & h & hx & a & -> & P & K & Sh & N & C & R).
    destruct (existsb (Nat.eqb x) xs) eqn:EX; [exact Logic.I|]. apply existsb_in in EX.
    pose proof (OT x EX) as N'. rewrite N in N'. destruct (reach_stays _ _ _ _ _ _ _ _ I I' FR EX N N' R) as (n & n' & c & D & D' & R').
    destruct (spot_in _ _ _ _ P C) as (n2 & c2 & D2 & J). rewrite D in D2. injection D2 as <- <-.
    assert (P' : spot_handle s' p = Some h).
    { destruct p as [y|b k|b i]; cbn [spot_handle spot_cell] in *; [discriminate| |]; injection C as ->; rewrite D in P; rewrite D'; exact P. }
    assert (Sh' : shows (heap s') h v).
    { apply (reach_shows _ _ _ _ _ _ _ _ _ I I' FR EX N N'); [|exact Sh]. intros b B. eapply reach_kid; eassumption. }
    cbn [kept_view view_ok]. rewrite P', K.
    replace (match p with At_elem b _ => same_size (heap s) (heap s') b | _ => true end) with true.
    2: { destruct p as [y|b k|b i]; try reflexivity. cbn [spot_cell] in C. injection C as ->. unfold same_size. rewrite D, D'.
         cbn [spot_handle] in P. rewrite D in P. destruct c; [discriminate|]. rewrite Nat.eqb_refl. reflexivity. }
    cbn [andb]. split; [lia|]. split; [exact Tv|]. exists p, obj, h, hx, a. auto 8.
  - exact Logic.I.
Qed.

Lemma VInv_after t e us s' e' xs : VInv t (e, us) -> Inv s' e' [] -> Forall tidy e' -> length e' = length e ->
  framed (base t) xs s' -> others xs (base t) s' -> (forall y, ~ In y xs -> val e' y = val e y) ->
  VInv (on_base t s') (e', map (outlive xs e') us).
Proof.
  intros (I & T & F) I' T' L FR OT V. split; [exact I'|]. split; [exact T'|]. cbn [fst snd base views on_base] in *.
  induction F as [|u w us ws K F IH]; cbn [map]; constructor; [|exact IH]. eapply view_keep; eassumption.
Qed.
Lemma VInv_set t e us w u x : VInv t (e, us) -> view_ok (base t) e u x -> VInv (set_view t w x) (e, list_set w u us).
Proof.
  intros (I & T & F) M. split; [exact I|]. split; [exact T|]. cbn [fst snd base views set_view] in *. apply Forall2_set; assumption.
Qed.
Lemma VInv_get t e us u : VInv t (e, us) -> (u < length us)%nat -> exists w, get_view t u = Ok w /\ view_ok (base t) e (view_at us u) w.
Proof.
  intros (_ & _ & F) L. cbn [fst snd] in F. destruct (mark_get _ _ _ u S_stale F L) as (p & N & M). exists p. unfold get_view. rewrite N. auto.
Qed.
Lemma null_ok s e : view_ok s e (S_val VNull) (V_val HNull).
Proof. exists HNull. split; [reflexivity|]. split; [reflexivity|constructor]. Qed.

Lemma whole_ok s e x h v : (x < length e)%nat -> val e x = v -> shows (heap s) h v -> view_ok s e (whole_view x v) (view_of (At_var x) h).
Proof.
  intros L E Sh. destruct Sh; cbn [whole_view view_of view_ok]; try (eexists; split; [reflexivity|]; split; [reflexivity|constructor]); rewrite E; auto.
Qed.

Lemma members_shows s h v : shows (heap s) h v ->
  match members false v with
  | None => forall i, nth_spot s h i = Ok (inl type_error)
  | Some l => forall i m, nth_error l i = Some m -> tidy v ->
      exists p hm, nth_spot s h i = Ok (inr (p, hm)) /\ shows (heap s) hm m /\ tidy m /\
        exists a, href h = Some a /\ spot_handle s p = Some hm /\ spot_cell p = Some a
  end.
Proof.
  intros Sh. destruct Sh as [|z|d|b|t|a n fs vs C F|a n ms vs C F]; cbn [members nth_spot]; try (intros; reflexivity).
  - intros i m N T. apply tidy_obj in T. destruct T as [S T]. rewrite nth_error_map in N. destruct (nth_error vs i) as [[k v]|] eqn:NV; [|discriminate].
    cbn [option_map snd] in N. injection N as <-. rewrite C. pose proof (Forall2_nth _ _ _ i F) as Q. rewrite NV in Q.
    destruct (nth_error fs i) as [[k' hm]|] eqn:NF; [|contradiction]. destruct Q as [Q1 Q2]. cbn [fst snd] in Q1, Q2. subst k'.
    exists (At_field a k), hm. split; [reflexivity|]. split; [exact Q2|]. split; [exact (proj2 (Forall_nth' _ _ _ _ T NV))|].
    exists a. split; [reflexivity|]. split; [|reflexivity]. cbn [spot_handle]. rewrite C.
    destruct (find_own vs i k v S NV) as [MF _]. rewrite <- (same_find k fs vs (pair_keys _ _ _ F)) in MF. rewrite MF, NF. reflexivity.
  - intros i m N T. apply tidy_arr in T. rewrite C. pose proof (Forall2_nth _ _ _ i F) as Q. rewrite N in Q.
    destruct (nth_error ms i) as [hm|] eqn:NF; [|contradiction]. exists (At_elem a i), hm. split; [reflexivity|]. split; [exact Q|].
    split; [exact (Forall_nth' _ _ _ _ T N)|]. exists a. split; [reflexivity|]. split; [|reflexivity]. cbn [spot_handle]. rewrite C. exact NF.
Qed.

Lemma glance_ok s h v : shows (heap s) h v -> glance s h = Ok (glance_at v).
Proof.
  intros Sh. destruct Sh as [|z|d|b|t|a n fs vs C F|a n ms vs C F]; cbn [glance glance_at]; try reflexivity; rewrite C.
  - do 2 f_equal. clear C. induction F as [|p q fs vs [Q _] F IH]; cbn [map]; [reflexivity|]. rewrite Q, IH. reflexivity.
  - unfold zlen. rewrite (Forall2_length F). reflexivity.
Qed.

Lemma V_step n m t st o st' a : VInv t st -> length (fst st) = n -> length (snd st) = m -> vfair n m (base t) st o ->
  vs_step st o = Some (st', a) ->
  exists t', v_exec_op t o = Ok (t', a) /\ VInv t' st' /\ length (fst st') = n /\ length (snd st') = m.
Proof.
  destruct st as [e us]. cbn [fst snd]. intros C Ln Lm FR H. pose proof C as (I & T & F). cbn [fst snd] in I, T, F.
  assert (GET : forall u, (u < m)%nat -> exists w, get_view t u = Ok w /\ view_ok (base t) e (view_at us u) w).
  { intros u L. apply VInv_get; [exact C|lia]. }
  destruct o as [o|w x|w u r|w u i|u|w u|w u|w|x u|w y r]; cbn [vs_step vfair v_exec_op] in *.
  - destruct FR as [CO AL]. cbn [fst] in AL. rewrite <- Ln in CO. destruct (step _ _ _ I CO (proj1 AL)) as (s' & e' & E & I' & L' & V).
    specialize (V AL). subst e'. rewrite E. cbn [bind]. pose proof (fun y N => exec_val e o y N) as EV. pose proof (v_exec_tidy e o) as VT.
    destruct (v_exec e o) as [e' an]. cbn [fst snd] in *. injection H as <- <-. eexists. split; [reflexivity|]. cbn [fst snd]. rewrite map_length.
    split; [|split; [lia|exact Lm]]. apply (VInv_after t e); auto.
    + eapply VT; eassumption.
    + eapply exec_framed; eassumption.
    + eapply exec_others; eassumption.
  - destruct FR as [Lw Lx]. injection H as <- <-. destruct (L_get _ _ _ x I ltac:(lia)) as (h & N & G & Sh). rewrite G. cbn [bind].
    eexists. split; [reflexivity|]. cbn [fst snd]. rewrite list_set_length. split; [|auto]. apply VInv_set; [exact C|].
    apply whole_ok; [lia|reflexivity|exact Sh].
  - destruct FR as (Lw & Lu & RO). destruct (worth e (view_at us u)) as [v|] eqn:WO; [|discriminate].
    destruct (GET u Lu) as (wv & G & V). rewrite G. cbn [bind]. destruct (worth_ok _ _ _ _ _ I T V WO) as (h & TH & Sh & Tv & _ & OW). rewrite TH. cbn [bind].
    pose proof (L_read (base t) h v r Sh RO) as RD. destruct (v_read v r) as [mv|er| | |] eqn:VR; try discriminate; try contradiction.
    + destruct RD as (hm & E & Shm & _). rewrite E. cbn [bind]. injection H as <- <-. eexists. split; [reflexivity|]. cbn [fst snd]. rewrite list_set_length.
      split; [|auto]. apply VInv_set; [exact C|]. apply (inner_ok _ _ _ h); auto.
      * exact (tidy_read _ _ _ Tv VR).
      * intros b B. exact (member_spot_ok _ _ _ _ _ E B).
    + rewrite RD. cbn [bind]. injection H as <- <-. exists t. auto.
  - destruct FR as (Lw & Lu). destruct (worth e (view_at us u)) as [v|] eqn:WO; [|discriminate].
    destruct (GET u Lu) as (wv & G & V). rewrite G. cbn [bind]. destruct (worth_ok _ _ _ _ _ I T V WO) as (h & TH & Sh & Tv & _ & OW). rewrite TH. cbn [bind].
    pose proof (members_shows _ _ _ Sh) as MS. destruct (members false v) as [l|].
    + destruct (nth_error l i) as [mv|] eqn:NL; [|discriminate]. injection H as <- <-.
      destruct (MS i mv NL Tv) as (p & hm & E & Shm & Tm & P). rewrite E. cbn [bind]. eexists. split; [reflexivity|]. cbn [fst snd]. rewrite list_set_length.
      split; [|auto]. apply VInv_set; [exact C|]. apply (inner_ok _ _ _ h); auto.
    + rewrite MS. cbn [bind]. injection H as <- <-. exists t. auto.
  - destruct (worth e (view_at us u)) as [v|] eqn:WO; [|discriminate]. cbn [option_map] in H. injection H as <- <-.
    destruct (GET u FR) as (wv & G & V). rewrite G. cbn [bind]. destruct (worth_ok _ _ _ _ _ I T V WO) as (h & TH & Sh & Tv & _ & OW). rewrite TH. cbn [bind].
    rewrite (glance_ok _ _ _ Sh). cbn [bind]. exists t. auto.
  - destruct FR as (Lw & Lu). injection H as <- <-. destruct (GET u Lu) as (wv & G & V). rewrite G. cbn [bind]. eexists. split; [reflexivity|].
    cbn [fst snd]. rewrite list_set_length. split; [|auto]. apply VInv_set; assumption.
  - destruct FR as (Lw & Lu). destruct (Nat.eqb w u); [injection H as <- <-; exists t; auto|]. injection H as <- <-.
    destruct (GET u Lu) as (wv & G & V). rewrite G. cbn [bind]. eexists. split; [reflexivity|]. cbn [fst snd]. rewrite !list_set_length.
    split; [|auto]. apply VInv_set; [apply VInv_set; [exact C|apply null_ok]|exact V].
  - injection H as <- <-. eexists. split; [reflexivity|]. cbn [fst snd]. rewrite list_set_length. split; [|auto]. apply VInv_set; [exact C|apply null_ok].
  - destruct FR as (Lx & Lu). destruct (worth e (view_at us u)) as [v|] eqn:WO; [|discriminate].
    destruct (GET u Lu) as (wv & G & V). rewrite G. cbn [bind]. destruct (worth_ok _ _ _ _ _ I T V WO) as (h & TH & Sh & Tv & IH & OW). rewrite TH. cbn [bind].
    injection H as <- <-. pose proof I as [W FF]. cbn [app] in W.
    assert (exists cs, inc (heap (base t)) h = Ok cs /\ wf cs (h :: vars (base t)) /\ sub (heap (base t)) cs) as (cs & E1 & W1 & Su).
    { destruct IH as [R|IH].
      - unfold inc. rewrite R. exists (heap (base t)). split; [reflexivity|]. split; [apply wf_scalar; assumption|apply sub_refl].
      - destruct (inc_ok _ _ h W IH) as (cs & E1 & W1 & Su & _). eauto. }
    rewrite E1. cbn [bind]. destruct (L_overwrite (St cs (vars (base t))) e x h v []) as (s' & E' & I').
    + split; [exact W1|]. exact (elems_sub _ _ _ _ Su FF).
    + eapply shows_sub; eassumption.
    + lia.
    + rewrite E'. cbn [bind]. eexists. split; [reflexivity|]. cbn [fst snd]. rewrite map_length, list_set_length. split; [|auto]. apply (VInv_after t e); auto.
      * apply Forall_set; assumption.
      * apply list_set_length.
      * unfold framed. exact (since_overwrite _ _ (St _ _) _ _ _ (since_inc _ _ _ _ _ (since_refl _ _) E1) E').
      * exact (overwrite_others _ _ _ _ E').
      * intros z N. apply val_other. intros ->. apply N. left. reflexivity.
  - destruct FR as (Lw & Ly & RO). destruct (L_get _ _ _ y I ltac:(lia)) as (h & N & G & Sh). rewrite G. cbn [bind].
    pose proof (L_read (base t) h _ r Sh RO) as RD. destruct (v_read (val e y) r) as [mv|er| | |] eqn:VR; try discriminate; try contradiction.
    + destruct RD as (hm & E & Shm & _). rewrite E. cbn [bind]. injection H as <- <-. eexists. split; [reflexivity|]. cbn [fst snd]. rewrite list_set_length.
      split; [|auto]. apply VInv_set; [exact C|].
      destruct Shm; cbn [inner_view href view_ok]; auto; eexists; split; try reflexivity; split; try reflexivity; constructor.
    + rewrite RD. cbn [bind]. injection H as <- <-. exists t. auto.
Qed.

Lemma V_run n m os : forall t st, VInv t st -> length (fst st) = n -> length (snd st) = m -> mindful n m t st os ->
  exists t' st' l, v_run_ops t os = Ok (t', l) /\ vs_steps st os = Some (st', l) /\ VInv t' st' /\ length (fst st') = n /\ length (snd st') = m.
Proof.
  induction os as [|o os IH]; intros t st C Ln Lm M; cbn [mindful v_run_ops vs_steps] in *; [exists t, st, []; auto|].
  destruct M as [FR M]. destruct (vs_step st o) as [[st1 a]|] eqn:SS; [|contradiction].
  destruct (V_step n m t st o st1 a C Ln Lm FR SS) as (t1 & E & C1 & Ln1 & Lm1). rewrite E in M |- *. cbn [bind].
  destruct (IH t1 st1 C1 Ln1 Lm1 M) as (t' & st' & l & R & S & K). rewrite R, S. cbn [bind]. exists t', st', (a :: l). auto.
Qed.
Lemma VInv_init n m : VInv (v_init n m) (vs_start n m).
Proof.
  split; [apply Inv_init|]. cbn [fst snd vs_start v_init base views]. split.
  - apply Forall_forall. intros v J. apply repeat_spec in J. subst v. constructor. exact Logic.I.
  - induction m; cbn [repeat]; constructor; [apply null_ok|assumption].
Qed.
