(** Each operation of the pointers: it succeeds, keeps memory sound and does what it
    should to the pointers it names. *)

From Coq Require Import ZArith List Bool Lia ZifyBool ZifyNat.
From Verif Require Import Base HeapOps StoreSteps SpecPtr Ptr PtrFacts PtrOps.
Import ListNotations.
Open Scope Z_scope.

Lemma reach_mono s s' a b : (forall a' u, a' <> a -> kept s a a' -> slot_at s a' = Some (Held (Some u)) -> slot_at s' a' = Some (Held (Some u))) ->
  reached s (Some a) b -> reached s' (Some a) b.
Proof.
  intros H. induction 1 as [x b N V|b i c R IH N V].
  - eapply Reach_var; [exact N|]. apply H; [congruence|exact I|exact V].
  - eapply Reach_fld; [exact IH|exact N|]. apply H; [congruence|exact R|exact V].
Qed.
Lemma reach_swap s a b : slot_at s a = Some (Held None) -> reached s None b -> reached s (Some a) b.
Proof.
  intros A. induction 1 as [x b N V|b i c R IH N V].
  - eapply Reach_var; [|exact V]. intros E. injection E as ->. congruence.
  - eapply Reach_fld; [exact IH| |exact V]. intros E. injection E as ->. congruence.
Qed.

(** A way to destroy a pointer. *)
Definition good (d : pstate -> addr -> res pstate) : Prop :=
  forall s a, sound s -> live s a -> exists s1, d s a = Ok s1 /\ released s a s1.
Lemma c_good : good c_dtor. Proof. exact dtor_ok. Qed.

Lemma released_reach s a s1 b : released s a s1 -> reached s (Some a) b -> reached s1 (Some a) b.
Proof. intros R. apply reach_mono. intros a' u N K V. rewrite (r_kept _ _ _ R a' N K). exact V. Qed.

Lemma eqb_addr a : addr_eqb a a = true. Proof. destruct (addr_eqb_spec a a); congruence. Qed.
Lemma eqb_addr_ne a b : a <> b -> addr_eqb a b = false. Proof. destruct (addr_eqb_spec a b); congruence. Qed.

Lemma fill_null s a s1 : released s a s1 -> exists s2, c_null s1 a = Ok s2 /\ becomes s a [(a, None)] s2 /\
  (forall a', slot_at s2 a' = if addr_eqb a' a then Some (Held None) else slot_at s1 a') /\ length (pvars s2) = length (pvars s).
Proof.
  intros R. pose proof (r_raw _ _ _ R) as A. exists (written s1 a (Held None)). split; [apply (write_ok _ _ _ _ A)|].
  assert (AT : forall a', slot_at (written s1 a (Held None)) a' = if addr_eqb a' a then Some (Held None) else slot_at s1 a') by (intros; apply (written_at _ _ _ _ _ A)).
  split; [|split; [exact AT|rewrite <- (r_vars _ _ _ R); destruct a; [apply list_set_length|reflexivity]]].
  constructor.
  - apply inv_sound. exact (put_ok None s1 a None Raw (r_inv _ _ _ R) A (or_introl eq_refl) ltac:(discriminate)).
  - intros a' p [E|[]]. injection E as <- <-. rewrite AT, eqb_addr. reflexivity.
  - intros a' u N V. rewrite AT in V. destruct (addr_eqb_spec a' a) as [->|M]; [destruct N; left; reflexivity|]. left. apply (r_slot _ _ _ R); assumption.
  - intros x N. rewrite AT. destruct (addr_eqb_spec (AVar x) a) as [<-|M]; [destruct N; left; reflexivity|]. apply (r_kept _ _ _ R); [exact M|exact I].
  - intros b i K N. rewrite AT. destruct (addr_eqb_spec (AFld b i) a) as [<-|M]; [destruct N; left; reflexivity|]. apply (r_kept _ _ _ R); [exact M|exact K].
Qed.

Lemma reset_ok s a : sound s -> live s a -> exists s', c_reset s a = Ok s' /\ becomes s a [(a, None)] s' /\ length (pvars s') = length (pvars s).
Proof.
  intros S L. destruct (dtor_ok s a S L) as (s1 & E & R). destruct (fill_null s a s1 R) as (s2 & E2 & B & _ & LN).
  exists s2. unfold c_reset. rewrite E. auto.
Qed.

Lemma sh_good : good sh_dtor.
Proof.
  intros s a S L. pose proof (live_own s a L) as OWN. destruct (dtor_ok s a S L) as (s1 & E & R). destruct (fill_null s a s1 R) as (s2 & E2 & B & AT & LN).
  assert (RE : forall b, reached s (Some a) b -> reached s2 (Some a) b).
  { intros b K. apply (released_reach _ _ _ _ R) in K. revert K. apply reach_mono. intros a' u N _ V. rewrite AT, (eqb_addr_ne _ _ N). exact V. }
  assert (L2 : live s2 a).
  { split; [exists None; rewrite AT, eqb_addr; reflexivity|]. destruct a as [x|b i]; [exact I|]. eapply reached_any. apply RE. exact OWN. }
  destruct (dtor_ok s2 a (x_sound _ _ _ _ B) L2) as (s3 & E3 & R3).
  exists s3. split; [unfold sh_dtor, c_reset; rewrite E; cbn [bind]; rewrite E2; exact E3|].
  constructor; try apply R3.
  - intros a' N K. rewrite (r_kept _ _ _ R3 a' N).
    + rewrite AT, (eqb_addr_ne _ _ N). apply (r_kept _ _ _ R a' N K).
    + destruct a' as [x|b i]; [exact I|]. apply RE, K.
  - intros a' u N V. apply (r_slot _ _ _ R3 a' u N) in V. rewrite AT, (eqb_addr_ne _ _ N) in V. apply (r_slot _ _ _ R a' u N V).
  - rewrite (r_vars _ _ _ R3). exact LN.
  - rewrite (r_ctls _ _ _ R3). unfold c_null in E2. rewrite (write_ok _ _ _ _ (r_raw _ _ _ R)) in E2. apply (f_equal (fun r => match r with Ok x => x | _ => s2 end)) in E2.
    subst s2. rewrite written_ctls. apply R.
  - intros b C. apply (r_ctl _ _ _ R3) in C. unfold c_null in E2. rewrite (write_ok _ _ _ _ (r_raw _ _ _ R)) in E2. apply (f_equal (fun r => match r with Ok x => x | _ => s2 end)) in E2.
    subst s2. rewrite written_ctl in C. apply (r_ctl _ _ _ R b C).
Qed.

(** Moving into storage that has been released. *)
Lemma move_into s a s1 o p : released s a s1 -> a <> o -> slot_at s1 o = Some (Held p) ->
  exists s', c_move s1 a o = Ok s' /\ becomes s a [(a, p); (o, None)] s' /\ length (pvars s') = length (pvars s) /\
    (forall a', a' <> a -> a' <> o -> slot_at s' a' = slot_at s1 a').
Proof.
  intros R N O. pose proof (r_raw _ _ _ R) as A. unfold c_move, read_slot. rewrite O. cbn [bind].
  rewrite (write_ok _ _ _ (Held p) A). cbn [bind]. set (s2 := written s1 a (Held p)).
  assert (AT2 : forall a', slot_at s2 a' = if addr_eqb a' a then Some (Held p) else slot_at s1 a') by (intros; apply (written_at _ _ _ _ _ A)).
  assert (O2 : slot_at s2 o = Some (Held p)) by (rewrite AT2, (eqb_addr_ne o a) by congruence; exact O).
  rewrite (write_ok _ _ _ (Held None) O2). exists (written s2 o (Held None)). split; [reflexivity|]. set (s3 := written s2 o (Held None)).
  assert (AT : forall a', slot_at s3 a' = if addr_eqb a' o then Some (Held None) else if addr_eqb a' a then Some (Held p) else slot_at s1 a').
  { intros a'. unfold s3. rewrite (written_at _ _ _ _ _ O2). destruct (addr_eqb a' o); [reflexivity|apply AT2]. }
  assert (H := r_inv _ _ _ R).
  assert (CT : forall b, ctl_of s3 b = ctl_of s1 b) by (intros; unfold s3, s2; rewrite !written_ctl; reflexivity).
  assert (HO : forall b, holders s3 b = holders s1 b).
  { intros b. unfold s3. rewrite (written_holders _ _ _ _ _ O2). unfold s2. rewrite (written_holders _ _ _ _ _ A). cbn [holds Z.b2z]. lia. }
  split; [|split].
  - constructor.
    + apply inv_sound. apply (inv_fill None _ a); [|rewrite AT, (eqb_addr_ne a o N), eqb_addr; discriminate].
      constructor.
      * unfold s3, s2. rewrite !written_ctls, !written_objs_len. apply H.
      * intros b c. rewrite CT, HO. apply H.
      * intros b c. rewrite CT, HO. apply H.
      * intros b [].
      * constructor.
      * intros a' b. rewrite AT, CT. destruct (addr_eqb a' o); [discriminate|]. destruct (addr_eqb a' a); [|apply H].
        intros E. injection E as ->. exact (i_held _ _ _ H o b O).
      * intros f [].
      * intros b c. rewrite CT. intros C NI. eapply written_pointee; [exact O2|]. eapply written_pointee; [exact A|]. exact (i_pointee _ _ _ H b c C NI).
      * intros b. rewrite CT. intros C. apply (written_obj_none _ _ _ _ _ O2), (written_obj_none _ _ _ _ _ A), (i_gone _ _ _ H b C).
      * unfold s3, s2. rewrite !written_deleted. apply H.
      * intros b. unfold s3 at 1, s2. rewrite !written_deleted, CT. replace (length (ctls s3)) with (length (ctls s1)) by (unfold s3, s2; rewrite !written_ctls; reflexivity). apply H.
    + intros a' q [E|[E|[]]]; injection E as <- <-; rewrite AT.
      * rewrite (eqb_addr_ne a o N), eqb_addr. reflexivity.
      * rewrite eqb_addr. reflexivity.
    + intros a' u NI V. rewrite AT in V. destruct (addr_eqb_spec a' o) as [->|M]; [destruct NI; right; left; reflexivity|].
      destruct (addr_eqb_spec a' a) as [->|M']; [destruct NI; left; reflexivity|]. left. apply (r_slot _ _ _ R); assumption.
    + intros x NI. rewrite AT. destruct (addr_eqb_spec (AVar x) o) as [<-|M]; [destruct NI; right; left; reflexivity|].
      destruct (addr_eqb_spec (AVar x) a) as [<-|M']; [destruct NI; left; reflexivity|]. apply (r_kept _ _ _ R); [exact M'|exact I].
    + intros b i K NI. rewrite AT. destruct (addr_eqb_spec (AFld b i) o) as [<-|M]; [destruct NI; right; left; reflexivity|].
      destruct (addr_eqb_spec (AFld b i) a) as [<-|M']; [destruct NI; left; reflexivity|]. apply (r_kept _ _ _ R); [exact M'|exact K].
  - rewrite <- (r_vars _ _ _ R). unfold s3, s2. destruct a, o; cbn [written pvars]; rewrite ?list_set_length; reflexivity.
  - intros a' M M'. rewrite AT, (eqb_addr_ne _ _ M'), (eqb_addr_ne _ _ M). reflexivity.
Qed.

(** ** Temporaries *)
Definition push (s : pstate) : pstate := PSt (ctls s) (objs s) (pvars s ++ [Raw]) (deleted s).
Definition tmp (s : pstate) : addr := AVar (length (pvars s)).
Lemma push_at s a : slot_at (push s) a = if addr_eqb a (tmp s) then Some Raw else slot_at s a.
Proof.
  destruct a as [x|b i]; [|reflexivity]. cbn [push slot_at pvars tmp addr_eqb]. destruct (Nat.eqb_spec x (length (pvars s))) as [->|N].
  - rewrite nth_error_app2, Nat.sub_diag by lia. reflexivity.
  - destruct (Nat.lt_ge_cases x (length (pvars s))) as [L|L]; [apply nth_error_app1; exact L|].
    rewrite (proj2 (nth_error_None _ _)) by (rewrite app_length; cbn; lia). symmetry. apply nth_error_None. exact L.
Qed.
Lemma tmp_none s : slot_at s (tmp s) = None. Proof. apply nth_error_None. lia. Qed.
Lemma push_holders s b : holders (push s) b = holders s b.
Proof. rewrite !holders_eq. cbn [push pvars objs]. rewrite among_app. unfold among at 2. cbn. lia. Qed.
Lemma push_sound s : sound s -> sound (push s).
Proof.
  intros H. constructor; try apply H.
  - intros b c C. rewrite push_holders. apply (so_count _ H b c C).
  - intros a b. rewrite push_at. destruct (addr_eqb a (tmp s)); [discriminate|apply H].
Qed.
Definition trim (n : nat) (s : pstate) : pstate := PSt (ctls s) (objs s) (firstn n (pvars s)) (deleted s).
Lemma trim_vars n s : length (pvars s) = S n -> slot_at s (AVar n) = Some Raw -> pvars s = firstn n (pvars s) ++ [Raw].
Proof.
  cbn [slot_at]. intros L R. rewrite <- (firstn_skipn n (pvars s)) at 1. f_equal.
  destruct (skipn n (pvars s)) as [|u [|w r]] eqn:E.
  - assert (length (skipn n (pvars s)) = 0%nat) by (rewrite E; reflexivity). rewrite skipn_length in H. lia.
  - f_equal. rewrite <- (firstn_skipn n (pvars s)), E in R. rewrite nth_error_app2 in R by (rewrite firstn_length; lia).
    rewrite firstn_length, Nat.min_l, Nat.sub_diag in R by lia. cbn in R. congruence.
  - assert (length (skipn n (pvars s)) = S (S (length r))) by (rewrite E; reflexivity). rewrite skipn_length in H. lia.
Qed.
Lemma trim_push n s : length (pvars s) = S n -> slot_at s (AVar n) = Some Raw -> s = push (trim n s) /\ tmp (trim n s) = AVar n.
Proof.
  intros L R. split.
  - unfold push, trim. cbn [ctls objs pvars deleted]. rewrite <- (trim_vars n s L R). destruct s; reflexivity.
  - unfold tmp, trim. cbn [pvars]. rewrite firstn_length. f_equal. lia.
Qed.
Lemma push_unsound s : sound (push s) -> sound s.
Proof.
  intros H. constructor; try apply H.
  - intros b c C. rewrite <- (push_holders s b). apply (so_count _ H b c C).
  - intros a b V. apply (so_held _ H a b). rewrite push_at. destruct (addr_eqb_spec a (tmp s)) as [->|N]; [rewrite tmp_none in V; discriminate|exact V].
Qed.

(** A call that works on [a] with one temporary, which ends up holding nothing. *)
Lemma with_tmp_ok d s a p body : good d -> sound s -> live s a ->
  (exists s2, body (push s) (tmp s) = Ok s2 /\ becomes (push s) a [(a, p); (tmp s, None)] s2 /\ length (pvars s2) = S (length (pvars s))) ->
  exists s', with_tmp d s body = Ok s' /\ becomes s a [(a, p)] s'.
Proof.
  intros D S L (s2 & E & B & LN). pose proof (live_own s a L) as OWN. unfold with_tmp.
  change (PSt (ctls s) (objs s) (pvars s ++ [Raw]) (deleted s)) with (push s). change (AVar (length (pvars s))) with (tmp s). rewrite E. cbn [bind].
  assert (NA : a <> tmp s) by (intros ->; destruct L as ((q & Q) & _); rewrite tmp_none in Q; discriminate).
  assert (T2 : slot_at s2 (tmp s) = Some (Held None)) by (apply (x_set _ _ _ _ B); right; left; reflexivity).
  assert (A2 : slot_at s2 a = Some (Held p)) by (apply (x_set _ _ _ _ B); left; reflexivity).
  assert (PR : forall b, reached s (Some a) b -> reached (push s) (Some a) b).
  { intros b. apply reach_mono. intros a' u N _ V. rewrite push_at. destruct (addr_eqb_spec a' (tmp s)) as [->|M]; [rewrite tmp_none in V; discriminate|exact V]. }
  assert (KEEP : forall a', a' <> a -> a' <> tmp s -> kept s a a' -> slot_at s2 a' = slot_at s a').
  { intros a' N M K. assert (NI : ~ In a' (map fst [(a, p); (tmp s, @None nat)])) by (intros [Q|[Q|[]]]; cbn in Q; congruence).
    transitivity (slot_at (push s) a').
    - destruct a' as [x|b i]; [apply (x_var _ _ _ _ B x NI)|]. apply (x_kept _ _ _ _ B b i (PR b K) NI).
    - rewrite push_at, (eqb_addr_ne _ _ M). reflexivity. }
  assert (RE : forall b, reached s (Some a) b -> reached s2 (Some (tmp s)) b).
  { intros b K. apply (reach_swap _ _ _ T2). apply (reached_any _ (Some a)). revert K. apply reach_mono. intros a' u N K V.
    rewrite KEEP; auto. intros ->. rewrite tmp_none in V. discriminate. }
  assert (LT : live s2 (tmp s)) by (split; [eauto|exact I]).
  destruct (D s2 (tmp s) (x_sound _ _ _ _ B) LT) as (s3 & E3 & R). rewrite E3. cbn [bind].
  change (PSt (ctls s3) (objs s3) (firstn (length (pvars s)) (pvars s3)) (deleted s3)) with (trim (length (pvars s)) s3).
  destruct (trim_push (length (pvars s)) s3) as (P3 & T3); [rewrite (r_vars _ _ _ R); exact LN|exact (r_raw _ _ _ R)|].
  set (s4 := trim (length (pvars s)) s3) in *.
  assert (TT : tmp s4 = tmp s) by exact T3.
  assert (AT4 : forall a', a' <> tmp s -> slot_at s4 a' = slot_at s3 a').
  { intros a' N. rewrite P3, push_at, TT, (eqb_addr_ne _ _ N). reflexivity. }
  assert (K3 : forall a', a' <> tmp s -> kept s a a' -> slot_at s3 a' = slot_at s2 a').
  { intros a' N K. apply (r_kept _ _ _ R a' N). destruct a' as [x|b i]; [exact I|]. apply RE, K. }
  exists s4. split; [reflexivity|]. constructor.
  - apply push_unsound. rewrite <- P3. eapply inv_var. exact (r_inv _ _ _ R).
  - intros a' q [Q|[]]. injection Q as <- <-. rewrite AT4 by exact NA. rewrite K3; [exact A2|exact NA|]. destruct a; exact OWN.
  - intros a' u NI V. assert (M : a' <> tmp s) by (intros ->; rewrite <- TT, tmp_none in V; discriminate).
    assert (N : a' <> a) by (intros ->; apply NI; left; reflexivity).
    rewrite AT4 in V by exact M. apply (r_slot _ _ _ R a' u M) in V.
    apply (x_slot _ _ _ _ B) in V; [|intros [Q|[Q|[]]]; cbn in Q; congruence].
    destruct V as [V|V]; [left|right; exact V]. rewrite push_at, (eqb_addr_ne _ _ M) in V. exact V.
  - intros x NI. assert (N : AVar x <> a) by (intros <-; apply NI; left; reflexivity).
    destruct (addr_eqb_spec (AVar x) (tmp s)) as [Q|M].
    + rewrite Q. rewrite tmp_none. rewrite <- TT. apply tmp_none.
    + rewrite AT4 by exact M. rewrite K3; [|exact M|exact I]. apply KEEP; [exact N|exact M|exact I].
  - intros b i K NI. assert (N : AFld b i <> a) by (intros <-; apply NI; left; reflexivity).
    assert (M : AFld b i <> tmp s) by discriminate. rewrite AT4 by exact M. rewrite K3; [|exact M|exact K]. apply KEEP; [exact N|exact M|exact K].
Qed.

(** What the constructors put into a temporary or a new variable. *)
Record filled (s : pstate) (p : option nat) (s1 : pstate) : Prop := {
  f_sound : sound s1;
  f_tmp : slot_at s1 (tmp s) = Some (Held p);
  f_old : forall a u, a <> tmp s -> slot_at s a = Some u -> slot_at s1 a = Some u;
  f_new : forall a u, a <> tmp s -> slot_at s1 a = Some u -> slot_at s a = Some u \/
     exists b i, a = AFld b i /\ (length (ctls s) <= b)%nat /\ u = Held None;
  f_len : length (pvars s1) = S (length (pvars s));
  f_ctls : (length (ctls s) <= length (ctls s1))%nat }.

Lemma push_raw s : slot_at (push s) (tmp s) = Some Raw. Proof. rewrite push_at, eqb_addr. reflexivity. Qed.
Lemma push_old s a u : slot_at s a = Some u -> a <> tmp s /\ slot_at (push s) a = Some u.
Proof.
  intros V. assert (N : a <> tmp s) by (intros ->; rewrite tmp_none in V; discriminate). split; [exact N|].
  rewrite push_at, (eqb_addr_ne _ _ N). exact V.
Qed.

Lemma null_fill s : sound s -> exists s1, c_null (push s) (tmp s) = Ok s1 /\ filled s None s1.
Proof.
  intros S. pose proof (push_raw s) as A. exists (written (push s) (tmp s) (Held None)). split; [apply (write_ok _ _ _ _ A)|].
  assert (AT := fun a' => written_at (push s) (tmp s) Raw (Held None) a' A).
  constructor.
  - apply inv_sound. refine (put_ok None (push s) (tmp s) None Raw _ A (or_introl eq_refl) ltac:(discriminate)).
    apply inv_weaken, inv_sound, push_sound, S.
  - rewrite AT, eqb_addr. reflexivity.
  - intros a u N V. rewrite AT, (eqb_addr_ne _ _ N), push_at, (eqb_addr_ne _ _ N). exact V.
  - intros a u N V. rewrite AT, (eqb_addr_ne _ _ N), push_at, (eqb_addr_ne _ _ N) in V. left. exact V.
  - cbn [written tmp pvars push]. rewrite list_set_length, app_length. cbn. lia.
  - cbn. lia.
Qed.

Lemma copy_fill s o p : sound s -> slot_at s o = Some (Held p) ->
  exists s1, c_copy (push s) (tmp s) o = Ok s1 /\ filled s p s1.
Proof.
  intros S O. pose proof (push_raw s) as A. destruct (push_old s o _ O) as (NO & OP).
  assert (AT := fun a' => written_at (push s) (tmp s) Raw (Held p) a' A).
  assert (C : forall b, p = Some b -> ctl_of (push s) b <> None) by (intros b ->; exact (so_held _ S o b O)).
  exists (bump (written (push s) (tmp s) (Held p)) p). split.
  - unfold c_copy, read_slot. rewrite OP. cbn [bind]. rewrite (write_ok _ _ _ _ A). cbn [bind]. destruct p as [b|]; [|reflexivity].
    cbn [bump]. unfold ctl_at. rewrite written_ctl. specialize (C b eq_refl). destruct (ctl_of (push s) b); [reflexivity|contradiction].
  - constructor.
    + apply inv_sound. apply (put_ok None (push s) (tmp s) p Raw); auto. apply inv_weaken, inv_sound, push_sound, S.
    + rewrite bump_at, AT, eqb_addr. reflexivity.
    + intros a u N V. rewrite bump_at, AT, (eqb_addr_ne _ _ N), push_at, (eqb_addr_ne _ _ N). exact V.
    + intros a u N V. rewrite bump_at, AT, (eqb_addr_ne _ _ N), push_at, (eqb_addr_ne _ _ N) in V. left. exact V.
    + rewrite bump_vars. cbn [written tmp pvars push]. rewrite list_set_length, app_length. cbn. lia.
    + unfold bump. destruct p as [b|]; [|cbn; lia]. destruct (ctl_of _ b); [rewrite set_ctl_len|]; rewrite written_ctls; cbn; lia.
Qed.

Definition grown (s : pstate) (pointee : option nat) : pstate :=
  PSt (ctls s ++ [Some (Ctl 1 (match pointee with Some _ => true | None => false end))])
      (objs s ++ [match pointee with Some n => Some (repeat (Held None) n) | None => None end]) (pvars s) (deleted s).
Lemma among_null b n : among b (repeat (Held None) n) = 0.
Proof. induction n as [|n IH]; [reflexivity|]. cbn [repeat]. rewrite among_cons, IH. reflexivity. Qed.
Lemma grown_ctl s q b : ctl_of (grown s q) b = if Nat.eqb b (length (ctls s)) then Some (Ctl 1 (match q with Some _ => true | None => false end)) else ctl_of s b.
Proof.
  unfold ctl_of. cbn [grown ctls]. destruct (Nat.eqb_spec b (length (ctls s))) as [->|N].
  - rewrite nth_error_app2, Nat.sub_diag by lia. reflexivity.
  - destruct (Nat.lt_ge_cases b (length (ctls s))) as [L|L]; [rewrite nth_error_app1 by exact L; reflexivity|].
    rewrite !(proj2 (nth_error_None _ _)); [reflexivity|exact L|rewrite app_length; cbn; lia].
Qed.
Lemma grown_obj s q b : length (ctls s) = length (objs s) ->
  obj_of (grown s q) b = if Nat.eqb b (length (ctls s)) then match q with Some n => Some (repeat (Held None) n) | None => None end else obj_of s b.
Proof.
  intros E. rewrite E. unfold obj_of. cbn [grown objs]. destruct (Nat.eqb_spec b (length (objs s))) as [->|N].
  - rewrite nth_error_app2, Nat.sub_diag by lia. destruct q; reflexivity.
  - destruct (Nat.lt_ge_cases b (length (objs s))) as [L|L]; [rewrite nth_error_app1 by exact L; reflexivity|].
    rewrite !(proj2 (nth_error_None _ _)); [reflexivity|exact L|rewrite app_length; cbn; lia].
Qed.
Lemma grown_holders s q b : holders (grown s q) b = holders s b.
Proof.
  rewrite !holders_eq. cbn [grown pvars objs]. rewrite flat_map_app, among_app. cbn [flat_map]. rewrite app_nil_r.
  assert (Z : among b (slots_of match q with Some n => Some (repeat (Held None) n) | None => None end) = 0) by (destruct q as [n|]; [apply among_null|reflexivity]).
  rewrite Z. lia.
Qed.
Lemma repeat_nth {A} (x : A) n i u : nth_error (repeat x n) i = Some u -> u = x.
Proof. intros H. apply nth_error_In in H. apply repeat_spec in H. exact H. Qed.
Lemma grown_at s q a u : length (ctls s) = length (objs s) -> slot_at (grown s q) a = Some u ->
  slot_at s a = Some u \/ exists i, a = AFld (length (ctls s)) i /\ u = Held None.
Proof.
  intros E. destruct a as [x|b i]; [auto|]. cbn [slot_at]. rewrite (grown_obj s q b E).
  destruct (Nat.eqb_spec b (length (ctls s))) as [->|N]; [|auto]. destruct q as [n|]; [|discriminate]. intros V. right. exists i.
  split; [reflexivity|eapply repeat_nth; exact V].
Qed.
Lemma take_fill s q : sound s -> exists s1, c_take (push s) (tmp s) q = Ok s1 /\ filled s (Some (length (ctls s))) s1.
Proof.
  intros S. assert (LE := so_len _ S). set (b := length (ctls s)).
  assert (A : slot_at (grown (push s) q) (tmp s) = Some Raw) by (change (slot_at (push s) (tmp s) = Some Raw); apply push_raw).
  exists (written (grown (push s) q) (tmp s) (Held (Some b))). split; [apply (write_ok _ _ _ _ A)|].
  assert (AT := fun a' => written_at _ _ _ (Held (Some b)) a' A). set (s1 := written (grown (push s) q) (tmp s) (Held (Some b))) in *.
  assert (CT : forall y, ctl_of s1 y = if Nat.eqb y b then Some (Ctl 1 (match q with Some _ => true | None => false end)) else ctl_of s y).
  { intros y. unfold s1. rewrite written_ctl, grown_ctl. reflexivity. }
  assert (OB : forall y, obj_of s1 y = if Nat.eqb y b then match q with Some n => Some (repeat (Held None) n) | None => None end else obj_of s y).
  { intros y. unfold s1. cbn [written tmp]. change (obj_of (grown (push s) q) y = if Nat.eqb y b then match q with Some n => Some (repeat (Held None) n) | None => None end else obj_of s y).
    rewrite grown_obj by exact LE. reflexivity. }
  assert (CB : ctl_of s b = None) by (unfold ctl_of; rewrite (proj2 (nth_error_None _ _)); [reflexivity|unfold b; lia]).
  assert (HB : holders s b = 0).
  { pose proof (holders_nonneg s b). destruct (Z.eq_dec (holders s b) 0) as [E|E]; [exact E|]. exfalso.
    assert (P : 0 < holders s b) by lia. apply holders_pos in P as (a & V). exact (so_held _ S a b V CB). }
  assert (HO : forall y, holders s1 y = holders s y + if Nat.eqb y b then 1 else 0).
  { intros y. unfold s1. rewrite (written_holders _ _ _ _ _ A), grown_holders, push_holders. cbn [holds Z.b2z]. destruct (Nat.eqb y b); cbn [Z.b2z]; lia. }
  constructor.
  - constructor.
    + unfold s1. rewrite written_ctls, written_objs_len. cbn [grown push ctls objs]. rewrite !app_length, LE. reflexivity.
    + intros y c. rewrite CT, HO. destruct (Nat.eqb_spec y b) as [->|N]; [injection 1 as <-; cbn [cnt]; lia|].
      intros C. rewrite Z.add_0_r. apply (so_count _ S y c C).
    + intros a y. rewrite AT, CT. destruct (Nat.eqb_spec y b) as [->|N]; [discriminate|]. destruct (addr_eqb_spec a (tmp s)) as [->|M]; [congruence|].
      intros V. apply grown_at in V; [|exact LE]. destruct V as [V|(i & _ & V)]; [|discriminate]. rewrite push_at, (eqb_addr_ne _ _ M) in V. exact (so_held _ S a y V).
    + intros y c. rewrite CT, OB. destruct (Nat.eqb_spec y b) as [->|N]; [|apply (so_pointee _ S)]. injection 1 as <-. cbn [owns].
      destruct q as [n|]; [|reflexivity]. exists (repeat (Held None) n). split; [reflexivity|]. intros I. apply repeat_spec in I. discriminate.
    + intros y. rewrite CT, OB. destruct (Nat.eqb y b); [discriminate|apply (so_gone _ S)].
    + unfold s1. rewrite written_deleted. apply S.
    + intros y. unfold s1 at 1. rewrite written_deleted. cbn [grown push deleted]. rewrite (so_deleted _ S), CT.
      replace (length (ctls s1)) with (b + 1)%nat by (unfold s1; rewrite written_ctls; cbn [grown push ctls]; rewrite app_length; reflexivity).
      fold b. destruct (Nat.eqb_spec y b) as [->|N].
      * split; [intros (Q & _); lia|intros (_ & Q); discriminate].
      * split; [intros (Q & X); split; [lia|exact X]|intros (Q & X); split; [lia|exact X]].
  - rewrite AT, eqb_addr. reflexivity.
  - intros a u N V. rewrite AT, (eqb_addr_ne _ _ N). destruct a as [x|y i].
    + change (slot_at (push s) (AVar x) = Some u). apply push_old, V.
    + cbn [slot_at] in *. rewrite grown_obj by exact LE. cbn [push ctls]. fold b. destruct (Nat.eqb_spec y b) as [->|M]; [|exact V].
      rewrite (so_gone _ S b CB) in V. discriminate.
  - intros a u N V. rewrite AT, (eqb_addr_ne _ _ N) in V. apply grown_at in V; [|exact LE]. destruct V as [V|(i & -> & ->)].
    + left. rewrite push_at, (eqb_addr_ne _ _ N) in V. exact V.
    + right. exists b, i. split; [reflexivity|]. split; [unfold b; lia|reflexivity].
  - cbn [s1 written tmp pvars grown push]. rewrite list_set_length, app_length. cbn. lia.
  - unfold s1. rewrite written_ctls. cbn [grown push ctls]. rewrite app_length. lia.
Qed.

(** Move construction into a new variable. *)
Lemma move_fill s o p : sound s -> slot_at s o = Some (Held p) ->
  exists s1, c_move (push s) (tmp s) o = Ok s1 /\ becomes (push s) (tmp s) [(tmp s, p); (o, None)] s1 /\ length (pvars s1) = S (length (pvars s)).
Proof.
  intros S O. destruct (push_old s o _ O) as (NO & OP).
  assert (R : released (push s) (tmp s) (push s)).
  { constructor; auto; [apply inv_weaken, inv_sound, push_sound, S|apply push_raw]. }
  destruct (move_into (push s) (tmp s) (push s) o p R ltac:(congruence) OP) as (s' & E & B & LN & _).
  exists s'. split; [exact E|]. split; [exact B|]. rewrite LN. cbn [push pvars]. rewrite app_length. cbn. lia.
Qed.

(** Releasing [a], then moving the temporary into it. *)
Lemma from_tmp d s s1 a p : good d -> sound s -> live s a -> filled s p s1 ->
  exists s2, (s0 <- d s1 a ;; c_move s0 a (tmp s)) = Ok s2 /\ becomes (push s) a [(a, p); (tmp s, None)] s2 /\ length (pvars s2) = S (length (pvars s)).
Proof.
  intros D S0 L F. pose proof (live_own s a L) as OWN. destruct L as ((q & A) & LR).
  assert (NA : a <> tmp s) by (intros ->; rewrite tmp_none in A; discriminate).
  assert (OLD : forall a' u, slot_at s a' = Some u -> slot_at s1 a' = Some u).
  { intros a' u V. apply (f_old _ _ _ F); [|exact V]. intros ->. rewrite tmp_none in V. discriminate. }
  assert (RE : forall b, reached s (Some a) b -> reached s1 (Some a) b).
  { intros b. apply reach_mono. intros a' u _ _ V. apply OLD, V. }
  assert (RP : forall b, reached (push s) (Some a) b -> reached s (Some a) b).
  { intros b. apply reach_mono. intros a' u N _ V. rewrite push_at in V. destruct (addr_eqb a' (tmp s)); [discriminate|exact V]. }
  assert (L1 : live s1 a).
  { split; [exists q; apply OLD, A|]. destruct a as [x|b i]; [exact I|]. eapply reached_any, RE, OWN. }
  destruct (D s1 a (f_sound _ _ _ F) L1) as (s0 & E & R). rewrite E. cbn [bind].
  destruct (move_into s1 a s0 (tmp s) p R NA) as (s2 & E2 & B & LN & _).
  { rewrite (r_kept _ _ _ R); [apply F|congruence|exact I]. }
  exists s2. split; [exact E2|]. split; [|rewrite LN; apply F]. constructor; try apply B.
  - intros a' u NI V. assert (M : a' <> tmp s) by (intros ->; apply NI; right; left; reflexivity).
    destruct (x_slot _ _ _ _ B a' u NI V) as [W|(b & i & -> & W & ->)].
    + destruct (f_new _ _ _ F a' u M W) as [X|X]; [left|right; exact X]. rewrite push_at, (eqb_addr_ne _ _ M). exact X.
    + right. exists b, i. split; [reflexivity|]. split; [pose proof (f_ctls _ _ _ F); cbn [push ctls]; lia|reflexivity].
  - intros x NI. assert (M : AVar x <> tmp s) by (intros E'; apply NI; right; left; symmetry; exact E').
    rewrite (x_var _ _ _ _ B x NI). rewrite push_at, (eqb_addr_ne _ _ M).
    destruct (slot_at s (AVar x)) as [u|] eqn:V; [apply OLD, V|].
    destruct (slot_at s1 (AVar x)) as [u|] eqn:W; [|reflexivity]. destruct (f_new _ _ _ F _ u M W) as [X|(b & i & X & _)]; congruence.
  - intros b i K NI. rewrite (x_kept _ _ _ _ B b i (RE b (RP b K)) NI).
    change (slot_at (push s) (AFld b i)) with (slot_at s (AFld b i)).
    destruct (slot_at s (AFld b i)) as [u|] eqn:V; [apply OLD, V|].
    destruct (slot_at s1 (AFld b i)) as [u|] eqn:W; [|reflexivity].
    destruct (f_new _ _ _ F (AFld b i) u ltac:(discriminate) W) as [X|(b' & i' & X & LB & _)]; [congruence|]. injection X as <- <-.
    exfalso. apply (RP b), reached_live in K; [|exact S0]. apply K. unfold ctl_of. rewrite (proj2 (nth_error_None _ _)); [reflexivity|exact LB].
Qed.
