(** What each operation on a counted pointer does. *)

From Coq Require Import ZArith List Bool Lia.
From Verif Require Import Base BaseFacts HeapOps StoreSteps SpecPtr Ptr PtrFacts PtrOps PtrSteps.
Import ListNotations.
Open Scope Z_scope.

Lemma becomes_refl s a p : sound s -> slot_at s a = Some (Held p) -> becomes s a [(a, p)] s.
Proof. intros S A. constructor; auto. intros a' p' [E|[]]. injection E as <- <-. exact A. Qed.

Lemma filled_becomes s p s1 : sound s -> filled s p s1 -> becomes s (tmp s) [(tmp s, p)] s1.
Proof.
  intros S F. constructor; [apply F| | | |].
  - intros a q [E|[]]. injection E as <- <-. apply F.
  - intros a u N V. apply (f_new _ _ _ F); [|exact V]. intros ->. apply N. left. reflexivity.
  - intros x N. assert (M : AVar x <> tmp s) by (intros E; apply N; left; symmetry; exact E).
    destruct (slot_at s (AVar x)) as [u|] eqn:V; [apply (f_old _ _ _ F _ _ M V)|].
    destruct (slot_at s1 (AVar x)) as [u|] eqn:W; [|reflexivity]. destruct (f_new _ _ _ F _ _ M W) as [X|(b & i & X & _)]; [congruence|discriminate X].
  - intros b i K N. destruct (slot_at s (AFld b i)) as [u|] eqn:V; [apply (f_old _ _ _ F (AFld b i) u ltac:(discriminate) V)|].
    destruct (slot_at s1 (AFld b i)) as [u|] eqn:W; [|reflexivity]. destruct (f_new _ _ _ F (AFld b i) u ltac:(discriminate) W) as [X|(b' & i' & X & L & _)]; [congruence|].
    injection X as <- <-. exfalso. apply (reached_live s (Some (tmp s)) b S) in K. apply K. unfold ctl_of. rewrite (proj2 (nth_error_None _ _)); [reflexivity|exact L].
Qed.

(** ** Assignments through a temporary *)

Lemma via_tmp d d' s a p fill : good d -> good d' -> sound s -> live s a ->
  (exists s1, fill (push s) (tmp s) = Ok s1 /\ filled s p s1) ->
  forall mv, (forall s1, filled s p s1 -> mv s1 a (tmp s) = (s0 <- d' s1 a ;; c_move s0 a (tmp s))) ->
  exists s', with_tmp d s (fun s1 t => s2 <- fill s1 t ;; mv s2 a t) = Ok s' /\ becomes s a [(a, p)] s'.
Proof.
  intros G G' S L (s1 & E & F) mv M. apply with_tmp_ok; auto. rewrite E. cbn [bind]. rewrite (M s1 F). apply from_tmp; auto.
Qed.
Lemma live_tmp s a : live s a -> a <> tmp s.
Proof. intros ((p & A) & _) ->. rewrite tmp_none in A. discriminate. Qed.

Lemma copy_assign_ok s a o p : sound s -> live s a -> slot_at s o = Some (Held p) ->
  exists s', c_copy_assign s a o = Ok s' /\ becomes s a [(a, p)] s'.
Proof.
  intros S L O. unfold c_copy_assign. destruct (addr_eqb_spec a o) as [->|N].
  - exists s. split; [reflexivity|]. apply becomes_refl; assumption.
  - apply (via_tmp c_dtor c_dtor s a p (fun s1 t => c_copy s1 t o)); try apply c_good; auto; [apply copy_fill; assumption|].
    intros s1 _. unfold c_move_assign. rewrite (eqb_addr_ne _ _ (live_tmp s a L)). reflexivity.
Qed.
Lemma sh_copy_ok s a o p : sound s -> live s a -> slot_at s o = Some (Held p) ->
  exists s', sh_copy_assign_raw s a o = Ok s' /\ becomes s a [(a, p)] s'.
Proof.
  intros S L O. apply (via_tmp sh_dtor sh_dtor s a p (fun s1 t => c_copy s1 t o)); try apply sh_good; auto; [apply copy_fill; assumption|].
  intros s1 _. unfold sh_move_assign. rewrite (eqb_addr_ne _ _ (live_tmp s a L)). reflexivity.
Qed.
Lemma sh_copy_assign_ok s a o p : sound s -> live s a -> slot_at s o = Some (Held p) ->
  exists s', sh_copy_assign s a o = Ok s' /\ becomes s a [(a, p)] s'.
Proof.
  intros S L O. unfold sh_copy_assign. destruct (addr_eqb_spec a o) as [->|N]; [|apply sh_copy_ok; assumption].
  exists s. split; [reflexivity|]. apply becomes_refl; assumption.
Qed.
Lemma sh_share_ok s a o p : sound s -> live s a -> slot_at s o = Some (Held p) ->
  exists s', sh_share s a o = Ok s' /\ becomes s a [(a, p)] s'.
Proof.
  intros S L O. apply (via_tmp sh_dtor c_dtor s a p (fun s1 t => c_copy s1 t o)); try apply sh_good; try apply c_good; auto. apply copy_fill; assumption.
Qed.
Lemma sh_null_ok s a : sound s -> live s a -> exists s', sh_assign_null s a = Ok s' /\ becomes s a [(a, None)] s'.
Proof.
  intros S L. apply (via_tmp sh_dtor sh_dtor s a None c_null); try apply sh_good; auto; [apply null_fill; assumption|].
  intros s1 _. unfold sh_move_assign. rewrite (eqb_addr_ne _ _ (live_tmp s a L)). reflexivity.
Qed.
Lemma reset_to_ok s a q : sound s -> live s a -> exists s', c_reset_to s a q = Ok s' /\ becomes s a [(a, Some (length (ctls s)))] s'.
Proof.
  intros S L. apply (via_tmp c_dtor c_dtor s a (Some (length (ctls s))) (fun s1 t => c_take s1 t q)); try apply c_good; auto; [apply take_fill; assumption|].
  intros s1 _. unfold c_move_assign. rewrite (eqb_addr_ne _ _ (live_tmp s a L)). reflexivity.
Qed.
Lemma sh_to_ok s a q : sound s -> live s a -> exists s', sh_assign_to s a q = Ok s' /\ becomes s a [(a, Some (length (ctls s)))] s'.
Proof.
  intros S L. apply (via_tmp sh_dtor sh_dtor s a (Some (length (ctls s))) (fun s1 t => c_take s1 t q)); try apply sh_good; auto; [apply take_fill; assumption|].
  intros s1 _. unfold sh_move_assign. rewrite (eqb_addr_ne _ _ (live_tmp s a L)). reflexivity.
Qed.

Definition same_ptr (p q : option nat) : bool :=
  match p, q with Some b, Some c => Nat.eqb b c | None, None => true | _, _ => false end.
Lemma same_ptr_spec p q : reflect (p = q) (same_ptr p q).
Proof.
  destruct p as [b|], q as [c|]; cbn; try (constructor; congruence).
  destruct (Nat.eqb_spec b c); constructor; congruence.
Qed.
Lemma copy_conv_ok s a o p q : sound s -> live s a -> slot_at s a = Some (Held q) -> slot_at s o = Some (Held p) ->
  exists s', c_copy_assign_conv s a o = Ok s' /\ becomes s a [(a, p)] s'.
Proof.
  intros S L A O. unfold c_copy_assign_conv, read_slot. rewrite A, O. cbn [bind]. fold (same_ptr q p).
  destruct (same_ptr_spec q p) as [->|N].
  - exists s. split; [reflexivity|]. apply becomes_refl; assumption.
  - apply (via_tmp c_dtor c_dtor s a p (fun s1 t => c_copy s1 t o)); try apply c_good; auto; [apply copy_fill; assumption|].
    intros s1 F. unfold c_move_assign_conv, read_slot. rewrite (f_old _ _ _ F a _ (live_tmp s a L) A), (f_tmp _ _ _ F). cbn [bind].
    fold (same_ptr q p). destruct (same_ptr_spec q p); [contradiction|]. reflexivity.
Qed.

(** ** Moves *)

(** Releasing and then moving either works, or the source went with the release. *)
Lemma move_any d s a o p : good d -> sound s -> live s a -> a <> o -> slot_at s o = Some (Held p) ->
  exists s1, d s a = Ok s1 /\ released s a s1 /\
    ((exists s', (s0 <- d s a ;; c_move s0 a o) = Ok s' /\ becomes s a [(a, p); (o, None)] s') \/
     ((s0 <- d s a ;; c_move s0 a o) = Oob /\ slot_at s1 o = None)).
Proof.
  intros D S L N O. destruct (D s a S L) as (s1 & E & R). exists s1. split; [exact E|]. split; [exact R|]. rewrite E. cbn [bind].
  destruct (slot_at s1 o) as [u|] eqn:V.
  - left. pose proof (r_slot _ _ _ R o u ltac:(congruence) V) as W. rewrite O in W. injection W as <-.
    destruct (move_into s a s1 o p R N V) as (s' & E' & B & _). eauto.
  - right. split; [|reflexivity]. unfold c_move, read_slot. rewrite V. reflexivity.
Qed.
Lemma move_ok d s a o p : good d -> sound s -> live s a -> a <> o -> slot_at s o = Some (Held p) -> kept s a o ->
  exists s', (s0 <- d s a ;; c_move s0 a o) = Ok s' /\ becomes s a [(a, p); (o, None)] s'.
Proof.
  intros D S L N O K. destruct (move_any d s a o p D S L N O) as (s1 & E & R & [X|(_ & X)]); [exact X|].
  rewrite (r_kept _ _ _ R o ltac:(congruence) K) in X. congruence.
Qed.

(** ** Construction and destruction of variables *)

Lemma becomes_push s o p s1 : sound s -> slot_at s o = Some (Held p) -> becomes (push s) (tmp s) [(tmp s, p); (o, None)] s1 ->
  becomes s (tmp s) [(tmp s, p); (o, None)] s1.
Proof.
  intros S O B. constructor; try apply B.
  - intros a u N V. assert (M : a <> tmp s) by (intros ->; apply N; left; reflexivity).
    destruct (x_slot _ _ _ _ B a u N V) as [W|W]; [left; rewrite push_at, (eqb_addr_ne _ _ M) in W; exact W|right; exact W].
  - intros x N. rewrite (x_var _ _ _ _ B x N), push_at. destruct (addr_eqb_spec (AVar x) (tmp s)) as [E|E]; [|reflexivity].
    exfalso. apply N. left. symmetry. exact E.
  - intros b i K N. rewrite (x_kept _ _ _ _ B b i); [reflexivity| |exact N]. revert K. apply reach_mono.
    intros a' u M _ V. apply push_old, V.
Qed.

Lemma ends_ok d s x : good d -> sound s -> live s (AVar x) -> exists s', d s (AVar x) = Ok s' /\ ends s x s'.
Proof.
  intros D S L. destruct (D s _ S L) as (s1 & E & R). exists s1. split; [exact E|]. constructor.
  - apply (inv_var s1 x), R.
  - apply R.
  - apply R.
  - intros y N. apply R; [congruence|exact I].
  - intros b i K. apply R; [discriminate|exact K].
Qed.

(** ** Pointees keep their shape *)

Lemma set_same {A} {l : list A} {x v} {u : A} : nth_error l x = Some u -> nth_error (list_set x v l) x = Some v.
Proof. intros H. apply nth_set_same, nth_error_Some. congruence. Qed.

Definition shape_le (s s' : pstate) : Prop :=
  (forall b c', ctl_of s' b = Some c' -> exists c, ctl_of s b = Some c /\ owns c = owns c') /\
  (forall b fs', obj_of s' b = Some fs' -> exists fs, obj_of s b = Some fs /\ length fs = length fs').
Lemma shape_refl s : shape_le s s. Proof. split; eauto. Qed.
Lemma shape_trans s t u : shape_le s t -> shape_le t u -> shape_le s u.
Proof.
  intros (A & B) (C & D). split.
  - intros b c' H. destruct (C b c' H) as (c & X & Y). destruct (A b c X) as (c0 & X0 & Y0). exists c0. split; [exact X0|congruence].
  - intros b c' H. destruct (D b c' H) as (c & X & Y). destruct (B b c X) as (c0 & X0 & Y0). exists c0. split; [exact X0|congruence].
Qed.
Lemma shape_write s a v s' : write_slot s a v = Ok s' -> shape_le s s'.
Proof.
  destruct a as [x|b i]; cbn [write_slot].
  - destruct (nth_error (pvars s) x); [|discriminate]. intros H. apply Ok_inj in H. subst s'. split; eauto.
  - destruct (obj_of s b) as [fs|] eqn:O; [|discriminate]. destruct (nth_error fs i); [|discriminate]. intros H. apply Ok_inj in H. subst s'.
    split; [eauto|]. intros b' fs'. unfold obj_of at 1. cbn [objs].
    destruct (Nat.eq_dec b' b) as [->|N].
    + intros H. exists fs. split; [exact O|]. unfold obj_of in O. destruct (nth_error (objs s) b) as [x|] eqn:Q; [|discriminate].
      rewrite (set_same Q) in H. injection H as <-. rewrite list_set_length. reflexivity.
    + rewrite nth_set_other by congruence. intros H. exists fs'. split; [exact H|reflexivity].
Qed.
Lemma shape_ctl s b c c' : ctl_of s b = Some c -> (forall d, c' = Some d -> owns d = owns c) -> shape_le s (set_ctl s b c').
Proof.
  intros C H. split; [|eauto]. intros b' d D. unfold ctl_of in D. cbn [set_ctl ctls] in D. destruct (Nat.eq_dec b' b) as [->|N].
  - pose proof C as C0. unfold ctl_of in C0. destruct (nth_error (ctls s) b) as [x|] eqn:Q; [|discriminate]. rewrite (set_same Q) in D.
    destruct c' as [d'|]; [|discriminate]. injection D as <-. exists c. split; [exact C|symmetry; auto].
  - rewrite nth_set_other in D by congruence. exists d. split; [exact D|reflexivity].
Qed.
Lemma shape_run n : forall s ts s', run n s ts = Ok s' -> shape_le s s'.
Proof.
  induction n as [|n IH]; intros s [|t ts] s' H; cbn [run] in H; try discriminate H; try (apply Ok_inj in H; subst; apply shape_refl).
  destruct t as [a|b|b].
  - destruct (read_slot s a) as [p| | | |]; try discriminate H. cbn [bind] in H.
    destruct (write_slot s a Raw) as [s1| | | |] eqn:W; try discriminate H. cbn [bind] in H. apply shape_write in W.
    destruct p as [b|]; [|apply IH in H; eapply shape_trans; eassumption].
    unfold ctl_at in H. destruct (ctl_of s1 b) as [c|] eqn:C; [|discriminate H]. cbn [bind] in H.
    assert (X : shape_le s (set_ctl s1 b (Some (Ctl (cnt c - 1) (owns c))))).
    { eapply shape_trans; [exact W|]. apply (shape_ctl s1 b c _ C). intros d E. injection E as <-. reflexivity. }
    destruct (cnt _ =? 0).
    + destruct (destroy _ b _) as [ts'| | | |]; try discriminate H. cbn [bind] in H. apply IH in H. eapply shape_trans; eassumption.
    + apply IH in H. eapply shape_trans; eassumption.
  - unfold ctl_at in H. destruct (ctl_of s b) as [c|] eqn:C; [|discriminate H]. cbn [bind] in H. destruct (owns c).
    + destruct (obj_of s b) as [fs|] eqn:O; [|discriminate H]. apply IH in H. eapply shape_trans; [|exact H]. split; [eauto|].
      intros b' fs'. unfold obj_of at 1. cbn [objs]. destruct (Nat.eq_dec b' b) as [->|N].
      * unfold obj_of in O. destruct (nth_error (objs s) b) as [x|] eqn:Q; [|discriminate O]. rewrite (set_same Q). discriminate.
      * rewrite nth_set_other by congruence. intros V. exists fs'. split; [exact V|reflexivity].
    + apply IH in H. eapply shape_trans; [|exact H]. split; eauto.
  - unfold ctl_at in H. destruct (ctl_of s b) as [c|] eqn:C; [|discriminate H]. cbn [bind] in H. apply IH in H.
    eapply shape_trans; [apply (shape_ctl s b c None C); discriminate|exact H].
Qed.
Lemma shape_dtor s a s' : c_dtor s a = Ok s' -> shape_le s s'. Proof. apply shape_run. Qed.
Lemma shape_sh_dtor s a s' : sh_dtor s a = Ok s' -> shape_le s s'.
Proof.
  unfold sh_dtor, c_reset, c_null. destruct (c_dtor s a) as [s1| | | |] eqn:D; try discriminate. cbn [bind].
  destruct (write_slot s1 a (Held None)) as [s2| | | |] eqn:W; try discriminate. cbn [bind]. intros H.
  apply shape_dtor in D, H. apply shape_write in W. eauto using shape_trans.
Qed.
Lemma shape_move s a o s' : c_move s a o = Ok s' -> shape_le s s'.
Proof.
  unfold c_move. destruct (read_slot s o); try discriminate. cbn [bind]. destruct (write_slot s a _) as [s1| | | |] eqn:W; try discriminate. cbn [bind].
  intros H. apply shape_write in W, H. eauto using shape_trans.
Qed.
Lemma shape_take s a q s' : c_take s a q = Ok s' -> shape_le (grown s q) s'.
Proof. apply shape_write. Qed.
Lemma shape_push s s' : shape_le (push s) s' -> shape_le s s'. Proof. exact (fun H => H). Qed.

(** A new pointee is as it was given. *)
Lemma made_from s q s' : sound s -> shape_le (grown s q) s' -> sound s' -> ctl_of s' (length (ctls s)) <> None -> made s q s'.
Proof.
  intros S (A & B) S' C. split; [exact C|]. destruct (ctl_of s' (length (ctls s))) as [c|] eqn:E; [|contradiction].
  destruct (A _ _ E) as (c0 & E0 & O). rewrite grown_ctl, Nat.eqb_refl in E0. injection E0 as <-. cbn [owns] in O.
  pose proof (so_pointee _ S' _ _ E) as P. destruct q as [n|]; rewrite <- O in P; [|exact P].
  destruct P as (fs & F & _). exists fs. split; [exact F|]. destruct (B _ _ F) as (fs0 & F0 & L). rewrite grown_obj, Nat.eqb_refl in F0 by apply S.
  injection F0 as <-. rewrite <- L, repeat_length. reflexivity.
Qed.
Lemma shape_with_tmp d s body s' : (forall s a s', d s a = Ok s' -> shape_le s s') -> with_tmp d s body = Ok s' ->
  exists s1, body (push s) (tmp s) = Ok s1 /\ shape_le s1 s'.
Proof.
  intros D. unfold with_tmp. fold (push s) (tmp s). destruct (body (push s) (tmp s)) as [s1| | | |]; try discriminate. cbn [bind].
  destruct (d s1 (tmp s)) as [s2| | | |] eqn:E; try discriminate. cbn [bind]. intros H. apply Ok_inj in H. subst s'. exists s1. split; [reflexivity|].
  apply D in E. exact E.
Qed.
Lemma reset_to_shape s a q s' : c_reset_to s a q = Ok s' -> a <> tmp s -> shape_le (grown s q) s'.
Proof.
  intros H N. unfold c_reset_to in H. apply shape_with_tmp in H as (s1 & E & X); [|exact shape_dtor].
  destruct (c_take (push s) (tmp s) q) as [s2| | | |] eqn:T; try discriminate E. cbn [bind] in E. apply shape_take in T.
  unfold c_move_assign in E. rewrite (eqb_addr_ne _ _ N) in E. destruct (c_dtor s2 a) as [s3| | | |] eqn:D; try discriminate E. cbn [bind] in E.
  apply shape_dtor in D. apply shape_move in E. change (shape_le (grown s q) s2) in T. eauto using shape_trans.
Qed.
Lemma sh_to_shape s a q s' : sh_assign_to s a q = Ok s' -> a <> tmp s -> shape_le (grown s q) s'.
Proof.
  intros H N. unfold sh_assign_to in H. apply shape_with_tmp in H as (s1 & E & X); [|exact shape_sh_dtor].
  destruct (c_take (push s) (tmp s) q) as [s2| | | |] eqn:T; try discriminate E. cbn [bind] in E. apply shape_take in T.
  unfold sh_move_assign in E. rewrite (eqb_addr_ne _ _ N) in E. destruct (sh_dtor s2 a) as [s3| | | |] eqn:D; try discriminate E. cbn [bind] in E.
  apply shape_sh_dtor in D. apply shape_move in E. change (shape_le (grown s q) s2) in T. eauto using shape_trans.
Qed.

(** ** Steps *)

Lemma names_held s l a : names s l a -> exists p, slot_at s a = Some (Held p).
Proof. intros H. inversion H; eauto. Qed.
Lemma on_one s l f (P : pstate -> Prop) : sound s -> (forall a, names s l a -> exists s', f s a = Ok s' /\ P s') ->
  match at1 s l f with Ok s' => (exists a, names s l a) /\ P s' | Undef => ~ exists a, names s l a | _ => False end.
Proof.
  intros S F. unfold at1. pose proof (resolve_ok s l S) as R. destruct (resolve s l) as [a|e| | |]; try exact R; cbn [bind].
  - destruct (F a R) as (s' & -> & X). split; [exists a; exact R|exact X].
  - intros (a & X). exact (R a X).
Qed.
Lemma on_two s l o f (P : pstate -> Prop) : sound s -> (forall a b, names s l a -> names s o b -> exists s', f s a b = Ok s' /\ P s') ->
  match at2 s l o f with Ok s' => ((exists a, names s l a) /\ exists b, names s o b) /\ P s' | Undef => ~ ((exists a, names s l a) /\ exists b, names s o b) | _ => False end.
Proof.
  intros S F. unfold at2. pose proof (resolve_ok s l S) as R. destruct (resolve s l) as [a|e| | |]; try exact R; cbn [bind].
  - pose proof (resolve_ok s o S) as R'. destruct (resolve s o) as [b|e| | |]; try exact R'; cbn [bind].
    + destruct (F a b R R') as (s' & -> & X). split; [split; eexists; eassumption|exact X].
    + intros (_ & b & X). exact (R' b X).
  - intros ((a & X) & _). exact (R a X).
Qed.

Definition step_ok (s : pstate) (o : pop) : Prop :=
  match pstep s o with
  | Ok s' => sensible s o /\ effect s o s'
  | Undef => ~ sensible s o
  | _ => False
  end.

Lemma step1 s o l f : pstep s o = at1 s l f -> operands o = [l] -> sound s ->
  (forall a, names s l a -> exists s', f s a = Ok s' /\ effect s o s') -> step_ok s o.
Proof.
  intros E O S F. unfold step_ok, sensible. rewrite E, O. pose proof (on_one s l f (effect s o) S F) as X.
  destruct (at1 s l f) as [s'|e| | |]; try exact X.
  - split; [constructor; [apply X|constructor]|apply X].
  - intros Y. apply X. inversion Y; assumption.
Qed.
Lemma step2 s o l r f : pstep s o = at2 s l r f -> operands o = [l; r] -> sound s ->
  (forall a b, names s l a -> names s r b -> exists s', f s a b = Ok s' /\ effect s o s') -> step_ok s o.
Proof.
  intros E O S F. unfold step_ok, sensible. rewrite E, O. pose proof (on_two s l r f (effect s o) S F) as X.
  destruct (at2 s l r f) as [s'|e| | |]; try exact X.
  - destruct X as ((Y & Z) & X). split; [constructor; [exact Y|constructor; [exact Z|constructor]]|exact X].
  - intros Y. apply X. inversion Y as [|? ? ? Y']. subst. inversion Y'. subst. split; assumption.
Qed.

Lemma copy_step s o l r f : pstep s o = at2 s l r f -> operands o = [l; r] -> (forall s', effect s o s' = copied s l r s') -> sound s ->
  (forall a b p q, live s a -> slot_at s a = Some (Held q) -> slot_at s b = Some (Held p) -> exists s', f s a b = Ok s' /\ becomes s a [(a, p)] s') -> step_ok s o.
Proof.
  intros E O EF S F. apply (step2 s o l r f E O S). intros a b A B. destruct (names_held _ _ _ A) as (q & VA). destruct (names_held _ _ _ B) as (p & VB).
  destruct (F a b p q (names_live _ _ _ A) VA VB) as (s' & X & Y). exists s'. split; [exact X|]. rewrite EF. exists a, b, p. auto.
Qed.

Theorem step_effect s o : sound s -> safe s o -> step_ok s o.
Proof.
  intros S K. destruct o as [c|x|x|l|l q|l r|l r|l r|l r|l|l q|l r|l r|l r|l r|l r|l r].
  - destruct c as [|q|l|l].
    + unfold step_ok. cbn [pstep]. fold (push s) (tmp s). destruct (null_fill s S) as (s1 & -> & F). split; [constructor|]. apply filled_becomes; assumption.
    + unfold step_ok. cbn [pstep]. fold (push s) (tmp s). destruct (take_fill s q S) as (s1 & E & F). rewrite E. split; [constructor|].
      pose proof (filled_becomes s _ s1 S F) as B. split; [exact B|]. apply made_from; [exact S|apply shape_take in E; exact E|apply F|].
      exact (so_held _ (f_sound _ _ _ F) _ _ (f_tmp _ _ _ F)).
    + apply (step1 s (OMake (CCopy l)) l (fun _ a => c_copy (push s) (tmp s) a) eq_refl eq_refl S). intros a A. destruct (names_held _ _ _ A) as (p & V).
      destruct (copy_fill s a p S V) as (s1 & E & F). exists s1. split; [exact E|]. exists a, p. split; [exact A|]. split; [exact V|]. apply filled_becomes; assumption.
    + apply (step1 s (OMake (CMove l)) l (fun _ a => c_move (push s) (tmp s) a) eq_refl eq_refl S). intros a A. destruct (names_held _ _ _ A) as (p & V).
      destruct (move_fill s a p S V) as (s1 & E & F & _). exists s1. split; [exact E|]. exists a, p. split; [exact A|]. split; [exact V|]. apply becomes_push; assumption.
  - apply (step1 s (ODestroy x) (PVar x) c_dtor eq_refl eq_refl S). intros a A. pose proof (names_live _ _ _ A) as L. inversion A; subst. apply ends_ok; auto using c_good.
  - apply (step1 s (SDestroy x) (PVar x) sh_dtor eq_refl eq_refl S). intros a A. pose proof (names_live _ _ _ A) as L. inversion A; subst. apply ends_ok; auto using sh_good.
  - apply (step1 s (OReset l) l c_reset eq_refl eq_refl S). intros a A. destruct (reset_ok s a S (names_live _ _ _ A)) as (s' & E & B & _). exists s'. split; [exact E|]. exists a. auto.
  - apply (step1 s (OResetTo l q) l (fun s a => c_reset_to s a q) eq_refl eq_refl S). intros a A. destruct (reset_to_ok s a q S (names_live _ _ _ A)) as (s' & E & B).
    exists s'. split; [exact E|]. exists a. split; [exact A|]. split; [exact B|]. apply made_from; [exact S|eapply reset_to_shape; [exact E|apply live_tmp, (names_live _ _ _ A)]|apply B|].
    refine (so_held _ (x_sound _ _ _ _ B) a _ _). apply (x_set _ _ _ _ B). left. reflexivity.
  - apply (copy_step s (OCopy l r) l r c_copy_assign eq_refl eq_refl (fun _ => eq_refl) S). intros a b p q L A B. apply copy_assign_ok; assumption.
  - apply (step2 s (OMove l r) l r c_move_assign eq_refl eq_refl S). intros a b A B. destruct (names_held _ _ _ B) as (p & V). unfold c_move_assign.
    destruct (addr_eqb_spec a b) as [->|N]; [exists s; split; [reflexivity|]; exists b, b, p; auto 6|].
    destruct (move_ok c_dtor s a b p c_good S (names_live _ _ _ A) N V (K a b A B)) as (s' & E & X). exists s'. split; [exact E|]. exists a, b, p. auto 6.
  - apply (copy_step s (OCopyConv l r) l r c_copy_assign_conv eq_refl eq_refl (fun _ => eq_refl) S). intros a b p q L A B. eapply copy_conv_ok; eassumption.
  - apply (step2 s (OMoveConv l r) l r c_move_assign_conv eq_refl eq_refl S). intros a b A B. destruct (names_held _ _ _ A) as (q & VA). destruct (names_held _ _ _ B) as (p & VB).
    unfold c_move_assign_conv, read_slot. rewrite VA, VB. cbn [bind]. fold (same_ptr q p). destruct (same_ptr_spec q p) as [->|NE].
    + exists s. split; [reflexivity|]. exists a, b, p, p. auto 7.
    + assert (N : a <> b) by (intros ->; congruence). destruct (move_ok c_dtor s a b p c_good S (names_live _ _ _ A) N VB (K a b A B)) as (s' & E & X).
      exists s'. split; [exact E|]. exists a, b, q, p. auto 7.
  - apply (step1 s (SNull l) l sh_assign_null eq_refl eq_refl S). intros a A. destruct (sh_null_ok s a S (names_live _ _ _ A)) as (s' & E & B). exists s'. split; [exact E|]. exists a. auto.
  - apply (step1 s (STo l q) l (fun s a => sh_assign_to s a q) eq_refl eq_refl S). intros a A. destruct (sh_to_ok s a q S (names_live _ _ _ A)) as (s' & E & B).
    exists s'. split; [exact E|]. exists a. split; [exact A|]. split; [exact B|]. apply made_from; [exact S|eapply sh_to_shape; [exact E|apply live_tmp, (names_live _ _ _ A)]|apply B|].
    refine (so_held _ (x_sound _ _ _ _ B) a _ _). apply (x_set _ _ _ _ B). left. reflexivity.
  - apply (copy_step s (SCopy l r) l r sh_copy_assign eq_refl eq_refl (fun _ => eq_refl) S). intros a b p q L A B. apply sh_copy_assign_ok; assumption.
  - apply (step2 s (SMove l r) l r sh_move_assign eq_refl eq_refl S). intros a b A B. destruct (names_held _ _ _ B) as (p & V). unfold sh_move_assign.
    destruct (addr_eqb_spec a b) as [->|N]; [exists s; split; [reflexivity|]; exists b, b, p; auto 6|].
    destruct (move_ok sh_dtor s a b p sh_good S (names_live _ _ _ A) N V (K a b A B)) as (s' & E & X). exists s'. split; [exact E|]. exists a, b, p. auto 6.
  - apply (copy_step s (SCopyRaw l r) l r sh_copy_assign_raw eq_refl eq_refl (fun _ => eq_refl) S). intros a b p q L A B. apply sh_copy_ok; assumption.
  - apply (step2 s (SMoveRaw l r) l r sh_move_assign_raw eq_refl eq_refl S). intros a b A B. destruct (names_held _ _ _ B) as (p & V). destruct (K a b A B) as (KE & N).
    destruct (move_ok sh_dtor s a b p sh_good S (names_live _ _ _ A) N V KE) as (s' & E & X). exists s'. split; [exact E|]. exists a, b, p. auto 6.
  - apply (copy_step s (SShare l r) l r sh_share eq_refl eq_refl (fun _ => eq_refl) S). intros a b p q L A B. apply sh_share_ok; assumption.
  - apply (step2 s (STransfer l r) l r sh_transfer eq_refl eq_refl S). intros a b A B. destruct (names_held _ _ _ B) as (p & V). destruct (K a b A B) as (KE & N).
    destruct (move_ok c_dtor s a b p c_good S (names_live _ _ _ A) N V KE) as (s' & E & X). exists s'. split; [exact E|]. exists a, b, p. auto 6.
Qed.

Lemma effect_sound s o s' : sound s -> effect s o s' -> sound s'.
Proof.
  intros S. destruct o as [[|q|l|l]|x|x|l|l q|l r|l r|l r|l r|l|l q|l r|l r|l r|l r|l r|l r]; cbn [effect].
  - apply x_sound.
  - intros (B & _). apply B.
  - intros (a & p & _ & _ & B). apply B.
  - intros (a & p & _ & _ & B). apply B.
  - apply e_sound.
  - apply e_sound.
  - intros (a & _ & B). apply B.
  - intros (a & _ & B & _). apply B.
  - intros (a & b & p & _ & _ & _ & B). apply B.
  - intros (a & b & p & _ & _ & _ & [(_ & ->)|(_ & B)]); [exact S|apply B].
  - intros (a & b & p & _ & _ & _ & B). apply B.
  - intros (a & b & p & q & _ & _ & _ & _ & [(_ & ->)|(_ & B)]); [exact S|apply B].
  - intros (a & _ & B). apply B.
  - intros (a & _ & B & _). apply B.
  - intros (a & b & p & _ & _ & _ & B). apply B.
  - intros (a & b & p & _ & _ & _ & [(_ & ->)|(_ & B)]); [exact S|apply B].
  - intros (a & b & p & _ & _ & _ & B). apply B.
  - intros (a & b & p & _ & _ & _ & [(_ & ->)|(_ & B)]); [exact S|apply B].
  - intros (a & b & p & _ & _ & _ & B). apply B.
  - intros (a & b & p & _ & _ & _ & [(_ & ->)|(_ & B)]); [exact S|apply B].
Qed.

Lemma init_sound : sound pinit.
Proof.
  assert (C : forall b, ctl_of pinit b = None) by (intros [|b]; reflexivity).
  constructor.
  - reflexivity.
  - intros b c E. rewrite C in E. discriminate.
  - intros [[|x]|[|b] i] c E; discriminate E.
  - intros b c E. rewrite C in E. discriminate.
  - intros [|b] _; reflexivity.
  - constructor.
  - intros b. cbn. lia.
Qed.
Lemma plain_safe s o : plain o -> safe s o.
Proof.
  destruct o as [c|x|x|l|l q|l r|l r|l r|l r|l|l q|l r|l r|l r|l r|l r|l r]; cbn [plain safe]; try exact (fun _ => I).
  all: destruct r as [x|r i]; [|contradiction].
  1,2,3: intros _ a b A B; inversion B; subst; exact I.
  all: intros N a b A B; inversion B; subst; split; [exact I|]; intros ->; apply N; inversion A; reflexivity.
Qed.

(** ** Without cycles *)

Lemma bounded_rank (rank : nat -> nat) n : exists m, forall b, (b < n)%nat -> (rank b <= m)%nat.
Proof.
  induction n as [|n (m & IH)]; [exists O; lia|]. exists (Nat.max m (rank n)). intros b L.
  destruct (Nat.eq_dec b n) as [->|N]; [lia|]. specialize (IH b ltac:(lia)). lia.
Qed.
Lemma inv_reached h s b : inv h [] s -> (match h with Some a => slot_at s a = Some Raw | None => True end) -> acyclic s -> ctl_of s b <> None -> reached s h b.
Proof.
  intros H R (rank & RK). destruct (bounded_rank rank (length (ctls s))) as (m & M).
  assert (G : forall k b, (m - rank b < k)%nat -> ctl_of s b <> None -> reached s h b).
  { induction k as [|k IH]; [lia|]. clear b. intros b L C. destruct (ctl_of s b) as [c|] eqn:E; [|contradiction].
    destruct (i_live _ _ _ H b c E) as [[]|P]. apply holders_pos in P as (a & V).
    assert (NH : h <> Some a) by (intros ->; congruence).
    destruct a as [x|d i]; [eapply Reach_var; eauto|]. assert (D : ctl_of s d <> None).
    { intros D. apply (i_gone _ _ _ H) in D. cbn [slot_at] in V. rewrite D in V. discriminate. }
    eapply Reach_fld; [|exact NH|exact V]. apply IH; [|exact D]. pose proof (RK d i b V).
    assert (d < length (ctls s))%nat; [|specialize (M d ltac:(assumption)); lia].
    apply nth_error_Some. unfold ctl_of in D. destruct (nth_error (ctls s) d); congruence. }
  intros C. apply (G (S (m - rank b)) b); [lia|exact C].
Qed.
Lemma gone_or_kept s a s1 o : released s a s1 -> acyclic s -> slot_at s1 o <> None -> kept s a o.
Proof.
  intros R (rank & RK) V. destruct o as [x|b i]; [exact I|]. cbn [kept]. assert (A1 : acyclic s1).
  { exists rank. intros d j c W. assert (N : AFld d j <> a) by (intros <-; rewrite (r_raw _ _ _ R) in W; discriminate). apply (RK d j c), (r_slot _ _ _ R _ _ N W). }
  assert (X : reached s1 (Some a) b).
  { apply inv_reached; [apply R|apply R|exact A1|]. intros C. apply (i_gone _ _ _ (r_inv _ _ _ R)) in C. cbn [slot_at] in V. rewrite C in V. contradiction. }
  revert X. apply reach_mono. intros a' u N _ W. apply (r_slot _ _ _ R _ _ N W).
Qed.
