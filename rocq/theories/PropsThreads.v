(** C34: counted pointers held by several threads. *)

From Coq Require Import ZArith List Bool Lia.
From Verif Require Import Base BaseFacts HeapOps StoreSteps Threads.
Import ListNotations.
Open Scope Z_scope.

(** ** Statements *)

(** All pointers there are, in all threads. *)
Definition total (s : shared) : Z := fold_right (fun th n => Z.of_nat (has th) + n) 0 (threads s).

(** What holds at every moment: while any thread has a pointer the value is there,
    was never destroyed, and the count is the number of pointers. *)
Definition proper (s : shared) : Prop :=
  (0 < total s -> count s = Some (total s) /\ value s = true /\ ended s = 0%nat) /\
  (ended s <= 1)%nat /\ (value s = true <-> ended s = 0%nat) /\ (count s = None -> ended s = 1%nat).
(** No thread is inside an operation. *)
Definition quiet (s : shared) : Prop := Forall (fun th => at_ th = Idle) (threads s).

(** A program that never acts on a pointer it does not have, handing none over and
    being given none, and the number of pointers it ends with. *)
Fixpoint fits (k : nat) (p : list act) : option nat :=
  match p, k with
  | [], _ => Some k
  | Copy :: r, S j => fits (S (S j)) r
  | Drop :: r, S j => fits j r
  | (Use | Look) :: r, S j => fits (S j) r
  | _, _ => None
  end.

(** ** Invariant *)

Definition busy (th : thread) : Z := match at_ th with Destroying | Deleting => 1 | _ => 0 end.
Definition deleting (th : thread) : Z := match at_ th with Deleting => 1 | _ => 0 end.
Definition plain (th : thread) : Prop := match at_ th with Adding _ | Subbing _ => False | _ => True end.
Definition sum (f : thread -> Z) (l : list thread) : Z := fold_right (fun th n => f th + n) 0 l.

Lemma sum_set f l : forall x u v, nth_error l x = Some u -> sum f (list_set x v l) = sum f l - f u + f v.
Proof.
  induction l as [|w l IH]; intros [|x] u v H; try discriminate H; cbn [list_set nth_error sum fold_right] in *.
  - injection H as ->. lia.
  - fold (sum f (list_set x v l)) (sum f l). rewrite (IH x u v H). lia.
Qed.
Lemma sum_ge f l x u : (forall t, 0 <= f t) -> nth_error l x = Some u -> f u <= sum f l.
Proof.
  intros P. revert x. induction l as [|w l IH]; intros [|x] H; try discriminate H; cbn [nth_error sum fold_right] in *; fold (sum f l).
  - injection H as ->. assert (0 <= sum f l) by (clear - P; induction l; cbn [sum fold_right]; [lia|fold (sum f l); pose proof (P a); lia]). lia.
  - pose proof (IH x H). pose proof (P w). lia.
Qed.
Lemma sum_nonneg f l : (forall t, 0 <= f t) -> 0 <= sum f l.
Proof. intros P. induction l; cbn [sum fold_right]; [lia|fold (sum f l); pose proof (P a); lia]. Qed.
Lemma sum_zero f l x u : (forall t, 0 <= f t) -> sum f l = 0 -> nth_error l x = Some u -> f u = 0.
Proof. intros P Z H. pose proof (sum_ge f l x u P H). pose proof (P u). lia. Qed.

Definition pos (th : thread) : Z := Z.of_nat (has th).
Lemma total_sum s : total s = sum pos (threads s). Proof. reflexivity. Qed.

Record tinv (s : shared) : Prop := {
  t_plain : Forall plain (threads s);
  t_live : forall n, count s = Some n -> n = sum pos (threads s) /\
     sum busy (threads s) = (if n =? 0 then 1 else 0) /\
     (ended s = if value s then 0 else 1)%nat /\ sum deleting (threads s) = (if value s then 0 else 1);
  t_gone : count s = None -> sum pos (threads s) = 0 /\ sum busy (threads s) = 0 /\ ended s = 1%nat /\ value s = false }.

Lemma pos_th k a p : pos (Th k a p) = Z.of_nat k. Proof. reflexivity. Qed.
Lemma busy_th k a p : busy (Th k a p) = match a with Destroying | Deleting => 1 | _ => 0 end. Proof. reflexivity. Qed.
Lemma deleting_th k a p : deleting (Th k a p) = match a with Deleting => 1 | _ => 0 end. Proof. reflexivity. Qed.
Lemma pos_nonneg t : 0 <= pos t. Proof. unfold pos. lia. Qed.
Lemma busy_nonneg t : 0 <= busy t. Proof. unfold busy. destruct (at_ t); lia. Qed.
Lemma deleting_nonneg t : 0 <= deleting t. Proof. unfold deleting. destruct (at_ t); lia. Qed.
Lemma deleting_busy l : sum deleting l <= sum busy l.
Proof.
  induction l as [|t l IH]; cbn [sum fold_right]; [lia|]. fold (sum deleting l) (sum busy l).
  assert (deleting t <= busy t) by (unfold deleting, busy; destruct (at_ t); lia). lia.
Qed.

Lemma Forall_set {A} (P : A -> Prop) l : forall x v, Forall P l -> P v -> Forall P (list_set x v l).
Proof. induction l as [|w l IH]; intros [|x] v F V; cbn [list_set]; inversion F; subst; constructor; auto. Qed.
Lemma Forall_at {A} (P : A -> Prop) l x (u : A) : Forall P l -> nth_error l x = Some u -> P u.
Proof. intros F H. rewrite Forall_forall in F. apply F. eapply nth_error_In; exact H. Qed.

Lemma tinv_put s t th c (v : bool) (e : nat) th' : nth_error (threads s) t = Some th -> tinv s -> plain th' ->
  let p := sum pos (threads s) - pos th + pos th' in
  let b := sum busy (threads s) - busy th + busy th' in
  let d := sum deleting (threads s) - deleting th + deleting th' in
  (forall n, c = Some n -> n = p /\ b = (if n =? 0 then 1 else 0) /\ (e = if v then 0 else 1)%nat /\ d = (if v then 0 else 1)) ->
  (c = None -> p = 0 /\ b = 0 /\ e = 1%nat /\ v = false) ->
  tinv (put s c v e t th').
Proof.
  intros H I P p b d A B. constructor; cbn [put threads count value ended].
  - apply Forall_set; [apply I|exact P].
  - intros n E. rewrite !(sum_set _ _ t th th' H). exact (A n E).
  - intros E. rewrite !(sum_set _ _ t th th' H). exact (B E).
Qed.

Lemma tinv_step s t : tinv s -> match tstep true s t with Ok s' => tinv s' | Undef => True | _ => False end.
Proof.
  intros I. unfold tstep. destruct (nth_error (threads s) t) as [th|] eqn:H; [|exact I].
  pose proof (Forall_at _ _ _ _ (t_plain _ I) H) as PL.
  pose proof (sum_ge pos _ t th pos_nonneg H) as GP. pose proof (sum_ge busy _ t th busy_nonneg H) as GB.
  pose proof (deleting_busy (threads s)) as DB. pose proof (sum_nonneg deleting (threads s) deleting_nonneg) as DN.
  assert (LIVE : (0 < pos th \/ 0 < busy th) -> exists n, count s = Some n).
  { intros Q. destruct (count s) as [n|] eqn:C; [eauto|]. destruct (t_gone _ I C) as (Z & Z' & _). lia. }
  destruct (at_ th) as [|v|v| |] eqn:W.
  - destruct (prog th) as [|a r] eqn:PR; [exact I|]. destruct (has th) as [|k] eqn:K; [destruct a; exact Logic.I|].
    assert (HP : pos th = Z.of_nat k + 1) by (unfold pos; lia). assert (HB : busy th = 0) by (unfold busy; rewrite W; reflexivity).
    assert (HD : deleting th = 0) by (unfold deleting; rewrite W; reflexivity).
    destruct LIVE as (n & C); [lia|]. destruct (t_live _ I n C) as (L1 & L2 & L3 & L4).
    assert (NZ : (n =? 0) = false) by lia. rewrite NZ in L2.
    assert (V : value s = true) by (destruct (value s); [reflexivity|lia]). rewrite V in L3, L4.
    assert (ONE : forall c e k' th', th' = Th k' Idle r -> c = Some (n - Z.of_nat (S k) + Z.of_nat k') -> 0 < n - Z.of_nat (S k) + Z.of_nat k' -> e = ended s -> tinv (put s c true e t th')).
    { intros c e k' th' -> -> Q ->. eapply tinv_put; [exact H|exact I|exact Logic.I| |discriminate]. cbn zeta. intros n' E. injection E as <-.
      rewrite !pos_th, !busy_th, !deleting_th. rewrite HP, HB, HD. replace (_ =? 0) with false by lia. lia. }
    destruct a as [| | | |u]; unfold with_count; rewrite ?C, ?V.
    + eapply ONE with (k' := S (S k)); [reflexivity|f_equal; lia|lia|reflexivity].
    + eapply tinv_put; [exact H|exact I| | |discriminate].
      * unfold plain. cbn [at_]. unfold after. destruct (n - 1 =? 0); exact Logic.I.
      * cbn zeta. intros n' E. injection E as <-. unfold after. rewrite !pos_th, !busy_th, !deleting_th. rewrite HP, HB, HD.
        destruct (n - 1 =? 0); lia.
    + eapply ONE with (k' := S k); [reflexivity|f_equal; lia|lia|reflexivity].
    + eapply ONE with (k' := S k); [reflexivity|f_equal; lia|lia|reflexivity].
    + set (s1 := put s (Some n) true (ended s) t (Th k Idle r)). destruct (nth_error (threads s1) u) as [th'|] eqn:U; [|exact Logic.I].
      assert (PL1 : Forall plain (threads s1)) by (apply Forall_set; [apply I|exact Logic.I]).
      constructor; cbn [put threads count value ended s1].
      * apply Forall_set; [exact PL1|]. exact (Forall_at _ _ _ _ PL1 U).
      * intros n' E. injection E as <-. fold s1. rewrite !(sum_set _ _ u th' _ U). cbn [s1 put threads]. rewrite !(sum_set _ _ t th _ H).
        rewrite !pos_th, !busy_th, !deleting_th, HP, HB, HD, NZ. fold (busy th') (deleting th').
        assert (pos th' = Z.of_nat (has th')) by reflexivity. lia.
      * discriminate.
  - unfold plain in PL. rewrite W in PL. contradiction.
  - unfold plain in PL. rewrite W in PL. contradiction.
  - assert (HB : busy th = 1) by (unfold busy; rewrite W; reflexivity). assert (HD : deleting th = 0) by (unfold deleting; rewrite W; reflexivity).
    destruct LIVE as (n & C); [lia|]. destruct (t_live _ I n C) as (L1 & L2 & L3 & L4). unfold with_count. rewrite C.
    destruct (n =? 0) eqn:Z; [|lia].
    assert (V : value s = true).
    { destruct (value s); [reflexivity|]. exfalso. clear - H L2 L4 HB HD. revert t H L2 L4. induction (threads s) as [|w l IH]; intros [|t] H L2 L4; try discriminate H;
      cbn [nth_error sum fold_right] in *; fold (sum busy l) (sum deleting l) in *; pose proof (deleting_busy l); pose proof (sum_nonneg deleting l deleting_nonneg).
      - injection H as ->. lia.
      - pose proof (sum_ge busy l t th busy_nonneg H). assert (busy w = 0 /\ deleting w <= busy w) by (unfold busy, deleting in *; destruct (at_ w); lia).
        pose proof (deleting_nonneg w). apply (IH t H); lia. }
    rewrite V in *. eapply tinv_put; [exact H|exact I|exact Logic.I| |discriminate]. cbn zeta. intros n' E. injection E as <-.
    rewrite !pos_th, !busy_th, !deleting_th. change (Z.of_nat (has th)) with (pos th). rewrite HB, HD, Z. lia.
  - assert (HB : busy th = 1) by (unfold busy; rewrite W; reflexivity). assert (HD : deleting th = 1) by (unfold deleting; rewrite W; reflexivity).
    destruct LIVE as (n & C); [lia|]. destruct (t_live _ I n C) as (L1 & L2 & L3 & L4). unfold with_count. rewrite C.
    pose proof (sum_ge deleting _ t th deleting_nonneg H). destruct (n =? 0) eqn:Z; [|lia]. destruct (value s) eqn:V; [lia|].
    eapply tinv_put; [exact H|exact I|exact Logic.I|discriminate|]. cbn zeta. intros _.
    rewrite !pos_th, !busy_th. change (Z.of_nat (has th)) with (pos th). rewrite HB. lia.
Qed.

Lemma tinv_run sched : forall s, tinv s -> match trun true s sched with Ok s' => tinv s' | Undef => True | _ => False end.
Proof.
  induction sched as [|t r IH]; intros s I; [exact I|]. cbn [trun]. pose proof (tinv_step s t I) as X.
  destruct (tstep true s t) as [s1|e| | |]; try exact X. cbn [bind]. apply IH, X.
Qed.

(** ** Theorems *)

(** A value just made, with its pointers spread over the threads. *)
Definition fresh (s : shared) : Prop :=
  count s = Some (total s) /\ 0 < total s /\ value s = true /\ ended s = 0%nat /\ quiet s.

Lemma fresh_inv s : fresh s -> tinv s.
Proof.
  intros (C & P & V & E & Q). assert (B : sum busy (threads s) = 0 /\ sum deleting (threads s) = 0).
  { clear - Q. unfold quiet in Q. induction Q as [|th l A _ IH]; [split; reflexivity|]. cbn [sum fold_right]. fold (sum busy l) (sum deleting l).
    unfold busy at 1, deleting at 1. rewrite A. lia. }
  constructor.
  - eapply Forall_impl; [|exact Q]. intros th A. unfold plain. rewrite A. exact I.
  - intros n N. rewrite C in N. injection N as <-. rewrite V, E. replace (total s =? 0) with false by lia. split; [reflexivity|]. tauto.
  - rewrite C. discriminate.
Qed.
Lemma inv_proper s : tinv s -> proper s.
Proof.
  intros I. split; [|split; [|split]].
  - intros P. destruct (count s) as [n|] eqn:C; [|destruct (t_gone _ I C) as (Z & _); rewrite total_sum in P; lia].
    destruct (t_live _ I n C) as (N & B & E & D). rewrite <- total_sum in N. replace (n =? 0) with false in B by lia.
    pose proof (deleting_busy (threads s)). destruct (value s); [|lia]. subst n. auto.
  - destruct (count s) as [n|] eqn:C; [destruct (t_live _ I n C) as (_ & _ & E & _); destruct (value s); lia|].
    destruct (t_gone _ I C) as (_ & _ & E & _). lia.
  - destruct (count s) as [n|] eqn:C.
    + destruct (t_live _ I n C) as (_ & _ & E & _). destruct (value s); split; intros X; try reflexivity; try lia; discriminate.
    + destruct (t_gone _ I C) as (_ & _ & E & V). rewrite E, V. split; discriminate.
  - intros C. apply (t_gone _ I C).
Qed.

(** At every moment of every schedule of any programs: freed memory is never
    touched, the value is there as long as some thread has a pointer, and it is
    destroyed at most once.  Programs stop only at their own mistakes. *)
Theorem c34_never_early s sched : fresh s ->
  match trun true s sched with Ok s' => proper s' | Undef => True | _ => False end.
Proof.
  intros F. pose proof (tinv_run sched s (fresh_inv s F)) as X. destruct (trun true s sched); try exact X. apply inv_proper, X.
Qed.
Print Assumptions c34_never_early.

(** When no pointer is left and no thread is inside an operation the value has been
    destroyed exactly once and its control block deleted. *)
Theorem c34_exactly_once s sched s' : fresh s -> trun true s sched = Ok s' -> total s' = 0 -> quiet s' ->
  ended s' = 1%nat /\ value s' = false /\ count s' = None.
Proof.
  intros F R T Q. pose proof (tinv_run sched s (fresh_inv s F)) as I. rewrite R in I.
  assert (B : sum busy (threads s') = 0).
  { clear - Q. unfold quiet in Q. induction Q as [|th l A _ IH]; [reflexivity|]. cbn [sum fold_right]. fold (sum busy l). unfold busy at 1. rewrite A. lia. }
  destruct (count s') as [n|] eqn:C; [|destruct (t_gone _ I C) as (_ & _ & E & V); auto].
  destruct (t_live _ I n C) as (N & Z & _). rewrite <- total_sum, T in N. subst n. cbn in Z. lia.
Qed.
Print Assumptions c34_exactly_once.

(** Programs that only act on pointers they have: no schedule stops them, each
    thread can always finish by itself, and if they drop all they have the value is
    destroyed exactly once whatever the schedule was. *)
Definition fitting (s : shared) : Prop := Forall (fun th => fits (has th) (prog th) <> None) (threads s).
Definition dropping (s : shared) : Prop := Forall (fun th => fits (has th) (prog th) = Some 0%nat) (threads s).
Definition finished (s : shared) : Prop := Forall (fun th => at_ th = Idle /\ prog th = []) (threads s).

Lemma fits_step s t (P : option nat -> Prop) : tinv s -> Forall (fun th => P (fits (has th) (prog th))) (threads s) -> ~ P None ->
  exists s', tstep true s t = Ok s' /\ Forall (fun th => P (fits (has th) (prog th))) (threads s').
Proof.
  intros I F NP. pose proof (tinv_step s t I) as X. unfold tstep in *. destruct (nth_error (threads s) t) as [th|] eqn:H; [|exists s; split; [reflexivity|exact F]].
  pose proof (Forall_at _ _ _ _ F H) as FT. cbn beta in FT.
  assert (G : forall c v e th', P (fits (has th') (prog th')) -> Forall (fun th => P (fits (has th) (prog th))) (threads (put s c v e t th'))).
  { intros. cbn [put threads]. apply Forall_set; assumption. }
  pose proof (Forall_at _ _ _ _ (t_plain _ I) H) as PL. unfold with_count in *. destruct (at_ th) as [|v|v| |] eqn:W.
  - destruct (prog th) as [|a r] eqn:PR; [exists s; split; [reflexivity|exact F]|].
    destruct (has th) as [|k] eqn:K; [exfalso; apply NP; destruct a; exact FT|].
    destruct a as [| | | |u]; [| | | |exfalso; apply NP; exact FT]; (destruct (count s) as [n|]; [|contradiction]); try (eexists; split; [reflexivity|apply G; exact FT]).
    destruct (value s); [|contradiction]. eexists. split; [reflexivity|apply G; exact FT].
  - unfold plain in PL. rewrite W in PL. contradiction.
  - unfold plain in PL. rewrite W in PL. contradiction.
  - destruct (count s); [|contradiction]. destruct (value s); [|contradiction]. eexists. split; [reflexivity|apply G; exact FT].
  - destruct (count s); [|contradiction]. eexists. split; [reflexivity|apply G; exact FT].
Qed.

Lemma fits_run (P : option nat -> Prop) sched : forall s, tinv s -> Forall (fun th => P (fits (has th) (prog th))) (threads s) -> ~ P None ->
  exists s', trun true s sched = Ok s' /\ tinv s' /\ Forall (fun th => P (fits (has th) (prog th))) (threads s').
Proof.
  induction sched as [|t r IH]; intros s I F NP; [exists s; auto|]. cbn [trun]. destruct (fits_step s t P I F NP) as (s1 & E & F1).
  pose proof (tinv_step s t I) as X. rewrite E in *. cbn [bind]. apply IH; assumption.
Qed.

Theorem c34_no_mistakes s sched : fresh s -> fitting s -> exists s', trun true s sched = Ok s' /\ proper s' /\ fitting s'.
Proof.
  intros F T. destruct (fits_run (fun o => o <> None) sched s (fresh_inv s F) T ltac:(congruence)) as (s' & R & I & T').
  exists s'. split; [exact R|]. split; [apply inv_proper, I|exact T'].
Qed.
Print Assumptions c34_no_mistakes.

Theorem c34_all_dropped s sched : fresh s -> dropping s ->
  exists s', trun true s sched = Ok s' /\ proper s' /\
    (finished s' -> ended s' = 1%nat /\ value s' = false /\ count s' = None).
Proof.
  intros F T. destruct (fits_run (fun o => o = Some 0%nat) sched s (fresh_inv s F) T ltac:(discriminate)) as (s' & R & I & T').
  exists s'. split; [exact R|]. split; [apply inv_proper, I|]. intros N. apply (c34_exactly_once s sched s' F R).
  - unfold total. clear - T' N. revert T'. unfold finished in N. induction N as [|th l (A & B) _ IH]; intros T; [reflexivity|]. inversion T as [|? ? X Y]; subst.
    cbn [fold_right]. rewrite (IH Y). rewrite B in X. cbn [fits] in X. injection X as ->. reflexivity.
  - eapply Forall_impl; [|exact N]. intros th (A & _). exact A.
Qed.
Print Assumptions c34_all_dropped.

(** Any schedule can be carried on until every thread is finished: nothing blocks. *)
Definition work (th : thread) : nat :=
  3 * length (prog th) + match at_ th with Destroying => 2 | Deleting => 1 | _ => 0 end.
Definition works (l : list thread) : nat := fold_right (fun th n => work th + n)%nat O l.
Lemma works_set l : forall x u v, nth_error l x = Some u -> (works (list_set x v l) + work u = works l + work v)%nat.
Proof.
  induction l as [|w l IH]; intros [|x] u v H; try discriminate H; cbn [list_set nth_error works fold_right] in *.
  - injection H as ->. lia.
  - fold (works (list_set x v l)) (works l). pose proof (IH x u v H). lia.
Qed.
Lemma works_step s t th s' : tstep true s t = Ok s' -> nth_error (threads s) t = Some th -> (forall u r, prog th <> Give u :: r) ->
  (0 < work th)%nat -> plain th -> (works (threads s') < works (threads s))%nat.
Proof.
  intros E H NG W PL. unfold tstep in E. rewrite H in E. unfold with_count, plain, work in *.
  assert (G : forall c v e th', (work th' < work th)%nat -> (works (threads (put s c v e t th')) < works (threads s))%nat).
  { intros c v e th' L. cbn [put threads]. pose proof (works_set (threads s) t th th' H). lia. }
  unfold work in G. destruct (at_ th) as [|v|v| |] eqn:A; try contradiction.
  - destruct (prog th) as [|a r] eqn:P; [cbn in W; lia|]. destruct (has th) as [|k]; [destruct a; discriminate E|].
    destruct a as [| | | |u]; [| | | |exfalso; exact (NG u r eq_refl)]; (destruct (count s) as [n|]; [|discriminate E]); try (apply Ok_inj in E; subst s'; apply G; cbn [prog at_ length]; try lia).
    + unfold after. destruct (n - 1 =? 0); lia.
    + destruct (value s); [|discriminate E]. apply Ok_inj in E. subst s'. apply G. cbn [prog at_ length]. lia.
  - destruct (count s); [|discriminate E]. destruct (value s); [|discriminate E]. apply Ok_inj in E. subst s'. apply G. cbn [prog at_]. lia.
  - destruct (count s); [|discriminate E]. apply Ok_inj in E. subst s'. apply G. cbn [prog at_]. lia.
Qed.
Lemma finish_from (P : option nat -> Prop) : ~ P None -> forall n s, (works (threads s) < n)%nat -> tinv s -> Forall (fun th => P (fits (has th) (prog th))) (threads s) ->
  exists more s', trun true s more = Ok s' /\ finished s'.
Proof.
  intros NP. induction n as [|n IH]; [lia|]. intros s L I F.
  destruct (Exists_dec (fun th => (0 < work th)%nat) (threads s) (fun th => Compare_dec.lt_dec 0 (work th))) as [X|X].
  - apply Exists_exists in X as (th & IN & W). apply In_nth_error in IN as (t & H).
    destruct (fits_step s t P I F NP) as (s1 & E & F1). pose proof (tinv_step s t I) as I1. rewrite E in I1.
    destruct (IH s1) as (more & s' & R & D); [|exact I1|exact F1|].
    + pose proof (Forall_at _ _ _ _ F H) as FT. cbn beta in FT.
      assert (NG : forall u r, prog th <> Give u :: r) by (intros u r Q; rewrite Q in FT; cbn [fits] in FT; apply NP; destruct (has th); exact FT).
      pose proof (works_step s t th s1 E H NG W (Forall_at _ _ _ _ (t_plain _ I) H)). lia.
    + exists (t :: more), s'. split; [cbn [trun]; rewrite E; exact R|exact D].
  - exists [], s. split; [reflexivity|]. apply Forall_forall. intros th IN.
    assert (W : work th = 0%nat) by (destruct (Nat.eq_dec (work th) 0) as [Q|Q]; [exact Q|]; exfalso; apply X, Exists_exists; exists th; split; [exact IN|lia]).
    pose proof (proj1 (Forall_forall _ _) (t_plain _ I) th IN) as PL. unfold work, plain in *.
    destruct (prog th); [|cbn [length] in W; lia]. destruct (at_ th); try contradiction; try lia. auto.
Qed.
Theorem c34_can_finish s sched : fresh s -> dropping s ->
  exists more s', trun true s (sched ++ more) = Ok s' /\ finished s' /\ ended s' = 1%nat /\ value s' = false /\ count s' = None.
Proof.
  intros F T. destruct (fits_run (fun o => o = Some 0%nat) sched s (fresh_inv s F) T ltac:(discriminate)) as (s1 & R & I & T').
  destruct (finish_from (fun o => o = Some 0%nat) ltac:(discriminate) _ s1 (Nat.lt_succ_diag_r _) I T') as (more & s' & R' & D).
  assert (RR : trun true s (sched ++ more) = Ok s').
  { clear - R R'. revert s R. induction sched as [|t r IH]; intros s R; cbn [trun app] in *; [apply Ok_inj in R; subst; exact R'|].
    destruct (tstep true s t) as [s2| | | |]; try discriminate R. cbn [bind] in *. apply IH, R. }
  exists more, s'. split; [exact RR|]. split; [exact D|].
  destruct (c34_all_dropped s (sched ++ more) F T) as (s'' & R2 & _ & X). rewrite RR in R2. apply Ok_inj in R2. subst s''. exact (X D).
Qed.
Print Assumptions c34_can_finish.

(** ** Cases *)

Definition three : shared :=
  Sh (Some 4) true 0 [Th 2 Idle [Use; Drop; Drop]; Th 1 Idle [Copy; Drop; Look; Drop]; Th 1 Idle [Use; Drop]].
Example c34_cases : fresh three /\ dropping three /\ fitting three.
Proof.
  split; [split; [reflexivity|split; [reflexivity|split; [reflexivity|split; [reflexivity|]]]]|split].
  all: unfold quiet, dropping, fitting; apply Forall_forall; intros th [<-|[<-|[<-|[]]]]; vm_compute; try reflexivity; discriminate.
Qed.
Example c34_three : trun true three [0; 1; 2; 2; 0; 1; 1; 0; 1; 1; 1; 0; 2]%nat =
  Ok (Sh None false 1 [Th 0 Idle []; Th 0 Idle []; Th 0 Idle []]).
Proof. vm_compute. reflexivity. Qed.
Example c34_given : trun true (Sh (Some 1) true 0 [Th 1 Idle [Copy; Give 1; Drop]; Th 0 Idle [Use; Drop]]) [0; 0; 0; 1; 1; 1; 1; 0]%nat =
  Ok (Sh None false 1 [Th 0 Idle []; Th 0 Idle []]).
Proof. vm_compute. reflexivity. Qed.

(** ** Without atomic steps *)

(** unsafe_ptr has a plain counter: two drops can lose one decrement, and then the
    value is never destroyed; two copies can lose one increment, and then it is
    destroyed while a thread still uses it. *)
Theorem c34_plain_counter_refuted :
  (fresh (Sh (Some 2) true 0 [Th 1 Idle [Drop]; Th 1 Idle [Drop]]) /\
   trun false (Sh (Some 2) true 0 [Th 1 Idle [Drop]; Th 1 Idle [Drop]]) [0; 1; 0; 1]%nat =
     Ok (Sh (Some 1) true 0 [Th 0 Idle []; Th 0 Idle []])) /\
  (fresh (Sh (Some 2) true 0 [Th 1 Idle [Copy; Drop; Use]; Th 1 Idle [Copy; Drop; Drop]]) /\
   trun false (Sh (Some 2) true 0 [Th 1 Idle [Copy; Drop; Use]; Th 1 Idle [Copy; Drop; Drop]]) [0; 1; 0; 1; 0; 0; 1; 1; 1; 1; 1; 1; 0]%nat = Oob).
Proof.
  split; (split; [split; [reflexivity|split; [reflexivity|split; [reflexivity|split; [reflexivity|]]]]; apply Forall_forall; intros th [<-|[<-|[]]]; reflexivity|vm_compute; reflexivity]).
Qed.
Print Assumptions c34_plain_counter_refuted.
