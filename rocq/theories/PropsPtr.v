(** C33: counted pointers.  [sound], [effect], [safe] are in SpecPtr.v. *)

From Coq Require Import ZArith List Bool Lia.
From Verif Require Import Base SpecPtr Ptr PtrFacts PtrOps PtrSteps PtrEffect.
Import ListNotations.
Open Scope Z_scope.

(** ** One operation, any state *)

(** From any sound state an operation that [safe] allows never touches freed memory
    and never runs out of fuel: it either names pointers that do not exist, which is
    the caller's mistake and is noticed before anything happens, or does exactly
    what [effect] says, which leaves a sound state. *)
Theorem c33_step s o : sound s -> safe s o ->
  match pstep s o with
  | Ok s' => sensible s o /\ effect s o s' /\ sound s'
  | Undef => ~ sensible s o
  | _ => False
  end.
Proof.
  intros S K. pose proof (step_effect s o S K) as X. unfold step_ok in X. destruct (pstep s o) as [s'|e| | |]; try exact X.
  destruct X as (A & B). split; [exact A|]. split; [exact B|]. eapply effect_sound; eassumption.
Qed.
Print Assumptions c33_step.

(** ** Histories *)

(** A history in which each step is safe when its turn comes. *)
Inductive history : pstate -> list pop -> pstate -> Prop :=
| H_nil s : history s [] s
| H_cons s o s1 os s' : sensible s o -> safe s o -> effect s o s1 -> history s1 os s' -> history s (o :: os) s'.

Theorem c33_history os : forall s, sound s ->
  (forall pre o s1, prun s pre = Ok s1 -> (exists post, os = pre ++ o :: post) -> sensible s1 o /\ safe s1 o) ->
  exists s', prun s os = Ok s' /\ history s os s' /\ sound s'.
Proof.
  induction os as [|o os IH]; intros s S K; [exists s; split; [reflexivity|]; split; [constructor|exact S]|].
  destruct (K [] o s eq_refl (ex_intro _ os eq_refl)) as (KS & KF). pose proof (c33_step s o S KF) as X. cbn [prun].
  destruct (pstep s o) as [s1|e| | |] eqn:E; try contradiction. destruct X as (_ & EF & S1). cbn [bind].
  destruct (IH s1 S1) as (s' & R & H & S').
  { intros pre o' s2 P (post & ->). apply (K (o :: pre) o' s2); [cbn [prun]; rewrite E; exact P|exists post; reflexivity]. }
  exists s'. split; [exact R|]. split; [|exact S']. econstructor; eassumption.
Qed.
Print Assumptions c33_history.

(** Whatever the history, as long as pointers are moved out of variables only: every
    outcome is a sound state or a caller's mistake. *)
Theorem c33_plain_history os : Forall plain os ->
  match prun pinit os with Ok s => sound s | Undef => True | _ => False end.
Proof.
  intros F. generalize init_sound. generalize pinit. induction F as [|o os P _ IH]; intros s S; [exact S|]. cbn [prun].
  pose proof (c33_step s o S (plain_safe s o P)) as X. destruct (pstep s o) as [s1|e| | |]; try exact X; [|exact I].
  apply IH, X.
Qed.
Print Assumptions c33_plain_history.

(** ** Counts and pointees *)

Theorem c33_observers s a p : sound s -> slot_at s a = Some (Held p) ->
  c_bool s a = Ok (match p with Some _ => true | None => false end) /\
  c_use_count s a = Ok (match p with Some b => holders s b | None => 0 end) /\
  (exists q, c_get s a = Ok q /\
     match q with Some b => p = Some b /\ obj_of s b <> None | None => forall b, p = Some b -> obj_of s b = None end).
Proof.
  intros S A. unfold c_bool, c_use_count, c_get, read_slot, ctl_at. rewrite A. cbn [bind]. split; [reflexivity|].
  destruct p as [b|]; [|split; [reflexivity|exists None; split; [reflexivity|discriminate]]].
  pose proof (so_held _ S a b A) as C. destruct (ctl_of s b) as [c|] eqn:E; [|contradiction]. cbn [bind]. destruct (so_count _ S b c E) as (N & _).
  split; [rewrite N; reflexivity|]. pose proof (so_pointee _ S b c E) as P. destruct (owns c).
  - exists (Some b). split; [reflexivity|]. split; [reflexivity|]. destruct P as (fs & -> & _). discriminate.
  - exists None. split; [reflexivity|]. intros b' B. injection B as <-. exact P.
Qed.
Print Assumptions c33_observers.

(** unique() says whether this is the only pointer to the block, == whether two
    pointers hold the same block. *)
Theorem c33_unique s a p : sound s -> slot_at s a = Some (Held p) ->
  exists u, c_unique s a = Ok u /\
    (u = true <-> exists b, p = Some b /\ forall a', slot_at s a' = Some (Held (Some b)) -> a' = a).
Proof.
  intros S A. destruct (c33_observers s a p S A) as (_ & C & _). unfold c_unique. rewrite C. cbn [bind].
  eexists. split; [reflexivity|]. destruct p as [b|]; [|split; [discriminate|intros (b & X & _); discriminate]].
  pose proof (written_holders s a (Held (Some b)) Raw b A) as W. cbn [holds Z.b2z] in W. rewrite Nat.eqb_refl in W. cbn [Z.b2z] in W.
  assert (K : holders (written s a Raw) b = 0 <-> forall a', slot_at s a' = Some (Held (Some b)) -> a' = a).
  { split.
    - intros Z a' A'. destruct (addr_eqb_spec a' a) as [E|N]; [exact E|exfalso].
      apply (count0 _ _ Z a'). rewrite (written_at _ _ _ _ _ A). destruct (addr_eqb_spec a' a); [contradiction|exact A'].
    - intros U. pose proof (holders_nonneg (written s a Raw) b). destruct (Z.eq_dec (holders (written s a Raw) b) 0) as [E|E]; [exact E|exfalso].
      assert (P : 0 < holders (written s a Raw) b) by lia. apply holders_pos in P as (a' & V).
      rewrite (written_at _ _ _ _ _ A) in V. destruct (addr_eqb_spec a' a) as [E'|N]; [discriminate V|]. exact (N (U a' V)). }
  rewrite Z.eqb_eq. split.
  - intros H. exists b. split; [reflexivity|]. apply K. lia.
  - intros (b' & B & U). injection B as <-. apply K in U. lia.
Qed.
Print Assumptions c33_unique.

Theorem c33_equal s a p o q : slot_at s a = Some (Held p) -> slot_at s o = Some (Held q) ->
  exists e, c_eq s a o = Ok e /\ (e = true <-> p = q).
Proof.
  intros A O. unfold c_eq, read_slot. rewrite A, O. cbn [bind]. eexists. split; [reflexivity|].
  destruct p as [b|], q as [c|]; try (split; discriminate); [|split; reflexivity].
  rewrite Nat.eqb_eq. split; [intros ->; reflexivity|intros H; injection H; auto].
Qed.
Print Assumptions c33_equal.

(** A pointer alone is unique, with a copy it is not, and both are equal. *)
Example unique_case :
  exists s, prun pinit [OMake (CTake (Some 0%nat)); OMake (CCopy (PVar 0)); OMake (CTake (Some 0%nat))] = Ok s /\
    c_unique s (AVar 0) = Ok false /\ c_unique s (AVar 2) = Ok true /\
    c_eq s (AVar 0) (AVar 1) = Ok true /\ c_eq s (AVar 0) (AVar 2) = Ok false.
Proof. eexists. split; [vm_compute; reflexivity|]. split; [|split; [|split]]; vm_compute; reflexivity. Qed.

(** A pointee exists as long as something holds it and not longer, its deleter has
    been called exactly once when it is gone, and not before. *)
Theorem c33_lifetime s b : sound s -> (b < length (ctls s))%nat ->
  (ctl_of s b <> None <-> 0 < holders s b) /\
  (0 < holders s b -> ~ In b (deleted s)) /\
  (holders s b = 0 -> ctl_of s b = None /\ obj_of s b = None /\ count_occ Nat.eq_dec (deleted s) b = 1%nat).
Proof.
  intros S L. assert (E : ctl_of s b <> None <-> 0 < holders s b).
  { split.
    - intros C. destruct (ctl_of s b) as [c|] eqn:E; [|contradiction]. apply (so_count _ S b c E).
    - intros P. apply holders_pos in P as (a & V). exact (so_held _ S a b V). }
  split; [exact E|]. split.
  - intros P I. apply (so_deleted _ S) in I as (_ & N). apply E in P. contradiction.
  - intros Z. assert (N : ctl_of s b = None) by (destruct (ctl_of s b); [exfalso; assert (0 < holders s b) by (apply E; discriminate); lia|reflexivity]).
    split; [exact N|]. split; [apply (so_gone _ S b N)|].
    assert (I : In b (deleted s)) by (apply (so_deleted _ S); split; assumption).
    apply NoDup_count_occ'; [apply S|exact I].
Qed.
Print Assumptions c33_lifetime.

(** Nothing leaks as long as no pointee holds itself: what is alive is reached from
    the variables, and when they are all gone so is everything. *)
Theorem c33_no_leak s : sound s -> acyclic s ->
  (forall b, ctl_of s b <> None <-> reached s None b) /\
  ((forall x b, slot_at s (AVar x) <> Some (Held (Some b))) ->
   forall b, (b < length (ctls s))%nat -> ctl_of s b = None /\ obj_of s b = None /\ In b (deleted s)).
Proof.
  intros S A. assert (R : forall b, ctl_of s b <> None <-> reached s None b).
  { intros b. split; [|apply reached_live, S]. apply inv_reached; [apply inv_sound, S|exact I|exact A]. }
  split; [exact R|]. intros V b L. assert (N : forall c, ~ reached s None c) by (intros c; induction 1 as [x c _ W|]; [exact (V x c W)|assumption]).
  assert (C : ctl_of s b = None) by (destruct (ctl_of s b) eqn:E; [exfalso; apply (N b), R; congruence|reflexivity]).
  split; [exact C|]. split; [apply (so_gone _ S b C)|]. apply (so_deleted _ S). split; assumption.
Qed.
Print Assumptions c33_no_leak.

(** ** How sharp [safe] is *)

(** Moving between different pointers works, or the source went with what the
    target held and freed memory is read.  Without cycles the first happens exactly
    when the source is still reached without the target. *)
Theorem c33_move_exact s a b p : sound s -> live s a -> a <> b -> slot_at s b = Some (Held p) ->
  exists s1, c_dtor s a = Ok s1 /\
  (slot_at s1 b <> None -> exists s', c_move_assign s a b = Ok s' /\ becomes s a [(a, p); (b, None)] s') /\
  (slot_at s1 b = None -> c_move_assign s a b = Oob) /\
  (acyclic s -> (slot_at s1 b <> None <-> kept s a b)).
Proof.
  intros S L N V. destruct (move_any c_dtor s a b p c_good S L N V) as (s1 & E & R & X). exists s1. split; [exact E|].
  unfold c_move_assign. rewrite (eqb_addr_ne _ _ N). destruct (move_any c_dtor s a b p c_good S L N V) as (s2 & E2 & _ & Y).
  rewrite E in E2. injection E2 as <-. split; [|split].
  - intros W. destruct X as [X|(_ & X)]; [exact X|contradiction].
  - intros W. rewrite E. cbn [bind]. unfold c_move, read_slot. rewrite W. reflexivity.
  - intros A. split; [apply gone_or_kept with (1 := R); exact A|]. intros K. rewrite (r_kept _ _ _ R b ltac:(congruence) K), V. discriminate.
Qed.
Print Assumptions c33_move_exact.

(** ** Cases *)

(** A list of two nodes held by a variable, and a second holder of the tail. *)
Definition two : list pop :=
  [OMake (CTake (Some 1%nat)); OResetTo (PFld (PVar 0) 0) (Some 1%nat); OMake (CCopy (PFld (PVar 0) 0))].
Example c33_two : prun pinit two =
  Ok (PSt [Some (Ctl 1 true); Some (Ctl 2 true)] [Some [Held (Some 1%nat)]; Some [Held None]] [Held (Some 0%nat); Held (Some 1%nat)] []).
Proof. vm_compute. reflexivity. Qed.
(** Copying the tail over the head of the list, shared or not, and dropping everything. *)
Example c33_advance : prun pinit (two ++ [OCopy (PVar 0) (PFld (PVar 0) 0)]) =
  Ok (PSt [None; Some (Ctl 2 true)] [None; Some [Held None]] [Held (Some 1%nat); Held (Some 1%nat)] [0%nat]).
Proof. vm_compute. reflexivity. Qed.
Example c33_dropped : prun pinit (two ++ [SDestroy 1; ODestroy 0]) =
  Ok (PSt [None; None] [None; None] [Raw; Raw] [0%nat; 1%nat]).
Proof. vm_compute. reflexivity. Qed.
Example c33_cases : exists s, prun pinit two = Ok s /\ sound s /\ acyclic s /\ reached s None 1%nat /\
  safe s (OMove (PVar 0) (PVar 1)) /\ sensible s (OMove (PVar 0) (PVar 1)) /\ live s (AVar 0%nat) /\ ~ kept s (AVar 0%nat) (AFld 0 0) /\ kept s (AVar 1%nat) (AFld 0 0).
Proof.
  eexists. split; [exact c33_two|]. set (s := PSt _ _ _ _).
  assert (PL : Forall plain two) by (unfold two; constructor; [exact I|constructor; [exact I|constructor; [exact I|constructor]]]).
  split; [pose proof (c33_plain_history two PL) as X; rewrite c33_two in X; exact X|].
  split; [exists (fun b => 1 - b)%nat; intros [|[|[|b]]] [|[|i]] c E; cbn in E; try discriminate E; injection E as <-; cbn; lia|].
  split; [eapply (Reach_fld s None 0 0 1); [eapply (Reach_var s None 0%nat); [discriminate|reflexivity]|discriminate|reflexivity]|].
  split; [intros a b _ B; inversion B; exact I|].
  split; [constructor; [exists (AVar 0); econstructor; reflexivity|constructor; [exists (AVar 1); econstructor; reflexivity|constructor]]|].
  split; [split; [exists (Some 0%nat); reflexivity|exact I]|]. split.
  - intros K. assert (G : forall c, reached s (Some (AVar 0%nat)) c -> c = 1%nat).
    { induction 1 as [x c N V|c i d _ IH _ V].
      - destruct x as [|[|x]]; [congruence|injection V as <-; reflexivity|destruct x; discriminate V].
      - subst c. destruct i as [|i]; [discriminate V|destruct i; discriminate V]. }
    apply G in K. discriminate.
  - eapply Reach_var with (x := 0%nat); [discriminate|reflexivity].
Qed.

(** ** What does not hold *)

(** [p = std::move(p->next)], with nothing else holding the first node: the node goes
    before the source, which is in it, is read. *)
Theorem c33_move_from_pointee_refuted :
  exists s, prun pinit [OMake (CTake (Some 1%nat)); OResetTo (PFld (PVar 0) 0) (Some 1%nat)] = Ok s /\
    sensible s (OMove (PVar 0) (PFld (PVar 0) 0)) /\
    pstep s (OMove (PVar 0) (PFld (PVar 0) 0)) = Oob /\ pstep s (SMove (PVar 0) (PFld (PVar 0) 0)) = Oob.
Proof.
  eexists. split; [vm_compute; reflexivity|]. split; [|split; vm_compute; reflexivity].
  constructor; [exists (AVar 0); econstructor; reflexivity|]. constructor; [|constructor].
  exists (AFld 0 0). eapply Names_fld; [econstructor; reflexivity|reflexivity|reflexivity].
Qed.
Print Assumptions c33_move_from_pointee_refuted.

(** A shareable_ptr given its own wrapped pointer, [p = std::move(p.raw())] or
    [std::move(p).transfer(p.raw())]: the overloads without a check for that destroy
    the pointer and then read it. *)
Theorem c33_self_move_raw_refuted :
  exists s, prun pinit [OMake (CTake (Some 0%nat))] = Ok s /\
    sensible s (SMoveRaw (PVar 0) (PVar 0)) /\ pstep s (SMove (PVar 0) (PVar 0)) = Ok s /\
    pstep s (SMoveRaw (PVar 0) (PVar 0)) = Oob /\ pstep s (STransfer (PVar 0) (PVar 0)) = Oob.
Proof.
  eexists. split; [vm_compute; reflexivity|]. split; [|split; [|split]; vm_compute; reflexivity].
  constructor; [exists (AVar 0); econstructor; reflexivity|]. constructor; [|constructor]. exists (AVar 0); econstructor; reflexivity.
Qed.
Print Assumptions c33_self_move_raw_refuted.

(** A pointee that holds itself outlives every variable. *)
Theorem c33_cycle_refuted :
  exists s, prun pinit [OMake (CTake (Some 1%nat)); OCopy (PFld (PVar 0) 0) (PVar 0); ODestroy 0] = Ok s /\
    (forall x b, slot_at s (AVar x) <> Some (Held (Some b))) /\ ctl_of s 0 = Some (Ctl 1 true) /\ deleted s = [].
Proof.
  eexists. split; [vm_compute; reflexivity|]. split; [|split; reflexivity]. intros [|[|x]] b; discriminate.
Qed.
Print Assumptions c33_cycle_refuted.

(** A pointer made from a null pointer is true and has a count, but points to nothing. *)
Theorem c33_null_owner_refuted :
  exists s, prun pinit [OMake (CTake None)] = Ok s /\
    c_bool s (AVar 0) = Ok true /\ c_use_count s (AVar 0) = Ok 1 /\ c_get s (AVar 0) = Ok None.
Proof. eexists. split; [vm_compute; reflexivity|]. split; [|split]; vm_compute; reflexivity. Qed.
Print Assumptions c33_null_owner_refuted.
