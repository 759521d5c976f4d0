(** The operations of counted pointers keep memory sound. *)

From Coq Require Import ZArith List Bool Lia ZifyBool ZifyNat.
From Verif Require Import Base HeapOps StoreSteps SpecPtr Ptr PtrFacts.
Import ListNotations.
Open Scope Z_scope.

(** ** Reachability *)
Lemma reached_any s h b : reached s h b -> reached s None b.
Proof. induction 1; [eapply Reach_var|eapply Reach_fld]; eauto; discriminate. Qed.
Lemma reached_own s b i c : reached s None c -> reached s (Some (AFld b i)) c \/ reached s (Some (AFld b i)) b.
Proof.
  induction 1 as [x c _ V|c j d _ IH _ V].
  - left. eapply Reach_var; [|exact V]. discriminate.
  - destruct IH as [IH|IH]; [|right; exact IH]. destruct (addr_eqb_spec (AFld b i) (AFld c j)) as [E|N].
    + injection E as -> ->. right. exact IH.
    + left. eapply Reach_fld; [exact IH| |exact V]. congruence.
Qed.
Lemma reached_live s h b : sound s -> reached s h b -> ctl_of s b <> None.
Proof. intros H. induction 1 as [x b _ V|b i c _ _ _ V]; exact (so_held _ H _ _ V). Qed.

(** A pointer that can be named. *)
Definition live (s : pstate) (a : addr) : Prop :=
  (exists p, slot_at s a = Some (Held p)) /\ match a with AFld b _ => reached s None b | AVar _ => True end.
Lemma live_own s a : live s a -> match a with AFld b _ => reached s (Some a) b | AVar _ => True end.
Proof. intros (_ & H). destruct a as [x|b i]; [exact I|]. destruct (reached_own s b i b H); assumption. Qed.
Lemma names_live s l a : names s l a -> live s a.
Proof.
  induction 1 as [x p V|l a b i p N IH V W]; (split; [eauto|]).
  - exact I.
  - destruct IH as (_ & R). destruct a as [x|c j]; [eapply Reach_var; [|exact V]; discriminate|].
    eapply Reach_fld; [exact R| |exact V]. discriminate.
Qed.
Lemma names_det s l a : names s l a -> forall a', names s l a' -> a = a'.
Proof.
  induction 1 as [x p V|l a b i p N IH V W]; intros a' N'; inversion N'; subst; [reflexivity|].
  match goal with K : names s l ?a0 |- _ => specialize (IH _ K) end. subst. congruence.
Qed.
Lemma resolve_ok s l : sound s ->
  match resolve s l with Ok a => names s l a | Undef => forall a, ~ names s l a | _ => False end.
Proof.
  intros H. induction l as [x|l IH i]; cbn [resolve].
  - destruct (nth_error (pvars s) x) as [[|p]|] eqn:E.
    + intros a N. inversion N; subst. cbn [slot_at] in *. congruence.
    + apply (Names_var s x p E).
    + intros a N. inversion N; subst. cbn [slot_at] in *. congruence.
  - destruct (resolve s l) as [a| | | |]; try contradiction; cbn [bind].
    2:{ intros a N. inversion N; subst. exact (IH _ H2). }
    pose proof (names_live _ _ _ IH) as ((p & P) & _). unfold read_slot. rewrite P. cbn [bind].
    assert (D : forall a', names s (PFld l i) a' -> exists b q, p = Some b /\ a' = AFld b i /\ slot_at s (AFld b i) = Some (Held q)).
    { intros a' N. inversion N; subst. match goal with K : names s l ?a0 |- _ => pose proof (names_det _ _ _ IH _ K); subst end.
      match goal with K : slot_at s _ = Some (Held (Some ?b0)) |- _ => exists b0 end. eexists. split; [congruence|]. eauto. }
    destruct p as [b|]; [|intros a' N; destruct (D a' N) as (b & q & E & _); discriminate].
    pose proof (so_held _ H _ _ P) as C. unfold ctl_at. destruct (ctl_of s b) as [c|] eqn:CE; [|contradiction]. cbn [bind].
    pose proof (so_pointee _ H b c CE) as F. destruct (owns c).
    + destruct F as (fs & O & NR). rewrite O. destruct (Nat.ltb_spec i (length fs)) as [L|L].
      * destruct (nth_error fs i) as [u|] eqn:U; [|apply nth_error_None in U; lia].
        destruct u as [|q]; [destruct NR; eapply nth_error_In; exact U|].
        eapply Names_fld; [exact IH|exact P|]. cbn [slot_at]. rewrite O. exact U.
      * intros a' N. destruct (D a' N) as (b' & q & E & _ & S). injection E as <-. cbn [slot_at] in S. rewrite O in S.
        assert (i < length fs)%nat by (apply nth_error_Some; congruence). lia.
    + intros a' N. destruct (D a' N) as (b' & q & E & _ & S). injection E as <-. cbn [slot_at] in S. rewrite F in S. discriminate.
Qed.

(** ** Holes *)
Lemma inv_weaken h s : inv None [] s -> inv h [] s.
Proof.
  intros H. constructor; try apply H. intros b c C N. pose proof (i_pointee _ _ _ H b c C N) as P. unfold pointee_ok in *.
  destruct (owns c); [|exact P]. destruct P as (fs & O & Q). exists fs. split; [exact O|]. intros i I. discriminate (Q i I).
Qed.
Lemma inv_fill h s a : inv (Some a) [] s -> slot_at s a <> Some Raw -> inv h [] s.
Proof.
  intros H V. constructor; try apply H. intros b c C N. pose proof (i_pointee _ _ _ H b c C N) as P. unfold pointee_ok in *.
  destruct (owns c); [|exact P]. destruct P as (fs & O & Q). exists fs. split; [exact O|]. intros i I.
  specialize (Q i I). injection Q as ->. cbn [slot_at] in V. rewrite O in V. contradiction.
Qed.
Lemma inv_var s x : inv (Some (AVar x)) [] s -> sound s.
Proof.
  intros H. apply inv_sound. constructor; try apply H. intros b c C N. pose proof (i_pointee _ _ _ H b c C N) as P. unfold pointee_ok in *.
  destruct (owns c); [|exact P]. destruct P as (fs & O & Q). exists fs. split; [exact O|]. intros i I. discriminate (Q i I).
Qed.

(** Writing a pointer to nothing, or to a block that gets one more on its count. *)
Lemma written_obj_none s a u v b : slot_at s a = Some u -> obj_of (written s a v) b = None <-> obj_of s b = None.
Proof.
  intros A. rewrite (written_obj _ _ _ _ _ A). destruct a as [x|c i]; [tauto|]. destruct (Nat.eqb b c); [|tauto].
  destruct (obj_of s b); cbn [option_map]; split; congruence.
Qed.
Lemma written_pointee h s a u q b c : slot_at s a = Some u -> pointee_ok h s b c -> pointee_ok h (written s a (Held q)) b c.
Proof.
  intros A. unfold pointee_ok. destruct (owns c); [|apply (written_obj_none _ _ _ _ _ A)].
  intros (fs & O & P). rewrite (written_obj _ _ _ _ _ A). destruct a as [x|b' i]; [eauto|].
  destruct (Nat.eqb_spec b b') as [->|N]; [|eauto]. rewrite O. cbn [option_map]. exists (list_set i (Held q) fs). split; [reflexivity|].
  intros j J. apply P. destruct (Nat.eq_dec j i) as [->|M].
  - cbn [slot_at] in A. rewrite O in A. assert (i < length fs)%nat by (apply nth_error_Some; congruence).
    rewrite nth_set_same in J by assumption. discriminate.
  - rewrite nth_set_other in J by assumption. exact J.
Qed.

Definition bump (s : pstate) (p : option nat) : pstate :=
  match p with
  | Some b => match ctl_of s b with Some c => set_ctl s b (Some (Ctl (cnt c + 1) (owns c))) | None => s end
  | None => s
  end.
Lemma bump_at s p a : slot_at (bump s p) a = slot_at s a.
Proof. destruct p as [b|]; [|reflexivity]. cbn. destruct (ctl_of s b); [apply set_ctl_at|reflexivity]. Qed.
Lemma bump_vars s p : pvars (bump s p) = pvars s.
Proof. destruct p as [b|]; [|reflexivity]. cbn. destruct (ctl_of s b); reflexivity. Qed.

(** Putting a pointer into a slot that held nothing. *)
Lemma put_ok h s a p u : inv (Some a) [] s -> slot_at s a = Some u -> (u = Raw \/ u = Held None) ->
  (forall b, p = Some b -> ctl_of s b <> None) -> inv h [] (bump (written s a (Held p)) p).
Proof.
  intros H A U C. apply (inv_fill h _ a).
  2:{ rewrite bump_at, (written_at _ _ _ _ _ A). destruct (addr_eqb_spec a a); congruence. }
  assert (HH : forall b, holders (written s a (Held p)) b = holders s b + Z.b2z (holds b (Held p))).
  { intros b. rewrite (written_holders _ _ _ _ _ A). destruct U as [->| ->]; cbn [holds Z.b2z]; lia. }
  destruct p as [b|].
  2:{ cbn [bump]. constructor; rewrite ?written_ctls, ?written_objs_len, ?written_deleted; try apply H.
    - intros b c. rewrite written_ctl, HH. cbn [holds Z.b2z]. rewrite Z.add_0_r. apply H.
    - intros b c. rewrite written_ctl, HH. cbn [holds Z.b2z]. rewrite Z.add_0_r. apply H.
    - intros b [].
    - intros a' b. rewrite (written_at _ _ _ _ _ A), written_ctl. destruct (addr_eqb a' a); [discriminate|apply H].
    - intros f [].
    - intros b c. rewrite written_ctl. intros X N. eapply written_pointee; [exact A|]. apply (i_pointee _ _ _ H b c X N).
    - intros b. rewrite written_ctl. intros X. apply (written_obj_none _ _ _ _ _ A). apply (i_gone _ _ _ H b X).
    - intros b. rewrite written_ctl. apply H. }
  specialize (C b eq_refl). cbn [bump]. rewrite written_ctl. destruct (ctl_of s b) as [c|] eqn:CE; [clear C|contradiction].
  set (s1 := written s a (Held (Some b))) in *. set (s2 := set_ctl s1 b (Some (Ctl (cnt c + 1) (owns c)))).
  assert (CO : forall y, ctl_of s2 y = if Nat.eqb y b then Some (Ctl (cnt c + 1) (owns c)) else ctl_of s y).
  { intros y. unfold s2. rewrite set_ctl_of by (unfold s1; rewrite written_ctls; eapply ctl_lt; eassumption). unfold s1. rewrite written_ctl. reflexivity. }
  assert (HO : forall y, holders s2 y = holders s y + (if Nat.eqb y b then 1 else 0)).
  { intros y. change (holders s2 y) with (holders s1 y). rewrite HH. cbn [holds]. destruct (Nat.eqb y b); reflexivity. }
  constructor.
  - unfold s2. rewrite set_ctl_len. cbn [set_ctl objs]. unfold s1. rewrite written_ctls, written_objs_len. apply H.
  - intros y x. rewrite CO, HO. destruct (Nat.eqb_spec y b) as [->|N]; [injection 1 as <-|intros X].
    + cbn [cnt]. rewrite (i_count _ _ _ H b c CE). reflexivity.
    + rewrite (i_count _ _ _ H y x X). lia.
  - intros y x. rewrite CO, HO. destruct (Nat.eqb_spec y b) as [->|N]; [injection 1 as <-|intros X].
    + right. pose proof (holders_nonneg s b). lia.
    + rewrite Z.add_0_r. apply (i_live _ _ _ H y x X).
  - intros y [].
  - constructor.
  - intros a' y. unfold s2 at 1. rewrite set_ctl_at. unfold s1. rewrite (written_at _ _ _ _ _ A). rewrite CO.
    destruct (Nat.eqb_spec y b) as [->|N]; [discriminate|]. destruct (addr_eqb a' a); [congruence|apply H].
  - intros f [].
  - intros y x. rewrite CO. destruct (Nat.eqb_spec y b) as [->|N]; [injection 1 as <-|intros X]; intros NI.
    + eapply pointee_ok_ctl; [| |eapply written_pointee; [exact A|exact (i_pointee _ _ _ H b c CE NI)]]; reflexivity.
    + eapply pointee_ok_ctl; [| |eapply written_pointee; [exact A|exact (i_pointee _ _ _ H y x X NI)]]; reflexivity.
  - intros y. rewrite CO. destruct (Nat.eqb y b); [discriminate|]. intros X. unfold s2. rewrite set_ctl_obj. apply (written_obj_none _ _ _ _ _ A). apply (i_gone _ _ _ H y X).
  - unfold s2, set_ctl, s1. cbn [deleted]. rewrite written_deleted. apply H.
  - intros y. unfold s2 at 1, set_ctl, s1. cbn [deleted]. rewrite written_deleted, (i_deleted _ _ _ H). rewrite CO.
    replace (length (ctls s2)) with (length (ctls s)) by (unfold s2; rewrite set_ctl_len; unfold s1; rewrite written_ctls; reflexivity).
    destruct (Nat.eqb_spec y b) as [->|N]; [|reflexivity]. rewrite CE. cbn [In]. intuition congruence.
Qed.

(** ** Destruction of one pointer *)
Record released (s : pstate) (a : addr) (s1 : pstate) : Prop := {
  r_inv : inv (Some a) [] s1;
  r_raw : slot_at s1 a = Some Raw;
  r_kept : forall a', a' <> a -> kept s a a' -> slot_at s1 a' = slot_at s a';
  r_slot : forall a' u, a' <> a -> slot_at s1 a' = Some u -> slot_at s a' = Some u;
  r_vars : length (pvars s1) = length (pvars s);
  r_ctls : length (ctls s1) = length (ctls s);
  r_ctl : forall b, ctl_of s1 b <> None -> ctl_of s b <> None }.

Lemma dtor_ok s a : sound s -> live s a -> exists s1, c_dtor s a = Ok s1 /\ released s a s1.
Proof.
  intros SO L. pose proof (live_own s a L) as OWN. destruct L as ((p & A) & _).
  pose proof (proj2 (inv_sound s) SO) as H.
  set (R := reached s (Some a)). set (s1 := written s a Raw).
  assert (AT : forall a', slot_at s1 a' = if addr_eqb a' a then Some Raw else slot_at s a') by (intros; apply (written_at _ _ _ _ _ A)).
  assert (SUP : forall s2 x, (forall a', slot_at s2 a' = slot_at s1 a') -> R x -> exists a', Some a <> Some a' /\ slot_at s2 a' = Some (Held (Some x)) /\ match a' with AVar _ => True | AFld c _ => R c end).
  { intros s2 x Q X. inversion X as [y b N V|b i c X' N V]; subst.
    - exists (AVar y). split; [exact N|]. rewrite Q, AT. destruct (addr_eqb_spec (AVar y) a) as [E|_]; [congruence|]. auto.
    - exists (AFld b i). split; [exact N|]. rewrite Q, AT. destruct (addr_eqb_spec (AFld b i) a) as [E|_]; [congruence|]. auto. }
  pose proof (decr None [] s a p (Some a) [] H A eq_refl) as D.
  match type of D with ?P1 -> ?P2 -> ?P3 -> ?P4 -> _ =>
    assert (D1 : P1); [|assert (D2 : P2); [|assert (D3 : P3); [|assert (D4 : P4); [|specialize (D D1 D2 D3 D4)]]]] end.
  { intros; tauto. }
  { intros f []. }
  { intros b c C N. pose proof (i_pointee _ _ _ H b c C N) as P. unfold pointee_ok in *. destruct (owns c).
    - destruct P as (fs & O & P). rewrite (written_obj _ _ _ _ _ A). destruct a as [x|b' i]; [exists fs; split; [exact O|]; intros j J; discriminate (P j J)|].
      destruct (Nat.eqb_spec b b') as [->|M]; [|exists fs; split; [exact O|]; intros j J; discriminate (P j J)].
      rewrite O. cbn [option_map]. exists (list_set i Raw fs). split; [reflexivity|]. intros j J.
      destruct (Nat.eq_dec j i) as [->|M]; [reflexivity|]. rewrite nth_set_other in J by assumption. discriminate (P j J).
    - apply (written_obj_none _ _ _ _ _ A). exact P. }
  { intros b -> Z i E. injection E as ->. destruct (SUP s1 b (fun _ => eq_refl) OWN) as (a' & _ & Q & _). exact (count0 _ _ Z _ Q). }
  fold s1 in D.
  assert (HOLE : match Some a with Some (AFld b _) => R b | _ => True end) by (destruct a; exact OWN).
  unfold c_dtor. cbn [run]. unfold read_slot. rewrite A. cbn [bind]. rewrite (write_ok _ _ _ Raw A). cbn [bind]. fold s1.
  (* what the states along the way have in common *)
  assert (FIN : forall fr s2 s', pvars s2 = pvars s1 -> (forall b, obj_of s2 b = obj_of s1 b) -> length (ctls s2) = length (ctls s) ->
     (forall b c, ctl_of s2 b = Some c -> exists c0, ctl_of s b = Some c0 /\ owns c0 = owns c) ->
     inv (Some a) [] s' -> supp R (Some a) [] s' -> ended fr s2 s' -> released s a s').
  { intros fr s2 s' E1 E2 E3 E4 I S P.
    assert (OBJ : forall b fs, obj_of s' b = Some fs -> obj_of s1 b = Some fs).
    { intros b fs O. rewrite <- E2. apply (e_obj _ _ _ P b fs); [|exact O]. intros IN. pose proof (e_dead _ _ _ P b IN) as X.
      pose proof (i_gone _ _ _ I b X). congruence. }
    assert (KEEP : forall b, R b -> obj_of s' b = obj_of s1 b).
    { intros b X. destruct (obj_of s' b) as [fs|] eqn:O; [symmetry; apply OBJ, O|].
      destruct (obj_of s1 b) as [fs|] eqn:O1; [|reflexivity]. exfalso.
      destruct (s_held _ _ _ _ S b X) as (a' & _ & V & _). pose proof (i_held _ _ _ I _ _ V) as C'.
      destruct (ctl_of s' b) as [c'|] eqn:CE'; [|contradiction]. pose proof (i_pointee _ _ _ I b c' CE' (fun x => x)) as PO. unfold pointee_ok in PO.
      destruct (owns c') eqn:W; [destruct PO as (fs' & O' & _); congruence|].
      destruct (e_ctl _ _ _ P b c' CE') as (c2 & C2 & W2). destruct (E4 b c2 C2) as (c & CE & W3).
      pose proof (i_pointee _ _ _ H b c CE (fun x => x)) as PS. unfold pointee_ok in PS. rewrite W3, W2, W in PS.
      apply (written_obj_none _ _ _ Raw _ A) in PS. fold s1 in PS. congruence. }
    assert (VARS : pvars s' = pvars s1) by (rewrite (e_vars _ _ _ P); exact E1).
    assert (SLOT1 : forall a' u, slot_at s' a' = Some u -> slot_at s1 a' = Some u).
    { intros [x|b i] u; cbn [slot_at]; [rewrite VARS; exact (fun x => x)|]. destruct (obj_of s' b) as [fs|] eqn:O; [|discriminate].
      rewrite (OBJ b fs O). exact (fun x => x). }
    assert (KEPT1 : forall a', match a' with AVar _ => True | AFld b _ => R b end -> slot_at s' a' = slot_at s1 a').
    { intros [x|b i] K; cbn [slot_at]; [rewrite VARS; reflexivity|]. rewrite (KEEP b K). reflexivity. }
    constructor.
    - exact I.
    - rewrite KEPT1 by (destruct a; exact OWN). rewrite AT. destruct (addr_eqb_spec a a); congruence.
    - intros a' N K. rewrite KEPT1 by exact K. rewrite AT. destruct (addr_eqb_spec a' a); congruence.
    - intros a' u N V. apply SLOT1 in V. rewrite AT in V. destruct (addr_eqb_spec a' a); congruence.
    - rewrite VARS. unfold s1. destruct a as [x|b i]; [apply list_set_length|reflexivity].
    - rewrite (e_len _ _ _ P). exact E3.
    - intros b X. destruct (ctl_of s' b) as [c'|] eqn:CE'; [|contradiction]. destruct (e_ctl _ _ _ P b c' CE') as (c2 & C2 & _).
      destruct (E4 b c2 C2) as (c & CE & _). congruence. }
  assert (WT : (wt s <= weight s)%nat) by (apply wt_weight, SO).
  assert (T1 : forall x, term s1 x = term s x).
  { intros x. unfold term, s1. rewrite written_ctl, (written_slots_len _ _ _ _ _ A). reflexivity. }
  destruct p as [x|].
  - destruct D as (cx & CX & CN & D). unfold ctl_at. replace (ctl_of s1 x) with (Some cx) by (unfold s1; rewrite written_ctl; auto). cbn [bind].
    assert (CX1 : ctl_of s1 x = Some cx) by (unfold s1; rewrite written_ctl; exact CX).
    set (s2 := set_ctl s1 x (Some (Ctl (cnt cx - 1) (owns cx)))) in *. cbn [cnt].
    assert (LEN2 : length (ctls s2) = length (ctls s)) by (unfold s2; rewrite set_ctl_len; unfold s1; rewrite written_ctls; reflexivity).
    assert (C2 : forall y, ctl_of s2 y = if Nat.eqb y x then Some (Ctl (cnt cx - 1) (owns cx)) else ctl_of s y).
    { intros y. unfold s2. rewrite set_ctl_of by (eapply ctl_lt; eassumption). unfold s1. rewrite written_ctl. reflexivity. }
    assert (OW2 : forall b c, ctl_of s2 b = Some c -> exists c0, ctl_of s b = Some c0 /\ owns c0 = owns c).
    { intros b c. rewrite C2. destruct (Nat.eqb_spec b x) as [->|N]; [injection 1 as <-; exists cx; auto|eauto]. }
    assert (SUP2 : supp R (Some a) [] s2).
    { constructor; [intros b _ []|intros b X; exact (SUP s2 b (fun a' => set_ctl_at _ _ _ a') X)|exact HOLE]. }
    assert (XD : 0 < holders s x) by (apply holders_pos; eauto).
    assert (CNX := i_count _ _ _ H x cx CX).
    destruct (Z.eqb_spec (cnt cx - 1) 0) as [Z|Z].
    + destruct D as (D & DE). rewrite DE. cbn [bind]. set (kx := length (slots_of (obj_of s1 x))) in *.
      assert (W2 : (wt s2 + (kx + 2) <= wt s)%nat).
      { apply (wt_drop s s2 x); [exact LEN2|eapply ctl_lt; eassumption| |].
        - intros y N. rewrite <- (T1 y). unfold term. rewrite C2. destruct (Nat.eqb_spec y x); [contradiction|]. unfold s1. rewrite written_ctl. reflexivity.
        - unfold term at 1. rewrite C2, Nat.eqb_refl. cbn [cnt]. rewrite Z. cbn [Z.eqb]. unfold term. rewrite CX.
          unfold kx, s1. rewrite (written_slots_len _ _ _ _ _ A). destruct (Z.eqb_spec (cnt cx) 0); lia. }
      destruct (run_ok (weight s) (Some a) [FObj x kx] s2 R) as (s' & E & I & S & P).
      { cbn [flat_map ftasks]. rewrite !app_length. unfold fields. rewrite map_length, rev_length, seq_length. cbn [length]. lia. }
      { exact D. }
      { constructor; [|apply SUP2|exact HOLE]. intros b X [Q|[]]. cbn [fb] in Q. subst b.
        destruct (s_held _ _ _ _ SUP2 x X) as (a' & _ & V & _). apply (count0 s2 x) in V; [exact V|]. lia. }
      exists s'. split; [exact E|]. apply (FIN [FObj x kx] s2 s'); auto.
    + exists s2. split; [destruct (weight s); reflexivity|]. apply (FIN [] s2 s2); auto.
      constructor; auto; [intros b []|intros b c C; eauto].
  - exists s1. split; [destruct (weight s); reflexivity|]. apply (FIN [] s1 s1); auto.
    + unfold s1. rewrite written_ctls. reflexivity.
    + intros b c. unfold s1. rewrite written_ctl. eauto.
    + constructor; [intros b _ []|intros b X; exact (SUP s1 b (fun a' => eq_refl) X)|exact HOLE].
    + constructor; auto; [intros b []|intros b c C; eauto].
Qed.
