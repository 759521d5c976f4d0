(** Facts about counted pointers: what writing a pointer does to the numbers of
    holders, and that destruction keeps memory sound. *)

From Coq Require Import ZArith List Bool Lia ZifyBool ZifyNat.
From Verif Require Import Base HeapOps StoreSteps SpecPtr Ptr.
Import ListNotations.
Open Scope Z_scope.

(** ** Lists *)
Lemma among_app b l m : among b (l ++ m) = among b l + among b m.
Proof. unfold among. rewrite filter_app, app_length. lia. Qed.
Lemma among_cons b u l : among b (u :: l) = Z.b2z (holds b u) + among b l.
Proof. unfold among. cbn [filter]. destruct (holds b u); cbn [length Z.b2z]; lia. Qed.
Lemma among_nonneg b l : 0 <= among b l. Proof. unfold among. lia. Qed.
Lemma among_set b l : forall x u v, nth_error l x = Some u ->
  among b (list_set x v l) = among b l - Z.b2z (holds b u) + Z.b2z (holds b v).
Proof.
  induction l as [|w l IH]; intros [|x] u v H; try discriminate H; cbn [list_set nth_error] in *.
  - injection H as ->. rewrite !among_cons. lia.
  - rewrite !among_cons. specialize (IH x u v H). lia.
Qed.
Definition slots_of (o : option (list slot)) : list slot := match o with Some fs => fs | None => [] end.
Lemma among_objs b l : forall x u v, nth_error l x = Some u ->
  among b (flat_map slots_of (list_set x v l)) = among b (flat_map slots_of l) - among b (slots_of u) + among b (slots_of v).
Proof.
  induction l as [|w l IH]; intros [|x] u v H; try discriminate H; cbn [list_set nth_error flat_map] in *.
  - injection H as ->. rewrite !among_app. lia.
  - rewrite !among_app. specialize (IH x u v H). lia.
Qed.
Lemma among_pos b l : 0 < among b l -> exists i, nth_error l i = Some (Held (Some b)).
Proof.
  induction l as [|u l IH]; [unfold among; cbn; lia|]. rewrite among_cons. intros H.
  destruct (holds b u) eqn:E.
  - exists 0%nat. destruct u as [|[c|]]; try discriminate E. apply Nat.eqb_eq in E as ->. reflexivity.
  - destruct IH as (i & I); [cbn [Z.b2z] in H; lia|]. exists (S i). exact I.
Qed.
Lemma among_in b l i : nth_error l i = Some (Held (Some b)) -> 0 < among b l.
Proof.
  revert i. induction l as [|u l IH]; intros [|i] H; try discriminate H; rewrite among_cons; cbn [nth_error] in H.
  - injection H as ->. cbn [holds]. rewrite Nat.eqb_refl. pose proof (among_nonneg b l). cbn [Z.b2z]. lia.
  - specialize (IH i H). destruct (holds b u); cbn [Z.b2z]; lia.
Qed.
Lemma holders_eq s b : holders s b = among b (pvars s) + among b (flat_map slots_of (objs s)).
Proof. apply among_app. Qed.
Lemma holders_nonneg s b : 0 <= holders s b. Proof. apply among_nonneg. Qed.

Lemma objs_among b l : 0 < among b (flat_map slots_of l) -> exists c fs i, nth_error l c = Some (Some fs) /\ nth_error fs i = Some (Held (Some b)).
Proof.
  induction l as [|o l IH]; cbn [flat_map]; [unfold among; cbn; lia|]. rewrite among_app. intros H.
  destruct (Z_lt_dec 0 (among b (slots_of o))) as [P|N].
  - destruct o as [fs|]; [|cbn in P; unfold among in P; cbn in P; lia].
    apply among_pos in P as (i & I). exists 0%nat, fs, i. auto.
  - destruct IH as (c & fs & i & C & I); [lia|]. exists (S c), fs, i. auto.
Qed.
Lemma among_objs_in b l c fs i : nth_error l c = Some (Some fs) -> nth_error fs i = Some (Held (Some b)) -> 0 < among b (flat_map slots_of l).
Proof.
  revert c. induction l as [|o l IH]; intros [|c] H I; try discriminate H; cbn [flat_map nth_error] in *; rewrite among_app.
  - injection H as ->. pose proof (among_in b fs i I). pose proof (among_nonneg b (flat_map slots_of l)). cbn [slots_of]. lia.
  - specialize (IH c H I). pose proof (among_nonneg b (slots_of o)). lia.
Qed.

(** Held means that some address holds it. *)
Lemma holders_pos s b : 0 < holders s b <-> exists a, slot_at s a = Some (Held (Some b)).
Proof.
  rewrite holders_eq. split.
  - intros H. destruct (Z_lt_dec 0 (among b (pvars s))) as [P|N].
    + apply among_pos in P as (i & I). exists (AVar i). exact I.
    + destruct (objs_among b (objs s)) as (c & fs & i & C & I); [pose proof (among_nonneg b (pvars s)); lia|].
      exists (AFld c i). cbn [slot_at]. unfold obj_of. rewrite C. exact I.
  - intros ([x|c i] & A); cbn [slot_at] in A.
    + apply among_in in A. pose proof (among_nonneg b (flat_map slots_of (objs s))). lia.
    + unfold obj_of in A. destruct (nth_error (objs s) c) as [[fs|]|] eqn:E; try discriminate A.
      pose proof (among_objs_in _ _ _ _ _ E A). pose proof (among_nonneg b (pvars s)). lia.
Qed.

(** ** Writing a pointer *)
Lemma addr_eqb_spec a b : reflect (a = b) (addr_eqb a b).
Proof.
  destruct a as [x|b1 i], b as [y|b2 j]; cbn [addr_eqb]; try (constructor; congruence).
  - destruct (Nat.eqb_spec x y); constructor; congruence.
  - destruct (Nat.eqb_spec b1 b2), (Nat.eqb_spec i j); constructor; congruence.
Qed.
Lemma obj_of_nth s b fs : obj_of s b = Some fs <-> nth_error (objs s) b = Some (Some fs).
Proof. unfold obj_of. destruct (nth_error (objs s) b) as [[?|]|]; split; congruence. Qed.

Definition written (s : pstate) (a : addr) (v : slot) : pstate :=
  match a with
  | AVar x => PSt (ctls s) (objs s) (list_set x v (pvars s)) (deleted s)
  | AFld b i => PSt (ctls s) (list_set b (Some (list_set i v (match obj_of s b with Some fs => fs | None => [] end))) (objs s)) (pvars s) (deleted s)
  end.
Lemma write_ok s a u v : slot_at s a = Some u -> write_slot s a v = Ok (written s a v).
Proof.
  destruct a as [x|b i]; cbn [slot_at write_slot written]; intros H.
  - rewrite H. reflexivity.
  - destruct (obj_of s b) as [fs|] eqn:E; [|discriminate H]. rewrite H. reflexivity.
Qed.
Lemma written_ctls s a v : ctls (written s a v) = ctls s. Proof. destruct a; reflexivity. Qed.
Lemma written_ctl s a v b : ctl_of (written s a v) b = ctl_of s b. Proof. destruct a; reflexivity. Qed.
Lemma written_deleted s a v : deleted (written s a v) = deleted s. Proof. destruct a; reflexivity. Qed.
Lemma written_objs_len s a v : length (objs (written s a v)) = length (objs s).
Proof. destruct a; cbn [written objs]; [reflexivity|apply list_set_length]. Qed.
Lemma written_obj s a u v b : slot_at s a = Some u ->
  obj_of (written s a v) b = match a with AVar _ => obj_of s b | AFld c i => if Nat.eqb b c then option_map (list_set i v) (obj_of s b) else obj_of s b end.
Proof.
  destruct a as [x|c i]; cbn [slot_at written]; [reflexivity|]. intros H.
  destruct (obj_of s c) as [fs|] eqn:E; [|discriminate H]. apply obj_of_nth in E.
  assert (c < length (objs s))%nat by (apply nth_error_Some; congruence).
  unfold obj_of at 1. cbn [objs]. destruct (Nat.eqb_spec b c) as [->|N].
  - rewrite nth_set_same by assumption. unfold obj_of. rewrite E. reflexivity.
  - rewrite nth_set_other by assumption. reflexivity.
Qed.
Lemma written_at s a u v a' : slot_at s a = Some u ->
  slot_at (written s a v) a' = if addr_eqb a' a then Some v else slot_at s a'.
Proof.
  intros H. destruct a as [x|b i]; [destruct a' as [y|c j]|destruct a' as [y|c j]].
  - cbn [slot_at written pvars addr_eqb] in *. assert (x < length (pvars s))%nat by (apply nth_error_Some; congruence).
    destruct (Nat.eqb_spec y x) as [->|N]; [apply nth_set_same; assumption|apply nth_set_other; assumption].
  - reflexivity.
  - reflexivity.
  - cbn [addr_eqb]. cbn [slot_at]. rewrite (written_obj _ _ _ _ _ H). cbn [slot_at] in H.
    destruct (Nat.eqb_spec c b) as [->|N]; [|reflexivity].
    destruct (obj_of s b) as [fs|] eqn:E; [|discriminate H]. cbn [option_map andb].
    assert (i < length fs)%nat by (apply nth_error_Some; congruence).
    destruct (Nat.eqb_spec j i) as [->|M]; [apply nth_set_same; assumption|apply nth_set_other; assumption].
Qed.
Lemma written_holders s a u v b : slot_at s a = Some u ->
  holders (written s a v) b = holders s b - Z.b2z (holds b u) + Z.b2z (holds b v).
Proof.
  rewrite !holders_eq. destruct a as [x|c i]; cbn [slot_at written pvars objs]; intros H.
  - rewrite (among_set b _ x u v H). lia.
  - destruct (obj_of s c) as [fs|] eqn:E; [|discriminate H]. apply obj_of_nth in E.
    rewrite (among_objs b _ c _ _ E). cbn [slots_of]. rewrite (among_set b _ i u v H). lia.
Qed.

(** ** Setting a control block *)
Lemma set_ctl_of s b c b' : (b < length (ctls s))%nat -> ctl_of (set_ctl s b c) b' = if Nat.eqb b' b then c else ctl_of s b'.
Proof.
  intros L. unfold ctl_of, set_ctl. cbn [ctls]. destruct (Nat.eqb_spec b' b) as [->|N].
  - rewrite nth_set_same by assumption. destruct c; reflexivity.
  - rewrite nth_set_other by assumption. reflexivity.
Qed.
Lemma set_ctl_obj s b c b' : obj_of (set_ctl s b c) b' = obj_of s b'. Proof. reflexivity. Qed.
Lemma set_ctl_at s b c a : slot_at (set_ctl s b c) a = slot_at s a. Proof. destruct a; reflexivity. Qed.
Lemma set_ctl_holders s b c b' : holders (set_ctl s b c) b' = holders s b'. Proof. reflexivity. Qed.
Lemma set_ctl_len s b c : length (ctls (set_ctl s b c)) = length (ctls s).
Proof. apply list_set_length. Qed.
Lemma ctl_lt s b c : ctl_of s b = Some c -> (b < length (ctls s))%nat.
Proof. unfold ctl_of. intros H. apply nth_error_Some. destruct (nth_error (ctls s) b); congruence. Qed.

(** ** The state of affairs while blocks are being ended *)
Inductive frame : Type := FObj (b k : nat) | FCtl (b : nat).
Definition fb (f : frame) : nat := match f with FObj b _ | FCtl b => b end.
Definition ftasks (f : frame) : list task :=
  match f with FObj b k => fields b k ++ [DObj b; DCtl b] | FCtl b => [DCtl b] end.

Definition frame_ok (s : pstate) (f : frame) : Prop :=
  match f with
  | FObj b k => exists c, ctl_of s b = Some c /\
      if owns c then exists fs, obj_of s b = Some fs /\ (k <= length fs)%nat /\
           (forall i, (i < k)%nat -> exists p, nth_error fs i = Some (Held p)) /\
           (forall i, (k <= i < length fs)%nat -> nth_error fs i = Some Raw)
      else k = 0%nat /\ obj_of s b = None
  | FCtl b => ctl_of s b <> None /\ obj_of s b = None
  end.
Definition pointee_ok (hole : option addr) (s : pstate) (b : nat) (c : ctl) : Prop :=
  if owns c then exists fs, obj_of s b = Some fs /\ forall i, nth_error fs i = Some Raw -> hole = Some (AFld b i)
  else obj_of s b = None.

Record inv (hole : option addr) (fr : list frame) (s : pstate) : Prop := {
  i_len : length (ctls s) = length (objs s);
  i_count : forall b c, ctl_of s b = Some c -> cnt c = holders s b;
  i_live : forall b c, ctl_of s b = Some c -> In b (map fb fr) \/ 0 < holders s b;
  i_dying : forall b, In b (map fb fr) -> holders s b = 0;
  i_nodup : NoDup (map fb fr);
  i_held : forall a b, slot_at s a = Some (Held (Some b)) -> ctl_of s b <> None;
  i_frame : forall f, In f fr -> frame_ok s f;
  i_pointee : forall b c, ctl_of s b = Some c -> ~ In b (map fb fr) -> pointee_ok hole s b c;
  i_gone : forall b, ctl_of s b = None -> obj_of s b = None;
  i_once : NoDup (deleted s);
  i_deleted : forall b, In b (deleted s) <-> (b < length (ctls s))%nat /\ (ctl_of s b = None \/ In (FCtl b) fr) }.

Lemma inv_sound s : inv None [] s <-> sound s.
Proof.
  split; intros H; constructor; try apply H.
  - intros b c C. destruct (i_live _ _ _ H b c C) as [[]|P]. split; [apply (i_count _ _ _ H), C|exact P].
  - intros b c C. pose proof (i_pointee _ _ _ H b c C (fun x => x)) as P. unfold pointee_ok in P.
    destruct (owns c); [|exact P]. destruct P as (fs & F & N). exists fs. split; [exact F|].
    intros I. apply In_nth_error in I as (i & I). discriminate (N i I).
  - intros b. rewrite (i_deleted _ _ _ H). cbn [In]. tauto.
  - intros b c C. destruct (so_count _ H b c C). right. assumption.
  - intros b [].
  - constructor.
  - intros f [].
  - intros b c C _. pose proof (so_pointee _ H b c C) as P. unfold pointee_ok.
    destruct (owns c); [|exact P]. destruct P as (fs & F & N). exists fs. split; [exact F|].
    intros i I. apply nth_error_In in I. contradiction.
  - intros b. rewrite (so_deleted _ H). cbn [In]. tauto.
Qed.

(** Blocks that cannot end: each is held by a variable or by another of them. *)
Record supp (R : nat -> Prop) (hole : option addr) (fr : list frame) (s : pstate) : Prop := {
  s_dying : forall b, R b -> ~ In b (map fb fr);
  s_held : forall b, R b -> exists a, hole <> Some a /\ slot_at s a = Some (Held (Some b)) /\
     match a with AVar _ => True | AFld c _ => R c end;
  s_hole : match hole with Some (AFld b _) => R b | _ => True end }.

Lemma count0 s b : holders s b = 0 -> forall a, slot_at s a <> Some (Held (Some b)).
Proof. intros H a A. assert (0 < holders s b) by (apply holders_pos; eauto). lia. Qed.

Lemma frame_ok_ctl s s2 f : (forall b, obj_of s2 b = obj_of s b) ->
  (forall b c, ctl_of s b = Some c -> exists c2, ctl_of s2 b = Some c2 /\ owns c2 = owns c) ->
  frame_ok s f -> frame_ok s2 f.
Proof.
  intros O C. destruct f as [b k|b]; cbn [frame_ok].
  - intros (c & E & F). destruct (C b c E) as (c2 & E2 & W). exists c2. split; [exact E2|].
    rewrite W. destruct (owns c); rewrite O; exact F.
  - intros (N & F). rewrite O. split; [|exact F]. destruct (ctl_of s b) as [c|] eqn:E; [|contradiction].
    destruct (C b c E) as (c2 & E2 & _). congruence.
Qed.
Lemma pointee_ok_ctl h s s2 b c c2 : obj_of s2 b = obj_of s b -> owns c2 = owns c -> pointee_ok h s b c -> pointee_ok h s2 b c2.
Proof. unfold pointee_ok. intros O ->. rewrite O. exact (fun x => x). Qed.

Lemma decr hole fr s a p hole' fr0 :
  inv hole fr s -> slot_at s a = Some (Held p) ->
  map fb fr0 = map fb fr -> (forall b, In (FCtl b) fr0 <-> In (FCtl b) fr) ->
  (forall f, In f fr0 -> frame_ok (written s a Raw) f) ->
  (forall b c, ctl_of s b = Some c -> ~ In b (map fb fr) -> pointee_ok hole' (written s a Raw) b c) ->
  (forall b, p = Some b -> holders (written s a Raw) b = 0 -> forall i, hole' <> Some (AFld b i)) ->
  match p with
  | None => inv hole' fr0 (written s a Raw)
  | Some b => exists c, ctl_of s b = Some c /\
      let s2 := set_ctl (written s a Raw) b (Some (Ctl (cnt c - 1) (owns c))) in
      let k := length (slots_of (obj_of (written s a Raw) b)) in
      cnt c - 1 = holders s2 b /\
      if cnt c - 1 =? 0 then inv hole' (FObj b k :: fr0) s2 /\ destroy s2 b (Ctl (cnt c - 1) (owns c)) = Ok (ftasks (FObj b k))
      else inv hole' fr0 s2
  end.
Proof.
  intros H A F1 F2 F3 F4 F5.
  assert (HH : forall b v, holders (written s a v) b = holders s b - Z.b2z (holds b (Held p)) + Z.b2z (holds b v)) by (intros; apply written_holders; exact A).
  assert (AT : forall a' b, slot_at (written s a Raw) a' = Some (Held (Some b)) -> slot_at s a' = Some (Held (Some b))).
  { intros a' b. rewrite (written_at _ _ _ _ _ A). destruct (addr_eqb a' a); [discriminate|auto]. }
  assert (OG : forall b, ctl_of s b = None -> obj_of (written s a Raw) b = None).
  { intros b C. pose proof (i_gone _ _ _ H b C) as G. rewrite (written_obj _ _ _ _ _ A). destruct a; [exact G|]. rewrite G. destruct (Nat.eqb _ _); reflexivity. }
  destruct p as [b|].
  2:{ constructor; rewrite ?written_ctls, ?written_objs_len, ?written_deleted, ?F1; try (setoid_rewrite written_ctl); try apply H.
    - intros b c C. rewrite HH. cbn [holds Z.b2z]. rewrite (i_count _ _ _ H b c C). lia.
    - intros b c C. rewrite HH. cbn [holds Z.b2z]. destruct (i_live _ _ _ H b c C); [left; assumption|right; lia].
    - intros b I. rewrite HH. cbn [holds Z.b2z]. rewrite (i_dying _ _ _ H b I). reflexivity.
    - intros a' b I. apply (i_held _ _ _ H a' b (AT _ _ I)).
    - exact F3.
    - intros b c C N. apply F4; assumption.
    - exact OG.
    - intros b. rewrite F2. apply H. }
  assert (NC := i_held _ _ _ H a b A). destruct (ctl_of s b) as [c|] eqn:C; [|contradiction]. clear NC.
  exists c. split; [reflexivity|]. set (c' := Ctl (cnt c - 1) (owns c)). set (s1 := written s a Raw) in *.
  set (s2 := set_ctl s1 b (Some c')). cbv zeta.
  assert (L : (b < length (ctls s1))%nat) by (unfold s1; rewrite written_ctls; eapply ctl_lt; eassumption).
  assert (CO : forall b', ctl_of s2 b' = if Nat.eqb b' b then Some c' else ctl_of s b').
  { intros b'. unfold s2. rewrite set_ctl_of by exact L. unfold s1. rewrite written_ctl. reflexivity. }
  assert (OWN : forall b' x, ctl_of s1 b' = Some x -> exists y, ctl_of s2 b' = Some y /\ owns y = owns x).
  { intros b' x. unfold s1 at 1. rewrite written_ctl. intros X. rewrite CO. destruct (Nat.eqb_spec b' b) as [->|N].
    - exists c'. split; [reflexivity|]. assert (x = c) by congruence. subst. reflexivity.
    - exists x. auto. }
  assert (HO : forall b', holders s2 b' = holders s b' - (if Nat.eqb b' b then 1 else 0)).
  { intros b'. unfold s2. rewrite set_ctl_holders. unfold s1. rewrite HH. cbn [holds Z.b2z]. destruct (Nat.eqb b' b); cbn [Z.b2z]; lia. }
  assert (CN := i_count _ _ _ H b c C).
  assert (PO : 0 < holders s b) by (apply holders_pos; eauto).
  assert (ND : ~ In b (map fb fr)) by (intros I; rewrite (i_dying _ _ _ H b I) in PO; lia).
  split; [rewrite HO, Nat.eqb_refl; lia|].
  assert (B1 : length (ctls s2) = length (objs s2)).
  { unfold s2. rewrite set_ctl_len. cbn [objs set_ctl]. unfold s1. rewrite written_ctls, written_objs_len. apply H. }
  assert (B2 : forall b' x, ctl_of s2 b' = Some x -> cnt x = holders s2 b').
  { intros b' x. rewrite CO, HO. destruct (Nat.eqb_spec b' b) as [->|N].
    - injection 1 as <-. cbn [cnt c']. lia.
    - intros X. rewrite (i_count _ _ _ H b' x X). lia. }
  assert (B4 : forall b', In b' (map fb fr0) -> holders s2 b' = 0).
  { intros b'. rewrite F1. intros I. rewrite HO. rewrite (i_dying _ _ _ H b' I). destruct (Nat.eqb_spec b' b) as [->|N]; [contradiction|lia]. }
  assert (B6 : forall a' b', slot_at s2 a' = Some (Held (Some b')) -> ctl_of s2 b' <> None).
  { intros a' b'. unfold s2 at 1. rewrite set_ctl_at. intros I. apply AT in I. apply (i_held _ _ _ H) in I. rewrite CO. destruct (Nat.eqb b' b); congruence. }
  assert (B7 : forall f, In f fr0 -> frame_ok s2 f).
  { intros f I. eapply frame_ok_ctl; [| |exact (F3 f I)]; [intros; reflexivity|exact OWN]. }
  assert (B8 : forall b' x, ctl_of s2 b' = Some x -> ~ In b' (map fb fr) -> pointee_ok hole' s2 b' x).
  { intros b' x X N. rewrite CO in X. destruct (Nat.eqb_spec b' b) as [->|M].
    - injection X as <-. eapply pointee_ok_ctl; [| |exact (F4 b c C ND)]; reflexivity.
    - eapply pointee_ok_ctl; [| |exact (F4 b' x X N)]; reflexivity. }
  assert (B9 : forall b', ctl_of s2 b' = None -> obj_of s2 b' = None).
  { intros b'. rewrite CO. destruct (Nat.eqb b' b); [discriminate|]. apply OG. }
  assert (B10 : deleted s2 = deleted s) by (unfold s2, set_ctl, s1; cbn [deleted]; apply written_deleted).
  assert (BL : length (ctls s2) = length (ctls s)) by (unfold s2; rewrite set_ctl_len; unfold s1; rewrite written_ctls; reflexivity).
  assert (B11 : forall b', In b' (deleted s2) <-> (b' < length (ctls s2))%nat /\ (ctl_of s2 b' = None \/ In (FCtl b') fr0)).
  { intros b'. rewrite B10, BL, (i_deleted _ _ _ H), CO, F2. destruct (Nat.eqb_spec b' b) as [->|N]; [|reflexivity].
    split; intros (Q & [Z|Z]); (congruence || tauto). }
  destruct (Z.eqb_spec (cnt c - 1) 0) as [Z|Z].
  - assert (ZH : holders s1 b = 0) by (change (holders s2 b = 0); rewrite HO, Nat.eqb_refl; lia).
    pose proof (F4 b c C ND) as P. unfold pointee_ok in P. split.
    + constructor; try assumption; cbn [map fb].
      * intros b' x X. destruct (Nat.eqb_spec b' b) as [->|N]; [left; left; reflexivity|].
        pose proof X as X'. rewrite CO in X. destruct (Nat.eqb_spec b' b); [contradiction|].
        rewrite F1. rewrite HO. destruct (Nat.eqb_spec b' b); [contradiction|].
        destruct (i_live _ _ _ H b' x X); [left; right; assumption|right; lia].
      * intros b' [<-|I]; [exact ZH|apply B4, I].
      * constructor; [rewrite F1; exact ND|rewrite F1; apply H].
      * intros f [<-|I]; [|apply B7, I]. cbn [frame_ok]. exists c'. split; [rewrite CO, Nat.eqb_refl; reflexivity|].
        cbn [owns c']. destruct (owns c).
        -- destruct P as (fs & O & N). exists fs. split; [exact O|]. rewrite O. cbn [slots_of]. split; [lia|]. split.
           ++ intros i I. destruct (nth_error fs i) as [[|q]|] eqn:E.
              ** destruct (F5 b eq_refl ZH i). apply N, E.
              ** eauto.
              ** apply nth_error_None in E. lia.
           ++ intros i I. lia.
        -- rewrite P. split; [reflexivity|exact P].
      * intros b' x X N. apply B8; [exact X|]. intros I. apply N. right. rewrite F1. exact I.
      * rewrite B10. apply H.
      * intros b'. rewrite B11. cbn [In]. split; [intros (Q & [?|?]); auto|intros (Q & [?|[?|?]]); auto; discriminate].
    + unfold destroy. cbn [owns c']. change (obj_of s2 b) with (obj_of s1 b). destruct (owns c).
      * destruct P as (fs & O & N). rewrite O. reflexivity.
      * rewrite P. reflexivity.
  - constructor; try assumption.
    + intros b' x X. rewrite HO, F1. rewrite CO in X. destruct (Nat.eqb_spec b' b) as [->|N].
      * right. lia.
      * destruct (i_live _ _ _ H b' x X); [left; assumption|right; lia].
    + rewrite F1. apply H.
    + intros b' x X N. apply B8; [exact X|]. rewrite <- F1. exact N.
    + rewrite B10. apply H.
Qed.

(** ** Fuel *)
Definition nsum (f : nat -> nat) (l : list nat) : nat := fold_right (fun x n => f x + n)%nat O l.
Lemma nsum_le f g l : (forall x, In x l -> f x <= g x)%nat -> (nsum f l <= nsum g l)%nat.
Proof.
  induction l as [|x l IH]; intros H; cbn; [lia|]. pose proof (H x (or_introl eq_refl)).
  assert (nsum f l <= nsum g l)%nat by (apply IH; intros; apply H; right; assumption). unfold nsum in *. lia.
Qed.
Lemma nsum_drop f g l b d : In b l -> (forall x, x <> b -> f x <= g x)%nat -> (f b + d <= g b)%nat -> (nsum f l + d <= nsum g l)%nat.
Proof.
  intros I O B. assert (A : forall x, (f x <= g x)%nat) by (intros x; destruct (Nat.eq_dec x b) as [->|N]; [lia|auto]).
  induction l as [|x l IH]; [destruct I|]. cbn. destruct (Nat.eq_dec x b) as [->|N].
  - assert (nsum f l <= nsum g l)%nat by (apply nsum_le; auto). unfold nsum in *. lia.
  - destruct I as [->|I]; [contradiction|]. specialize (IH I). pose proof (A x). unfold nsum in *. lia.
Qed.

Definition term (s : pstate) (b : nat) : nat :=
  match ctl_of s b with
  | Some c => if cnt c =? 0 then O else (length (slots_of (obj_of s b)) + 2)%nat
  | None => O
  end.
Definition wt (s : pstate) : nat := nsum (term s) (seq 0 (length (ctls s))).
Lemma wt_le s s' : length (ctls s') = length (ctls s) -> (forall b, term s' b <= term s b)%nat -> (wt s' <= wt s)%nat.
Proof. unfold wt. intros -> H. apply nsum_le. auto. Qed.
Lemma wt_drop s s' b d : length (ctls s') = length (ctls s) -> (b < length (ctls s))%nat ->
  (forall x, x <> b -> term s' x <= term s x)%nat -> (term s' b + d <= term s b)%nat -> (wt s' + d <= wt s)%nat.
Proof. unfold wt. intros -> L H B. apply (nsum_drop _ _ _ b); auto. apply in_seq. lia. Qed.
Lemma wt_weight s : length (ctls s) = length (objs s) -> (wt s <= weight s)%nat.
Proof.
  intros L. unfold wt, weight. rewrite L. 
  change (fold_right (fun b n => match obj_of s b with Some fs => length fs | None => O end + 2 + n)%nat O (seq 0 (length (objs s))))
    with (nsum (fun b => match obj_of s b with Some fs => length fs | None => O end + 2)%nat (seq 0 (length (objs s)))).
  apply nsum_le. intros b _. unfold term. destruct (ctl_of s b) as [c|]; [|lia]. destruct (cnt c =? 0); [lia|].
  destruct (obj_of s b); cbn [slots_of length]; lia.
Qed.
Lemma written_slots_len s a u v b : slot_at s a = Some u ->
  length (slots_of (obj_of (written s a v) b)) = length (slots_of (obj_of s b)).
Proof.
  intros A. rewrite (written_obj _ _ _ _ _ A). destruct a as [x|c i]; [reflexivity|].
  destruct (Nat.eqb b c); [|reflexivity]. destruct (obj_of s b); [|reflexivity]. apply list_set_length.
Qed.

(** ** Ending blocks *)
Lemma fields_S b k : fields b (S k) = DSlot (AFld b k) :: fields b k.
Proof. unfold fields. rewrite seq_S, rev_app_distr. reflexivity. Qed.

Lemma raw_among b fs : (forall i, (i < length fs)%nat -> nth_error fs i = Some Raw) -> among b fs = 0.
Proof.
  induction fs as [|u fs IH]; intros H; [reflexivity|]. rewrite among_cons.
  pose proof (H 0%nat ltac:(cbn; lia)) as U. cbn in U. injection U as ->.
  rewrite IH; [reflexivity|]. intros i I. apply (H (S i)). cbn. lia.
Qed.

Lemma del_obj hole b r s c : inv hole (FObj b 0 :: r) s -> ctl_of s b = Some c ->
  let s1 := PSt (ctls s) (if owns c then list_set b None (objs s) else objs s) (pvars s) (b :: deleted s) in
  inv hole (FCtl b :: r) s1 /\ (owns c = true -> obj_of s b <> None) /\
  obj_of s1 b = None /\ (forall b', b' <> b -> obj_of s1 b' = obj_of s b').
Proof.
  intros H C s1. pose proof (i_frame _ _ _ H _ (or_introl eq_refl)) as (c' & C' & F).
  assert (c' = c) by congruence. subst c'. clear C'.
  assert (NF : forall f, In f r -> fb f <> b).
  { intros f I E. pose proof (i_nodup _ _ _ H) as D. cbn [map fb] in D. inversion D; subst. apply H2. apply in_map, I. }
  assert (OO : obj_of s1 b = None /\ forall b', b' <> b -> obj_of s1 b' = obj_of s b').
  { unfold s1. destruct (owns c).
    - destruct F as (fs & O & _). apply obj_of_nth in O.
      assert (b < length (objs s))%nat by (apply nth_error_Some; congruence). unfold obj_of. cbn [objs]. split.
      + rewrite nth_set_same by assumption. reflexivity.
      + intros b' N. rewrite nth_set_other by assumption. reflexivity.
    - split; [apply F|reflexivity]. }
  assert (HO : forall b', holders s1 b' = holders s b').
  { intros b'. rewrite !holders_eq. unfold s1. cbn [pvars objs]. destruct (owns c); [|reflexivity].
    destruct F as (fs & O & _ & _ & R). apply obj_of_nth in O. rewrite (among_objs _ _ _ _ _ O). cbn [slots_of].
    rewrite (raw_among b' fs); [unfold among; cbn; lia|]. intros i I. apply R. lia. }
  assert (AT : forall a u, slot_at s1 a = Some u -> slot_at s a = Some u).
  { intros [x|b' i] u; [exact (fun x => x)|]. cbn [slot_at]. destruct (Nat.eq_dec b' b) as [->|N].
    - rewrite (proj1 OO). discriminate.
    - rewrite (proj2 OO b' N). exact (fun x => x). }
  split; [|split; [intros W; rewrite W in F; destruct F as (fs & -> & _); discriminate|exact OO]].
  constructor; try apply H; try (intros; rewrite HO; apply H; assumption).
  - unfold s1. cbn [ctls objs]. rewrite (i_len _ _ _ H). destruct (owns c); [symmetry; apply list_set_length|reflexivity].
  - intros b' x X. rewrite HO. apply (i_live _ _ _ H b' x X).
  - intros a b' A. apply AT in A. apply (i_held _ _ _ H a b' A).
  - intros f [<-|I].
    + cbn [frame_ok]. split; [change (ctl_of s1 b) with (ctl_of s b); congruence|apply OO].
    + pose proof (i_frame _ _ _ H f (or_intror I)) as Q. pose proof (NF f I) as N. destruct f as [b' k|b']; cbn [fb frame_ok] in *; rewrite (proj2 OO b' N); exact Q.
  - intros b' x X N. assert (b' <> b) by (intros ->; apply N; left; reflexivity).
    pose proof (i_pointee _ _ _ H b' x X N) as P. unfold pointee_ok in *. rewrite (proj2 OO b') by assumption. exact P.
  - intros b' X. pose proof (i_gone _ _ _ H b' X) as G. destruct (Nat.eq_dec b' b) as [->|N]; [apply OO|]. rewrite (proj2 OO b' N). exact G.
  - cbn [deleted s1]. constructor; [|apply H]. intros I. apply (i_deleted _ _ _ H) in I as (_ & [I|[I|I]]); [congruence|discriminate|].
    apply (NF _ I). reflexivity.
  - intros b'. cbn [deleted s1 ctls]. change (ctl_of s1 b') with (ctl_of s b'). cbn [In]. rewrite (i_deleted _ _ _ H). cbn [In].
    split.
    + intros [<-|(L & [E|[E|E]])]; [split; [eapply ctl_lt; eassumption|auto]|auto|discriminate|auto].
    + intros (L & [E|[E|E]]); [auto|injection E as ->; auto|auto].
Qed.

Lemma del_ctl hole b r s : inv hole (FCtl b :: r) s ->
  ctl_of s b <> None /\ inv hole r (set_ctl s b None).
Proof.
  intros H. destruct (i_frame _ _ _ H _ (or_introl eq_refl)) as (C & O). split; [exact C|].
  destruct (ctl_of s b) as [c|] eqn:E; [clear C|contradiction].
  assert (L := ctl_lt _ _ _ E).
  assert (ND : ~ In b (map fb r)) by (pose proof (i_nodup _ _ _ H) as D; cbn [map fb] in D; inversion D; assumption).
  assert (CO : forall b', ctl_of (set_ctl s b None) b' = if Nat.eqb b' b then None else ctl_of s b') by (intros; apply set_ctl_of; exact L).
  constructor.
  - rewrite set_ctl_len. apply H.
  - intros b0 c0. rewrite CO, set_ctl_holders. destruct (Nat.eqb b0 b); [discriminate|]. apply H.
  - intros b0 c0. rewrite CO, set_ctl_holders. destruct (Nat.eqb_spec b0 b) as [->|N]; [discriminate|]. intros X.
    destruct (i_live _ _ _ H b0 c0 X) as [[Q|Q]|Q]; [cbn in Q; congruence|auto|auto].
  - intros b0 I. rewrite set_ctl_holders. apply (i_dying _ _ _ H). right. assumption.
  - pose proof (i_nodup _ _ _ H) as D. cbn [map] in D. inversion D; assumption.
  - intros a b0 A. rewrite set_ctl_at in A. pose proof (i_held _ _ _ H a b0 A) as X. rewrite CO. destruct (Nat.eqb_spec b0 b) as [->|N]; [|exact X].
    exfalso. apply (count0 s b (i_dying _ _ _ H b (or_introl eq_refl)) a A).
  - intros f I. assert (N : fb f <> b) by (intros Q; apply ND; rewrite <- Q; apply in_map; assumption).
    pose proof (i_frame _ _ _ H f (or_intror I)) as Q. destruct f as [b' k|b']; cbn [fb frame_ok] in *; rewrite CO;
      (destruct (Nat.eqb_spec b' b); [contradiction|exact Q]).
  - intros b0 c0. rewrite CO. destruct (Nat.eqb_spec b0 b) as [->|N]; [discriminate|]. intros X NI.
    eapply pointee_ok_ctl; [| |apply (i_pointee _ _ _ H b0 c0 X)]; try reflexivity. intros [Q|Q]; [cbn in Q; congruence|contradiction].
  - intros b0. rewrite CO, set_ctl_obj. destruct (Nat.eqb_spec b0 b) as [->|N]; [intros _; exact O|]. apply H.
  - cbn [set_ctl deleted]. apply H.
  - intros b0. cbn [set_ctl deleted]. rewrite (i_deleted _ _ _ H). unfold set_ctl at 1. cbn [ctls]. rewrite list_set_length, CO. cbn [In].
    destruct (Nat.eqb_spec b0 b) as [->|N].
    + split; [intros (Q & _); auto|intros (Q & _); auto].
    + split; [intros (Q & [?|[X|?]]); auto; congruence|intros (Q & [?|?]); auto].
Qed.

Record ended (fr : list frame) (s s' : pstate) : Prop := {
  e_vars : pvars s' = pvars s;
  e_len : length (ctls s') = length (ctls s);
  e_dead : forall b, In b (map fb fr) -> ctl_of s' b = None;
  e_obj : forall b fs, ~ In b (map fb fr) -> obj_of s' b = Some fs -> obj_of s b = Some fs;
  e_ctl : forall b c, ctl_of s' b = Some c -> exists c0, ctl_of s b = Some c0 /\ owns c0 = owns c }.

Lemma run_ok : forall n hole fr s R, (length (flat_map ftasks fr) + wt s <= n)%nat -> inv hole fr s -> supp R hole fr s ->
  exists s', run n s (flat_map ftasks fr) = Ok s' /\ inv hole [] s' /\ supp R hole [] s' /\ ended fr s s'.
Proof.
  induction n as [n IH] using lt_wf_ind. intros hole fr s R M H S.
  destruct fr as [|[b k|b] r].
  - exists s. split; [destruct n; reflexivity|]. split; [exact H|]. split; [exact S|]. constructor; auto.
    + intros b [].
    + intros b c C. eauto.
  - destruct k as [|k].
    + (* the pointee *)
      pose proof (i_frame _ _ _ H _ (or_introl eq_refl)) as (c & C & _).
      destruct (del_obj _ _ _ _ _ H C) as (H1 & W & O1 & O2).
      set (s1 := PSt (ctls s) (if owns c then list_set b None (objs s) else objs s) (pvars s) (b :: deleted s)) in *.
      assert (T : forall b', (term s1 b' <= term s b')%nat).
      { intros b'. unfold term. change (ctl_of s1 b') with (ctl_of s b'). destruct (ctl_of s b') as [x|] eqn:X; [|lia]. destruct (cnt x =? 0); [lia|].
        destruct (Nat.eq_dec b' b) as [->|N]; [rewrite O1; cbn; lia|rewrite (O2 b' N); lia]. }
      assert (M1 : (wt s1 <= wt s)%nat) by (apply wt_le; [reflexivity|exact T]).
      cbn [flat_map ftasks] in M |- *. unfold fields in *. cbn [seq rev map app length] in M |- *.
      destruct n as [|n]; [lia|].
      destruct (IH n ltac:(lia) hole (FCtl b :: r) s1 R) as (s' & E & H' & S' & P); [cbn [flat_map ftasks app length]; lia|exact H1| |].
      { constructor.
        - intros x X I. apply (s_dying _ _ _ _ S x X). destruct I as [I|I]; [left; exact I|right; exact I].
        - intros x X. destruct (s_held _ _ _ _ S x X) as (a & A1 & A2 & A3). exists a. split; [exact A1|]. split; [|exact A3].
          destruct a as [y|c' i]; [exact A2|]. cbn [slot_at] in *. rewrite O2; [exact A2|]. intros ->. apply (s_dying _ _ _ _ S b A3). left. reflexivity.
        - exact (s_hole _ _ _ _ S). }
      exists s'. split; [|split; [exact H'|split; [exact S'|]]].
      * cbn [run]. unfold ctl_at. rewrite C. cbn [bind]. destruct (owns c) eqn:OW.
        -- destruct (obj_of s b); [|destruct (W eq_refl); reflexivity]. exact E.
        -- exact E.
      * constructor; [rewrite (e_vars _ _ _ P)|rewrite (e_len _ _ _ P)|apply P|intros b' fs N O|apply P]; try reflexivity.
        pose proof (e_obj _ _ _ P b' fs N O) as Q. rewrite O2 in Q; [exact Q|]. intros ->. apply N. left. reflexivity.
    + (* one of its pointers *)
      pose proof (i_frame _ _ _ H _ (or_introl eq_refl)) as (c & C & F).
      destruct (owns c) eqn:OW; [|destruct F; discriminate].
      destruct F as (fs & O & KL & HD & RW). destruct (HD k (le_n _)) as (p & PK).
      assert (A : slot_at s (AFld b k) = Some (Held p)) by (cbn [slot_at]; rewrite O; exact PK).
      assert (KF : (k < length fs)%nat) by lia.
      assert (NR : forall x, R x -> x <> b) by (intros x X ->; apply (s_dying _ _ _ _ S b X); left; reflexivity).
      assert (OB : forall b', obj_of (written s (AFld b k) Raw) b' = if Nat.eqb b' b then Some (list_set k Raw fs) else obj_of s b').
      { intros b'. rewrite (written_obj _ _ _ _ _ A). destruct (Nat.eqb_spec b' b) as [->|N]; [rewrite O|]; reflexivity. }
      pose proof (decr hole (FObj b (Datatypes.S k) :: r) s (AFld b k) p hole (FObj b k :: r) H A eq_refl) as D.
      assert (SP : forall s2, (forall a, slot_at s2 a = slot_at (written s (AFld b k) Raw) a) -> forall x, R x -> exists a, hole <> Some a /\ slot_at s2 a = Some (Held (Some x)) /\
                match a with AVar _ => True | AFld c _ => R c end).
      { intros s2 Q x X. destruct (s_held _ _ _ _ S x X) as (a & A1 & A2 & A3). exists a. split; [exact A1|]. split; [|exact A3].
        rewrite Q, (written_at _ _ _ _ _ A). destruct (addr_eqb_spec a (AFld b k)) as [->|N]; [|exact A2]. destruct (NR b A3 eq_refl). }
      match type of D with ?P1 -> ?P2 -> ?P3 -> ?P4 -> _ =>
        assert (D1 : P1); [|assert (D2 : P2); [|assert (D3 : P3); [|assert (D4 : P4); [|specialize (D D1 D2 D3 D4)]]]] end.
      { intros b'. cbn [In]. split; (intros [Q|Q]; [discriminate|auto]). }
      { intros f [<-|I].
        - cbn [frame_ok]. rewrite written_ctl. exists c. split; [exact C|]. rewrite OW, OB, Nat.eqb_refl. exists (list_set k Raw fs).
          split; [reflexivity|]. rewrite list_set_length. split; [lia|]. split.
          + intros i I. rewrite nth_set_other by lia. apply HD. lia.
          + intros i I. destruct (Nat.eq_dec i k) as [->|N]; [apply nth_set_same; exact KF|]. rewrite nth_set_other by exact N. apply RW. lia.
        - pose proof (i_frame _ _ _ H f (or_intror I)) as Q.
          assert (fb f <> b) by (intros Z; pose proof (i_nodup _ _ _ H) as DD; cbn [map fb] in DD; inversion DD; subst; apply H2; apply in_map, I).
          destruct f as [b' k'|b']; cbn [fb frame_ok] in *; rewrite written_ctl, OB; (destruct (Nat.eqb_spec b' b); [contradiction|exact Q]). }
      { intros b' x X N. pose proof (i_pointee _ _ _ H b' x X N) as Q. unfold pointee_ok in *. rewrite OB.
        destruct (Nat.eqb_spec b' b) as [->|_]; [|exact Q]. destruct N. left. reflexivity. }
      { intros x -> Z i E. pose proof (s_hole _ _ _ _ S) as SH. rewrite E in SH.
        destruct (SP _ (fun _ => eq_refl) x SH) as (a & _ & Q & _). exact (count0 _ _ Z _ Q). }
      set (s1 := written s (AFld b k) Raw) in *.
      assert (LEN1 : length (ctls s1) = length (ctls s)) by (unfold s1; rewrite written_ctls; reflexivity).
      assert (T1 : forall x, term s1 x = term s x).
      { intros x. unfold term, s1. rewrite written_ctl, (written_slots_len _ _ _ _ _ A). reflexivity. }
      cbn [flat_map ftasks] in M |- *. rewrite fields_S in M |- *. cbn [app length] in M |- *.
      destruct n as [|n]; [lia|]. cbn [run]. unfold read_slot. rewrite A. cbn [bind]. rewrite (write_ok _ _ _ Raw A). cbn [bind]. fold s1.
      destruct p as [x|].
      * destruct D as (cx & CX & CN & D). unfold ctl_at. replace (ctl_of s1 x) with (Some cx) by (unfold s1; rewrite written_ctl; auto). cbn [bind].
        set (s2 := set_ctl s1 x (Some (Ctl (cnt cx - 1) (owns cx)))) in *. cbn [cnt].
        assert (CX1 : ctl_of s1 x = Some cx) by (unfold s1; rewrite written_ctl; exact CX).
        assert (LEN2 : length (ctls s2) = length (ctls s)) by (unfold s2; rewrite set_ctl_len; exact LEN1).
        assert (C2 : forall y, ctl_of s2 y = if Nat.eqb y x then Some (Ctl (cnt cx - 1) (owns cx)) else ctl_of s y).
        { intros y. unfold s2. rewrite set_ctl_of by (eapply ctl_lt; eassumption). unfold s1. rewrite written_ctl. reflexivity. }
        assert (XD : 0 < holders s x) by (apply holders_pos; eauto).
        assert (CNX := i_count _ _ _ H x cx CX).
        assert (T2 : forall y, y <> x -> term s2 y = term s y).
        { intros y N. unfold term. rewrite C2. destruct (Nat.eqb_spec y x); [contradiction|]. change (obj_of s2 y) with (obj_of s1 y). unfold s1. rewrite (written_slots_len _ _ _ _ _ A). reflexivity. }
        assert (SX : length (slots_of (obj_of s1 x)) = length (slots_of (obj_of s x))) by (apply (written_slots_len _ _ _ _ _ A)).
        assert (NDX : ~ In x (b :: map fb r)).
        { intros I. pose proof (i_dying _ _ _ H x I). lia. }
        assert (SH2 : forall y, R y -> y <> x \/ cnt cx - 1 <> 0).
        { intros y Y. destruct (Z.eq_dec (cnt cx - 1) 0) as [Z|Z]; [left|right; exact Z]. intros ->.
          destruct (SP s2 (fun a => set_ctl_at _ _ _ a) x Y) as (a & _ & Q & _). apply (count0 s2 x) in Q; [exact Q|]. lia. }
        destruct (Z.eqb_spec (cnt cx - 1) 0) as [Z|Z].
        -- destruct D as (D & DE). rewrite DE. cbn [bind].
           set (kx := length (slots_of (obj_of s1 x))) in *.
           assert (W2 : (wt s2 + (kx + 2) <= wt s)%nat).
           { apply (wt_drop s s2 x); [exact LEN2|eapply ctl_lt; eassumption|intros y N; rewrite (T2 y N); lia|].
             unfold term at 1. rewrite C2, Nat.eqb_refl. cbn [cnt]. rewrite Z. cbn [Z.eqb]. unfold term. rewrite CX.
             destruct (Z.eqb_spec (cnt cx) 0); lia. }
           destruct (IH n ltac:(lia) hole (FObj x kx :: FObj b k :: r) s2 R) as (s' & E & H' & S' & P).
           { cbn [flat_map ftasks]. rewrite !app_length. rewrite !app_length in M. unfold fields at 1. rewrite map_length, rev_length, seq_length. cbn [length] in *. lia. }
           { exact D. }
           { constructor.
             - intros y Y [I|I]; [|exact (s_dying _ _ _ _ S y Y I)]. cbn [fb] in I. subst y. destruct (SH2 x Y); [congruence|contradiction].
             - apply SP. intros a. apply set_ctl_at.
             - exact (s_hole _ _ _ _ S). }
           exists s'. split; [|split; [exact H'|split; [exact S'|]]].
           ++ cbn [flat_map ftasks] in E. rewrite <- E. f_equal.
           ++ constructor.
              ** rewrite (e_vars _ _ _ P). reflexivity.
              ** rewrite (e_len _ _ _ P). exact LEN2.
              ** intros y I. apply (e_dead _ _ _ P). right. exact I.
              ** intros y fs' N OY. destruct (Nat.eq_dec y x) as [->|NX].
                 { pose proof (e_dead _ _ _ P x (or_introl eq_refl)) as XX. pose proof (i_gone _ _ _ H' x XX). congruence. }
                 assert (OY2 : obj_of s2 y = Some fs').
                 { apply (e_obj _ _ _ P); [|exact OY]. intros [I|I]; [cbn in I; congruence|apply N, I]. }
                 change (obj_of s1 y = Some fs') in OY2. rewrite OB in OY2. destruct (Nat.eqb_spec y b) as [->|_]; [|exact OY2].
                 destruct N. left. reflexivity.
              ** intros y cy CY. destruct (e_ctl _ _ _ P y cy CY) as (c0 & C0 & W0). rewrite C2 in C0. destruct (Nat.eqb_spec y x) as [->|_]; [|eauto].
                 injection C0 as <-. exists cx. auto.
        -- assert (W2 : (wt s2 <= wt s)%nat).
           { apply wt_le; [exact LEN2|]. intros y. destruct (Nat.eq_dec y x) as [->|N]; [|rewrite (T2 y N); lia].
             unfold term. rewrite C2, Nat.eqb_refl, CX. cbn [cnt]. destruct (Z.eqb_spec (cnt cx - 1) 0); [contradiction|].
             destruct (Z.eqb_spec (cnt cx) 0); [lia|]. change (obj_of s2 x) with (obj_of s1 x). lia. }
           destruct (IH n ltac:(lia) hole (FObj b k :: r) s2 R) as (s' & E & H' & S' & P).
           { cbn [flat_map ftasks]. lia. }
           { exact D. }
           { constructor; [apply (s_dying _ _ _ _ S)| |exact (s_hole _ _ _ _ S)]. apply SP. intros a. apply set_ctl_at. }
           exists s'. split; [exact E|split; [exact H'|split; [exact S'|]]].
           constructor.
           ++ rewrite (e_vars _ _ _ P). reflexivity.
           ++ rewrite (e_len _ _ _ P). exact LEN2.
           ++ apply (e_dead _ _ _ P).
           ++ intros y fs' N OY. pose proof (e_obj _ _ _ P y fs' N OY) as OY2. change (obj_of s1 y = Some fs') in OY2. rewrite OB in OY2.
              destruct (Nat.eqb_spec y b) as [->|_]; [|exact OY2]. destruct N. left. reflexivity.
           ++ intros y cy CY. destruct (e_ctl _ _ _ P y cy CY) as (c0 & C0 & W0). rewrite C2 in C0. destruct (Nat.eqb_spec y x) as [->|_]; [|eauto].
              injection C0 as <-. exists cx. auto.
      * destruct (IH n ltac:(lia) hole (FObj b k :: r) s1 R) as (s' & E & H' & S' & P).
        { cbn [flat_map ftasks]. assert (wt s1 <= wt s)%nat by (apply wt_le; [exact LEN1|intros; rewrite T1; lia]). lia. }
        { exact D. }
        { constructor; [apply (s_dying _ _ _ _ S)| |exact (s_hole _ _ _ _ S)]. apply SP. reflexivity. }
        exists s'. split; [exact E|split; [exact H'|split; [exact S'|]]].
        constructor.
        -- rewrite (e_vars _ _ _ P). reflexivity.
        -- rewrite (e_len _ _ _ P). exact LEN1.
        -- apply (e_dead _ _ _ P).
        -- intros y fs' N OY. pose proof (e_obj _ _ _ P y fs' N OY) as OY2. rewrite OB in OY2.
           destruct (Nat.eqb_spec y b) as [->|_]; [|exact OY2]. destruct N. left. reflexivity.
        -- intros y cy CY. destruct (e_ctl _ _ _ P y cy CY) as (c0 & C0 & W0). unfold s1 in C0. rewrite written_ctl in C0. eauto.
  - (* the control block *)
    destruct (del_ctl _ _ _ _ H) as (C & H1). destruct (ctl_of s b) as [c|] eqn:CE; [clear C|contradiction].
    set (s1 := set_ctl s b None) in *. assert (L := ctl_lt _ _ _ CE).
    assert (CO : forall y, ctl_of s1 y = if Nat.eqb y b then None else ctl_of s y) by (intros; apply set_ctl_of; exact L).
    assert (M1 : (wt s1 <= wt s)%nat).
    { apply wt_le; [apply set_ctl_len|]. intros y. unfold term. rewrite CO. destruct (Nat.eqb_spec y b) as [->|N]; [lia|]. reflexivity. }
    cbn [flat_map ftasks app length] in M |- *. destruct n as [|n]; [lia|].
    destruct (IH n ltac:(lia) hole r s1 R) as (s' & E & H' & S' & P); [lia|exact H1| |].
    { constructor; [|intros x X; destruct (s_held _ _ _ _ S x X) as (a & A); exists a; unfold s1; rewrite set_ctl_at; exact A|exact (s_hole _ _ _ _ S)].
      intros x X I. apply (s_dying _ _ _ _ S x X). right. exact I. }
    exists s'. split; [|split; [exact H'|split; [exact S'|]]].
    + cbn [run]. unfold ctl_at. rewrite CE. exact E.
    + constructor.
      * rewrite (e_vars _ _ _ P). reflexivity.
      * rewrite (e_len _ _ _ P). apply set_ctl_len.
      * intros y [I|I]; [|apply (e_dead _ _ _ P y I)]. cbn in I. subst y.
        destruct (ctl_of s' b) as [c'|] eqn:X; [|reflexivity]. destruct (e_ctl _ _ _ P b c' X) as (c0 & C0 & _). rewrite CO, Nat.eqb_refl in C0. discriminate.
      * intros y fs N OY. apply (e_obj _ _ _ P y fs); [|exact OY]. intros I. apply N. right. exact I.
      * intros y cy CY. destruct (e_ctl _ _ _ P y cy CY) as (c0 & C0 & W0). rewrite CO in C0. destruct (Nat.eqb y b); [discriminate|]. eauto.
Qed.
