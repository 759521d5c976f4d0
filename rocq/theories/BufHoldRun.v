(** Programs over buffers, their iterators and views do what SpecBufHold.v says. *)

From Coq Require Import ZArith List Bool Lia.
From Coq Require Import ZifyBool ZifyNat.
From Verif Require Import Base BaseFacts Keys Wire Read Enc EncSize Spec ReadFacts Buf BufFacts WireMore Canon HeapOps HeapFacts NestedFacts HeapRun SpecPacket PacketFacts PacketRun
  SpecBufHold BufHold.
Import ListNotations.
Open Scope Z_scope.

(** ** Lists *)

Lemma put_set {A} (x : A) : forall l i, (i < length l)%nat -> put_at l i x = list_set i x l.
Proof.
  induction l as [|a r IH]; intros [|i] L; cbn [length] in L; try lia; [reflexivity|].
  cbn [list_set]. rewrite <- IH by lia. reflexivity.
Qed.
Lemma put_len {A} (l : list A) i x : (i < length l)%nat -> length (put_at l i x) = length l.
Proof. intros H. rewrite put_set by assumption. revert i H. induction l; intros [|i] H; cbn in *; try lia. rewrite IHl by lia. reflexivity. Qed.
Lemma set_len {A} (l : list A) x : forall i, length (list_set i x l) = length l.
Proof. induction l as [|a r IH]; intros [|i]; cbn; [reflexivity..|]. rewrite IH. reflexivity. Qed.
Lemma set_same {A} (l : list A) x : forall i, (i < length l)%nat -> nth_error (list_set i x l) i = Some x.
Proof. induction l as [|a r IH]; intros [|i] H; cbn in *; try lia; [reflexivity|]. apply IH. lia. Qed.
Lemma set_other {A} (l : list A) x : forall i j, i <> j -> nth_error (list_set i x l) j = nth_error l j.
Proof. induction l as [|a r IH]; intros [|i] [|j] H; cbn; try reflexivity; try congruence. apply IH. congruence. Qed.
Lemma set_comm {A} (l : list A) a b : forall i j, i <> j -> list_set i a (list_set j b l) = list_set j b (list_set i a l).
Proof. induction l as [|c r IH]; intros [|i] [|j] H; cbn; try reflexivity; try congruence. f_equal. apply IH. congruence. Qed.
Lemma set_twice {A} (l : list A) a b : forall i, list_set i a (list_set i b l) = list_set i a l.
Proof. induction l as [|c r IH]; intros [|i]; cbn; try reflexivity. f_equal. apply IH. Qed.
Lemma nth_put_same {A} (l : list A) x d : forall i, (i < length l)%nat -> nth i (list_set i x l) d = x.
Proof. intros i H. apply nth_error_nth. apply set_same. assumption. Qed.
Lemma Forall2_set {A B} (R : A -> B -> Prop) a b : forall l l' i, Forall2 R l l' -> R a b -> Forall2 R (list_set i a l) (list_set i b l').
Proof.
  induction l as [|c r IH]; intros l' i F H; inversion F; subst; destruct i; cbn [list_set]; constructor; auto.
Qed.
Lemma Forall2_at {A B} (R : A -> B -> Prop) d : forall l l' i, Forall2 R l l' -> (i < length l')%nat ->
  exists a, nth_error l i = Some a /\ R a (nth i l' d).
Proof.
  induction l as [|c r IH]; intros l' i F H; inversion F; subst; cbn [length] in H; [lia|].
  destruct i; cbn [nth_error nth]; [eauto|]. apply IH; [assumption|lia].
Qed.
Lemma Forall2_impl2 {A B} (R S : A -> B -> Prop) l l' : (forall a b, R a b -> S a b) -> Forall2 R l l' -> Forall2 S l l'.
Proof. intros H F. induction F; constructor; auto. Qed.

(** ** Counting holders *)

Definition w {A} (d : nat) (h : option (nat * A)) : Z := if holds_doc d h then 1 else 0.
Definition cnt {A} (d : nat) (l : list (option (nat * A))) : Z := Z.of_nat (length (filter (holds_doc d) l)).
Definition one (d : nat) (r : option nat) : Z := match r with Some e => if Nat.eqb d e then 1 else 0 | None => 0 end.

Lemma cnt_cons {A} d (h : option (nat * A)) l : cnt d (h :: l) = w d h + cnt d l.
Proof. unfold cnt, w. cbn [filter]. destruct (holds_doc d h); cbn [length]; lia. Qed.
Lemma cnt_set {A} d (a : option (nat * A)) : forall l i, (i < length l)%nat ->
  cnt d (list_set i a l) = cnt d l - w d (nth i l None) + w d a.
Proof.
  induction l as [|h r IH]; intros [|i] L; cbn [length] in L; try lia; cbn [list_set nth]; rewrite !cnt_cons.
  - lia.
  - rewrite IH by lia. lia.
Qed.
Lemma cnt_set_h d (a : shown) (l : list shown) i : (i < length l)%nat ->
  cnt d (list_set i a l) = cnt d l - w d (nth i l None) + w d a.
Proof. exact (cnt_set d a l i). Qed.
Lemma cnt_set_w d (a : walk) (l : list walk) i : (i < length l)%nat ->
  cnt d (list_set i a l) = cnt d l - w d (nth i l None) + w d a.
Proof. exact (cnt_set d a l i). Qed.
Lemma w_range {A} d (h : option (nat * A)) : 0 <= w d h <= 1.
Proof. unfold w. destruct (holds_doc d h); lia. Qed.
Lemma cnt_at {A} d : forall (l : list (option (nat * A))) i, w d (nth i l None) <= cnt d l.
Proof.
  induction l as [|h r IH]; intros i.
  - destruct i; unfold w, cnt; cbn; lia.
  - rewrite cnt_cons. destruct i; cbn [nth].
    + unfold cnt. lia.
    + specialize (IH i). pose proof (w_range d h). lia.
Qed.
Lemma w_one {A} d (h : option (nat * A)) : one d (option_map fst h) = w d h.
Proof. destruct h as [[e a]|]; reflexivity. Qed.
Lemma holders_cnt s d : Z.of_nat (holders s d) = cnt d (handles s) + cnt d (walks s).
Proof. unfold holders, cnt. lia. Qed.

(** ** Blocks *)

Definition counts (l : blocks) (c : nat -> Z) : Prop :=
  forall d, match nth_error l d with
            | Some (Some b) => users b = c d /\ 0 < c d
            | _ => c d = 0
            end.
Definition evolves (l l' : blocks) : Prop :=
  (length l <= length l')%nat /\
  forall d b', (d < length l)%nat -> nth_error l' d = Some (Some b') ->
    exists b, nth_error l d = Some (Some b) /\ base b = base b' /\ bytes b = bytes b'.

Lemma counts_ext l c c' : counts l c -> (forall d, c d = c' d) -> counts l c'.
Proof. intros H E d. rewrite <- E. apply H. Qed.
Lemma counts_live l c d : counts l c -> 0 < c d -> exists b, nth_error l d = Some (Some b) /\ users b = c d.
Proof.
  intros H P. specialize (H d). destruct (nth_error l d) as [[b|]|]; [|lia..]. exists b. split; [reflexivity|apply H].
Qed.
Lemma evolves_refl l : evolves l l.
Proof. split; [lia|]. intros d b _ E. eauto. Qed.
Lemma evolves_trans l l1 l2 : evolves l l1 -> evolves l1 l2 -> evolves l l2.
Proof.
  intros [L H] [L1 H1]. split; [lia|]. intros d b D E.
  destruct (H1 d b ltac:(lia) E) as (b1 & E1 & A & B). destruct (H d b1 D E1) as (b0 & E0 & A0 & B0).
  exists b0. repeat split; congruence.
Qed.
Lemma evolves_set l d b o : nth_error l d = Some (Some b) ->
  match o with Some b' => base b' = base b /\ bytes b' = bytes b | None => True end -> evolves l (list_set d o l).
Proof.
  intros E O. split; [rewrite set_len; lia|]. intros e b' L H. destruct (Nat.eq_dec d e) as [<-|N].
  - rewrite set_same in H by assumption. injection H as ->. exists b. destruct O. auto.
  - rewrite set_other in H by assumption. eauto.
Qed.
Lemma nth_lt {A} (l : list A) i x : nth_error l i = Some x -> (i < length l)%nat.
Proof. intros H. apply nth_error_Some. congruence. Qed.

Lemma retain_ok l c r : counts l c -> (forall d, r = Some d -> 0 < c d) ->
  exists l', retain r l = Ok l' /\ counts l' (fun d => c d + one d r) /\ evolves l l' /\ length l' = length l.
Proof.
  intros C P. destruct r as [d|]; cbn [retain].
  - destruct (counts_live l c d C (P d eq_refl)) as (b & E & U). rewrite E. eexists. split; [reflexivity|].
    split; [|split; [apply evolves_set with (b := b); auto|apply set_len]].
    intros e. cbn [one]. specialize (C e). destruct (Nat.eqb_spec e d) as [->|N].
    + rewrite set_same by exact (nth_lt _ _ _ E). rewrite E in C. cbn [users]. lia.
    + rewrite set_other by congruence. rewrite Z.add_0_r. exact C.
  - exists l. split; [reflexivity|]. split; [|split; [apply evolves_refl|reflexivity]].
    apply counts_ext with (c := c); [assumption|]. intros e. cbn [one]. lia.
Qed.
Lemma release_ok l c r : counts l c -> (forall d, r = Some d -> 0 < c d) ->
  exists l', release r l = Ok l' /\ counts l' (fun d => c d - one d r) /\ evolves l l' /\ length l' = length l.
Proof.
  intros C P. destruct r as [d|]; cbn [release].
  - destruct (counts_live l c d C (P d eq_refl)) as (b & E & U). rewrite E. eexists. split; [reflexivity|].
    split; [|split; [apply evolves_set with (b := b); [assumption|]|apply set_len]].
    + intros e. cbn [one]. specialize (C e). destruct (Nat.eqb_spec e d) as [->|N].
      * rewrite set_same by exact (nth_lt _ _ _ E). rewrite E in C.
        destruct (Z.eqb_spec (users b - 1) 0); cbn [users]; lia.
      * rewrite set_other by congruence. rewrite Z.sub_0_r. exact C.
    + destruct (_ =? _); auto.
  - exists l. split; [reflexivity|]. split; [|split; [apply evolves_refl|reflexivity]].
    apply counts_ext with (c := c); [assumption|]. intros e. cbn [one]. lia.
Qed.

(** ** What handles show *)

Definition fine (l : blocks) (e : elem) (hm : nat) (h : shown) : Prop :=
  match h with
  | None => b_type e = T_null
  | Some (d, v) =>
      hm = d /\ v <> VNull /\ good_all v /\ b_type e = vtype v /\ (d < length l)%nat /\
      forall b, nth_error l d = Some (Some b) -> represents (base b) (bytes b) e v
  end.
Definition hold_ok (l : blocks) (h : hold) (sv : shown) : Prop :=
  fine l (raw h) (home h) sv /\ ref h = option_map fst sv.
Definition walk_ok (l : blocks) (p : hold * Z) (k : walk) : Prop :=
  match k with
  | None => hold_ok l (fst p) None
  | Some (d, rest) =>
      exists v, hold_ok l (fst p) (Some (d, v)) /\ is_aggregate v = true /\ 0 <= snd p /\
                rest = skipn (Z.to_nat (snd p)) (members v)
  end.
Definition peek_ok (n : nat) (l : blocks) (g : glance) (p : peek) : Prop :=
  fine l (g_raw g) (g_home g) (fst p) /\ g_own g = snd p /\
  match snd p with Some y => (y < n)%nat | None => fst p = None end.
Definition docs_ok (l : blocks) (ds : list value) : Prop :=
  length l = length ds /\
  forall d b, nth_error l d = Some (Some b) ->
    base b mod 8 = 0 /\ exists fs, nth_error ds d = Some (VObj fs) /\ good_all (VObj fs) /\
      represents (base b) (bytes b) root (VObj fs).

Record Inv_at (l : blocks) (c : nat -> Z) (s : bstate) (sp : bspec) : Prop := {
  at_docs : docs_ok l (docs sp);
  at_counts : counts l c;
  at_vars : Forall2 (hold_ok l) (vars s) (handles sp);
  at_iters : Forall2 (walk_ok l) (iters s) (walks sp);
  at_views : Forall2 (peek_ok (length (handles sp)) l) (views s) (peeks sp) }.
Definition held (sp : bspec) (d : nat) : Z := Z.of_nat (holders sp d).
Definition Inv (s : bstate) (sp : bspec) : Prop := Inv_at (heap s) (held sp) s sp.

Lemma fine_evolves l l' e hm h : evolves l l' -> fine l e hm h -> fine l' e hm h.
Proof.
  intros [L H]. destruct h as [[d v]|]; cbn [fine]; [|auto].
  intros (A & B & G & T & D & R). refine (conj A (conj B (conj G (conj T (conj _ _))))); [lia|].
  intros b E. destruct (H d b D E) as (b0 & E0 & <- & <-). auto.
Qed.
Lemma hold_evolves l l' h sv : evolves l l' -> hold_ok l h sv -> hold_ok l' h sv.
Proof. intros V [F R]. split; [eapply fine_evolves; eassumption|assumption]. Qed.
Lemma walk_evolves l l' p k : evolves l l' -> walk_ok l p k -> walk_ok l' p k.
Proof.
  intros V. destruct k as [[d rest]|]; cbn [walk_ok].
  - intros (v & H & A). exists v. split; [eapply hold_evolves; eassumption|assumption].
  - apply hold_evolves. assumption.
Qed.
Lemma peek_evolves n l l' g p : evolves l l' -> peek_ok n l g p -> peek_ok n l' g p.
Proof. intros V (F & R). split; [eapply fine_evolves; eassumption|assumption]. Qed.

Lemma at_evolves l c l' c' s sp : Inv_at l c s sp -> evolves l l' -> length l' = length l -> counts l' c' -> Inv_at l' c' s sp.
Proof.
  intros [[DL D] C V I W] E L C'. constructor; try assumption.
  - split; [congruence|]. intros d b H. pose proof (nth_lt _ _ _ H) as LT. destruct E as [_ E].
    destruct (E d b ltac:(lia) H) as (b0 & H0 & A & B). rewrite <- A, <- B. apply D. assumption.
  - eapply Forall2_impl2; [|exact V]. intros. eapply hold_evolves; eassumption.
  - eapply Forall2_impl2; [|exact I]. intros. eapply walk_evolves; eassumption.
  - eapply Forall2_impl2; [|exact W]. intros. eapply peek_evolves; eassumption.
Qed.

(** Replacing what a variable holds. *)
Lemma set_ok l c s sp x t sv : Inv_at l c s sp -> (x < length (handles sp))%nat -> hold_ok l t sv ->
  (forall d, c d = held sp d - w d (handle sp x) + w d sv) ->
  Inv (BSt l (list_set x t (vars s)) (iters s) (views s)) (set_handle sp x sv).
Proof.
  intros [D C V I W] X T E. unfold Inv, set_handle. cbn [heap]. rewrite put_set by assumption.
  constructor; cbn [docs handles walks peeks vars iters views]; try assumption.
  - apply counts_ext with (c := c); [assumption|]. intros d. rewrite E. unfold held. rewrite !holders_cnt.
    cbn [handles walks]. rewrite cnt_set_h by assumption. unfold handle. lia.
  - apply Forall2_set; assumption.
  - rewrite set_len. assumption.
Qed.
Lemma set_it_ok l c s sp j t sk : Inv_at l c s sp -> (j < length (walks sp))%nat -> walk_ok l t sk ->
  (forall d, c d = held sp d - w d (nth j (walks sp) None) + w d sk) ->
  Inv (BSt l (vars s) (list_set j t (iters s)) (views s)) (set_walk sp j sk).
Proof.
  intros [D C V I W] X T E. unfold Inv, set_walk. cbn [heap]. rewrite put_set by assumption.
  constructor; cbn [docs handles walks peeks vars iters views]; try assumption.
  - apply counts_ext with (c := c); [assumption|]. intros d. rewrite E. unfold held. rewrite !holders_cnt.
    cbn [handles walks]. rewrite cnt_set_w by assumption. lia.
  - apply Forall2_set; assumption.
Qed.
Lemma set_peek_ok s sp u g p : Inv s sp -> (u < length (peeks sp))%nat -> peek_ok (length (handles sp)) (heap s) g p ->
  Inv (BSt (heap s) (vars s) (iters s) (list_set u g (views s))) (set_peek sp u p).
Proof.
  intros [D C V I W] X P. unfold Inv, set_peek. cbn [heap]. rewrite put_set by assumption.
  constructor; cbn [docs handles walks peeks vars iters views]; try assumption.
  apply Forall2_set; assumption.
Qed.

Lemma var_at l c s sp x : Inv_at l c s sp -> (x < length (handles sp))%nat ->
  exists h, nth_error (vars s) x = Some h /\ hold_ok l h (handle sp x).
Proof. intros I X. apply Forall2_at; [apply I|assumption]. Qed.
Lemma it_at l c s sp j : Inv_at l c s sp -> (j < length (walks sp))%nat ->
  exists p, nth_error (iters s) j = Some p /\ walk_ok l p (nth j (walks sp) None).
Proof. intros I X. apply Forall2_at; [apply I|assumption]. Qed.
Lemma view_at l c s sp u : Inv_at l c s sp -> (u < length (peeks sp))%nat ->
  exists g, nth_error (views s) u = Some g /\ peek_ok (length (handles sp)) l g (nth u (peeks sp) (None, None)).
Proof. intros I X. apply Forall2_at; [apply I|assumption]. Qed.

Lemma held_var sp x d : w d (handle sp x) <= held sp d.
Proof. unfold held. rewrite holders_cnt. pose proof (cnt_at d (handles sp) x : w d (handle sp x) <= cnt d (handles sp)). unfold cnt in *. lia. Qed.
Lemma held_it sp j d : w d (nth j (walks sp) None) <= held sp d.
Proof. unfold held. rewrite holders_cnt. pose proof (cnt_at d (walks sp) j : w d (nth j (walks sp) None) <= cnt d (walks sp)). unfold cnt in *. lia. Qed.

Lemma walk_ref l p k : walk_ok l p k -> ref (fst p) = option_map fst k.
Proof. destruct k as [[d rest]|]; cbn [walk_ok]; [intros (v & [_ R] & _); exact R|intros [_ R]; exact R]. Qed.
Lemma some_w {A} (h : option (nat * A)) d : option_map fst h = Some d -> w d h = 1.
Proof. destruct h as [[e a]|]; [|discriminate]. cbn. intros E. injection E as ->. unfold w. cbn. rewrite Nat.eqb_refl. reflexivity. Qed.
Lemma one_range d r : 0 <= one d r <= 1.
Proof. destruct r; cbn [one]; [destruct (Nat.eqb _ _)|]; lia. Qed.

(** Move assignment from a temporary that is already counted. *)
Lemma put_ok l c s sp x t sv : Inv_at l c s sp -> (x < length (handles sp))%nat -> hold_ok l t sv ->
  (forall d, c d = held sp d + w d sv) ->
  exists s', put s l x t = Ok s' /\ Inv s' (set_handle sp x sv).
Proof.
  intros I X T E. destruct (var_at _ _ _ _ _ I X) as (old & N & [_ R]). unfold put. rewrite N.
  destruct (release_ok l c (ref old) (at_counts _ _ _ _ I)) as (l1 & -> & C1 & V1 & L1).
  { intros d H. rewrite R in H. apply some_w in H. rewrite E. pose proof (held_var sp x d). pose proof (w_range d sv). lia. }
  cbn [bind]. eexists. split; [reflexivity|].
  apply set_ok with (c := fun d => c d - one d (ref old)); try assumption.
  - eapply at_evolves; eassumption.
  - eapply hold_evolves; eassumption.
  - intros d. rewrite E, R, w_one. lia.
Qed.
Lemma put_it_ok l c s sp j t i sk : Inv_at l c s sp -> (j < length (walks sp))%nat -> walk_ok l (t, i) sk ->
  (forall d, c d = held sp d + w d sk) ->
  exists s', put_it s l j t i = Ok s' /\ Inv s' (set_walk sp j sk).
Proof.
  intros I X T E. destruct (it_at _ _ _ _ _ I X) as ([old i0] & N & K). pose proof (walk_ref _ _ _ K) as R. cbn [fst] in R.
  unfold put_it. rewrite N.
  destruct (release_ok l c (ref old) (at_counts _ _ _ _ I)) as (l1 & -> & C1 & V1 & L1).
  { intros d H. rewrite R in H. apply some_w in H. rewrite E. pose proof (held_it sp j d). pose proof (w_range d sk). lia. }
  cbn [bind]. eexists. split; [reflexivity|].
  apply set_it_ok with (c := fun d => c d - one d (ref old)); try assumption.
  - eapply at_evolves; eassumption.
  - eapply walk_evolves; eassumption.
  - intros d. rewrite E, R, w_one. lia.
Qed.

(** Taking another reference on behalf of a handle that somebody holds. *)
Lemma retain_held l c s sp r : Inv_at l c s sp -> (forall d, r = Some d -> 0 < c d) ->
  exists l', retain r l = Ok l' /\ Inv_at l' (fun d => c d + one d r) s sp /\ evolves l l'.
Proof.
  intros I P. destruct (retain_ok l c r (at_counts _ _ _ _ I) P) as (l' & E & C & V & L).
  exists l'. split; [assumption|]. split; [|assumption]. eapply at_evolves; eassumption.
Qed.
Lemma var_counted l s sp x h : Inv_at l (held sp) s sp -> hold_ok l h (handle sp x) -> forall d, ref h = Some d -> 0 < held sp d.
Proof. intros I [_ R] d E. rewrite R in E. apply some_w in E. pose proof (held_var sp x d). lia. Qed.
Lemma it_counted s sp j p : Inv s sp -> walk_ok (heap s) p (nth j (walks sp) None) ->
  forall d, ref (fst p) = Some d -> 0 < held sp d.
Proof. intros I K d E. rewrite (walk_ref _ _ _ K) in E. apply some_w in E. pose proof (held_it sp j d). lia. Qed.

Lemma is_null_null e : b_type e = T_null -> is_null e = true.
Proof. intros E. unfold is_null. rewrite E. reflexivity. Qed.
Lemma is_null_not e v : b_type e = vtype v -> v <> VNull -> is_null e = false.
Proof. intros E N. unfold is_null. rewrite E. destruct v; try reflexivity. congruence. Qed.

(** Looking through something whose document is alive. *)
Lemma look_ok l c e hm h : counts l c -> fine l e hm h -> (forall d v, h = Some (d, v) -> 0 < c d) ->
  match h with
  | None => is_null e = true /\ forall A (f : Z -> mem -> res A), look l e hm f = f 0 []
  | Some (d, v) => is_null e = false /\ exists b, nth_error l d = Some (Some b) /\ represents (base b) (bytes b) e v /\
      forall A (f : Z -> mem -> res A), look l e hm f = f (base b) (bytes b)
  end.
Proof.
  intros C F P. destruct h as [[d v]|]; cbn [fine] in F.
  - destruct F as (-> & N & G & T & D & R). destruct (counts_live l c d C (P d v eq_refl)) as (b & E & _).
    pose proof (is_null_not e v T N) as Z. split; [assumption|]. exists b. split; [assumption|]. split; [auto|].
    intros A f. unfold look. rewrite Z, E. reflexivity.
  - split; [apply is_null_null; assumption|]. intros A f. unfold look. rewrite is_null_null by assumption. reflexivity.
Qed.

(** Steps. *)
Lemma object_not {A} e (k : Z -> res A) : b_type e <> T_object -> b_object e k = Throw type_error.
Proof. unfold b_object. destruct (b_type e); try reflexivity. congruence. Qed.
Lemma array_not {A} e (k : Z -> res A) : b_type e <> T_array -> b_array e k = Throw type_error.
Proof. unfold b_array. destruct (b_type e); try reflexivity. congruence. Qed.

Lemma step_null n e bs m : b_type e = T_null -> b_step n e bs m = Throw type_error /\ reached n VNull = inr type_error.
Proof.
  intros E. destruct n; cbn [b_step reached]; (split; [|reflexivity]);
    unfold b_get, b_at, b_get_idx, b_at_idx, b_front, b_back, b_at_front, b_at_back, b_size;
    try (apply object_not; congruence); try (apply array_not; congruence); rewrite E; reflexivity.
Qed.

Lemma b_size_of bs m e v : represents bs m e v ->
  b_size m e = match size_of v with Some n => Ok (Z.of_nat n) | None => Throw type_error end.
Proof. intros R. rewrite (b_size_spec _ _ _ _ R). destruct v; reflexivity. Qed.

Definition reaches (bs : Z) (m : mem) (r : res elem) (t : value + err) : Prop :=
  match t with
  | inl x => good_all x /\ exists e', r = Ok e' /\ represents bs m e' x
  | inr err => r = Throw err
  end.
Lemma good_hd vs : good_all (VArr vs) -> good_all (hd VNull vs).
Proof. intros G. destruct vs; [constructor; exact I|]. eapply good_elem; [exact G|left; reflexivity]. Qed.
Lemma good_last vs : good_all (VArr vs) -> good_all (last vs VNull).
Proof.
  intros G. destruct vs as [|a r]; [constructor; exact I|]. eapply good_elem; [exact G|].
  destruct (exists_last (l := a :: r) ltac:(discriminate)) as (l' & z & E). rewrite E, last_last. apply in_or_app. right. left. reflexivity.
Qed.
Lemma good_nth vs i : good_all (VArr vs) -> good_all (match nth_error vs i with Some x => x | None => VNull end).
Proof.
  intros G. destruct (nth_error vs i) as [x|] eqn:E; [|constructor; exact I]. eapply good_elem; [exact G|]. eapply nth_error_In; eassumption.
Qed.
Lemma front_reaches bs m e v : represents bs m e v -> good_all v -> reaches bs m (b_front m e) (end_of (hd VNull) v).
Proof.
  intros R G. pose proof (represents_type _ _ _ _ R) as T.
  destruct v; cbn [end_of reaches]; try (apply array_not; rewrite T; discriminate).
  split; [apply good_hd; assumption|]. apply b_front_spec. assumption.
Qed.
Lemma back_reaches bs m e v : represents bs m e v -> good_all v -> reaches bs m (b_back m e) (end_of (fun vs => last vs VNull) v).
Proof.
  intros R G. pose proof (represents_type _ _ _ _ R) as T.
  destruct v; cbn [end_of reaches]; try (apply array_not; rewrite T; discriminate).
  split; [apply good_last; assumption|]. apply b_back_spec. assumption.
Qed.

Lemma step_reaches n bs m e v : represents bs m e v -> good_all v -> step_ok n ->
  reaches bs m (b_step n e bs m) (reached n v).
Proof.
  intros R G O. pose proof (represents_type _ _ _ _ R) as T. destruct n; cbn [b_step reached step_ok] in *.
  - destruct v as [fs| | | | | |]; try (apply object_not; rewrite T; discriminate). cbn [reaches].
    split; [apply good_all_lookup; assumption|]. apply b_get_spec; [assumption|apply good_all_keys; assumption].
  - destruct v as [fs| | | | | |]; try (apply object_not; rewrite T; discriminate).
    pose proof (b_at_spec bs m e fs k R (good_all_keys _ G)) as B. pose proof (good_all_lookup fs k G) as GL.
    destruct (lookup k fs); cbn [reaches]; auto.
  - destruct v as [|vs| | | | |]; try (apply array_not; rewrite T; discriminate). cbn [reaches].
    split; [apply good_nth; assumption|]. apply b_get_idx_spec; [assumption|lia].
  - destruct v as [|vs| | | | |]; try (apply array_not; rewrite T; discriminate).
    pose proof (b_at_idx_spec bs m e vs i R ltac:(lia)) as B. pose proof (good_nth vs (Z.to_nat i) G) as GN.
    destruct (nth_error vs (Z.to_nat i)); cbn [reaches]; auto.
  - apply front_reaches; assumption.
  - apply back_reaches; assumption.
  - unfold b_at_front. rewrite (b_size_of _ _ _ _ R). pose proof (front_reaches _ _ _ _ R G) as F.
    destruct (size_of v) as [[|k]|]; cbn [bind]; [reflexivity| |reflexivity].
    replace (Z.of_nat (S k) =? 0) with false by lia. exact F.
  - unfold b_at_back. rewrite (b_size_of _ _ _ _ R). pose proof (back_reaches _ _ _ _ R G) as F.
    destruct (size_of v) as [[|k]|]; cbn [bind]; [reflexivity| |reflexivity].
    replace (Z.of_nat (S k) =? 0) with false by lia. exact F.
Qed.

(** What a represented element shows as a handle of its document. *)
Lemma within_fine l d b e v : nth_error l d = Some (Some b) -> represents (base b) (bytes b) e v -> good_all v ->
  fine l e d (within d v) /\ is_null e = match v with VNull => true | _ => false end.
Proof.
  intros E R G. pose proof (represents_type _ _ _ _ R) as T. split.
  - destruct v; cbn [within fine]; try exact T;
      (split; [reflexivity|]; split; [discriminate|]; split; [assumption|]; split; [exact T|]; split; [exact (nth_lt _ _ _ E)|]);
      intros b' E'; rewrite E in E'; injection E' as <-; exact R.
  - unfold is_null. rewrite T. destruct v; reflexivity.
Qed.

Lemma adopt_ok s sp d b e v : Inv s sp -> 0 < held sp d -> nth_error (heap s) d = Some (Some b) ->
  represents (base b) (bytes b) e v -> good_all v ->
  exists l t, adopt (heap s) e d (Some d) = Ok (l, t) /\ hold_ok l t (within d v) /\
    Inv_at l (fun a => held sp a + w a (within d v)) s sp.
Proof.
  intros I P E R G. destruct (within_fine _ _ _ _ _ E R G) as [F Z]. unfold adopt.
  destruct (retain_ok _ _ (Some d) (at_counts _ _ _ _ I)) as (l1 & -> & C1 & V1 & L1).
  { intros a H. injection H as <-. assumption. }
  cbn [bind]. rewrite Z. destruct v as [fs|vs|q|z|q|q|]; try (
    exists l1; eexists; split; [reflexivity|]; split;
    [split; [apply (fine_evolves _ _ _ _ _ V1 F)|reflexivity]|];
    eapply at_evolves; [exact I|exact V1|exact L1|];
    apply counts_ext with (1 := C1); intros a; reflexivity).
  destruct (release_ok l1 _ (Some d) C1) as (l2 & -> & C2 & V2 & L2).
  { intros a H. injection H as <-. pose proof (one_range d (Some d)). lia. }
  cbn [bind]. exists l2. eexists. split; [reflexivity|]. cbn [within] in *. split.
  - split; [|reflexivity]. exact F.
  - eapply at_evolves; [exact I|exact (evolves_trans _ _ _ V1 V2)|congruence|].
    apply counts_ext with (1 := C2). intros a. unfold w. cbn [holds_doc]. lia.
Qed.

(** ** One operation *)

Lemma move_ok s sp x y : Inv s sp -> (x < length (handles sp))%nat -> (y < length (handles sp))%nat ->
  exists s', move_var s x y = Ok s' /\
    Inv s' (if Nat.eqb x y then sp else set_handle (set_handle sp x (handle sp y)) y None).
Proof.
  intros I X Y. unfold move_var. destruct (Nat.eqb_spec x y) as [->|N]; [eauto|].
  destruct (var_at _ _ _ _ _ I Y) as (h & E & H). unfold var. rewrite E.
  set (s0 := BSt (heap s) (list_set y null_hold (vars s)) (iters s) (views s)).
  assert (L : length (handles (set_handle sp y None)) = length (handles sp)) by (cbn; apply put_len; assumption).
  assert (I0 : Inv_at (heap s) (held sp) s0 (set_handle sp y None)).
  { destruct I as [D C V J W]. constructor; cbn; try assumption.
    - rewrite put_set by assumption. apply Forall2_set; [assumption|]. split; reflexivity.
    - rewrite put_len by assumption. assumption. }
  destruct (put_ok _ _ _ _ x h (handle sp y) I0) as (s' & P & I').
  - rewrite L. assumption.
  - assumption.
  - intros d. unfold held. rewrite !holders_cnt. cbn [handles walks set_handle]. rewrite put_set by assumption.
    rewrite cnt_set_h by assumption. unfold handle, w. cbn [holds_doc]. lia.
  - assert (Q : exists s1, put s (heap s) x h = Ok s1 /\ heap s1 = heap s' /\
                list_set y null_hold (vars s1) = vars s' /\ iters s1 = iters s' /\ views s1 = views s').
    { unfold put in *. cbn [vars s0] in P. rewrite set_other in P by congruence.
      destruct (nth_error (vars s) x) as [old|]; [|discriminate].
      destruct (release (ref old) (heap s)) as [l1| | | |]; try discriminate. cbn [bind] in *.
      eexists. split; [reflexivity|]. apply Ok_inj in P. subst s'. cbn. rewrite set_comm by congruence. auto. }
    destruct Q as (s1 & -> & A & B & CC & DD). cbn [bind]. eexists. split; [reflexivity|].
    rewrite A, B, CC, DD. destruct s' as [a b' c' d']. cbn [heap vars iters views].
    replace (set_handle (set_handle sp x (handle sp y)) y None) with (set_handle (set_handle sp y None) x (handle sp y));
      [exact I'|].
    unfold set_handle. cbn [docs handles walks peeks]. f_equal.
    rewrite (put_set _ (handles sp) y), (put_set _ (handles sp) x) by assumption.
    rewrite !put_set by (rewrite set_len; assumption). apply set_comm. congruence.
Qed.

Lemma fresh_ok s sp x addr m fs : Inv s sp -> (x < length (handles sp))%nat -> addr mod 8 = 0 ->
  represents addr m root (VObj fs) -> good_all (VObj fs) ->
  exists s', fresh s x addr m = Ok s' /\ Inv s' (new_doc sp x (VObj fs)).
Proof.
  intros I X A R G. set (v := VObj fs). set (l := heap s ++ [Some (Blk 1 addr m)]).
  pose proof (proj1 (at_docs _ _ _ _ I)) as DL.
  assert (V : evolves (heap s) l).
  { subst l. split; [rewrite app_length; lia|]. intros d b D E. rewrite nth_error_app1 in E by assumption. eauto. }
  set (sp1 := BS (docs sp ++ [v]) (handles sp) (walks sp) (peeks sp)).
  assert (I1 : Inv_at l (fun d => held sp d + w d (Some (length (docs sp), v))) s sp1).
  { destruct I as [[_ D] C Va J W]. constructor; cbn [docs handles walks peeks sp1].
    - split; [subst l; rewrite !app_length; cbn; lia|]. intros d b E. subst l.
      destruct (Nat.lt_ge_cases d (length (heap s))) as [L|L].
      + rewrite nth_error_app1 in E by assumption. destruct (D d b E) as (B & fs' & E' & R').
        split; [assumption|]. exists fs'. rewrite nth_error_app1 by lia. auto.
      + rewrite nth_error_app2 in E by assumption. destruct (d - length (heap s))%nat as [|k] eqn:K; [|destruct k; discriminate].
        cbn in E. injection E as <-. split; [assumption|]. exists fs. rewrite nth_error_app2 by lia.
        replace (d - length (docs sp))%nat with O by lia. auto.
    - intros d. specialize (C d). unfold w. cbn [holds_doc]. subst l.
      destruct (Nat.lt_ge_cases d (length (heap s))) as [L|L].
      + rewrite nth_error_app1 by assumption. replace (Nat.eqb d (length (docs sp))) with false by lia. rewrite Z.add_0_r. exact C.
      + rewrite nth_error_app2 by assumption.
        replace (nth_error (heap s) d) with (@None (option block)) in C by (symmetry; apply nth_error_None; lia).
        destruct (d - length (heap s))%nat as [|k] eqn:K.
        * replace (Nat.eqb d (length (docs sp))) with true by lia. cbn. lia.
        * replace (Nat.eqb d (length (docs sp))) with false by lia. cbn. destruct k; cbn; lia.
    - eapply Forall2_impl2; [|exact Va]. intros. eapply hold_evolves; eassumption.
    - eapply Forall2_impl2; [|exact J]. intros. eapply walk_evolves; eassumption.
    - eapply Forall2_impl2; [|exact W]. intros. eapply peek_evolves; eassumption. }
  unfold fresh. rewrite DL. fold l.
  destruct (put_ok l _ s sp1 x (Hold root (length (docs sp)) (Some (length (docs sp)))) (Some (length (docs sp), v)) I1 X) as (s' & P & I').
  - split; [|reflexivity]. cbn [raw home fine].
    split; [reflexivity|]. split; [discriminate|]. split; [assumption|]. split; [reflexivity|].
    subst l. split; [rewrite app_length; cbn; lia|]. intros b E. rewrite nth_error_app2 in E by lia.
    replace (length (docs sp) - length (heap s))%nat with O in E by lia. cbn in E. injection E as <-. exact R.
  - intros d. reflexivity.
  - exists s'. split; [exact P|exact I'].
Qed.

Lemma done_ok {r : res bstate} {sp'} : (exists s', r = Ok s' /\ Inv s' sp') -> exists s', done r = Ok (s', B_unit) /\ Inv s' sp'.
Proof. intros (s' & -> & I). exists s'. split; [reflexivity|assumption]. Qed.

Lemma shown_counted sp x d v : handle sp x = Some (d, v) -> 0 < held sp d.
Proof. intros E. pose proof (held_var sp x d). rewrite E in H. unfold w in H. cbn in H. rewrite Nat.eqb_refl in H. lia. Qed.

Lemma read_ok s e hm h c : counts (heap s) c -> fine (heap s) e hm h -> (forall d v, h = Some (d, v) -> 0 < c d) ->
  look (heap s) e hm (fun bs m => if is_null e then Ok VNull else b_value bs m e) = Ok (seen h).
Proof.
  intros C F P. pose proof (look_ok _ _ _ _ _ C F P) as L. destruct h as [[d v]|].
  - destruct L as (Z & b & _ & R & ->). rewrite Z. apply represents_value. assumption.
  - destruct L as (Z & ->). rewrite Z. reflexivity.
Qed.

Lemma use_count_ok s sp x h : Inv s sp -> hold_ok (heap s) h (handle sp x) -> use_count (heap s) (ref h) = Ok (count_of sp (handle sp x)).
Proof.
  intros I [F R]. rewrite R. destruct (handle sp x) as [[d v]|] eqn:E; cbn [option_map fst use_count count_of]; [|reflexivity].
  destruct (counts_live _ _ d (at_counts _ _ _ _ I) (shown_counted _ _ _ _ E)) as (b & -> & ->). reflexivity.
Qed.

Lemma rep_bytes bs m e fs : represents bs m e (VObj fs) ->
  exists bytes, b_get_bytes m e = Ok bytes /\ forall bs', bs' mod 8 = 0 -> represents bs' bytes root (VObj fs).
Proof.
  intros R. destruct (rep_object _ _ _ _ R) as (o & E & _). subst e.
  destruct (relocate bs m o (VObj fs) R eq_refl) as (bytes & SZ & RD & RL). exists bytes. split.
  - change (b_get_bytes m (R_object, Some o)) with (n <- rd_le m o 4 ;; rd m o n).
    change (find_sizeof m (raw_type_of (VObj fs)) o) with (rd_le m o 4) in SZ. rewrite SZ. exact RD.
  - intros bs' A. specialize (RL bs' [] []). rewrite app_nil_r in RL. apply RL.
    change (zlen (@nil byte)) with 0. rewrite Z.add_0_r. exact A.
Qed.
Lemma root_size bs m fs : represents bs m root (VObj fs) -> exists n, rd_le m 0 4 = Ok n.
Proof.
  intros R. destruct (relocate bs m 0 (VObj fs) R eq_refl) as (bytes & SZ & _). eauto.
Qed.

Lemma skipn_tl {A} (l : list A) : forall i, tl (skipn i l) = skipn (S i) l.
Proof. induction l as [|a r IH]; intros [|i]; cbn [skipn tl]; try reflexivity. rewrite IH. reflexivity. Qed.
Lemma skipn_hd {A} (l : list A) a r : forall i, skipn i l = a :: r -> nth_error l i = Some a.
Proof. induction l as [|b q IH]; intros [|i] H; cbn in *; try discriminate; [injection H as -> ->; reflexivity|auto]. Qed.

Theorem b_step_ok s sp o : Inv s sp -> b_fair sp o ->
  exists s', b_exec s o = Ok (s', snd (b_does sp o)) /\ Inv s' (fst (b_does sp o)).
Proof.
  intros I F. pose proof (at_counts _ _ _ _ I) as C. destruct o; cbn [b_exec b_does b_fair fst snd] in *.
  - (* new *)
    destruct F as (X & A & T & H & G & R). destruct v as [fs| | | | | |]; try discriminate T.
    destruct (small_objects_finalize fs H R) as (m & E). rewrite E. cbn [trying].
    apply done_ok. apply fresh_ok; try assumption. apply (finalize_root fs m addr H E A).
  - (* copy *)
    destruct F as [X Y]. destruct (var_at _ _ _ _ _ I Y) as (h & E & H). unfold var. rewrite E. apply done_ok.
    destruct (retain_held _ _ _ _ _ I (var_counted _ _ _ _ _ I H)) as (l & -> & I1 & V). cbn [bind].
    apply (put_ok _ _ _ _ x h (handle sp y) I1 X).
    + eapply hold_evolves; eassumption.
    + intros d. rewrite (proj2 H), w_one. reflexivity.
  - (* move *)
    destruct F as [X Y]. apply done_ok. apply move_ok; assumption.
  - (* reset *)
    apply done_ok. apply (put_ok _ _ _ _ x null_hold None I F); [split; reflexivity|].
    intros d. unfold w. cbn. lia.
  - (* member *)
    destruct F as (X & Y & O). destruct (var_at _ _ _ _ _ I Y) as (h & E & H). unfold var. rewrite E.
    assert (P : forall d v, handle sp y = Some (d, v) -> 0 < held sp d) by (intros d v; apply shown_counted).
    pose proof (look_ok _ _ _ _ _ C (proj1 H) P) as L. pose proof (proj2 H) as RH. pose proof (proj1 H) as FH.
    destruct (handle sp y) as [[d v]|] eqn:EY; cbn [seen doc_of].
    + destruct L as (Z & b & EB & R & ->). destruct FH as (HM & _ & G & _).
      pose proof (step_reaches n _ _ _ _ R G O) as S. destruct (reached n v) as [u|er]; cbn [reaches fst snd] in *.
      * destruct S as (GU & e' & -> & R'). cbn [trying]. apply done_ok. rewrite HM, RH. cbn [option_map fst].
        destruct (adopt_ok s sp d b e' u I (P d v eq_refl) EB R' GU) as (l & t & -> & HT & I1). cbn [bind].
        apply (put_ok _ _ _ _ x t (within d u) I1 X HT). reflexivity.
      * rewrite S. cbn [trying]. eauto.
    + destruct L as (Z & ->). cbn [fine] in FH. destruct (step_null n (raw h) 0 [] FH) as [-> ->].
      cbn [trying fst snd]. eauto.
  - (* into *)
    destruct F as (X & Y & O). destruct (var_at _ _ _ _ _ I Y) as (h & E & H). unfold var. rewrite E.
    assert (P : forall d v, handle sp y = Some (d, v) -> 0 < held sp d) by (intros d v; apply shown_counted).
    pose proof (look_ok _ _ _ _ _ C (proj1 H) P) as L. pose proof (proj2 H) as RH. pose proof (proj1 H) as FH.
    destruct (handle sp y) as [[d v]|] eqn:EY; cbn [seen doc_of].
    2: { destruct L as (Z & ->). cbn [fine] in FH. destruct (step_null n (raw h) 0 [] FH) as [-> ->].
         cbn [trying fst snd]. eauto. }
    destruct L as (Z & b & EB & R & ->). destruct FH as (HM & _ & G & _).
    pose proof (step_reaches n _ _ _ _ R G O) as S. destruct (reached n v) as [u|er]; cbn [reaches fst snd] in *.
    2: { rewrite S. cbn [trying]. eauto. }
    destruct S as (GU & e' & -> & R'). cbn [trying]. apply done_ok. rewrite HM, RH. cbn [option_map fst].
    destruct (within_fine _ _ _ _ _ EB R' GU) as [FU ZU].
    assert (Q : exists l t, (if is_null e' then l <- release (Some d) (heap s) ;; Ok (l, Hold e' d None)
                             else Ok (heap s, Hold e' d (Some d))) = Ok (l, t) /\
                Inv (BSt l (list_set y t (vars s)) (iters s) (views s)) (set_handle sp y (within d u))).
    { assert (N : u = VNull \/ (is_null e' = false /\ within d u = Some (d, u))) by (rewrite ZU; destruct u; auto).
      destruct N as [->|[N W]].
      - rewrite ZU. destruct (release_ok _ _ (Some d) C) as (l & -> & C1 & V1 & L1).
        { intros a A. injection A as <-. exact (P d v eq_refl). }
        cbn [bind]. exists l. eexists. split; [reflexivity|].
        apply set_ok with (c := fun a => held sp a - one a (Some d)); try assumption.
        + eapply at_evolves; eassumption.
        + split; [exact FU|reflexivity].
        + intros a. rewrite EY. cbn [within]. unfold w. cbn [holds_doc one]. lia.
      - rewrite N. exists (heap s). eexists. split; [reflexivity|].
        apply set_ok with (c := held sp); try assumption.
        + split; [exact FU|]. rewrite W. reflexivity.
        + intros a. rewrite EY, W. unfold w. cbn [holds_doc]. lia. }
    destruct Q as (l & t & -> & I1). cbn [bind].
    assert (LL : length (handles (set_handle sp y (within d u))) = length (handles sp)) by (cbn; apply put_len; assumption).
    destruct (move_ok _ _ x y I1) as (s' & -> & I2); [rewrite LL; assumption..|]. exists s'. split; [reflexivity|].
    destruct (Nat.eqb_spec x y) as [->|N]; [exact I2|].
    assert (HY : handle (set_handle sp y (within d u)) y = within d u).
    { unfold handle, set_handle. cbn [handles]. rewrite put_set by assumption. apply nth_put_same. assumption. }
    rewrite HY in I2.
    replace (set_handle (set_handle sp x (within d u)) y None)
      with (set_handle (set_handle (set_handle sp y (within d u)) x (within d u)) y None); [exact I2|].
    unfold set_handle. cbn [docs handles walks peeks]. f_equal.
    rewrite (put_set _ (handles sp) y), (put_set _ (handles sp) x) by assumption.
    rewrite !put_set; repeat (rewrite ?put_set; rewrite ?set_len; try assumption).
    rewrite (set_comm (handles sp) _ _ x y) by congruence. apply set_twice.
  - (* read *)
    destruct (var_at _ _ _ _ _ I F) as (h & E & H). unfold var. rewrite E.
    rewrite (read_ok s _ _ _ _ C (proj1 H)); [|intros d v; apply shown_counted]. cbn [trying]. eauto.
  - (* count *)
    destruct (var_at _ _ _ _ _ I F) as (h & E & H). unfold var. rewrite E.
    rewrite (use_count_ok s sp y h I H). cbn [bind]. eauto.
  - (* reopen *)
    destruct F as [X Y]. destruct (var_at _ _ _ _ _ I Y) as (h & E & H). unfold var. rewrite E.
    pose proof (proj2 H) as RH. pose proof (proj1 H) as FH.
    destruct (handle sp y) as [[d v]|] eqn:EY.
    2: { cbn [fine] in FH. rewrite (is_null_null _ FH). cbn [fst snd]. eauto. }
    destruct FH as (HM & NV & G & T & D & R). rewrite (is_null_not _ _ T NV).
    pose proof (shown_counted _ _ _ _ EY) as PD. rewrite RH. cbn [option_map fst]. apply done_ok.
    destruct (retain_held _ _ _ _ (Some d) I) as (l & -> & I1 & V).
    { intros a A. injection A as <-. assumption. }
    cbn [bind].
    destruct (counts_live _ _ d (at_counts _ _ _ _ I1)) as (b & EB & _); [pose proof (one_range d (Some d)); lia|].
    destruct (proj2 (at_docs _ _ _ _ I1) d b EB) as (BA & fs & ED & GD & RD).
    unfold block_size. rewrite EB. destruct (root_size _ _ _ RD) as (z & ->). cbn [bind].
    apply (put_ok _ _ _ _ x _ _ I1 X).
    + split; [|reflexivity]. cbn [raw home fine]. rewrite (nth_error_nth _ _ _ ED).
      split; [reflexivity|]. split; [discriminate|]. split; [assumption|]. split; [reflexivity|].
      split; [exact (nth_lt _ _ _ EB)|]. intros b' E'. rewrite EB in E'. injection E' as <-. exact RD.
    + intros a. reflexivity.
  - (* dup *)
    destruct F as (X & Y & A). destruct (var_at _ _ _ _ _ I Y) as (h & E & H). unfold var. rewrite E.
    assert (P : forall d v, handle sp y = Some (d, v) -> 0 < held sp d) by (intros d v; apply shown_counted).
    pose proof (look_ok _ _ _ _ _ C (proj1 H) P) as L. pose proof (proj1 H) as FH.
    destruct (handle sp y) as [[d v]|] eqn:EY; cbn [seen].
    + destruct L as (Z & b & EB & R & ->). destruct FH as (HM & _ & G & T & _).
      destruct v as [fs| | | | | |];
        try (unfold b_get_bytes; rewrite object_not by (rewrite T; discriminate); cbn [trying fst snd]; eauto; fail).
      destruct (rep_bytes _ _ _ _ R) as (bytes & -> & RB). cbn [trying]. apply done_ok.
      apply fresh_ok; auto.
    + destruct L as (Z & ->). cbn [fine] in FH. unfold b_get_bytes. rewrite object_not by congruence. cbn [trying fst snd]. eauto.
  - (* begin *)
    destruct F as [J Y]. destruct (var_at _ _ _ _ _ I Y) as (h & E & H). unfold var. rewrite E.
    pose proof (proj1 H) as FH.
    destruct (handle sp y) as [[d v]|] eqn:EY; [|cbn [fine] in FH; rewrite FH; cbn [fst snd]; eauto].
    destruct FH as (HM & NV & G & T & D & R). rewrite T.
    assert (P : forall a, ref h = Some a -> 0 < held sp a).
    { intros a Ea. rewrite (proj2 H) in Ea. injection Ea as <-. exact (shown_counted _ _ _ _ EY). }
    destruct (retain_held _ _ _ _ _ I P) as (l & RE & I1 & V).
    destruct v as [fs|vs| | | | |]; cbn [vtype fst snd]; eauto; rewrite RE; apply done_ok; cbn [bind];
      (apply (put_it_ok _ _ _ _ j h 0 _ I1 J);
       [eexists; split; [eapply hold_evolves; eassumption|]; split; [reflexivity|]; split; [cbn; lia|reflexivity]
       |intros a; rewrite (proj2 H), w_one; reflexivity]).
  - (* next *)
    destruct F as [J N]. destruct (it_at _ _ _ _ _ I J) as ([h i] & E & K). unfold itr. rewrite E.
    destruct (nth j (walks sp) None) as [[d rest]|] eqn:EJ; [|congruence]. cbn [walk_ok fst snd] in K.
    destruct K as (v & [(HM & NV & G & T & D & R) RH] & AG & I0 & ->).
    rewrite (is_null_not _ _ T NV). cbn [fst snd]. eexists. split; [reflexivity|].
    apply set_it_ok with (c := held sp); try assumption.
    + exists v. cbn [fst snd]. split; [split; [cbn [fine]; auto 10|assumption]|]. split; [assumption|]. split; [lia|].
      rewrite skipn_tl. f_equal. lia.
    + intros a. rewrite EJ. unfold w. cbn [holds_doc]. lia.
  - (* deref *)
    destruct F as (X & J & N). destruct (it_at _ _ _ _ _ I J) as ([h i] & E & K). unfold itr. rewrite E.
    assert (P : forall a, ref h = Some a -> 0 < held sp a) by (exact (it_counted s sp j (h, i) I K)).
    destruct (nth j (walks sp) None) as [[d rest]|] eqn:EJ; [|contradiction].
    destruct rest as [|u rest]; [contradiction|]. cbn [walk_ok fst snd] in K.
    destruct K as (v & [FH RH] & AG & I0 & ER). cbn [option_map fst] in RH. rewrite RH in P.
    pose proof (look_ok _ _ _ _ _ C FH (fun d' v' (q : Some (d, v) = Some (d', v')) => P d' (f_equal (option_map fst) q))) as L.
    destruct L as (Z & b & EB & R & ->). rewrite Z. cbn [fine] in FH. destruct FH as (HM & NV & G & T & D & R').
    symmetry in ER. apply skipn_hd in ER.
    destruct (b_deref_spec _ _ _ _ i u R I0 ER) as (e' & -> & RU). cbn [trying fst snd hd]. apply done_ok.
    assert (GU : good_all u).
    { destruct v as [fs|vs| | | | |]; try discriminate AG; cbn [members] in ER.
      - apply nth_error_In in ER. apply in_map_iff in ER. destruct ER as ([k u'] & <- & IN).
        exact (proj2 (good_all_field _ _ _ G IN)).
      - apply nth_error_In in ER. exact (good_elem _ _ G ER). }
    rewrite HM, RH. destruct (adopt_ok s sp d b e' u I (P d eq_refl) EB RU GU) as (l & t & -> & HT & I1). cbn [bind].
    apply (put_ok _ _ _ _ x t (within d u) I1 X HT). reflexivity.
  - (* drop *)
    apply done_ok. apply (put_it_ok _ _ _ _ j null_hold 0 None I F); [split; reflexivity|].
    intros d. unfold w. cbn. lia.
  - (* view *)
    destruct F as [W X]. destruct (var_at _ _ _ _ _ I X) as (h & E & H). destruct (view_at _ _ _ _ _ I W) as (g & EG & _).
    unfold var, viw. rewrite E, EG. eexists. split; [reflexivity|]. apply set_peek_ok; try assumption.
    split; [exact (proj1 H)|]. split; [reflexivity|exact X].
  - (* member of a view *)
    destruct F as (W & U & O & A). destruct (view_at _ _ _ _ _ I U) as (g & EG & K). destruct (view_at _ _ _ _ _ I W) as (g0 & EG0 & _).
    unfold viw. rewrite EG, EG0. destruct (nth u (peeks sp) (None, None)) as [h from] eqn:EU. cbn [fst snd] in *.
    destruct K as (FH & OW & B). cbn [fst snd] in *.
    pose proof (look_ok _ _ _ _ _ C FH) as L.
    destruct h as [[d v]|]; cbn [seen doc_of].
    + destruct L as (Z & b & EB & R & ->). { intros d' v' q. injection q as <- <-. cbn [shown_alive] in A. unfold held. lia. }
      destruct FH as (HM & NV & G & T & D & R').
      pose proof (step_reaches n _ _ _ _ R G O) as S. destruct (reached n v) as [q|er]; cbn [reaches fst snd] in *.
      * destruct S as (GU & e' & -> & RU). cbn [trying fst snd]. eexists. split; [reflexivity|]. apply set_peek_ok; try assumption.
        destruct (within_fine _ _ _ _ _ EB RU GU) as [FU ZU]. rewrite HM, ZU.
        split; [exact FU|]. cbn [g_own snd fst]. split; [destruct q; auto|].
        destruct from; destruct q; cbn [within]; auto; discriminate B.
      * rewrite S. cbn [trying]. eauto.
    + destruct L as (Z & ->); [discriminate|]. cbn [fine] in FH. destruct (step_null n (g_raw g) 0 [] FH) as [-> ->].
      cbn [trying fst snd]. eauto.
  - (* reading a view *)
    destruct F as [W A]. destruct (view_at _ _ _ _ _ I W) as (g & EG & K). unfold viw. rewrite EG. destruct K as (FH & _).
    rewrite (read_ok s _ _ _ _ C FH); [cbn [trying]; eauto|].
    intros d v q. rewrite q in A. cbn [shown_alive] in A. unfold held. lia.
  - (* its count *)
    destruct (view_at _ _ _ _ _ I F) as (g & EG & FH & OW & B). unfold viw. rewrite EG, OW.
    destruct (snd (nth _ (peeks sp) (None, None))) as [y|]; [|eauto].
    destruct (var_at _ _ _ _ _ I B) as (h & E & H). unfold var. rewrite E, (use_count_ok s sp y h I H). cbn [bind].
    eexists. split; [|exact I]. repeat f_equal.
    assert (0 <= count_of sp (handle sp y)) by (destruct (handle sp y) as [[? ?]|]; cbn; lia).
    destruct (Z.eqb_spec (count_of sp (handle sp y)) 0); lia.
  - (* as_owner *)
    destruct F as (X & W & A). destruct (view_at _ _ _ _ _ I W) as (g & EG & FH & OW & B). unfold viw. rewrite EG, OW.
    destruct (nth _ (peeks sp) (None, None)) as [h from] eqn:EU. cbn [fst snd] in *. apply done_ok.
    assert (Q : exists r, match from with Some y => var s y (fun h0 => Ok (ref h0)) | None => Ok None end = Ok r /\
                  r = option_map fst h /\ forall d, r = Some d -> 0 < held sp d).
    { destruct from as [y|].
      - destruct (var_at _ _ _ _ _ I B) as (hy & E & H). unfold var. rewrite E. exists (ref hy). split; [reflexivity|].
        split; [|exact (var_counted _ _ _ _ _ I H)].
        rewrite (proj2 H). destruct h as [[d v]|], (handle sp y) as [[d' v']|]; cbn in A |- *; try contradiction; congruence.
      - subst h. exists None. repeat split. discriminate. }
    destruct Q as (r & -> & ER & P). cbn [bind].
    destruct (retain_held _ _ _ _ r I P) as (l & -> & I1 & V). cbn [bind].
    apply (put_ok _ _ _ _ x _ h I1 X).
    + split; [exact (fine_evolves _ _ _ _ _ V FH)|exact ER].
    + intros d. rewrite ER, w_one. reflexivity.
Qed.

Theorem b_run_ok ops : forall s sp, Inv s sp -> b_fair_all sp ops ->
  exists s', b_run s ops = Ok (s', snd (b_story sp ops)) /\ Inv s' (fst (b_story sp ops)).
Proof.
  induction ops as [|o r IH]; intros s sp I F; cbn [b_run b_story fst snd]; [eauto|].
  destruct F as [F1 F2]. destruct (b_step_ok s sp o I F1) as (s1 & -> & I1). cbn [bind].
  destruct (b_does sp o) as [sp1 a]. cbn [fst snd] in *.
  destruct (IH s1 sp1 I1 F2) as (s2 & -> & I2). cbn [bind]. destruct (b_story sp1 r) as [sp2 l]. cbn [fst snd] in *. eauto.
Qed.

Lemma b_start_ok n j u : Inv (b_start n j u) (b_blank n j u).
Proof.
  constructor; cbn [b_start b_blank heap vars iters views docs handles walks peeks].
  - split; [reflexivity|]. intros d b E. destruct d; discriminate.
  - intros d. unfold held. rewrite holders_cnt. cbn [b_blank handles walks].
    assert (Z : forall A k, cnt d (repeat (@None (nat * A)) k) = 0) by (intros A k; induction k; [reflexivity|cbn [repeat]; rewrite cnt_cons; unfold w; cbn; lia]).
    rewrite !Z. destruct d; reflexivity.
  - induction n; constructor; auto. split; reflexivity.
  - induction j; constructor; auto. split; reflexivity.
  - induction u; constructor; auto. split; [reflexivity|]. split; reflexivity.
Qed.
