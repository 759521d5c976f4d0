(** The clocks of Par.v are sound: a run they let pass has no data race by the
    definition in ParLog.v. *)

From Coq Require Import ZArith List Bool Arith Lia.
From Verif Require Import Base BaseFacts Keys Wire SpecOps HeapOps Store StoreFacts StoreSteps Par ParLog.
Import ListNotations.
Local Open Scope nat_scope.

Lemma clash_conflict x y : clash x y <-> conflict y x = true.
Proof.
  split.
  - intros (o & mx & my & Hx & Hy & N1 & N2). destruct x, y, o; cbn in *; try discriminate; try reflexivity;
      injection Hx as <-; injection Hy as <-; exfalso; solve [apply N1; auto | apply N2; auto].
  - destruct x, y; cbn; try discriminate; intros _.
    all: first [exists Contents; do 2 eexists; split; [reflexivity|]; split; [reflexivity|]; split; intros [A B]; discriminate
               |exists Counter; do 2 eexists; split; [reflexivity|]; split; [reflexivity|]; split; intros [A B]; discriminate].
Qed.

Lemma at_app_l l l' i x : event_at l i x -> event_at (l ++ l') i x.
Proof. unfold event_at. intros H. rewrite nth_error_app1; [exact H|]. apply nth_error_Some. congruence. Qed.
Lemma at_last l x : event_at (l ++ [x]) (length l) x.
Proof. unfold event_at. rewrite nth_error_app2, Nat.sub_diag by lia. reflexivity. Qed.
Lemma at_snoc l z i x : event_at (l ++ [z]) i x -> event_at l i x \/ (i = length l /\ x = z).
Proof.
  unfold event_at. intros H. destruct (Nat.lt_ge_cases i (length l)).
  - left. rewrite nth_error_app1 in H by lia. exact H.
  - right. assert (i < length (l ++ [z])) by (apply nth_error_Some; congruence). rewrite app_length in *. cbn in *.
    assert (i = length l) by lia. subst. rewrite nth_error_app2, Nat.sub_diag in H by lia. injection H as <-. auto.
Qed.
Lemma at_lt l i x : event_at l i x -> (i < length l)%nat.
Proof. intros H. apply nth_error_Some. unfold event_at in H. congruence. Qed.
Lemma hb_app l l' i j : hb l i j -> hb (l ++ l') i j.
Proof.
  induction 1.
  - eapply hb_thread; eauto using at_app_l.
  - eapply hb_sync; eauto using at_app_l.
  - eapply hb_trans; eauto.
Qed.

(** Up to and including. *)
Definition upto (l : list event) (i j : nat) : Prop := i = j \/ hb l i j.
Lemma upto_app l l' i j : upto l i j -> upto (l ++ l') i j.
Proof. intros [->|H]; [left; reflexivity|right; apply hb_app; exact H]. Qed.

Definition reaches (l : list event) (i t : nat) : Prop := exists j y, upto l i j /\ event_at l j y /\ tid y = t.
Definition handed (l : list event) (i a : nat) : Prop :=
  exists j y, upto l i j /\ event_at l j y /\ place y = a /\ releases y = true.
Lemma reaches_app l l' i t : reaches l i t -> reaches (l ++ l') i t.
Proof. intros (j & y & U & A & T). exists j, y. split; [apply upto_app; exact U|]. split; [apply at_app_l; exact A|exact T]. Qed.
Lemma handed_app l l' i a : handed l i a -> handed (l ++ l') i a.
Proof. intros (j & y & U & A & T). exists j, y. split; [apply upto_app; exact U|]. split; [apply at_app_l; exact A|exact T]. Qed.

(** [ts] are the times of the events. *)
Record ordered (n : nat) (l : list event) (ts : list nat) (cl : nat -> clock) (sy : nat -> clock)
    (hi : nat -> list access) (dead : nat -> Prop) : Prop := Ordered {
  o_len : length ts = length l;
  o_tid : forall i x, event_at l i x -> (tid x < n)%nat;
  o_hist : forall i x w, event_at l i x -> nth_error ts i = Some w -> In (Acc (what x) (tid x) w) (hi (place x));
  o_clock : forall i x w t, event_at l i x -> nth_error ts i = Some w -> (t < n)%nat -> (w <= cl t (tid x))%nat -> reaches l i t;
  o_sync : forall i x w a, event_at l i x -> nth_error ts i = Some w -> ~ dead a -> (w <= sy a (tid x))%nat -> handed l i a;
  o_ahead : forall t u, (t < n)%nat -> u <> t -> (cl u t < cl t t)%nat;
  o_later : forall t a, (t < n)%nat -> (sy a t < cl t t)%nat;
  o_free : race_free l }.

Lemma ordered_same n l ts cl cl' sy sy' hi hi' (dead dead' : nat -> Prop) : ordered n l ts cl sy hi dead ->
  (forall t u, cl' t u = cl t u) -> (forall a u, sy' a u = sy a u) -> (forall a, hi' a = hi a) -> (forall a, dead a -> dead' a) ->
  ordered n l ts cl' sy' hi' dead'.
Proof.
  intros [A B C D E F G H] Ec Es Eh Ed. constructor; auto.
  - intros. rewrite Eh. eauto.
  - intros i x w t. rewrite Ec. eauto.
  - intros i x w a. rewrite Es. intros ? ? N ?. eapply E; eauto.
  - intros. rewrite !Ec. auto.
  - intros. rewrite Es, Ec. auto.
Qed.

Lemma tick_own t v : tick t v t = S (v t).
Proof. unfold tick. rewrite Nat.eqb_refl. reflexivity. Qed.
Lemma tick_other t v u : u <> t -> tick t v u = v u.
Proof. intros N. unfold tick. destruct (Nat.eqb_spec u t); [contradiction|reflexivity]. Qed.
Lemma upd_same {A} a (y : A) f : upd a y f a = y.
Proof. unfold upd. rewrite Nat.eqb_refl. reflexivity. Qed.
Lemma upd_other {A} a (y : A) f c : c <> a -> upd a y f c = f c.
Proof. intros N. unfold upd. destruct (Nat.eqb_spec c a); [contradiction|reflexivity]. Qed.

(** Giving the clock to others through [sy a], or not, and going on. *)
Lemma ordered_tick n l ts cl sy sy' hi dead t : ordered n l ts cl sy hi dead -> (t < n)%nat ->
  (forall c u, sy' c u = sy c u \/ (sy' c u <= Nat.max (sy c u) (cl t u))%nat /\
     (dead c \/ exists j y, event_at l j y /\ place y = c /\ releases y = true /\
        forall i x w, event_at l i x -> nth_error ts i = Some w -> (w <= cl t (tid x))%nat -> upto l i j)) ->
  ordered n l ts (upd t (tick t (cl t)) cl) sy' hi dead.
Proof.
  intros [A B C D E F G H] Lt S. constructor; auto.
  - intros i x w u X W Lu. unfold upd. destruct (Nat.eqb_spec u t) as [->|N]; [|eauto].
    destruct (Nat.eq_dec (tid x) t) as [T|T].
    + intros _. exists i, x. repeat split; auto. left. reflexivity.
    + rewrite tick_other by exact T. eauto.
  - intros i x w a X W ND Hw. destruct (S a (tid x)) as [Q|[Q [Dd|(j & y & Y & P & R & Z)]]].
    + rewrite Q in Hw. eauto.
    + contradiction.
    + destruct (Nat.le_gt_cases w (sy a (tid x))); [eauto|]. exists j, y. split; [apply (Z i x w); auto; lia|]. auto.
  - intros v u Lv N. unfold upd. destruct (Nat.eqb_spec u t) as [->|Nu], (Nat.eqb_spec v t) as [->|Nv]; try contradiction.
    + rewrite tick_other by auto. auto.
    + rewrite tick_own. specialize (F t u Lv N). lia.
    + auto.
  - intros v a Lv. unfold upd. destruct (Nat.eqb_spec v t) as [->|Nv].
    + rewrite tick_own. specialize (G t a Lv). destruct (S a t) as [->|[Q _]]; lia.
    + destruct (S a v) as [->|[Q _]]; [auto|]. specialize (G v a Lv). specialize (F v t Lv ltac:(auto)). lia.
Qed.

(** One more access. *)
Lemma ordered_add n l ts cl sy hi dead t a k r (q : bool) vc : ordered n l ts cl sy hi dead -> (t < n)%nat ->
  (q = true -> ~ dead a) ->
  let v := if q then join (cl t) (sy a) else cl t in
  (forall u, (vc u <= v u)%nat) ->
  forallb (fun x => implb (conflict k (how x)) (before x vc)) (hi a) = true ->
  v t = cl t t /\
  ordered n (l ++ [Ev t a k r q]) (ts ++ [cl t t]) (upd t v cl) sy (upd a (Acc k t (cl t t) :: hi a) hi) dead.
Proof.
  intros O Lt ND v Hv CK. pose proof O as [A B C D E F G H]. set (z := Ev t a k r q).
  assert (Vt : v t = cl t t). { unfold v, join. destruct q; [|reflexivity]. specialize (G t a Lt). lia. }
  split; [exact Vt|].
  assert (TS : forall i w, nth_error (ts ++ [cl t t]) i = Some w -> (i < length l)%nat -> nth_error ts i = Some w).
  { intros i w W L. rewrite nth_error_app1 in W by lia. exact W. }
  assert (TL : forall w, nth_error (ts ++ [cl t t]) (length l) = Some w -> w = cl t t).
  { intros w W. rewrite nth_error_app2, A, Nat.sub_diag in W by lia. injection W as <-. reflexivity. }
  (* everything the clock knows of is before the new access *)
  assert (K : forall i x w, event_at l i x -> nth_error ts i = Some w -> (w <= v (tid x))%nat -> hb (l ++ [z]) i (length l)).
  { intros i x w X W Hw. assert (R : reaches l i t \/ (q = true /\ handed l i a)).
    { unfold v, join in Hw. destruct q; [|left; eauto]. destruct (Nat.le_gt_cases w (cl t (tid x))); [left; eauto|].
      right. split; [reflexivity|]. apply (E i x w a); auto. lia. }
    assert (U : exists j, upto l i j /\ hb (l ++ [z]) j (length l)).
    { destruct R as [(j & y & U & Y & T)|[Q (j & y & U & Y & P & R)]]; exists j; (split; [exact U|]).
      - eapply (hb_thread _ _ _ y z); [exact (at_lt _ _ _ Y)|apply at_app_l; exact Y|apply at_last|exact T].
      - eapply (hb_sync _ _ _ y z); [exact (at_lt _ _ _ Y)|apply at_app_l; exact Y|apply at_last|exact P|exact R|exact Q]. }
    destruct U as (j & [->|U] & J); [exact J|]. eapply hb_trans; [apply hb_app; exact U|exact J]. }
  constructor.
  - rewrite !app_length, A. reflexivity.
  - intros i x X. destruct (at_snoc _ _ _ _ X) as [X'|[-> ->]]; [eauto|exact Lt].
  - intros i x w X W. destruct (at_snoc _ _ _ _ X) as [X'|[-> ->]].
    + specialize (C i x w X' (TS i w W (at_lt _ _ _ X'))). unfold upd. destruct (Nat.eqb_spec (place x) a) as [<-|]; [right|]; exact C.
    + rewrite (TL w W). change (place z) with a. rewrite upd_same. left. reflexivity.
  - intros i x w u X W Lu Hw. destruct (at_snoc _ _ _ _ X) as [X'|[-> ->]].
    + pose proof (TS i w W (at_lt _ _ _ X')) as W'. unfold upd in Hw. destruct (Nat.eqb_spec u t) as [->|N].
      * exists (length l), z. split; [right; eapply K; eauto|]. split; [apply at_last|reflexivity].
      * apply reaches_app. eauto.
    + rewrite (TL w W) in Hw. change (tid z) with t in Hw. unfold upd in Hw. destruct (Nat.eqb_spec u t) as [->|N].
      * exists (length l), z. split; [left; reflexivity|]. split; [apply at_last|reflexivity].
      * specialize (F t u Lt N). lia.
  - intros i x w c X W Nd Hw. destruct (at_snoc _ _ _ _ X) as [X'|[-> ->]].
    + apply handed_app. eapply E; eauto using at_lt.
    + rewrite (TL w W) in Hw. change (tid z) with t in Hw. specialize (G t c Lt). lia.
  - intros u c Lu N. unfold upd. destruct (Nat.eqb_spec c t) as [->|Nc], (Nat.eqb_spec u t) as [->|Nu]; try contradiction.
    + unfold v, join. destruct q; [|auto]. specialize (F u t Lu N). specialize (G u a Lu). lia.
    + rewrite Vt. auto.
    + auto.
  - intros u c Lu. unfold upd. destruct (Nat.eqb_spec u t) as [->|Nu]; [rewrite Vt|]; auto.
  - intros i j x y L X Y P CL. destruct (at_snoc _ _ _ _ Y) as [Y'|[-> ->]].
    + destruct (at_snoc _ _ _ _ X) as [X'|[-> _]]; [|apply at_lt in Y'; lia]. apply hb_app. eapply H; eauto.
    + destruct (at_snoc _ _ _ _ X) as [X'|[-> _]]; [|lia]. apply clash_conflict in CL. change (what z) with k in CL. change (place z) with a in P.
      destruct (nth_error ts i) as [w|] eqn:W.
      2:{ apply nth_error_None in W. apply at_lt in X'. lia. }
      specialize (C i x w X' W). rewrite P in C. pose proof (proj1 (forallb_forall _ _) CK _ C) as Q. cbn [how before who when] in Q.
      rewrite CL in Q. apply Nat.leb_le in Q. apply (K i x w X' W). exact (Nat.le_trans _ _ _ Q (Hv (tid x))).
Qed.

(** ** Steps *)
Definition gone (c : cells) (a : nat) : Prop := nth_error c a = Some None.
Definition clocks (ths : list thread) (t : nat) : clock := match nth_error ths t with Some th => clk th | None => zero end.
Definition sound (l : list event) (g : global) : Prop :=
  exists ts, ordered (length (threads g)) l ts (clocks (threads g)) (sync (mem_ g)) (hist (mem_ g)) (gone (cs (mem_ g))).

Lemma clocks_set ths t th u : (t < length ths)%nat -> clocks (list_set t th ths) u = upd t (clk th) (clocks ths) u.
Proof.
  intros L. unfold clocks, upd. destruct (Nat.eqb_spec u t) as [->|N].
  - rewrite nth_set_same by lia. reflexivity.
  - rewrite nth_set_other by auto. reflexivity.
Qed.

Lemma touch_inv t k a v m m1 : touch t k a v m = Ok m1 ->
  forallb (fun x => implb (conflict k (how x)) (before x v)) (hist m a) = true /\
  m1 = Mem (cs m) (sync m) (upd a (Acc k t (v t) :: hist m a) (hist m)).
Proof. unfold touch. destruct (forallb _ _); [|discriminate]. intros E. injection E as <-. auto. Qed.
Lemma gone_not c a p : cell_at c a = Some p -> ~ gone c a.
Proof. unfold gone, cell_at. intros H N. rewrite N in H. discriminate. Qed.
Lemma gone_set c a p o b : cell_at c a = Some p -> gone c b -> gone (list_set a o c) b.
Proof.
  intros C N. unfold gone. rewrite nth_set_other; [exact N|]. intros ->. exact (gone_not _ _ _ C N).
Qed.
Lemma gone_app c r b : gone c b -> gone (c ++ r) b.
Proof. unfold gone. intros N. rewrite nth_error_app1; [exact N|]. apply nth_error_Some. congruence. Qed.

Lemma sound_quiet l g t th th' : sound l g -> nth_error (threads g) t = Some th ->
  (clk th' = clk th \/ clk th' = tick t (clk th)) ->
  sound l (Gl (mem_ g) (list_set t th' (threads g))).
Proof.
  intros (ts & O) N C. assert (Lt : t < length (threads g)) by (apply nth_error_Some; congruence).
  assert (CT : clocks (threads g) t = clk th) by (unfold clocks; rewrite N; reflexivity).
  exists ts. cbn [mem_ threads]. rewrite list_set_length. destruct C as [C|C].
  - eapply ordered_same; [exact O| | | |]; auto. intros u w. rewrite clocks_set by exact Lt. unfold upd.
    destruct (Nat.eqb_spec u t) as [->|]; [|reflexivity]. rewrite C, CT. reflexivity.
  - eapply ordered_same; [apply (ordered_tick _ _ _ _ _ (sync (mem_ g)) _ _ t O Lt); auto| | | |]; auto.
    intros u w. rewrite clocks_set by exact Lt. unfold upd. rewrite C, CT. reflexivity.
Qed.

(** One access that is no release. *)
Lemma sound_one l g t th th' a k (q : bool) v m' : sound l g -> nth_error (threads g) t = Some th ->
  v = (if q then join (clk th) (sync (mem_ g) a) else clk th) ->
  clk th' = tick t v ->
  (q = true -> ~ gone (cs (mem_ g)) a) ->
  touch t k a v (mem_ g) = Ok m' ->
  forall c : cells, (forall b, gone (cs (mem_ g)) b -> gone c b) ->
  sound (l ++ [Ev t a k false q]) (Gl (Mem c (sync m') (hist m')) (list_set t th' (threads g))).
Proof.
  intros (ts & O) N V C ND T c GC. assert (Lt : t < length (threads g)) by (apply nth_error_Some; congruence).
  assert (CT : clocks (threads g) t = clk th) by (unfold clocks; rewrite N; reflexivity).
  apply touch_inv in T. destruct T as [CK ->].
  destruct (ordered_add _ _ _ _ _ _ _ t a k false q v O Lt ND) as [Vt O1].
  { rewrite CT, V. auto. } { exact CK. }
  rewrite CT, <- V in Vt, O1.
  exists (ts ++ [clk th t]). cbn [mem_ threads cs sync hist]. rewrite list_set_length.
  eapply ordered_same; [apply (ordered_tick _ _ _ _ _ (sync (mem_ g)) _ _ t O1 Lt); auto| | | |]; auto.
  - intros u w. rewrite clocks_set by exact Lt. rewrite upd_same. unfold upd. rewrite C. destruct (u =? t); reflexivity.
  - intros b. rewrite Vt. reflexivity.
Qed.

Lemma sound_drop l g t th th' h r r1 v1 m1 : sound l g -> nth_error (threads g) t = Some th ->
  drop_one t h r (clk th) (mem_ g) = Ok (r1, v1, m1) -> clk th' = tick t v1 ->
  sound (l ++ dropped t h (mem_ g)) (Gl m1 (list_set t th' (threads g))).
Proof.
  intros S N D C. unfold drop_one, dropped in *. destruct (href h) as [a|].
  2:{ injection D as <- <- <-. rewrite app_nil_r. apply (sound_quiet _ _ _ th); auto. }
  destruct S as (ts & O). assert (Lt : t < length (threads g)) by (apply nth_error_Some; congruence).
  assert (CT : clocks (threads g) t = clk th) by (unfold clocks; rewrite N; reflexivity).
  destruct (cell_at (cs (mem_ g)) a) as [[n c]|] eqn:CA; [|discriminate].
  destruct (touch t K_count a (clk th) (mem_ g)) as [m0| | | |] eqn:T0; try discriminate. cbn [bind] in D.
  apply touch_inv in T0. destruct T0 as [CK0 ->].
  destruct (n =? 1)%Z.
  - destruct (touch t K_free a _ _) as [m2| | | |] eqn:T1; try discriminate. cbn [bind] in D. injection D as <- <- <-.
    apply touch_inv in T1. destruct T1 as [CK1 ->].
    set (v := join (clk th) (sync (mem_ g) a)) in *.
    destruct (ordered_add _ _ _ _ _ _ _ t a K_count true true (clk th) O Lt) as [Vt O1].
    { intros _. exact (gone_not _ _ _ CA). }
    { intros u. rewrite CT. unfold join. lia. } { exact CK0. }
    rewrite CT in Vt, O1. fold v in Vt, O1.
    destruct (ordered_add _ _ _ _ _ _ _ t a K_free false false v O1 Lt ltac:(discriminate)) as [Wt O2].
    { intros u. rewrite upd_same. auto. } { exact CK1. }
    rewrite !upd_same in O2. rewrite <- app_assoc in O2. cbn [app] in O2.
    exists ((ts ++ [clk th t]) ++ [v t]). cbn [mem_ threads cs sync hist]. rewrite list_set_length.
    assert (O3 := ordered_same _ _ _ _ _ _ _ _ _ _ (gone (list_set a None (cs (mem_ g)))) O2
      (fun _ _ => eq_refl) (fun _ _ => eq_refl) (fun _ => eq_refl) (fun b => gone_set _ _ _ None b CA)).
    eapply ordered_same; [apply (ordered_tick _ _ _ _ _ (upd a (join (sync (mem_ g) a) (clk th)) (sync (mem_ g))) _ _ t O3 Lt)| | | |]; auto.
    + intros b u. destruct (Nat.eq_dec b a) as [->|Nb]; [right; split|left; rewrite upd_other by exact Nb; reflexivity].
      * rewrite !upd_same. unfold v, join. lia.
      * left. unfold gone. rewrite nth_set_same; [reflexivity|]. apply nth_error_Some. unfold cell_at in CA. intros Q. rewrite Q in CA. discriminate.
    + intros u w. rewrite clocks_set by exact Lt. rewrite !upd_same. unfold upd. rewrite C. destruct (u =? t); reflexivity.
    + intros b. rewrite upd_same. reflexivity.
  - injection D as <- <- <-.
    destruct (ordered_add _ _ _ _ _ _ _ t a K_count true false (clk th) O Lt ltac:(discriminate)) as [Vt O1].
    { intros u. rewrite CT. auto. } { exact CK0. }
    rewrite CT in O1.
    exists (ts ++ [clk th t]). cbn [mem_ threads cs sync hist]. rewrite list_set_length.
    eapply ordered_same; [apply (ordered_tick _ _ _ _ _ (upd a (join (sync (mem_ g) a) (clk th)) (sync (mem_ g))) _ _ t O1 Lt)| | | |]; auto.
    + intros b u. destruct (Nat.eq_dec b a) as [->|Nb]; [right; split|left; rewrite upd_other by exact Nb; reflexivity].
      * rewrite !upd_same. unfold join. lia.
      * right. exists (length l), (Ev t a K_count true false). split; [apply at_last|]. split; [reflexivity|]. split; [reflexivity|].
        intros i x w X W Hw. destruct (o_clock _ _ _ _ _ _ _ O1 i x w t X W Lt Hw) as (j & y & U & Y & T).
        assert (J : upto (l ++ [Ev t a K_count true false]) j (length l)).
        { destruct (at_snoc _ _ _ _ Y) as [Y'|[-> _]]; [right|left; reflexivity].
          eapply (hb_thread _ _ _ y (Ev t a K_count true false)); [exact (at_lt _ _ _ Y')|exact Y|apply at_last|exact T]. }
        destruct U as [->|U]; [exact J|]. destruct J as [<-|J]; [right; exact U|right; eapply hb_trans; eauto].
    + intros u w. rewrite clocks_set by exact Lt. rewrite !upd_same. unfold upd. rewrite C. destruct (u =? t); reflexivity.
    + intros b. apply (gone_set _ _ _ _ b CA).
Qed.

Lemma sound_step acquire l g t g' : sound l g -> g_step acquire g t = Ok g' -> sound (l ++ stepped acquire g t) g'.
Proof.
  intros S E. unfold g_step, stepped in *. destruct (nth_error (threads g) t) as [th|] eqn:N.
  2:{ injection E as <-. rewrite app_nil_r. exact S. }
  destruct (junk th) as [|h r].
  - destruct (code th) as [[vs r| |x k]|].
    + injection E as <-. rewrite app_nil_r. apply (sound_quiet _ _ _ th); auto.
    + discriminate.
    + destruct (perform acquire t x (clk th) (mem_ g)) as [[[y v1] m1]| | | |] eqn:P; try discriminate. cbn [bind] in E. injection E as <-.
      unfold perform, acted in *. destruct x as [a|h|a|a c|c|h].
      * destruct (cell_at (cs (mem_ g)) a) as [[n c]|] eqn:CA; [|discriminate].
        destruct (touch _ _ _ _ _) as [m2| | | |] eqn:T; try discriminate. cbn [bind] in P. injection P as <- <- <-.
        destruct m2 as [c2 s2 h2]. pose proof (touch_inv _ _ _ _ _ _ T) as [_ Q]. injection Q as Q1 _ _. subst c2.
        eapply (sound_one l g t th _ a K_count acquire _ (Mem (cs (mem_ g)) s2 h2)); [exact S|exact N|reflexivity|reflexivity|intros _; exact (gone_not _ _ _ CA)|exact T|auto].
      * destruct (href h) as [a|] eqn:H.
        -- destruct (touch _ _ _ _ _) as [m2| | | |] eqn:T; try discriminate. cbn [bind] in P.
           unfold inc in P. rewrite H in P. destruct (cell_at (cs (mem_ g)) a) as [[n c]|] eqn:CA; [|discriminate]. cbn [bind] in P. injection P as <- <- <-.
           eapply (sound_one l g t th _ a K_count false _ m2); [exact S|exact N|reflexivity|reflexivity|discriminate|exact T|]. intros b. apply (gone_set _ _ _ _ b CA).
        -- injection P as <- <- <-. rewrite app_nil_r. apply (sound_quiet _ _ _ th); auto.
      * destruct (cell_at (cs (mem_ g)) a) as [[n c]|] eqn:CA; [|discriminate].
        destruct (touch _ _ _ _ _) as [m2| | | |] eqn:T; try discriminate. cbn [bind] in P. injection P as <- <- <-.
        destruct m2 as [c2 s2 h2]. pose proof (touch_inv _ _ _ _ _ _ T) as [_ Q]. injection Q as Q1 _ _. subst c2.
        eapply (sound_one l g t th _ a K_read false _ (Mem (cs (mem_ g)) s2 h2)); [exact S|exact N|reflexivity|reflexivity|discriminate|exact T|auto].
      * destruct (touch _ _ _ _ _) as [m2| | | |] eqn:T; try discriminate. cbn [bind] in P.
        unfold put in P. destruct (cell_at (cs (mem_ g)) a) as [[n c0]|] eqn:CA; [|discriminate]. cbn [bind] in P. injection P as <- <- <-.
        eapply (sound_one l g t th _ a K_write false _ m2); [exact S|exact N|reflexivity|reflexivity|discriminate|exact T|]. intros b. apply (gone_set _ _ _ _ b CA).
      * unfold alloc in *. cbn [snd]. destruct (touch _ _ _ _ _) as [m2| | | |] eqn:T; try discriminate. cbn [bind] in P. injection P as <- <- <-.
        eapply (sound_one l g t th _ _ K_new false _ m2); [exact S|exact N|reflexivity|reflexivity|discriminate|exact T|]. intros b. apply gone_app.
      * injection P as <- <- <-. rewrite app_nil_r. apply (sound_quiet _ _ _ th); auto.
    + destruct (todo th); injection E as <-; rewrite app_nil_r; [exact S|]. apply (sound_quiet _ _ _ th); auto.
  - destruct (drop_one _ _ _ _ _) as [[[r1 v1] m1]| | | |] eqn:D; try discriminate. cbn [bind] in E. injection E as <-.
    eapply sound_drop; eauto.
Qed.

Lemma sound_run acquire sched : forall l g g', sound l g -> g_run acquire g sched = Ok g' -> sound (l ++ g_log acquire g sched) g'.
Proof.
  induction sched as [|t r IH]; intros l g g' S E; cbn [g_run g_log] in *.
  - injection E as <-. rewrite app_nil_r. exact S.
  - destruct (g_step acquire g t) as [g1| | | |] eqn:E1; try discriminate. cbn [bind] in E. rewrite app_assoc. apply IH; [|exact E].
    apply sound_step; auto.
Qed.

Lemma deal_clocks jobs : forall t0 vs t, (t < length jobs)%nat -> clocks (deal t0 jobs vs) t = tick (t0 + t) zero.
Proof.
  induction jobs as [|[n os] r IH]; intros t0 vs t L; cbn [length] in L; [lia|]. cbn [deal]. destruct t as [|t].
  - unfold clocks. cbn [nth_error clk]. rewrite Nat.add_0_r. reflexivity.
  - unfold clocks in *. cbn [nth_error]. rewrite (IH (S t0)) by lia. f_equal. lia.
Qed.
Lemma deal_none jobs : forall t0 vs t, (length jobs <= t)%nat -> clocks (deal t0 jobs vs) t = zero.
Proof.
  induction jobs as [|[n os] r IH]; intros t0 vs t L; cbn [length] in L; cbn [deal]; unfold clocks in *.
  - destruct t; reflexivity.
  - destruct t as [|t]; [lia|]. cbn [nth_error]. apply (IH (S t0)). lia.
Qed.
Lemma deal_len jobs : forall t0 vs, length (deal t0 jobs vs) = length jobs.
Proof. induction jobs as [|[n os] r IH]; intros; cbn [deal length]; [reflexivity|]. rewrite IH. reflexivity. Qed.

Lemma sound_fork s jobs : sound [] (fork s jobs).
Proof.
  assert (Z : forall i x, ~ event_at [] i x). { unfold event_at. intros [|i] x H; discriminate. }
  exists []. cbn [fork threads mem_ sync hist cs]. rewrite deal_len.
  constructor; try reflexivity; try (intros; exfalso; eapply Z; eassumption).
  - intros t u L N. rewrite (deal_clocks jobs 0 (vars s) t L), Nat.add_0_l, tick_own. destruct (Nat.lt_ge_cases u (length jobs)) as [Lu|Lu].
    + rewrite (deal_clocks jobs 0 (vars s) u Lu), Nat.add_0_l, tick_other by auto. unfold zero. lia.
    + rewrite (deal_none jobs 0 (vars s) u Lu). unfold zero. lia.
  - intros t a L. rewrite (deal_clocks jobs 0 (vars s) t L), Nat.add_0_l, tick_own. unfold zero. lia.
  - intros i j x y _ X. exfalso. exact (Z _ _ X).
Qed.

Theorem run_race_free acquire s jobs sched g : g_run acquire (fork s jobs) sched = Ok g -> race_free (g_log acquire (fork s jobs) sched).
Proof. intros E. destruct (sound_run _ _ [] _ _ (sound_fork s jobs) E) as (ts & O). exact (o_free _ _ _ _ _ _ _ O). Qed.

(** To show that something does not happen before: a set closed under the two orders. *)
Definition edge (x y : event) : bool :=
  (tid x =? tid y) || ((place x =? place y) && releases x && acquires y).
Definition closed_in (l : list event) (inside : nat -> bool) : bool :=
  forallb (fun i => forallb (fun j => implb ((i <? j) && inside i && negb (inside j))
    match nth_error l i, nth_error l j with Some x, Some y => negb (edge x y) | _, _ => true end) (seq 0 (length l))) (seq 0 (length l)).
Lemma hb_closed l inside i j : closed_in l inside = true -> hb l i j -> inside i = true -> inside j = true.
Proof.
  intros C H. assert (St : forall i j x y, i < j -> event_at l i x -> event_at l j y -> edge x y = true -> inside i = true -> inside j = true).
  { clear H. intros i' j' x y L X Y E I. unfold closed_in in C. pose proof (proj1 (forallb_forall _ _) C i') as C1.
    specialize (C1 ltac:(apply in_seq; apply at_lt in X; lia)). cbn beta in C1.
    pose proof (proj1 (forallb_forall _ _) C1 j') as C2. specialize (C2 ltac:(apply in_seq; apply at_lt in Y; lia)). cbn beta in C2.
    unfold event_at in X, Y. rewrite X, Y, E, I, (proj2 (Nat.ltb_lt _ _) L) in C2. destruct (inside j'); [reflexivity|discriminate]. }
  induction H as [i j x y L X Y T|i j x y L X Y P R A|i j k H1 IH1 H2 IH2].
  - apply (St i j x y); auto. unfold edge. rewrite T, Nat.eqb_refl. reflexivity.
  - apply (St i j x y); auto. unfold edge. rewrite P, Nat.eqb_refl, R, A. apply orb_true_r.
  - auto.
Qed.

Definition edge_at (l : list event) (i j : nat) : bool :=
  match nth_error l i, nth_error l j with Some x, Some y => edge x y | _, _ => false end.
Definition onward (l : list event) (i : nat) : list nat :=
  fold_left (fun s j => if existsb (fun k => (k <? j) && edge_at l k j) s then j :: s else s) (seq 0 (length l)) [i].
Definition among (s : list nat) (j : nat) : bool := existsb (Nat.eqb j) s.
(** The accesses [i] and [j] race. *)
Definition race_at (l : list event) (i j : nat) : bool :=
  (i <? j) &&
  match nth_error l i, nth_error l j with
  | Some x, Some y => (place x =? place y) && conflict (what y) (what x)
  | _, _ => false
  end &&
  among (onward l i) i && closed_in l (among (onward l i)) && negb (among (onward l i) j).
Lemma race_found l i j : race_at l i j = true -> ~ race_free l.
Proof.
  unfold race_at. intros H R. repeat rewrite andb_true_iff in H. destruct H as [[[[L M] I] C] NJ].
  destruct (nth_error l i) as [x|] eqn:X; [|discriminate]. destruct (nth_error l j) as [y|] eqn:Y; [|discriminate].
  apply andb_true_iff in M. destruct M as [P K]. apply Nat.ltb_lt in L. apply Nat.eqb_eq in P.
  pose proof (R i j x y L X Y P (proj2 (clash_conflict _ _) K)) as H. rewrite (hb_closed _ _ _ _ C H I) in NJ. discriminate.
Qed.
