(** Destroying with nested calls: what it leaves, and how many it takes. *)

From Coq Require Import ZArith List Bool Lia ZifyBool ZifyNat ZifyN.
From Verif Require Import Base BaseFacts Keys Wire Spec HeapOps HeapFacts Enc SpecCost Depth Store StoreSpec StoreFacts
  PackHold PackHoldFacts Deep.
Import ListNotations.
Open Scope Z_scope.

(** ** As the list of handles still to be destroyed *)

Definition after (o : res cells) (fuel : nat) (r : list hval) : res cells :=
  match o with Ok cs => drop_n fuel cs r | x => x end.

Lemma release_drop f : forall cs h, release f cs h <> Fuel ->
  exists k, forall fuel r, drop_n (k + fuel) cs (h :: r) = after (release f cs h) fuel r.
Proof.
  induction f as [|f IH]; intros cs h N; [now cbn in N|]. cbn [release] in *. destruct (href h) as [a|] eqn:E.
  2: { exists 1%nat. intros fuel r. cbn [Nat.add drop_n]. rewrite E. reflexivity. }
  destruct (cell_at cs a) as [[n c]|] eqn:C.
  2: { exists 1%nat. intros fuel r. cbn [Nat.add drop_n]. rewrite E, C. reflexivity. }
  destruct (n =? 1) eqn:N1.
  2: { exists 1%nat. intros fuel r. cbn [Nat.add drop_n]. rewrite E, C, N1. reflexivity. }
  assert (G : forall l cs, release_all (release f) cs l <> Fuel ->
    exists k, forall fuel r, drop_n (k + fuel) cs (l ++ r) = after (release_all (release f) cs l) fuel r).
  { clear - IH. induction l as [|h l IHl]; intros cs N.
    - exists 0%nat. reflexivity.
    - cbn [release_all] in *. destruct (IH cs h) as (k1 & K1); [intros X; rewrite X in N; now apply N|].
      destruct (release f cs h) as [cs1|er| | |] eqn:R; cbn [bind] in *; try (now exfalso; apply N).
      + destruct (IHl cs1 N) as (k2 & K2). exists (k1 + k2)%nat. intros fuel r. cbn [app].
        rewrite <- Nat.add_assoc, K1. cbn [after]. apply K2.
      + exists k1. intros fuel r. cbn [app]. rewrite K1. reflexivity.
      + exists k1. intros fuel r. cbn [app]. rewrite K1. reflexivity.
      + exists k1. intros fuel r. cbn [app]. rewrite K1. reflexivity. }
  destruct (G _ _ N) as (k & K). exists (S k). intros fuel r. cbn [Nat.add drop_n]. rewrite E, C, N1. apply K.
Qed.

Lemma drop_n_more n : forall m cs hs, (n <= m)%nat -> drop_n n cs hs <> Fuel -> drop_n m cs hs = drop_n n cs hs.
Proof.
  induction n as [|n IH]; intros m cs hs L N.
  - destruct hs; [destruct m; reflexivity|]. now cbn in N.
  - destruct m as [|m]; [lia|]. destruct hs as [|h r]; [reflexivity|]. cbn [drop_n] in *.
    destruct (href h) as [a|]; [|apply IH; [lia|exact N]]. destruct (cell_at cs a) as [[k c]|]; [|reflexivity].
    destruct (k =? 1); (apply IH; [lia|exact N]).
Qed.

Theorem release_is_drop f cs h roots : wf cs (h :: roots) -> release f cs h <> Fuel -> release f cs h = drop cs [h].
Proof.
  intros W N. destruct (drop_ok (List.length [h] + List.length (all_kids cs)) cs [h] roots W) as (cs' & E & _); [cbn [List.length]; lia|].
  unfold drop. rewrite E. destruct (release_drop f cs h N) as (k & K). specialize (K 0%nat []). rewrite Nat.add_0_r in K.
  assert (A : after (release f cs h) 0 [] = release f cs h) by (destruct (release f cs h); reflexivity). rewrite A in K. rewrite <- K.
  destruct (Nat.le_ge_cases k (List.length [h] + List.length (all_kids cs))) as [L|L].
  - rewrite <- E. symmetry. apply drop_n_more; [exact L|]. rewrite K. exact N.
  - rewrite <- E. apply drop_n_more; [exact L|]. rewrite E. discriminate.
Qed.

(** ** Levels are enough *)

(** Contents are those of [cs0] or gone. *)
Definition thins (cs0 cs : cells) : Prop := forall a n c, cell_at cs a = Some (n, c) -> exists n0, cell_at cs0 a = Some (n0, c).
Lemma thins_set cs0 cs a n c o : thins cs0 cs -> cell_at cs a = Some (n, c) -> (o = None \/ exists n', o = Some (n', c)) -> thins cs0 (list_set a o cs).
Proof.
  intros T C O b m d D. destruct (Nat.eq_dec b a) as [->|Nb].
  - rewrite (cell_set_same _ _ _ _ C) in D. destruct O as [->|[n' ->]]; [discriminate|]. injection D as <- <-. exact (T _ _ _ C).
  - rewrite (cell_set_other _ _ _ _ _ C Nb) in D. exact (T _ _ _ D).
Qed.

Lemma release_enough cs0 f : forall cs h v, thins cs0 cs -> shows cs0 h v -> (levels v <= f)%nat ->
  release f cs h <> Fuel /\ forall cs', release f cs h = Ok cs' -> thins cs0 cs'.
Proof.
  induction f as [|f IH]; intros cs h v T Sh L; [pose proof (levels_pos v); lia|]. cbn [release].
  destruct (href h) as [a|] eqn:E; [|split; [discriminate|intros cs' X; injection X as <-; exact T]].
  destruct (cell_at cs a) as [[n c]|] eqn:C; [|split; discriminate].
  destruct (n =? 1).
  2: { split; [discriminate|]. intros cs' X. injection X as <-. eapply thins_set; [exact T|exact C|]. right. eauto. }
  destruct (T _ _ _ C) as (n0 & C0).
  assert (K : Forall (fun k => exists w, shows cs0 k w /\ (levels w <= f)%nat) (kids c)).
  { destruct Sh as [| | | | |a' n' fs vs C' F|a' n' ms vs C' F]; try discriminate; injection E as ->; rewrite C0 in C'; injection C' as <- ->; cbn [kids].
    - rewrite levels_obj in L. apply Forall_forall. intros k I. apply in_map_iff in I. destruct I as ([k' h'] & <- & I). cbn [snd].
      clear - F L I. induction F as [|p q fs vs [_ Hs] F IHF]; [contradiction|]. destruct q as [kq xq]. cbn [pair_levels] in L.
      destruct I as [->|I]; [exists xq; split; [exact Hs|lia]|apply IHF; [lia|exact I]].
    - rewrite levels_arr in L. apply Forall_forall. intros k I.
      clear - F L I. induction F as [|p q fs vs Hs F IHF]; [contradiction|]. cbn [elem_levels] in L.
      destruct I as [->|I]; [exists q; split; [exact Hs|lia]|apply IHF; [lia|exact I]]. }
  assert (T1 : thins cs0 (list_set a None cs)) by (eapply thins_set; [exact T|exact C|now left]).
  revert T1 K. generalize (list_set a None cs) as cs1. generalize (kids c) as l. clear - IH.
  induction l as [|h l IHl]; intros cs1 T K; cbn [release_all].
  - split; [discriminate|]. intros cs' X. injection X as <-. exact T.
  - inversion K as [|? ? (w & Sw & Lw) K']; subst. destruct (IH cs1 h w T Sw Lw) as [N P].
    destruct (release f cs1 h) as [cs2| | | |]; cbn [bind]; try (split; discriminate); [|now exfalso; apply N].
    apply IHl; [apply P; reflexivity|exact K'].
Qed.

(** ** And no fewer, for a value built afresh *)

Definition within (lo hi : nat) (cs cs' : cells) : Prop := forall a, (lo <= a < hi)%nat -> cell_at cs' a = cell_at cs a.
Definition without (lo hi : nat) (cs cs' : cells) : Prop := forall a, (a < lo \/ hi <= a)%nat -> cell_at cs' a = cell_at cs a.
Definition emptied (lo hi : nat) (cs : cells) : Prop := forall a, (lo <= a < hi)%nat -> cell_at cs a = None.
(** Destroying exactly what was put between [lo] and [hi]. *)
Definition exactly (q : bool) (lo hi : nat) (cs : cells) (o : res cells) : Prop :=
  if q then exists cs', o = Ok cs' /\ without lo hi cs cs' /\ emptied lo hi cs' else o = Fuel.

Lemma build_grows v cs cs' h : build cs v = (cs', h) -> grows cs cs'.
Proof.
  revert cs cs' h. induction v as [fs IH|vs IH|s|z|d|b|] using value_ind'; intros cs cs' h E; cbn [build] in E;
    try (injection E as <- _; apply grows_refl).
  - fold build_fields in E. destruct (build_fields cs fs) as [cs1 l] eqn:B. cbn [alloc] in E. injection E as <- _.
    eapply grows_trans; [|apply grows_alloc]. clear h. revert cs cs1 l B. induction IH as [|[k x] r P IH IHr]; intros cs cs1 l B; cbn [build_fields] in B.
    + injection B as <- _. apply grows_refl.
    + destruct (build cs x) as [c1 h1] eqn:B1. destruct (build_fields c1 r) as [c2 l2] eqn:B2. injection B as <- _.
      eapply grows_trans; [exact (P _ _ _ B1)|exact (IHr _ _ _ B2)].
  - fold build_elems in E. destruct (build_elems cs vs) as [cs1 l] eqn:B. cbn [alloc] in E. injection E as <- _.
    eapply grows_trans; [|apply grows_alloc]. clear h. revert cs cs1 l B. induction IH as [|x r P IH IHr]; intros cs cs1 l B; cbn [build_elems] in B.
    + injection B as <- _. apply grows_refl.
    + destruct (build cs x) as [c1 h1] eqn:B1. destruct (build_elems c1 r) as [c2 l2] eqn:B2. injection B as <- _.
      eapply grows_trans; [exact (P _ _ _ B1)|exact (IHr _ _ _ B2)].
Qed.
Lemma fields_grow fs : forall cs cs' l, build_fields cs fs = (cs', l) -> grows cs cs'.
Proof.
  induction fs as [|[k x] r IH]; intros cs cs' l B; cbn [build_fields] in B; [injection B as <- _; apply grows_refl|].
  destruct (build cs x) as [c1 h1] eqn:B1. destruct (build_fields c1 r) as [c2 l2] eqn:B2. injection B as <- _.
  eapply grows_trans; [exact (build_grows _ _ _ _ B1)|exact (IH _ _ _ B2)].
Qed.
Lemma elems_grow vs : forall cs cs' l, build_elems cs vs = (cs', l) -> grows cs cs'.
Proof.
  induction vs as [|x r IH]; intros cs cs' l B; cbn [build_elems] in B; [injection B as <- _; apply grows_refl|].
  destruct (build cs x) as [c1 h1] eqn:B1. destruct (build_elems c1 r) as [c2 l2] eqn:B2. injection B as <- _.
  eapply grows_trans; [exact (build_grows _ _ _ _ B1)|exact (IH _ _ _ B2)].
Qed.

(** One member after another: [len] is where the next begins. *)
Lemma exactly_cons (q1 q2 : bool) lo mid hi cs o (k : cells -> res cells) : (lo <= mid <= hi)%nat -> exactly q1 lo mid cs o ->
  (forall cs', without lo mid cs cs' -> exactly q2 mid hi cs' (k cs')) -> exactly (q1 && q2) lo hi cs (cs' <- o ;; k cs').
Proof.
  intros L X Y. destruct q1; cbn [exactly andb] in *; [|subst o; reflexivity]. destruct X as (cs1 & -> & W1 & E1). cbn [bind].
  specialize (Y cs1 W1). destruct q2; cbn [exactly] in *; [|exact Y]. destruct Y as (cs2 & -> & W2 & E2).
  exists cs2. split; [reflexivity|]. split.
  - intros a Ha. rewrite W2 by lia. apply W1. lia.
  - intros a Ha. destruct (Nat.lt_ge_cases a mid); [|apply E2; lia]. rewrite W2 by lia. apply E1. lia.
Qed.

Theorem release_exact v : forall cs cs' h cs'' f, build cs v = (cs', h) -> within (List.length cs) (List.length cs') cs' cs'' ->
  exactly (levels v <=? f)%nat (List.length cs) (List.length cs') cs'' (release f cs'' h).
Proof.
  assert (LEAF : forall (w : value) (cs cs' : cells) h (cs'' : cells) f, (cs', h) = (cs, h) -> href h = None -> levels w = 1%nat ->
    exactly (levels w <=? f)%nat (List.length cs) (List.length cs') cs'' (release f cs'' h)).
  { intros w cs cs' h cs'' f E H L. injection E as ->. rewrite L. destruct f as [|f]; [reflexivity|]. cbn [release Nat.leb exactly]. rewrite H.
    exists cs''. split; [reflexivity|]. split; [intros a _; reflexivity|intros a Ha; lia]. }
  assert (NODE : forall (cs cs1 : cells) c a (cs'' : cells) f (q : bool), (List.length cs <= List.length cs1)%nat -> href a = Some (List.length cs1) ->
    within (List.length cs) (List.length (cs1 ++ [Some (1, c)])) (cs1 ++ [Some (1, c)]) cs'' ->
    (forall cs2, within (List.length cs) (List.length cs1) cs1 cs2 ->
      exactly q (List.length cs) (List.length cs1) cs2 (release_all (release f) cs2 (kids c))) ->
    exactly q (List.length cs) (List.length (cs1 ++ [Some (1, c)])) cs'' (release (S f) cs'' a)).
  { intros cs cs1 c a cs'' f q L H W K. cbn [release]. rewrite H.
    assert (C : cell_at cs'' (List.length cs1) = Some (1, c)).
    { rewrite W by (rewrite app_length; cbn [List.length]; lia). apply cell_at_last. }
    rewrite C. cbn [Z.eqb Pos.eqb].
    assert (W2 : within (List.length cs) (List.length cs1) cs1 (list_set (List.length cs1) None cs'')).
    { intros b Hb. rewrite (cell_set_other _ _ _ _ _ C) by lia. rewrite W by (rewrite app_length; cbn [List.length]; lia).
      unfold cell_at. rewrite nth_error_app1 by lia. reflexivity. }
    specialize (K _ W2). destruct q; cbn [exactly] in *; [|exact K]. destruct K as (cs3 & -> & W3 & E3). exists cs3. split; [reflexivity|].
    rewrite app_length. cbn [List.length]. split.
    - intros b Hb. rewrite W3 by lia. apply (cell_set_other _ _ _ _ _ C). lia.
    - intros b Hb. destruct (Nat.eq_dec b (List.length cs1)) as [->|]; [|apply E3; lia]. rewrite W3 by lia. apply (cell_set_same _ _ _ _ C). }
  induction v as [fs IH|vs IH|s|z|d|b|] using value_ind'; intros cs cs' h cs'' f E W; cbn [build] in E.
  3-7: injection E as <- <-; apply LEAF; reflexivity.
  - fold build_fields in E. destruct (build_fields cs fs) as [cs1 l] eqn:B. cbn [alloc] in E. injection E as <- <-.
    destruct f as [|f]; [reflexivity|]. rewrite levels_obj. change (S (pair_levels fs) <=? S f)%nat with (pair_levels fs <=? f)%nat.
    apply NODE; [apply (fields_grow _ _ _ _ B)|reflexivity|exact W|]. clear - IH B. cbn [kids].
    revert cs cs1 l B. induction IH as [|[k x] r P IH IHr]; intros cs cs1 l B cs2 W; cbn [build_fields] in B.
    + injection B as <- <-. exists cs2. split; [reflexivity|]. split; [intros a _; reflexivity|intros a Ha; lia].
    + destruct (build cs x) as [c1 h1] eqn:B1. destruct (build_fields c1 r) as [c2 l2] eqn:B2. injection B as <- <-. cbn [map snd release_all pair_levels].
      pose proof (build_grows _ _ _ _ B1) as [G1 _]. pose proof (fields_grow _ _ _ _ B2) as [G2 G2'].
      replace (Nat.max (levels x) (pair_levels r) <=? f)%nat with ((levels x <=? f)%nat && (pair_levels r <=? f)%nat) by lia.
      apply (exactly_cons _ _ _ (List.length c1)); [lia| |].
      * apply (P cs c1 h1 cs2 f B1). intros a Ha. rewrite W by lia. apply G2'. lia.
      * intros cs3 W3. apply (IHr c1 c2 l2 B2). intros a Ha. rewrite W3 by lia. apply W. lia.
  - fold build_elems in E. destruct (build_elems cs vs) as [cs1 l] eqn:B. cbn [alloc] in E. injection E as <- <-.
    destruct f as [|f]; [reflexivity|]. rewrite levels_arr. change (S (elem_levels vs) <=? S f)%nat with (elem_levels vs <=? f)%nat.
    apply NODE; [apply (elems_grow _ _ _ _ B)|reflexivity|exact W|]. clear - IH B. cbn [kids].
    revert cs cs1 l B. induction IH as [|x r P IH IHr]; intros cs cs1 l B cs2 W; cbn [build_elems] in B.
    + injection B as <- <-. exists cs2. split; [reflexivity|]. split; [intros a _; reflexivity|intros a Ha; lia].
    + destruct (build cs x) as [c1 h1] eqn:B1. destruct (build_elems c1 r) as [c2 l2] eqn:B2. injection B as <- <-. cbn [release_all elem_levels].
      pose proof (build_grows _ _ _ _ B1) as [G1 _]. pose proof (elems_grow _ _ _ _ B2) as [G2 G2'].
      replace (Nat.max (levels x) (elem_levels r) <=? f)%nat with ((levels x <=? f)%nat && (elem_levels r <=? f)%nat) by lia.
      apply (exactly_cons _ _ _ (List.length c1)); [lia| |].
      * apply (P cs c1 h1 cs2 f B1). intros a Ha. rewrite W by lia. apply G2'. lia.
      * intros cs3 W3. apply (IHr c1 c2 l2 B2). intros a Ha. rewrite W3 by lia. apply W. lia.
Qed.
