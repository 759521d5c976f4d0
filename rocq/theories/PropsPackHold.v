(** C57: packets passed around, read, changed, finalized and lifted again. *)

From Coq Require Import ZArith List Bool Lia String ZifyBool ZifyNat ZifyN.
From Verif Require Import Base BaseFacts Keys Wire Read Spec ReadFacts BufFacts SpecOps HeapOps HeapFacts SpecBufHold Store StoreSpec StoreFacts StoreSteps StoreRun
  SpecPackHold PackHold PackHoldFacts PackHoldKeep PackHoldRun Buf WireMore Demo.
From Verif Require BufHold BufHoldRun.
Import ListNotations.
Local Open Scope string_scope.
Open Scope Z_scope.

Lemma start_ok n : PInv (p_start n) (blank n).
Proof.
  exists (repeat VNull (S n)), (b_blank n 0 0). split; [apply Inv_init|]. split; [apply BufHoldRun.b_start_ok|]. split.
  - assert (N : forall A (d : A) k i, nth i (repeat d k) d = d) by (intros A d k; induction k as [|k IH]; intros [|i]; cbn; auto).
    constructor; cbn [blank pkts texts b_blank handles docs walks peeks p_start fin]; rewrite ?repeat_length; try reflexivity;
      intros i.
    + change (pk (blank n) i) with (nth i (repeat (Mut VNull) n) (Mut VNull)). rewrite (N _ (Mut VNull)). exact (N _ VNull (S n) i).
    + change (pk (blank n) i) with (nth i (repeat (Mut VNull) n) (Mut VNull)). rewrite (N _ (Mut VNull)). exact (N _ None n i).
    + change (pk (blank n) i) with (nth i (repeat (Mut VNull) n) (Mut VNull)). rewrite (N _ (Mut VNull)). exact (N _ false n i).
  - cbn [blank pkts]. apply Forall_forall. intros p P. apply repeat_spec in P. subst p. apply null_sound.
Qed.
Lemma run_ok ops : forall s sp, PInv s sp -> fair_all sp ops ->
  exists s', p_run s ops = Ok (s', snd (story sp ops)) /\ PInv s' (fst (story sp ops)).
Proof.
  induction ops as [|o r IH]; intros s sp PI F; cbn [p_run story fair_all] in *.
  - exists s. split; [reflexivity|exact PI].
  - destruct F as [F1 F2]. destruct (p_step_ok s sp o PI F1) as (s1 & E1 & PI1). rewrite E1. cbn [bind].
    destruct (does sp o) as [sp1 a]. cbn [fst snd] in *. destruct (IH s1 sp1 PI1 F2) as (s2 & E2 & PI2). rewrite E2. cbn [bind].
    exists s2. destruct (story sp1 r) as [sp2 l]. split; [reflexivity|exact PI2].
Qed.
Lemma run_inv n ops s l : fair_all (blank n) ops -> p_run (p_start n) ops = Ok (s, l) ->
  PInv s (fst (story (blank n) ops)) /\ l = snd (story (blank n) ops).
Proof.
  intros F E. destruct (run_ok ops _ _ (start_ok n) F) as (s' & E' & PI). rewrite E in E'. injection E' as <- ->. auto.
Qed.

Lemma moved_len sp x y : (x < List.length (pkts sp))%nat -> (y < List.length (pkts sp))%nat -> List.length (pkts (moved_to sp x y)) = List.length (pkts sp).
Proof. intros X Y. unfold moved_to. destruct (Nat.eqb x y); [reflexivity|]. rewrite !set_pkt_len; rewrite ?set_pkt_len; auto. Qed.
Lemma ends_len sp x r : (x < List.length (pkts sp))%nat -> List.length (pkts (fst (ends sp x r))) = List.length (pkts sp).
Proof. intros X. destruct r; cbn [ends fst]; try reflexivity. apply set_pkt_len. exact X. Qed.
Lemma does_len sp o : fair sp o -> List.length (pkts (fst (does sp o))) = List.length (pkts sp).
Proof.
  intros F.
  assert (AL : forall x a r, (x < List.length (pkts sp))%nat -> arg_ok (List.length (pkts sp)) x a ->
    List.length (pkts (fst (ends (spent sp a) x r))) = List.length (pkts sp)).
  { intros x a r X A. rewrite ends_len by (rewrite (spent_len _ _ _ A); exact X). exact (spent_len _ _ _ A). }
  destruct o as [x|x|x v|x v|x y|x y|x|x y n|x y n|x k a|x k a|x k|x a|x a|x|x|x addr|x|x|x]; cbn [does fair fst] in *; unfold mutably, inserts;
    try reflexivity; try (apply set_pkt_len; first [exact F|apply F]).
  - destruct (pk sp x); [apply set_pkt_len; apply F|reflexivity].
  - apply moved_len; apply F.
  - destruct F as (X & Y & W). destruct (pk sp y); [apply ends_len; exact X|]. destruct (reached _ _); [apply set_pkt_len; exact X|reflexivity].
  - destruct F as (X & Y & W). destruct (pk sp y) as [v|h].
    + pose proof (ends_len sp y (fetch v n) Y) as Q. destruct (ends sp y (fetch v n)) as [s1 []]; cbn [fst] in *; try exact Q. rewrite moved_len; lia.
    + destruct (reached _ _); [|reflexivity]. cbn [fst]. rewrite moved_len; rewrite ?set_pkt_len by exact Y; auto.
  - destruct F as (X & K & A). destruct (pk sp x); [|reflexivity]. apply AL; assumption.
  - destruct F as (X & K & A). destruct (pk sp x); [|reflexivity]. apply AL; assumption.
  - destruct k; try reflexivity; (destruct (pk sp x); [|reflexivity]; apply ends_len; exact F).
  - destruct F as (X & A). destruct (pk sp x); [|reflexivity]. apply AL; assumption.
  - destruct F as (X & A). destruct (pk sp x) as [v|]; [|reflexivity]. destruct (h_size v); try reflexivity. apply AL; assumption.
  - destruct (pk sp x); [|reflexivity]. apply ends_len; exact F.
  - destruct (pk sp x); [|reflexivity]. apply ends_len; exact F.
  - destruct (pk sp x) as [[fs| | | | | |]|]; try reflexivity. cbn [fst pkts]. apply BufHoldRun.put_len. apply F.
Qed.
Lemma story_len ops : forall sp, fair_all sp ops -> List.length (pkts (fst (story sp ops))) = List.length (pkts sp).
Proof.
  induction ops as [|o r IH]; intros sp F; cbn [story fair_all] in *; [reflexivity|]. destruct F as [F1 F2].
  pose proof (does_len sp o F1) as D. destruct (does sp o) as [sp1 a]. cbn [fst] in *. pose proof (IH sp1 F2) as Q.
  destruct (story sp1 r) as [sp2 l]. cbn [fst] in *. congruence.
Qed.

(** Any program over packets answers as if every mutable packet were a value of its
    own and every finalized one a value within a document: no released cell, no
    released block and nothing out of bounds is ever touched. *)
Theorem c57_packets n ops : fair_all (blank n) ops ->
  exists s, p_run (p_start n) ops = Ok (s, snd (story (blank n) ops)).
Proof. intros F. destruct (run_ok ops _ _ (start_ok n) F) as (s & E & _). exists s. exact E. Qed.
Print Assumptions c57_packets.

(** The specification itself has an answer for everything. *)
Lemma ends_tame sp x r : tame r -> snd (ends sp x r) <> Y_bad.
Proof. destruct r; cbn [tame ends snd]; intros H; try contradiction; discriminate. Qed.
Lemma does_answers sp o : fair sp o -> snd (does sp o) <> Y_bad.
Proof.
  intros F. destruct o as [x|x|x v|x v|x y|x y|x|x y n|x y n|x k a|x k a|x k|x a|x a|x|x|x addr|x|x|x]; cbn [does fair snd] in *; try discriminate;
    unfold mutably, inserts.
  - destruct (pk sp x); discriminate.
  - destruct (pk sp y) as [v|h]; [apply ends_tame, fetch_tame; apply F|]. destruct (reached _ _); discriminate.
  - destruct (pk sp y) as [v|h]; [|destruct (reached _ _); discriminate].
    pose proof (fetch_tame v n ltac:(apply F)) as T. destruct (fetch v n); cbn [ends]; try contradiction; discriminate.
  - destruct (pk sp x); [apply ends_tame, insert_tame|discriminate].
  - destruct (pk sp x); [apply ends_tame, set_tame|discriminate].
  - destruct k; try discriminate; (destruct (pk sp x); [apply ends_tame, erase_tame|discriminate]).
  - destruct (pk sp x); [apply ends_tame, insert_tame|discriminate].
  - destruct (pk sp x) as [v|]; [|discriminate]. destruct (h_size v); try discriminate. apply ends_tame, insert_tame.
  - destruct (pk sp x); [apply ends_tame, pop_tame|discriminate].
  - destruct (pk sp x); [apply ends_tame, pop_tame|discriminate].
  - destruct (pk sp x) as [[| | | | | |]|]; discriminate.
Qed.
Theorem c57_answers n ops : fair_all (blank n) ops -> ~ In Y_bad (snd (story (blank n) ops)).
Proof.
  generalize (blank n). clear n. induction ops as [|o r IH]; intros sp F; cbn [story fair_all] in *; [auto|].
  destruct F as [F1 F2]. pose proof (does_answers sp o F1) as A. destruct (does sp o) as [sp1 a]. cbn [fst snd] in *.
  pose proof (IH sp1 F2) as B. destruct (story sp1 r) as [sp2 l]. cbn [snd] in *. intros [C|C]; [congruence|exact (B C)].
Qed.
Print Assumptions c57_answers.

(** ** Counters *)

Lemma keepers_holders sp bb e f d : mirror e bb f sp -> holders bb d = keepers sp d.
Proof.
  intros M. unfold holders. rewrite (m_walks _ _ _ _ M). cbn [filter List.length]. rewrite Nat.add_0_r. unfold keepers.
  assert (Q : handles bb = map fin_of (pkts sp)).
  { apply (nth_ext _ _ None None); [rewrite map_length; exact (m_handles _ _ _ _ M)|].
    intros i _. change None with (fin_of (Mut VNull)) at 2. rewrite map_nth. exact (m_shown _ _ _ _ M i). }
  rewrite Q. clear. induction (pkts sp) as [|p l IH]; [reflexivity|]. cbn [map filter]. destruct p as [v|h]; cbn [fin_of].
  - exact IH.
  - destruct (holds_doc d h); cbn [List.length]; rewrite IH; reflexivity.
Qed.

(** Every cell is counted as often as packets and other cells refer to it; every
    block as often as packets show something of its document, which it holds in
    full; cells and blocks nothing refers to do not exist. *)
Theorem c57_counts n ops s l : fair_all (blank n) ops -> p_run (p_start n) ops = Ok (s, l) ->
  let sp := fst (story (blank n) ops) in
  let cs := heap (hs s) in
  (forall a k c, cell_at cs a = Some (k, c) -> k = nref a (vars (hs s)) + nref a (all_kids cs) /\ 0 < k) /\
  List.length (BufHold.heap (bs s)) = List.length (texts sp) /\
  (forall d, match nth_error (BufHold.heap (bs s)) d with
     | Some (Some b) =>
         (0 < keepers sp d)%nat /\ BufHold.users b = Z.of_nat (keepers sp d) /\
         b_value (BufHold.base b) (BufHold.bytes b) root = Ok (nth d (texts sp) VNull)
     | _ => keepers sp d = O
     end).
Proof.
  intros F E. destruct (run_inv n ops s l F E) as [(e & bb & I & B & M & Sd) _]. cbv zeta.
  set (sp := fst (story (blank n) ops)) in *. split; [exact (proj1 (proj1 I))|].
  pose proof (BufHoldRun.at_docs _ _ _ _ B) as [DL DV]. rewrite (m_docs _ _ _ _ M) in DL, DV. split; [exact DL|].
  intros d. pose proof (BufHoldRun.at_counts _ _ _ _ B d) as C. unfold BufHoldRun.held in C. rewrite (keepers_holders _ _ _ _ d M) in C.
  destruct (nth_error (BufHold.heap (bs s)) d) as [[blk|]|] eqn:N; [|lia|lia].
  destruct C as [C1 C2]. split; [lia|]. split; [exact C1|]. destruct (DV d blk N) as (_ & fs & ND & G & R).
  rewrite (nth_error_nth _ _ VNull ND). apply represents_value. exact R.
Qed.
Print Assumptions c57_counts.

(** What refcount() answers: of a finalized packet, how many packets show something
    of its document (none for null); of a mutable object or array, how many handles
    its cell has. *)
Theorem c57_refcount n ops s l x : fair_all (blank n) ops -> p_run (p_start n) ops = Ok (s, l) -> (x < n)%nat ->
  let sp := fst (story (blank n) ops) in
  match pk sp x with
  | Fin (Some (d, _)) => p_count s x = Ok (Z.of_nat (keepers sp d))
  | Fin None => p_count s x = Ok 0
  | Mut v => is_aggregate v = true -> exists a, option_map href (nth_error (vars (hs s)) x) = Some (Some a) /\
      p_count s x = Ok (nref a (vars (hs s)) + nref a (all_kids (heap (hs s))))
  end.
Proof.
  intros F E X. destruct (run_inv n ops s l F E) as [PI _]. cbv zeta. set (sp := fst (story (blank n) ops)) in *.
  assert (L : List.length (pkts sp) = n).
  { unfold sp. rewrite story_len by exact F. cbn [blank pkts]. apply repeat_length. }
  destruct PI as (e & bb & I & B & M & Sd). pose proof (m_env _ _ _ _ M) as LE. pose proof (m_handles _ _ _ _ M) as LH.
  assert (FZ : finalized s x = Ok (is_final (pk sp x))).
  { destruct s as [h0 b0 f0]. apply (finalized_ok _ _ _ _ h0 b0 x M). lia. }
  unfold p_count. rewrite FZ. cbn [bind]. destruct (pk sp x) as [v|h] eqn:P; cbn [is_final].
  - intros A. destruct (L_get _ _ _ x I) as (h & N & G & Sh); [lia|]. rewrite (m_val _ _ _ _ M), P in Sh. cbn [mut_of] in Sh.
    assert (HR : exists a, href h = Some a) by (destruct Sh; try discriminate A; eexists; reflexivity). destruct HR as [a HR].
    exists a. rewrite N. cbn [option_map]. rewrite HR. split; [reflexivity|]. rewrite G. cbn [bind].
    destruct (shows_live _ _ _ _ Sh HR) as (k & c & C). unfold refcount. rewrite HR, C.
    destruct I as [[W _] _]. destruct (W _ _ _ C) as [-> _]. reflexivity.
  - destruct (BufHoldRun.var_at _ _ _ _ x B) as (g & N & H); [lia|]. unfold BufHold.var. rewrite N.
    rewrite (BufHoldRun.use_count_ok _ _ _ _ B H). rewrite (m_shown _ _ _ _ M), P. cbn [fin_of].
    destruct h as [[d v]|]; cbn [count_of]; [|reflexivity]. rewrite (keepers_holders _ _ _ _ d M). reflexivity.
Qed.
Print Assumptions c57_refcount.

(** Nothing is left behind: no cells once no packet is a mutable object or array, no
    blocks once no packet shows anything of a document. *)
Theorem c57_nothing_left n ops s l : fair_all (blank n) ops -> p_run (p_start n) ops = Ok (s, l) ->
  let sp := fst (story (blank n) ops) in
  (Forall (fun p => match p with Mut v => is_aggregate v = false | Fin _ => True end) (pkts sp) ->
   forall a, cell_at (heap (hs s)) a = None) /\
  (Forall (fun p => match p with Fin (Some _) => False | _ => True end) (pkts sp) ->
   Forall (fun b => b = None) (BufHold.heap (bs s))).
Proof.
  intros F E. pose proof (c57_counts n ops s l F E) as (_ & _ & BK). destruct (run_inv n ops s l F E) as [(e & bb & I & B & M & Sd) _].
  cbv zeta in *. set (sp := fst (story (blank n) ops)) in *. split.
  - intros A. destruct I as [W FV]. apply (nothing_left _ _ W). intros h IH. apply In_nth_error in IH. destruct IH as [x N].
    cbn [app] in N.
    pose proof (Forall2_nth _ _ _ x FV) as Sh. rewrite N in Sh. destruct (nth_error e x) as [v|] eqn:NV; [|contradiction].
    assert (V : v = mut_of (pk sp x)). { rewrite <- (m_val _ _ _ _ M x). symmetry. apply val_nth. exact NV. }
    assert (AG : is_aggregate (mut_of (pk sp x)) = false).
    { unfold pk. destruct (Nat.lt_ge_cases x (List.length (pkts sp))) as [L|L]; [|rewrite nth_overflow by exact L; reflexivity].
      rewrite Forall_forall in A. pose proof (A _ (nth_In _ (Mut VNull) L)) as Q. destruct (nth x (pkts sp) (Mut VNull)); [exact Q|reflexivity]. }
    rewrite <- V in AG. destruct Sh; try discriminate AG; reflexivity.
  - intros A. assert (K : forall d, keepers sp d = O).
    { intros d. unfold keepers. clear - A. induction A as [|p r P A IH]; [reflexivity|]. cbn [filter]. destruct p as [v|[h|]]; [exact IH|contradiction|exact IH]. }
    apply Forall_forall. intros b0 IB. apply In_nth_error in IB. destruct IB as [d N]. specialize (BK d). rewrite N, K in BK.
    destruct b0 as [blk|]; [|reflexivity]. destruct BK as [Z _]. lia.
Qed.
Print Assumptions c57_nothing_left.

(** ** Both forms are read alike *)

Theorem c57_forms_agree v n w : heap_value v -> way_ok n -> (fetch v n = Ok w <-> reached (as_step n) v = inl w).
Proof.
  intros H W. destruct n as [k|k|i|i| |]; cbn [fetch as_step reached way_ok] in *.
  - destruct v as [fs| | | | | |]; try (split; discriminate). rewrite h_get_spec by (apply heap_sorted; exact H). split; intros Q; injection Q as <-; reflexivity.
  - destruct v as [fs| | | | | |]; try (split; discriminate). rewrite h_at_spec by (apply heap_sorted; exact H).
    destruct (lookup k fs); split; intros Q; try discriminate Q; injection Q as <-; reflexivity.
  - destruct v as [|vs| | | | |]; try (split; discriminate). unfold h_get_idx, h_elements. cbn [h_size bind].
    destruct (i <? zlen vs) eqn:L.
    + destruct (nth_error vs (Z.to_nat i)) eqn:N; [split; intros Q; injection Q as <-; reflexivity|].
      apply nth_error_None in N. unfold zlen in L. lia.
    + assert (N : nth_error vs (Z.to_nat i) = None) by (apply nth_error_None; unfold zlen in L; lia). rewrite N.
      split; intros Q; injection Q as <-; reflexivity.
  - unfold h_at_idx. destruct v as [fs|vs|t| | | |]; cbn [h_size bind h_elements]; try (split; discriminate).
    + destruct (i <? zlen fs); split; discriminate.
    + destruct (i <? zlen vs) eqn:L.
      * destruct (nth_error vs (Z.to_nat i)) eqn:N; [split; intros Q; injection Q as <-; reflexivity|].
        apply nth_error_None in N. unfold zlen in L. lia.
      * assert (N : nth_error vs (Z.to_nat i) = None) by (apply nth_error_None; unfold zlen in L; lia). rewrite N. split; discriminate.
    + destruct (i <? zlen t); split; discriminate.
  - destruct v as [|vs| | | | |]; try (split; discriminate). unfold h_front, h_elements, end_of.
    destruct vs; split; intros Q; injection Q as <-; reflexivity.
  - destruct v as [|vs| | | | |]; try (split; discriminate). unfold h_back, h_elements, end_of.
    destruct vs as [|x r]; [split; intros Q; injection Q as <-; reflexivity|].
    assert (N : nth_error (x :: r) (List.length (x :: r) - 1) = Some (last (x :: r) VNull)).
    { destruct (exists_last (l := x :: r) ltac:(discriminate)) as (l' & z & ->). rewrite last_last, app_length. cbn [List.length].
      replace (List.length l' + 1 - 1)%nat with (List.length l') by lia. rewrite nth_error_app2 by lia. rewrite Nat.sub_diag. reflexivity. }
    rewrite N. split; intros Q; injection Q as <-; reflexivity.
Qed.
Print Assumptions c57_forms_agree.

(** ** Calls change the packets they name only *)

(** The packets a call may change: its target, and what it is given as std::move. *)
Definition moves (a : arg) : list nat := match a with Moved y => [y] | _ => [] end.
Definition changes (o : pop) : list nat :=
  match o with
  | K_object x | K_array x | K_scalar x _ | K_assign x _ | K_copy x _ | K_reset x | K_read x _ _ | K_erase x _
  | K_pop_front x | K_pop_back x | K_finalize x _ | K_definalize x => [x]
  | K_move x y | K_into x y _ => [x; y]
  | K_insert x _ a | K_set x _ a | K_push_front x a | K_push_back x a => x :: moves a
  | K_show _ | K_final _ => []
  end.
(** What a call that throws may still change. *)
Definition consumes (o : pop) : list nat :=
  match o with
  | K_insert _ _ a | K_set _ _ a | K_push_front _ a | K_push_back _ a => moves a
  | _ => []
  end.

Lemma pk_set_other sp x p z : (x < List.length (pkts sp))%nat -> z <> x -> pk (set_pkt sp x p) z = pk sp z.
Proof. intros X N. rewrite pk_set by exact X. destruct (Nat.eqb_spec z x); [contradiction|reflexivity]. Qed.
Lemma moved_other sp x y z : (x < List.length (pkts sp))%nat -> (y < List.length (pkts sp))%nat -> z <> x -> z <> y -> pk (moved_to sp x y) z = pk sp z.
Proof.
  intros X Y N1 N2. unfold moved_to. destruct (Nat.eqb x y); [reflexivity|].
  rewrite pk_set_other by (rewrite ?set_pkt_len by exact X; assumption). apply pk_set_other; assumption.
Qed.
Lemma spent_other sp x a z : arg_ok (List.length (pkts sp)) x a -> ~ In z (moves a) -> pk (spent sp a) z = pk sp z.
Proof.
  destruct a as [v|y|y]; cbn [arg_ok spent moves]; intros A N; try reflexivity. destruct (pk sp y); [|reflexivity].
  apply pk_set_other; [exact A|]. intros ->. apply N. left. reflexivity.
Qed.
Lemma ends_other sp x r z : (x < List.length (pkts sp))%nat -> z <> x -> pk (fst (ends sp x r)) z = pk sp z.
Proof. intros X N. destruct r; cbn [ends fst]; try reflexivity. apply pk_set_other; assumption. Qed.
Lemma ends_err sp x r sp' er : ends sp x r = (sp', Y_err er) -> sp' = sp.
Proof. destruct r; cbn [ends]; intros E; try discriminate E; congruence. Qed.

Lemma does_frame sp o z : fair sp o ->
  ~ In z (match snd (does sp o) with Y_err _ => consumes o | _ => changes o end) -> pk (fst (does sp o)) z = pk sp z.
Proof.
  intros F.
  assert (AG : forall x a r, (x < List.length (pkts sp))%nat -> arg_ok (List.length (pkts sp)) x a ->
    ~ In z (match snd (ends (spent sp a) x r) with Y_err _ => moves a | _ => x :: moves a end) -> pk (fst (ends (spent sp a) x r)) z = pk sp z).
  { intros x a r X A N.
    assert (NM : ~ In z (moves a)). { destruct (snd (ends (spent sp a) x r)); cbn [In] in N; tauto. }
    rewrite <- (spent_other sp x a z A NM). destruct r; cbn [ends fst snd] in *; try reflexivity.
    apply pk_set_other; [rewrite (spent_len _ _ _ A); exact X|]. intros ->. apply N. left. reflexivity. }
  assert (EG : forall x r, (x < List.length (pkts sp))%nat ->
    ~ In z (match snd (ends sp x r) with Y_err _ => [] | _ => [x] end) -> pk (fst (ends sp x r)) z = pk sp z).
  { intros x r X N. destruct r; cbn [ends fst snd] in *; try reflexivity. apply pk_set_other; [exact X|]. intros ->. apply N. left. reflexivity. }
  assert (ST : forall x p, (x < List.length (pkts sp))%nat -> ~ In z [x] -> pk (set_pkt sp x p) z = pk sp z).
  { intros x p X N. apply pk_set_other; [exact X|]. intros ->. apply N. left. reflexivity. }
  assert (P2 : forall x y, ~ In z [x; y] -> z <> x /\ z <> y). { cbn [In]. intros x y N. split; intros ->; apply N; auto. }
  destruct o as [x|x|x v|x v|x y|x y|x|x y n|x y n|x k a|x k a|x k|x a|x a|x|x|x addr|x|x|x]; cbn [does fair fst snd consumes changes] in *;
    unfold mutably, inserts in *; try reflexivity; try (apply ST; first [exact F|apply F]).
  - destruct (pk sp x); [apply ST; apply F|reflexivity].
  - intros N. destruct (P2 _ _ N). apply moved_other; try apply F; assumption.
  - destruct F as (X & Y & W). destruct (pk sp y); [apply EG; exact X|]. destruct (reached _ _); [apply ST; exact X|reflexivity].
  - destruct F as (X & Y & W). destruct (pk sp y) as [v|h].
    + destruct (fetch v n) as [w|er| | |]; cbn [ends fst snd]; try reflexivity. intros N. destruct (P2 _ _ N).
      rewrite moved_other; rewrite ?set_pkt_len by exact Y; try assumption. apply pk_set_other; assumption.
    + destruct (reached _ _); [|reflexivity]. cbn [fst snd]. intros N. destruct (P2 _ _ N).
      rewrite moved_other; rewrite ?set_pkt_len by exact Y; try assumption. apply pk_set_other; assumption.
  - destruct F as (X & K & A). destruct (pk sp x); [|reflexivity]. apply AG; assumption.
  - destruct F as (X & K & A). destruct (pk sp x); [|reflexivity]. apply AG; assumption.
  - destruct k; try reflexivity; (destruct (pk sp x); [|reflexivity]; apply EG; exact F).
  - destruct F as (X & A). destruct (pk sp x); [|reflexivity]. apply AG; assumption.
  - destruct F as (X & A). destruct (pk sp x) as [v|]; [|reflexivity]. destruct (h_size v); try reflexivity. apply AG; assumption.
  - destruct (pk sp x); [|reflexivity]. apply EG; exact F.
  - destruct (pk sp x); [|reflexivity]. apply EG; exact F.
  - destruct (pk sp x) as [[fs| | | | | |]|]; try reflexivity. cbn [fst snd]. intros N.
    exact (ST x (Fin (Some (List.length (texts sp), VObj fs))) ltac:(apply F) N).
Qed.

Lemma fair_app ops : forall sp o, fair_all sp (ops ++ [o]) -> fair_all sp ops /\ fair (fst (story sp ops)) o.
Proof.
  induction ops as [|p r IH]; intros sp o F; cbn [app fair_all story] in *; [tauto|]. destruct F as [F1 F2].
  destruct (IH _ _ F2) as [A B]. destruct (does sp p) as [sp1 a]. cbn [fst] in *. destruct (story sp1 r) as [sp2 l]. cbn [fst] in *. tauto.
Qed.

(** After any program: a call leaves the value and the form of every packet it does
    not name as they were, shared storage or not; if it throws, of its target too. *)
Theorem c57_others_unchanged n ops o s l z : fair_all (blank n) (ops ++ [o]) -> p_run (p_start n) ops = Ok (s, l) -> (z < n)%nat ->
  exists s' a, p_exec s o = Ok (s', a) /\
  (~ In z (match a with Y_err _ => consumes o | _ => changes o end) ->
   exists v f t1 t2, p_exec s (K_show z) = Ok (t1, Y_value v) /\ p_exec s (K_final z) = Ok (s, Y_bool f) /\
                     p_exec s' (K_show z) = Ok (t2, Y_value v) /\ p_exec s' (K_final z) = Ok (s', Y_bool f)).
Proof.
  intros F E Z. destruct (fair_app ops (blank n) o F) as [F1 F2]. destruct (run_inv n ops s l F1 E) as [PI _].
  set (sp := fst (story (blank n) ops)) in *.
  assert (L : List.length (pkts sp) = n). { unfold sp. rewrite story_len by exact F1. cbn [blank pkts]. apply repeat_length. }
  destruct (p_step_ok s sp o PI F2) as (s' & E' & PI'). exists s', (snd (does sp o)). split; [exact E'|]. intros N.
  pose proof (does_frame sp o z F2 N) as FR. pose proof (does_len sp o F2) as DL.
  assert (Q : forall s sp, PInv s sp -> (z < List.length (pkts sp))%nat ->
    (exists t, p_exec s (K_show z) = Ok (t, Y_value (value_of (pk sp z)))) /\ p_exec s (K_final z) = Ok (s, Y_bool (is_final (pk sp z)))).
  { intros s0 sp0 P0 Z0. split.
    - destruct (p_step_ok s0 sp0 (K_show z) P0 Z0) as (t & Et & _). exists t. exact Et.
    - destruct (p_step_ok s0 sp0 (K_final z) P0 Z0) as (t & Et & _). cbn [p_exec] in *. unfold finalized in *.
      destruct (nth_error (fin s0) z); [|discriminate Et]. cbn [bind does snd] in *. congruence. }
  destruct (Q s sp PI ltac:(lia)) as [[t1 Q1] Q2]. destruct (Q s' _ PI' ltac:(lia)) as [[t2 Q3] Q4]. rewrite FR in Q3, Q4.
  exists (value_of (pk sp z)), (is_final (pk sp z)), t1, t2. auto.
Qed.
Print Assumptions c57_others_unchanged.

(** ** A packet copied into itself

    The one thing [fair] forbids that C++ does not: insert() unshares the target,
    then copies its handle into the temporary, and so the cell ends up within
    itself. Nothing refers to it from outside any more, and it is never released. *)
Theorem c57_self_insert_refuted :
  match p_run (p_start 1) [K_object 0; K_insert 0 (VStr (b "a")) (Pkt 0); K_reset 0] with
  | Ok (s, l) => l = [Y_unit; Y_unit; Y_unit] /\ vars (hs s) = [HNull; HNull] /\ cell_at (heap (hs s)) 0 = Some (1, CObj [(b "a", HObj 0)])
  | _ => False
  end.
Proof. vm_compute. repeat split; reflexivity. Qed.
Print Assumptions c57_self_insert_refuted.

(** ** A program that meets the hypotheses *)

(** An object shared by two packets, one of which is finalized; a member of the
    finalized one is put into a third packet; the document goes when its last
    packet does, and std::move of itself throws. *)
Definition c57_prog : list pop :=
  [ K_object 0; K_insert 0 (VStr (b "n")) (Plain (VInt 7)); K_array 1; K_push_back 1 (Plain (VBool true));
    K_insert 0 (VStr (b "list")) (Pkt 1); K_copy 2 0; K_finalize 0 64; K_insert 0 (VStr (b "x")) (Plain VNull);
    K_read 3 0 (By (b "list")); K_push_back 1 (Moved 3); K_show 1; K_show 2; K_final 2;
    K_into 0 0 (By (b "list")); K_show 0; K_definalize 0; K_pop_back 0; K_show 0; K_show 3;
    K_reset 3; K_push_back 1 (Moved 1); K_show 1; K_set 2 (VStr (b "n")) (Moved 0); K_show 2; K_show 0 ].
Lemma scalar_plain v : heap_node v -> match v with VObj _ | VArr _ => False | _ => True end -> plain v.
Proof. intros H S. split; [|exact S]. destruct v; try contradiction; constructor; exact H. Qed.
Ltac plain1 := apply scalar_plain; [vm_compute; first [exact Logic.I | reflexivity | split; [discriminate|reflexivity]] | exact Logic.I].
Ltac key1 := split; [plain1|first [exact Logic.I | split; [intros Q; vm_compute in Q; intuition discriminate|split; [repeat constructor|vm_compute; discriminate]]]].
Ltac arg1 := first [plain1 | split; [vm_compute; lia|discriminate] | vm_compute; lia].
Ltac fair1 :=
  lazymatch goal with
  | |- fair _ (K_insert _ _ _) => split; [vm_compute; lia|split; [key1|arg1]]
  | |- fair _ (K_set _ _ _) => split; [vm_compute; lia|split; [key1|arg1]]
  | |- fair _ (K_push_front _ _) => split; [vm_compute; lia|arg1]
  | |- fair _ (K_push_back _ _) => split; [vm_compute; lia|arg1]
  | |- fair _ (K_read _ _ _) => split; [vm_compute; lia|split; [vm_compute; lia|first [exact Logic.I|vm_compute; split; [discriminate|reflexivity]]]]
  | |- fair _ (K_into _ _ _) => split; [vm_compute; lia|split; [vm_compute; lia|first [exact Logic.I|vm_compute; split; [discriminate|reflexivity]]]]
  | |- fair _ (K_finalize _ _) => split; [vm_compute; lia|split; [reflexivity|vm_compute; first [exact Logic.I|reflexivity]]]
  | |- fair _ (K_scalar _ _) => split; [vm_compute; lia|plain1]
  | |- fair _ (K_assign _ _) => split; [vm_compute; lia|plain1]
  | |- fair _ (K_copy _ _) => split; vm_compute; lia
  | |- fair _ (K_move _ _) => split; vm_compute; lia
  | |- _ => vm_compute; lia
  end.
Ltac fair_tac :=
  repeat lazymatch goal with
  | |- fair_all _ (_ :: _) => split; [fair1|]
  | |- fair_all (fst (does ?s ?o)) ?r => let s' := eval vm_compute in (fst (does s o)) in change (fair_all s' r)
  | |- fair_all _ [] => exact Logic.I
  end.
Example c57_prog_fair : fair_all (blank 4) c57_prog.
Proof. unfold c57_prog. fair_tac. Qed.
Example c57_prog_runs :
  let one := VArr [VBool true] in
  match p_run (p_start 4) c57_prog with
  | Ok (s, l) =>
      skipn 7 l =
        [ Y_err state_error; Y_unit; Y_unit; Y_value (VArr [VBool true; one]);
          Y_value (VObj [(b "n", VInt 7); (b "list", one)]); Y_bool false;
          Y_unit; Y_value one; Y_unit; Y_unit; Y_value (VArr []); Y_value one;
          Y_unit; Y_err type_error; Y_value VNull; Y_unit;
          Y_value (VObj [(b "n", VArr []); (b "list", one)]); Y_value VNull ] /\
      vars (hs s) = [HNull; HNull; HObj 0; HNull; HNull] /\
      map (option_map fst) (heap (hs s)) = [Some 1; Some 1; None; None; Some 1] /\
      BufHold.heap (bs s) = [None]
  | _ => False
  end.
Proof. vm_compute. repeat split; reflexivity. Qed.
