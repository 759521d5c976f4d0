(** Proofs about transmogrify (C60). *)

From Coq Require Import ZArith List Bool Lia Sorted Permutation.
From Coq Require Import ZifyBool ZifyNat.
From Verif Require Import Base BaseFacts Keys KeysFacts Wire Read Buf BufFacts Spec SpecOps HeapOps HeapFacts Nested NestedFacts
Store StoreSpec StoreFacts StoreSteps StoreRun PackHoldFacts SpecKeyed SpecTrans Trans.
Import ListNotations.
Open Scope Z_scope.

(** ** The cells of a copy, written down *)
Fixpoint plant (n : nat) (v : value) : list cell * hval :=
  match v with
  | VObj fs =>
      let '(l, ms) := (fix go n fs := match fs with
                       | [] => ([], [])
                       | (k, x) :: r =>
                           let '(l1, h) := plant n x in
                           let '(l2, ms) := go (n + length l1)%nat r in (l1 ++ l2, (k, h) :: ms)
                       end) (S n) fs in
      (CObj ms :: l, HObj n)
  | VArr vs =>
      let '(l, ms) := (fix go n vs := match vs with
                       | [] => ([], [])
                       | x :: r =>
                           let '(l1, h) := plant n x in
                           let '(l2, ms) := go (n + length l1)%nat r in (l1 ++ l2, h :: ms)
                       end) (S n) vs in
      (CArr ms :: l, HArr n)
  | VStr t => ([], HStr t) | VInt z => ([], HInt z) | VDec d => ([], HDec d)
  | VBool f => ([], HBool f) | VNull => ([], HNull)
  end.
Definition plant_fields := fix go (n : nat) (fs : list (str * value)) : list cell * list (str * hval) :=
  match fs with
  | [] => ([], [])
  | (k, x) :: r =>
      let '(l1, h) := plant n x in
      let '(l2, ms) := go (n + length l1)%nat r in (l1 ++ l2, (k, h) :: ms)
  end.
Definition plant_elems := fix go (n : nat) (vs : list value) : list cell * list hval :=
  match vs with
  | [] => ([], [])
  | x :: r =>
      let '(l1, h) := plant n x in
      let '(l2, ms) := go (n + length l1)%nat r in (l1 ++ l2, h :: ms)
  end.

Lemma value_rect' (P : value -> Prop) :
  (forall fs, Forall (fun kx => P (snd kx)) fs -> P (VObj fs)) -> (forall vs, Forall P vs -> P (VArr vs)) ->
  (forall v, (match v with VObj _ | VArr _ => False | _ => True end) -> P v) -> forall v, P v.
Proof.
  intros A B C. fix IH 1. intros v. destruct v as [fs|vs| | | | |]; try (apply C; exact I).
  - apply A. induction fs as [|[k x] r IHr]; constructor; [apply IH|exact IHr].
  - apply B. induction vs as [|x r IHr]; constructor; [apply IH|exact IHr].
Qed.

(** The handle of a copy is the first cell, if there is any. *)
Lemma plant_root v n l h : plant n v = (l, h) ->
  match l with [] => href h = None | _ => href h = Some n end.
Proof.
  destruct v as [fs|vs| | | | |]; cbn [plant]; intros E; try (injection E as <- <-; reflexivity).
  - fold plant_fields in E. destruct (plant_fields (S n) fs). injection E as <- <-. reflexivity.
  - fold plant_elems in E. destruct (plant_elems (S n) vs). injection E as <- <-. reflexivity.
Qed.

Lemma plant_count v : forall n l h, plant n v = (l, h) -> length l = aggregates v.
Proof.
  induction v as [fs F|vs F|v N] using value_rect'; intros n l h E.
  - cbn [plant] in E. fold plant_fields in E. destruct (plant_fields (S n) fs) as [l0 ms] eqn:Q. injection E as <- <-.
    cbn [length aggregates]. f_equal. revert l0 ms Q. generalize (S n). clear n.
    induction F as [|[k x] r H F IH]; intros n l0 ms Q; cbn [plant_fields] in Q; [injection Q as <- <-; reflexivity|].
    destruct (plant n x) as [l1 h] eqn:Q1. destruct (plant_fields (n + length l1) r) as [l2 ms2] eqn:Q2. injection Q as <- <-.
    rewrite app_length. cbn [map snd list_sum fold_right]. rewrite (H n l1 h Q1), (IH _ _ _ Q2). reflexivity.
  - cbn [plant] in E. fold plant_elems in E. destruct (plant_elems (S n) vs) as [l0 ms] eqn:Q. injection E as <- <-.
    cbn [length aggregates]. f_equal. revert l0 ms Q. generalize (S n). clear n.
    induction F as [|x r H F IH]; intros n l0 ms Q; cbn [plant_elems] in Q; [injection Q as <- <-; reflexivity|].
    destruct (plant n x) as [l1 h] eqn:Q1. destruct (plant_elems (n + length l1) r) as [l2 ms2] eqn:Q2. injection Q as <- <-.
    rewrite app_length. cbn [map list_sum fold_right]. rewrite (H n l1 h Q1), (IH _ _ _ Q2). reflexivity.
  - destruct v; try contradiction; injection E as <- <-; reflexivity.
Qed.

(** Each cell of a copy is held once. *)
Lemma flat_refs_app (a c : list hval) : flat_map refs (a ++ c) = flat_map refs a ++ flat_map refs c.
Proof. apply flat_map_app. Qed.
Lemma flat_kids_app (a c : list cell) : flat_map kids (a ++ c) = flat_map kids a ++ flat_map kids c.
Proof. apply flat_map_app. Qed.

Lemma plant_tree v : forall n l h, plant n v = (l, h) -> a_tree n l h.
Proof.
  unfold a_tree. induction v as [fs F|vs F|v N] using value_rect'; intros n l h E.
  - cbn [plant] in E. fold plant_fields in E. destruct (plant_fields (S n) fs) as [l0 ms] eqn:Q. injection E as <- <-.
    cbn [flat_map refs href kids length seq app]. apply perm_skip. revert l0 ms Q. generalize (S n). clear n.
    induction F as [|[k x] r H F IH]; intros n l0 ms Q; cbn [plant_fields] in Q; [injection Q as <- <-; constructor|].
    destruct (plant n x) as [l1 h] eqn:Q1. destruct (plant_fields (n + length l1) r) as [l2 ms2] eqn:Q2. injection Q as <- <-.
    rewrite app_length, seq_app. cbn [map snd]. specialize (H n l1 h Q1). specialize (IH _ _ _ Q2).
    rewrite <- H, <- IH. cbn [flat_map app]. rewrite flat_kids_app, !flat_refs_app, flat_kids_app || idtac.
    cbn [flat_map]. rewrite ?flat_kids_app, ?flat_refs_app, <- ?app_assoc. apply Permutation_app_head.
    rewrite !app_assoc. apply Permutation_app_tail. apply Permutation_app_comm.
  - cbn [plant] in E. fold plant_elems in E. destruct (plant_elems (S n) vs) as [l0 ms] eqn:Q. injection E as <- <-.
    cbn [flat_map refs href kids length seq app]. apply perm_skip. revert l0 ms Q. generalize (S n). clear n.
    induction F as [|x r H F IH]; intros n l0 ms Q; cbn [plant_elems] in Q; [injection Q as <- <-; constructor|].
    destruct (plant n x) as [l1 h] eqn:Q1. destruct (plant_elems (n + length l1) r) as [l2 ms2] eqn:Q2. injection Q as <- <-.
    rewrite app_length, seq_app. specialize (H n l1 h Q1). specialize (IH _ _ _ Q2).
    rewrite <- H, <- IH. cbn [flat_map app]. rewrite ?flat_kids_app, ?flat_refs_app.
    cbn [flat_map]. rewrite ?flat_kids_app, ?flat_refs_app, <- ?app_assoc. apply Permutation_app_head.
    rewrite !app_assoc. apply Permutation_app_tail. apply Permutation_app_comm.
  - destruct v; try contradiction; injection E as <- <-; constructor.
Qed.

(** A copy shows its value, wherever its cells stay in place. *)
Definition holds (cs : cells) (n : nat) (l : list cell) : Prop :=
  forall i c, nth_error l i = Some c -> exists z, cell_at cs (n + i) = Some (z, c).
Lemma holds_app cs n a c : holds cs n (a ++ c) -> holds cs n a /\ holds cs (n + length a) c.
Proof.
  intros H. split; intros i x E.
  - apply H. rewrite nth_error_app1; [assumption|]. apply nth_error_Some. congruence.
  - replace (n + length a + i)%nat with (n + (length a + i))%nat by lia. apply H.
    rewrite nth_error_app2 by lia. replace (length a + i - length a)%nat with i by lia. assumption.
Qed.
Lemma holds_cons cs n c r : holds cs n (c :: r) -> (exists z, cell_at cs n = Some (z, c)) /\ holds cs (S n) r.
Proof.
  intros H. split.
  - destruct (H 0%nat c eq_refl) as [z E]. rewrite Nat.add_0_r in E. eauto.
  - intros i x E. replace (S n + i)%nat with (n + S i)%nat by lia. apply H. exact E.
Qed.
Lemma plant_shows cs v : forall n l h, plant n v = (l, h) -> holds cs n l -> shows cs h v.
Proof.
  induction v as [fs F|vs F|v N] using value_rect'; intros n l h E H.
  - cbn [plant] in E. fold plant_fields in E. destruct (plant_fields (S n) fs) as [l0 ms] eqn:Q. injection E as <- <-.
    apply holds_cons in H. destruct H as [[z C] H]. eapply sh_obj; [exact C|]. clear C. revert l0 ms Q H. generalize (S n). clear n.
    induction F as [|[k x] r P F IH]; intros n l0 ms Q H; cbn [plant_fields] in Q; [injection Q as <- <-; constructor|].
    destruct (plant n x) as [l1 h] eqn:Q1. destruct (plant_fields (n + length l1) r) as [l2 ms2] eqn:Q2. injection Q as <- <-.
    apply holds_app in H. destruct H as [H1 H2]. constructor; [|exact (IH _ _ _ Q2 H2)].
    split; [reflexivity|]. exact (P n l1 h Q1 H1).
  - cbn [plant] in E. fold plant_elems in E. destruct (plant_elems (S n) vs) as [l0 ms] eqn:Q. injection E as <- <-.
    apply holds_cons in H. destruct H as [[z C] H]. eapply sh_arr; [exact C|]. clear C. revert l0 ms Q H. generalize (S n). clear n.
    induction F as [|x r P F IH]; intros n l0 ms Q H; cbn [plant_elems] in Q; [injection Q as <- <-; constructor|].
    destruct (plant n x) as [l1 h] eqn:Q1. destruct (plant_elems (n + length l1) r) as [l2 ms2] eqn:Q2. injection Q as <- <-.
    apply holds_app in H. destruct H as [H1 H2]. constructor; [|exact (IH _ _ _ Q2 H2)]. exact (P n l1 h Q1 H1).
  - destruct v; try contradiction; injection E as <- <-; constructor.
Qed.
Lemma holds_new cs l : holds (cs ++ map single l) (length cs) l.
Proof.
  intros i c E. exists 1. unfold cell_at. rewrite nth_error_app2 by lia. replace (length cs + i - length cs)%nat with i by lia.
  rewrite nth_error_map, E. reflexivity.
Qed.

(** ** The source: counts go up and down again *)
Definition positive (cs : cells) : Prop := forall a n c, cell_at cs a = Some (n, c) -> 0 < n.

Lemma drop_one cs h fuel : drop_n (S fuel) cs [h] =
  match href h with
  | None => Ok cs
  | Some a => match cell_at cs a with
              | Some (n, c) => if n =? 1 then drop_n fuel (list_set a None cs) (kids c ++ []) else Ok (list_set a (Some (n - 1, c)) cs)
              | None => Oob
              end
  end.
Proof.
  cbn [drop_n]. destruct (href h) as [a|]; [|destruct fuel; reflexivity]. destruct (cell_at cs a) as [[n c]|]; [|reflexivity].
  destruct (n =? 1); [reflexivity|destruct fuel; reflexivity].
Qed.
Lemma drop_held cs h a n c : href h = Some a -> cell_at cs a = Some (n, c) -> 1 < n -> drop cs [h] = Ok (list_set a (Some (n - 1, c)) cs).
Proof.
  intros E C L. unfold drop. cbn [length Nat.add]. rewrite drop_one, E, C. replace (n =? 1) with false by lia. reflexivity.
Qed.
Lemma drop_scalar cs h : href h = None -> drop cs [h] = Ok cs.
Proof. intros E. unfold drop. cbn [length Nat.add]. rewrite drop_one, E. reflexivity. Qed.

Lemma list_set_set {A} a (x y : A) l : list_set a y (list_set a x l) = list_set a y l.
Proof. revert a. induction l as [|z l IH]; intros [|a]; cbn [list_set]; [reflexivity..|]. rewrite IH. reflexivity. Qed.
Lemma cell_at_nth cs a p : cell_at cs a = Some p -> nth_error cs a = Some (Some p).
Proof. unfold cell_at. destruct (nth_error cs a) as [[q|]|]; congruence. Qed.

Lemma show_recount f : forall cs cs', (forall a, option_map snd (cell_at cs a) = option_map snd (cell_at cs' a)) ->
  forall h, h_show f cs h = h_show f cs' h.
Proof.
  induction f as [|f IH]; intros cs cs' Q h; [reflexivity|]. destruct h; cbn [h_show]; try reflexivity.
  - specialize (Q a) as Qa. destruct (cell_at cs a) as [[n c]|], (cell_at cs' a) as [[n' c']|]; try discriminate Qa; [|reflexivity].
    cbn [option_map snd] in Qa. injection Qa as ->. destruct c' as [fs|ms]; [|reflexivity].
    fold (show_fields f cs) (show_fields f cs'). enough (E : show_fields f cs fs = show_fields f cs' fs) by (rewrite E; reflexivity).
    induction fs as [|[k m] r IHr]; [reflexivity|]. cbn [show_fields]. rewrite (IH _ _ Q), IHr. reflexivity.
  - specialize (Q a) as Qa. destruct (cell_at cs a) as [[n c]|], (cell_at cs' a) as [[n' c']|]; try discriminate Qa; [|reflexivity].
    cbn [option_map snd] in Qa. injection Qa as ->. destruct c' as [fs|ms]; [reflexivity|].
    fold (show_elems f cs) (show_elems f cs'). enough (E : show_elems f cs ms = show_elems f cs' ms) by (rewrite E; reflexivity).
    induction ms as [|m r IHr]; [reflexivity|]. cbn [show_elems]. rewrite (IH _ _ Q), IHr. reflexivity.
Qed.

Lemma up_and_down f old m w : positive old -> h_show f old m = Ok w ->
  exists old1, inc old m = Ok old1 /\ drop old1 [m] = Ok old /\ positive old1 /\ h_show f old1 m = Ok w.
Proof.
  intros P H. unfold inc. destruct (href m) as [a|] eqn:E.
  - assert (C : exists n c, cell_at old a = Some (n, c)).
    { destruct f; [discriminate|]. destruct m; try discriminate E; injection E as ->; cbn [h_show] in H;
        destruct (cell_at old a) as [[n c]|]; try discriminate H; eauto. }
    destruct C as (n & c & C). rewrite C. eexists. split; [reflexivity|].
    pose proof (P a n c C) as Pn. split; [|split].
    + rewrite (drop_held _ m a (n + 1) c E); [|exact (cell_set_same _ _ _ _ C)|lia]. rewrite list_set_set.
      replace (n + 1 - 1) with n by lia. f_equal. apply list_set_same. apply cell_at_nth. exact C.
    + intros b n' c' C'. destruct (Nat.eq_dec b a) as [->|Nb].
      * rewrite (cell_set_same _ _ _ _ C) in C'. injection C' as <- <-. lia.
      * rewrite (cell_set_other _ _ _ _ b C Nb) in C'. exact (P b n' c' C').
    + rewrite <- H. apply show_recount. intros b. destruct (Nat.eq_dec b a) as [->|Nb].
      * rewrite (cell_set_same _ _ _ _ C), C. reflexivity.
      * rewrite (cell_set_other _ _ _ _ b C Nb). reflexivity.
  - exists old. split; [reflexivity|]. split; [apply drop_scalar; exact E|]. split; assumption.
Qed.

(** ** The new side: one member at a time *)

Lemma last_app {A} (l : list A) x d : last (l ++ [x]) d = x.
Proof. apply last_last. Qed.

Section Step.
  Context (base : cells) (rest : cells) (vs : list hval) (g : hval) (l1 : list cell).
  Context (Root : match l1 with [] => href g = None | _ => href g = Some (S (length base + length rest)) end).

  (* the cells with [c] as the contents of the container and [z] as the count of the member *)
  Definition at_work (c : cell) (z : Z) : cells :=
    base ++ single c :: rest ++ match l1 with [] => [] | r :: l => Some (z, r) :: map single l end.

  Lemma container c z : cell_at (at_work c z) (length base) = single c.
  Proof. unfold at_work. apply cell_at_mid. Qed.
  Lemma set_container c c' z : list_set (length base) (single c') (at_work c z) = at_work c' z.
  Proof. unfold at_work. apply list_set_mid. Qed.
  Lemma member c z r l : l1 = r :: l -> cell_at (at_work c z) (S (length base + length rest)) = Some (z, r).
  Proof.
    intros E. unfold at_work. rewrite E, app_comm_cons, app_assoc. replace (S (length base + length rest)) with (length (base ++ single c :: rest)).
    - apply cell_at_mid.
    - rewrite app_length. cbn [length]. lia.
  Qed.
  Lemma set_member c z z' r l : l1 = r :: l -> list_set (S (length base + length rest)) (Some (z', r)) (at_work c z) = at_work c z'.
  Proof.
    intros E. unfold at_work. rewrite E, !app_comm_cons, !app_assoc. replace (S (length base + length rest)) with (length (base ++ single c :: rest)).
    - apply list_set_mid.
    - rewrite app_length. cbn [length]. lia.
  Qed.

  Lemma inc_member c : inc (at_work c 1) g = Ok (at_work c 2).
  Proof.
    unfold inc. destruct l1 as [|r l] eqn:E.
    - rewrite Root. unfold at_work. rewrite E. reflexivity.
    - rewrite Root, (member c 1 r l E), (set_member c 1 (1 + 1) r l E). reflexivity.
  Qed.
  Lemma drop_member c : drop (at_work c 2) [g] = Ok (at_work c 1).
  Proof.
    destruct l1 as [|r l] eqn:E.
    - rewrite drop_scalar by exact Root. unfold at_work. rewrite E. reflexivity.
    - rewrite (drop_held _ g _ 2 r Root (member c 2 r l E)) by lia. rewrite (set_member c 2 (2 - 1) r l E). reflexivity.
  Qed.

  Definition self (c : cell) : hval := match c with CObj _ => HObj (length base) | CArr _ => HArr (length base) end.
  Definition locals (c : cell) (z : Z) (h : hval) : state := St (at_work c z) ((vs ++ [self c]) ++ [h]).

  Lemma get_container c z h : get_var (locals c z h) (length vs) = Ok (self c).
  Proof. unfold get_var, locals. cbn [vars]. rewrite <- app_assoc. cbn [app]. rewrite nth_mid. reflexivity. Qed.
  Lemma get_member c z h : get_var (locals c z h) (S (length vs)) = Ok h.
  Proof.
    unfold get_var, locals. cbn [vars]. replace (S (length vs)) with (length (vs ++ [self c])) by (rewrite app_length; cbn [length]; lia).
    rewrite nth_mid. reflexivity.
  Qed.
  Lemma unshare_container c z h : unshare (locals c z h) (length vs) = Ok (locals c z h, self c).
  Proof.
    unfold unshare. rewrite get_container. cbn [bind]. unfold copy_on_write, copy_on_write_over, refcount.
    assert (R : href (self c) = Some (length base)) by (destruct c; reflexivity). rewrite R. cbn [heap locals]. rewrite container.
    cbn [single]. cbn [Z.ltb Z.compare Pos.compare Pos.compare_cont bind]. unfold locals. cbn [vars].
    rewrite list_set_same by (rewrite <- app_assoc; cbn [app]; apply nth_mid). reflexivity.
  Qed.
  Lemma leave_member c : leave (locals c 2 g) = Ok (St (at_work c 1) (vs ++ [self c])).
  Proof. unfold leave, locals. cbn [vars heap]. rewrite last_app, removelast_last, drop_member. reflexivity. Qed.
  Lemma leave_nothing c : leave (locals c 1 HNull) = Ok (St (at_work c 1) (vs ++ [self c])).
  Proof. unfold leave, locals. cbn [vars heap]. rewrite last_app, removelast_last, drop_scalar by reflexivity. reflexivity. Qed.

  Lemma add_field k done : zlen k <= 65535 -> StronglySorted key_lt (map fst done) -> Forall (fun kv => key_lt (fst kv) k) done ->
    exists s2, s_insert (locals (CObj done) 1 g) (length vs) (VStr k) (Rref (S (length vs))) = Ok (s2, A_unit) /\
      leave s2 = Ok (St (at_work (CObj (done ++ [(k, g)])) 1) (vs ++ [HObj (length base)])).
  Proof.
    intros L S F. exists (locals (CObj (done ++ [(k, g)])) 2 g). split; [|apply leave_member].
    unfold s_insert. rewrite unshare_container. cbn [bind insert_in]. replace (65535 <? zlen k) with false by lia.
    cbn [self fields_of heap locals]. rewrite container. cbn [single bind].
    destruct (map_find_split k done S) as (f1 & f2 & E & LB & _ & M). rewrite (lookup_lt _ _ F) in M. destruct M as [-> F2].
    assert (f2 = []).
    { destruct f2 as [|[k' y] f2]; [reflexivity|]. exfalso. apply Forall_inv in F2. cbn [fst] in F2.
      rewrite Forall_forall in F. specialize (F (k', y)). rewrite E in F. specialize (F ltac:(apply in_or_app; right; left; reflexivity)).
      exact (key_lt_irrefl _ (key_lt_trans _ _ _ F F2)). }
    subst f2. rewrite app_nil_r in E. subst f1. rewrite LB.
    unfold take_copy. change (St (at_work (CObj done) 1) ((vs ++ [HObj (length base)]) ++ [g])) with (locals (CObj done) 1 g).
    rewrite get_member. cbn [bind locals heap]. rewrite inc_member. cbn [bind].
    unfold put_s, put. cbn [heap vars]. rewrite container. cbn [single bind].
    rewrite <- (app_nil_r done) at 2. rewrite list_insert_mid.
    change (Some (1, CObj (done ++ [(k, g)]))) with (single (CObj (done ++ [(k, g)]))). rewrite set_container. reflexivity.
  Qed.

  Lemma push_member done : zlen done < 2 ^ 64 ->
    exists s2, s_push_back (locals (CArr done) 1 g) (length vs) (Rref (S (length vs))) = Ok (s2, A_unit) /\
      leave s2 = Ok (St (at_work (CArr (done ++ [g])) 1) (vs ++ [HArr (length base)])).
  Proof.
    intros L. exists (locals (CArr (done ++ [g])) 1 HNull). split; [|apply leave_nothing].
    unfold s_push_back, s_size. rewrite get_container. cbn [bind self heap locals]. rewrite container. cbn [single bind].
    unfold s_insert. change (St (at_work (CArr done) 1) ((vs ++ [HArr (length base)]) ++ [g])) with (locals (CArr done) 1 g).
    rewrite unshare_container. cbn [bind insert_in].
    cbn [self elements_of heap locals]. rewrite container. cbn [single bind].
    assert (Z0 : 0 <= zlen done) by (unfold zlen; lia). rewrite Z.mod_small by lia. rewrite Z.ltb_irrefl.
    unfold take_forward, take_move. change (St (at_work (CArr done) 1) ((vs ++ [HArr (length base)]) ++ [g])) with (locals (CArr done) 1 g).
    rewrite get_member. cbn [bind]. unfold put_s, put, set_var. cbn [heap vars locals]. rewrite container. cbn [single bind].
    replace (Z.to_nat (zlen done)) with (length done) by (unfold zlen; lia). rewrite <- (app_nil_r done) at 2. rewrite list_insert_mid.
    change (Some (1, CArr (done ++ [g]))) with (single (CArr (done ++ [g]))). rewrite set_container.
    replace (S (length vs)) with (length (vs ++ [HArr (length base)])) by (rewrite app_length; cbn [length]; lia).
    cbn [self]. rewrite list_set_mid. reflexivity.
  Qed.
End Step.

(** ** The whole copy *)

Definition go_fields (fuel : nat) (x : nat) :=
  fix go (old : cells) (s : state) (l : list (str * hval)) : res (cells * state) :=
    match l with
    | [] => Ok (old, s)
    | (k, m) :: r =>
        old1 <- inc old m ;;
        ' t <- transmogrify_n fuel old1 m s ;;
        let '(old2, s1, g) := t in
        ' u <- s_insert (local s1 g) x (VStr k) (Rref (S x)) ;;
        _ <- thrown (snd u) ;;
        s3 <- leave (fst u) ;;
        old3 <- drop old2 [m] ;;
        go old3 s3 r
    end.
Definition go_elems (fuel : nat) (x : nat) :=
  fix go (old : cells) (s : state) (l : list hval) : res (cells * state) :=
    match l with
    | [] => Ok (old, s)
    | m :: r =>
        old1 <- inc old m ;;
        ' t <- transmogrify_n fuel old1 m s ;;
        let '(old2, s1, g) := t in
        ' u <- s_push_back (local s1 g) x (Rref (S x)) ;;
        _ <- thrown (snd u) ;;
        s3 <- leave (fst u) ;;
        old3 <- drop old2 [m] ;;
        go old3 s3 r
    end.

Definition copies (f : nat) : Prop :=
  forall old h v s l g, positive old -> h_show f old h = Ok v -> heap_value v -> in_memory v ->
    plant (length (heap s)) v = (l, g) ->
    transmogrify_n f old h s = Ok (old, St (heap s ++ map single l) (vars s), g).

Lemma work_split base rest l1 c : at_work base rest l1 c 1 = base ++ single c :: rest ++ map single l1.
Proof. unfold at_work. destruct l1; reflexivity. Qed.

Lemma bind_split {A B} (a : res A) (k : A -> res B) y : (x <- a ;; k x) = Ok y -> exists x, a = Ok x /\ k x = Ok y.
Proof. destruct a; try discriminate. cbn [bind]. eauto. Qed.

Lemma fields_copied f (IH : copies f) old (P : positive old) base vs : forall fs ws rest done l ms,
  show_fields f old fs = Ok ws -> Forall (fun kx => zlen (fst kx) <= 65535 /\ heap_value (snd kx) /\ in_memory (snd kx)) ws ->
  StronglySorted key_lt (map fst done ++ map fst ws) ->
  plant_fields (S (length base + length rest)) ws = (l, ms) ->
  go_fields f (length vs) old (St (base ++ single (CObj done) :: rest) (vs ++ [HObj (length base)])) fs =
    Ok (old, St (base ++ single (CObj (done ++ ms)) :: rest ++ map single l) (vs ++ [HObj (length base)])).
Proof.
  induction fs as [|[k m] fs IHf]; intros ws rest done l ms Sh F So Q; cbn [show_fields] in Sh.
  - injection Sh as <-. injection Q as <- <-. cbn [go_fields map]. rewrite !app_nil_r. reflexivity.
  - apply bind_split in Sh. destruct Sh as (w & Sw & Sh). apply bind_split in Sh. destruct Sh as (ws' & Sws & Sh). injection Sh as <-.
    apply Forall_cons_iff in F. destruct F as [(Lk & Hw & Mw) F]. cbn [fst snd] in *.
    cbn [plant_fields] in Q. destruct (plant (S (length base + length rest)) w) as [l1 g] eqn:Q1.
    destruct (plant_fields (S (length base + length rest) + length l1) ws') as [l2 ms2] eqn:Q2. injection Q as <- <-.
    cbn [go_fields]. destruct (up_and_down f old m w P Sw) as (old1 & -> & D & P1 & S1). cbn [bind].
    rewrite (IH old1 m w _ l1 g P1 S1 Hw Mw).
    2: { cbn [heap]. rewrite app_length. cbn [length]. rewrite Nat.add_succ_r. exact Q1. }
    cbn [bind heap vars]. pose proof (plant_root _ _ _ _ Q1) as Root.
    rewrite <- app_assoc. cbn [app]. rewrite <- work_split.
    change (local (St (at_work base rest l1 (CObj done) 1) (vs ++ [HObj (length base)])) g) with (locals base rest vs l1 (CObj done) 1 g).
    cbn [map fst] in So.
    destruct (add_field base rest vs g l1 Root k done) as (s2 & -> & LV); [exact Lk| |  |].
    { apply sorted_app in So. apply So. }
    { apply Forall_forall. intros [k' y] I. apply sorted_app in So. destruct So as (_ & _ & B). apply B; [|left; reflexivity].
      apply in_map_iff. exists (k', y). auto. }
    cbn [bind fst snd thrown]. rewrite LV. cbn [bind]. rewrite D. cbn [bind].
    fold (go_fields f (length vs)). rewrite work_split.
    specialize (IHf ws' (rest ++ map single l1) (done ++ [(k, g)]) l2 ms2 Sws F).
    rewrite <- !app_assoc in IHf. cbn [app] in IHf. refine (eq_trans (IHf _ _) _); clear IHf.
    + rewrite map_app, <- app_assoc. exact So.
    + rewrite app_length, map_length. rewrite <- Q2. f_equal. lia.
    + rewrite map_app. reflexivity.
Qed.

Lemma elems_copied f (IH : copies f) old (P : positive old) base vs : forall fs ws rest done l ms,
  show_elems f old fs = Ok ws -> Forall (fun x => heap_value x /\ in_memory x) ws ->
  zlen done + zlen ws <= 2 ^ 59 ->
  plant_elems (S (length base + length rest)) ws = (l, ms) ->
  go_elems f (length vs) old (St (base ++ single (CArr done) :: rest) (vs ++ [HArr (length base)])) fs =
    Ok (old, St (base ++ single (CArr (done ++ ms)) :: rest ++ map single l) (vs ++ [HArr (length base)])).
Proof.
  induction fs as [|m fs IHf]; intros ws rest done l ms Sh F So Q; cbn [show_elems] in Sh.
  - injection Sh as <-. injection Q as <- <-. cbn [go_elems map]. rewrite !app_nil_r. reflexivity.
  - apply bind_split in Sh. destruct Sh as (w & Sw & Sh). apply bind_split in Sh. destruct Sh as (ws' & Sws & Sh). injection Sh as <-.
    apply Forall_cons_iff in F. destruct F as [(Hw & Mw) F].
    cbn [plant_elems] in Q. destruct (plant (S (length base + length rest)) w) as [l1 g] eqn:Q1.
    destruct (plant_elems (S (length base + length rest) + length l1) ws') as [l2 ms2] eqn:Q2. injection Q as <- <-.
    cbn [go_elems]. destruct (up_and_down f old m w P Sw) as (old1 & -> & D & P1 & S1). cbn [bind].
    rewrite (IH old1 m w _ l1 g P1 S1 Hw Mw).
    2: { cbn [heap]. rewrite app_length. cbn [length]. rewrite Nat.add_succ_r. exact Q1. }
    cbn [bind heap vars]. pose proof (plant_root _ _ _ _ Q1) as Root.
    rewrite <- app_assoc. cbn [app]. rewrite <- work_split.
    change (local (St (at_work base rest l1 (CArr done) 1) (vs ++ [HArr (length base)])) g) with (locals base rest vs l1 (CArr done) 1 g).
    rewrite zlen_cons in So. pose proof (zlen_nonneg ws') as N.
    destruct (push_member base rest vs g l1 done) as (s2 & -> & LV); [lia|].
    cbn [bind fst snd thrown]. rewrite LV. cbn [bind]. rewrite D. cbn [bind].
    fold (go_elems f (length vs)). rewrite work_split.
    specialize (IHf ws' (rest ++ map single l1) (done ++ [g]) l2 ms2 Sws F).
    rewrite <- !app_assoc in IHf. cbn [app] in IHf. refine (eq_trans (IHf _ _) _); clear IHf.
    + rewrite zlen_app. change (zlen [g]) with 1. lia.
    + rewrite app_length, map_length. rewrite <- Q2. f_equal. lia.
    + rewrite map_app. reflexivity.
Qed.

Lemma copies_all f : copies f.
Proof.
  induction f as [|f IH]; intros old h v s l g P Sh H M Q; [discriminate|].
  destruct h as [|z|d|c|t|a|a]; cbn [h_show] in Sh;
    try (injection Sh as <-; injection Q as <- <-; cbn [transmogrify_n map]; rewrite app_nil_r; destruct s; reflexivity).
  - destruct (cell_at old a) as [[n [fs|ms]]|] eqn:C; try discriminate Sh. fold (show_fields f old) in Sh.
    apply bind_split in Sh. destruct Sh as (ws & Sf & Sh). injection Sh as <-. cbn [plant] in Q. fold plant_fields in Q.
    destruct (plant_fields (S (length (heap s))) ws) as [l0 ms] eqn:Qf. injection Q as <- <-.
    cbn [transmogrify_n]. rewrite C. cbn [alloc]. fold (go_fields f (length (vars s))). unfold local. cbn [heap vars].
    pose proof (fields_copied f IH old P (heap s) (vars s) fs ws [] [] l0 ms Sf) as G.
    cbn [length app map] in G. rewrite Nat.add_0_r in G. change (Some (1, CObj [])) with (single (CObj [])). rewrite G.
    + cbn [bind]. unfold give. cbn [heap vars]. rewrite last_app, removelast_last. reflexivity.
    + unfold heap_value, in_memory in *. inversion H as [? _ F| | | | | |]; subst. inversion M as [? _ F'| | | | | |]; subst.
      rewrite Forall_forall in *. intros kx I. destruct (F kx I), (F' kx I). auto.
    + apply heap_sorted. exact H.
    + exact Qf.
  - destruct (cell_at old a) as [[n [fs|ms]]|] eqn:C; try discriminate Sh. fold (show_elems f old) in Sh.
    apply bind_split in Sh. destruct Sh as (ws & Sf & Sh). injection Sh as <-. cbn [plant] in Q. fold plant_elems in Q.
    destruct (plant_elems (S (length (heap s))) ws) as [l0 gs] eqn:Qf. injection Q as <- <-.
    cbn [transmogrify_n]. rewrite C. cbn [alloc]. fold (go_elems f (length (vars s))). unfold local. cbn [heap vars].
    pose proof (elems_copied f IH old P (heap s) (vars s) ms ws [] [] l0 gs Sf) as G.
    cbn [length app map] in G. rewrite Nat.add_0_r in G. change (Some (1, CArr [])) with (single (CArr [])). rewrite G.
    + cbn [bind]. unfold give. cbn [heap vars]. rewrite last_app, removelast_last. reflexivity.
    + unfold heap_value, in_memory in *. inversion H as [|? _ F| | | | |]; subst. inversion M as [|? _ F'| | | | |]; subst.
      rewrite Forall_forall in *. intros x I. auto.
    + unfold in_memory in M. inversion M as [|? L _| | | | |]; subst. cbn [zlen length]. change (zlen []) with 0. lia.
    + exact Qf.
Qed.

Theorem transmogrify_ok old h v s l g : positive old -> shows old h v -> heap_value v -> in_memory v ->
  plant (length (heap s)) v = (l, g) ->
  transmogrify old h s = Ok (old, St (heap s ++ map single l) (vars s), g).
Proof.
  intros P Sh H M Q. apply copies_all with (v := v); try assumption.
  apply (show_deep old _ h v []); [exact Sh|constructor|intros a []|cbn [length]; lia].
Qed.

(** ** The new store stays accounted for *)

Lemma nref_count a l : nref a l = Z.of_nat (count_occ Nat.eq_dec (flat_map refs l) a).
Proof.
  induction l as [|h l IH]; [reflexivity|]. cbn [nref flat_map]. rewrite count_occ_app, IH. unfold refs.
  destruct (href h) as [b|]; [|cbn [count_occ]; lia]. cbn [count_occ]. destruct (Nat.eq_dec b a) as [->|N].
  - rewrite Nat.eqb_refl. lia.
  - replace (Nat.eqb a b) with false; [lia|]. symmetry. apply Nat.eqb_neq. congruence.
Qed.
Lemma count_seq a n k : count_occ Nat.eq_dec (seq n k) a = if (n <=? a)%nat && (a <? n + k)%nat then 1%nat else 0%nat.
Proof.
  revert n. induction k as [|k IH]; intros n; cbn [seq count_occ].
  - destruct (n <=? a)%nat eqn:E; [|reflexivity]. replace (a <? n + 0)%nat with false by lia. reflexivity.
  - rewrite IH. destruct (Nat.eq_dec n a) as [->|N].
    + replace (S a <=? a)%nat with false by lia. replace (a <=? a)%nat with true by lia. replace (a <? a + S k)%nat with true by lia. reflexivity.
    + replace (n <=? a)%nat with (S n <=? a)%nat by lia. replace (a <? S n + k)%nat with (a <? n + S k)%nat by lia. reflexivity.
Qed.

Lemma plant_kids cs v : forall n l h, plant n v = (l, h) -> holds cs n l ->
  Forall (fun m => exists w, shows cs m w) (flat_map kids l).
Proof.
  induction v as [fs F|vs F|v N] using value_rect'; intros n l h E H.
  - pose proof (plant_shows cs (VObj fs) n l h E H) as Sh.
    cbn [plant] in E. fold plant_fields in E. destruct (plant_fields (S n) fs) as [l0 ms] eqn:Q. injection E as <- <-.
    apply holds_cons in H. destruct H as [[z C] H]. cbn [flat_map kids]. apply Forall_app. split.
    + inversion Sh as [| | | | |a n' fs' vs' C' F'|]; subst. rewrite C in C'. injection C' as <- <-. clear - F'.
      induction F' as [|p q ms vs [_ S] F' IH]; constructor; eauto.
    + clear Sh C. revert l0 ms Q H. generalize (S n). clear n.
      induction F as [|[k x] r P F IH]; intros n l0 ms Q H; cbn [plant_fields] in Q; [injection Q as <- <-; constructor|].
      destruct (plant n x) as [l1 h] eqn:Q1. destruct (plant_fields (n + length l1) r) as [l2 ms2] eqn:Q2. injection Q as <- <-.
      apply holds_app in H. destruct H as [H1 H2]. rewrite flat_map_app. apply Forall_app. split; [exact (P n l1 h Q1 H1)|exact (IH _ _ _ Q2 H2)].
  - pose proof (plant_shows cs (VArr vs) n l h E H) as Sh.
    cbn [plant] in E. fold plant_elems in E. destruct (plant_elems (S n) vs) as [l0 ms] eqn:Q. injection E as <- <-.
    apply holds_cons in H. destruct H as [[z C] H]. cbn [flat_map kids]. apply Forall_app. split.
    + inversion Sh as [| | | | | |a n' fs' vs' C' F']; subst. rewrite C in C'. injection C' as <- <-. clear - F'.
      induction F' as [|p q ms vs S F' IH]; constructor; eauto.
    + clear Sh C. revert l0 ms Q H. generalize (S n). clear n.
      induction F as [|x r P F IH]; intros n l0 ms Q H; cbn [plant_elems] in Q; [injection Q as <- <-; constructor|].
      destruct (plant n x) as [l1 h] eqn:Q1. destruct (plant_elems (n + length l1) r) as [l2 ms2] eqn:Q2. injection Q as <- <-.
      apply holds_app in H. destruct H as [H1 H2]. rewrite flat_map_app. apply Forall_app. split; [exact (P n l1 h Q1 H1)|exact (IH _ _ _ Q2 H2)].
  - destruct v; try contradiction; injection E as <- <-; constructor.
Qed.

Lemma all_kids_new cs l : all_kids (cs ++ map single l) = all_kids cs ++ flat_map kids l.
Proof.
  unfold all_kids. rewrite flat_map_app. f_equal. induction l as [|c l IH]; [reflexivity|]. cbn [map flat_map single]. rewrite IH. reflexivity.
Qed.
Lemma sub_new cs l : sub cs (cs ++ l).
Proof.
  intros a n c E. exists n. pose proof (cell_at_lt _ _ _ E). unfold cell_at in *. rewrite nth_error_app1 by assumption. exact E.
Qed.

Lemma wf_new cs roots v l g : wf cs roots -> plant (length cs) v = (l, g) -> wf (cs ++ map single l) (g :: roots).
Proof.
  intros [W1 W2] Q. pose proof (plant_tree _ _ _ _ Q) as T. unfold a_tree in T. cbn [flat_map] in T.
  assert (N : forall a, nref a (g :: flat_map kids l) = if (length cs <=? a)%nat && (a <? length cs + length l)%nat then 1 else 0).
  { intros a. rewrite nref_count. cbn [flat_map]. rewrite (Permutation_count_occ Nat.eq_dec) in T. rewrite T, count_seq.
    destruct ((length cs <=? a)%nat && (a <? length cs + length l)%nat); reflexivity. }
  assert (N0 : forall a, (length cs <= a)%nat -> nref a (roots ++ all_kids cs) = 0).
  { intros a L. pose proof (nref_nonneg a (roots ++ all_kids cs)) as Z0. destruct (Z.eq_dec (nref a (roots ++ all_kids cs)) 0) as [E|E]; [exact E|].
    exfalso. rewrite nref_count in E, Z0. assert (I : In a (flat_map refs (roots ++ all_kids cs))) by (apply (count_occ_In Nat.eq_dec); lia).
    apply in_flat_map in I. destruct I as (h & I & R). unfold refs in R. destruct (href h) as [b|] eqn:Eh; [|contradiction].
    destruct R as [->|[]]. destruct (W2 h I) as (w & Sh). destruct (shows_live _ _ _ _ Sh Eh) as (n & c & C).
    apply cell_at_lt in C. lia. }
  split.
  - intros a n c C. rewrite all_kids_new. specialize (N a). cbn [nref] in N |- *. rewrite nref_app.
    destruct (lt_dec a (length cs)) as [L|L].
    + assert (C' : cell_at cs a = Some (n, c)) by (unfold cell_at in *; rewrite nth_error_app1 in C by assumption; exact C).
      destruct (W1 a n c C') as [E P]. replace ((length cs <=? a)%nat) with false in N by lia. cbn [andb] in N. lia.
    + specialize (N0 a ltac:(lia)). rewrite nref_app in N0.
      assert (a < length cs + length l)%nat by (apply cell_at_lt in C; rewrite app_length, map_length in C; exact C).
      replace ((length cs <=? a)%nat && (a <? length cs + length l)%nat) with true in N by lia.
      assert (n = 1).
      { unfold cell_at in C. rewrite nth_error_app2 in C by lia. rewrite nth_error_map in C. destruct (nth_error l (a - length cs)); [|discriminate].
        injection C as <- _. reflexivity. }
      lia.
  - intros h I. rewrite all_kids_new in I. cbn [app] in I. destruct I as [<-|I].
    + exists v. eapply plant_shows; [exact Q|apply holds_new].
    + apply in_app_or in I. destruct I as [I|I]; [|apply in_app_or in I; destruct I as [I|I]].
      * destruct (W2 h (in_or_app _ _ _ (or_introl I))) as (w & Sh). exists w. eapply shows_sub; [apply sub_new|exact Sh].
      * destruct (W2 h (in_or_app _ _ _ (or_intror I))) as (w & Sh). exists w. eapply shows_sub; [apply sub_new|exact Sh].
      * pose proof (plant_kids (cs ++ map single l) v _ l g Q (holds_new cs l)) as F. rewrite Forall_forall in F. exact (F h I).
Qed.

Lemma Inv_new s e v l g : Inv s e [] -> plant (length (heap s)) v = (l, g) -> Inv (St (heap s ++ map single l) (vars s)) e [g].
Proof.
  intros [W F] Q. split; cbn [heap vars app].
  - eapply wf_new; eassumption.
  - eapply Forall2_imp; [|exact F]. intros h w Sh. eapply shows_sub; [apply sub_new|exact Sh].
Qed.
