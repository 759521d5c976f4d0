(** Packets answer as the value they stand for, whichever representation they hold. *)

From Coq Require Import ZArith List Bool Lia Sorted.
From Coq Require Import ZifyBool ZifyNat.
From Verif Require Import Base BaseFacts Keys KeysFacts Dec Wire Read Enc EncSize Spec ReadFacts Lookup Buf BufFacts
  Canon HeapOps HeapFacts Nested NestedFacts IterFacts WireMore SpecOps HeapRun HistFacts SpecPacket Packet.
Import ListNotations.
Open Scope Z_scope.

(** ** Room: small objects can always be finalized *)

Lemma str_bound_room s : str_upper_bound s <= zlen s + 5.
Proof.
  unfold str_upper_bound, string_static_sizeof. pose proof (zlen_nonneg s).
  pose proof (Z.mod_le (zlen s) (2 ^ (8 * 4)) ltac:(lia) ltac:(lia)).
  pose proof (Z.mod_le (zlen s) (2 ^ (8 * 2)) ltac:(lia) ltac:(lia)).
  destruct (_ =? _); lia.
Qed.
Lemma al_le v : al v <= 8.
Proof.
  assert (T : forall t, alignment_of t <= 8).
  { intros t. unfold alignment_of. repeat match goal with |- context [if ?b then _ else _] => destruct b end; lia. }
  apply T.
Qed.
Lemma room_pos v : 0 < room v.
Proof.
  induction v as [fs IH|vs IH|s|z|d|b|] using value_ind'; cbn [room]; try (pose proof (zlen_nonneg s)); try lia.
  - assert (0 <= fold_right (fun kv n => zlen (fst kv) + 24 + room (snd kv) + n) 0 fs); [|lia].
    induction fs as [|[k x] r IHr]; cbn [fold_right fst snd]; [lia|].
    apply Forall_cons_iff in IH. destruct IH as [Hx Hr]. specialize (IHr Hr). cbn [snd] in Hx.
    pose proof (zlen_nonneg k). lia.
  - assert (0 <= fold_right (fun x n => 16 + room x + n) 0 vs); [|lia].
    induction vs as [|x r IHr]; cbn [fold_right]; [lia|].
    apply Forall_cons_iff in IH. destruct IH as [Hx Hr]. specialize (IHr Hr). lia.
Qed.

Theorem upper_bound_room v : room v < 2 ^ 32 -> exists u, upper_bound v = Ok u /\ u <= room v.
Proof.
  induction v as [fs IH|vs IH|s|z|d|b|] using value_ind'; cbn [room upper_bound]; intros R.
  - set (tot := fold_right (fun kv n => zlen (fst kv) + 24 + room (snd kv) + n) 0 fs) in *.
    assert (HH : forall max, tot < 2 ^ 32 ->
      exists u, ub_fields upper_bound fs max = Ok u /\ u <= max + tot - 8 * zlen fs).
    { clear R. subst tot. induction fs as [|[k x] r IHr]; intros max B; cbn [ub_fields fold_right fst snd] in *.
      - exists max. split; [reflexivity|]. change (zlen (@nil (str * value))) with 0. lia.
      - apply Forall_cons_iff in IH. destruct IH as [Hx Hr]. cbn [snd] in Hx.
        assert (P : 0 <= fold_right (fun kv n => zlen (fst kv) + 24 + room (snd kv) + n) 0 r).
        { clear. induction r as [|[k x] r IHr]; cbn [fold_right fst snd]; [lia|].
          pose proof (zlen_nonneg k). pose proof (room_pos x). lia. }
        pose proof (zlen_nonneg k). pose proof (room_pos x).
        destruct Hx as (u & -> & Hu); [lia|]. cbn [bind].
        fold (al x). change (alignment_of R_string) with 2.
        edestruct (IHr Hr) as (u' & E & Hu'); [|rewrite E]; [lia|]. eexists. split; [reflexivity|].
        pose proof (al_le x). pose proof (str_bound_room k). rewrite zlen_cons. lia. }
    destruct (HH (8 + 8 * (zlen fs + 1))) as (u & -> & Hu); [lia|]. cbn [bind].
    change (alignment_of R_object) with 8. pose proof (align_up_lt u 8 ltac:(lia)).
    unfold max_aggregate_size. replace (4294967295 <? align_up u 8) with false by lia.
    eexists. split; [reflexivity|]. lia.
  - set (tot := fold_right (fun x n => 16 + room x + n) 0 vs) in *.
    assert (HH : forall max, tot < 2 ^ 32 ->
      exists u, ub_elems upper_bound vs max = Ok u /\ u <= max + tot - 8 * zlen vs).
    { clear R. subst tot. induction vs as [|x r IHr]; intros max B; cbn [ub_elems fold_right] in *.
      - exists max. split; [reflexivity|]. change (zlen (@nil value)) with 0. lia.
      - apply Forall_cons_iff in IH. destruct IH as [Hx Hr].
        assert (P : 0 <= fold_right (fun x n => 16 + room x + n) 0 r).
        { clear. induction r as [|x r IHr]; cbn [fold_right]; [lia|]. pose proof (room_pos x). lia. }
        pose proof (room_pos x). destruct Hx as (u & -> & Hu); [lia|]. cbn [bind]. fold (al x).
        edestruct (IHr Hr) as (u' & E & Hu'); [|rewrite E]; [lia|]. eexists. split; [reflexivity|].
        pose proof (al_le x). rewrite zlen_cons. lia. }
    destruct (HH (8 + 8 * (zlen vs + 1))) as (u & -> & Hu); [lia|]. cbn [bind].
    unfold max_aggregate_size. replace (4294967295 <? u) with false by lia.
    eexists. split; [reflexivity|]. lia.
  - eexists. split; [reflexivity|]. pose proof (str_bound_room s). lia.
  - eexists. split; [reflexivity|]. repeat match goal with |- context [if ?b then _ else _] => destruct b end; lia.
  - eexists. split; [reflexivity|]. destruct (fits_single d); lia.
  - eexists. split; [reflexivity|]. lia.
  - eexists. split; [reflexivity|]. lia.
Qed.

Theorem small_objects_finalize fs : heap_value (VObj fs) -> room (VObj fs) < 2 ^ 32 ->
  exists m, finalize (VObj fs) = Ok m.
Proof.
  intros H R. destruct (upper_bound_room _ R) as (u & E & _).
  destruct (finalize_spec fs u (plain_short _ (heap_plain _ H)) E) as [_ ->]. eauto.
Qed.

(** ** Calls keep values within what a heap can hold *)

Lemma Forall_set {A} (P : A -> Prop) l : forall i x, Forall P l -> P x -> Forall P (list_set i x l).
Proof.
  induction l as [|y r IH]; intros i x F H; [destruct i; constructor|].
  apply Forall_cons_iff in F. destruct F, i; cbn [list_set]; constructor; auto.
Qed.
Lemma Forall_insert {A} (P : A -> Prop) i : forall l x, Forall P l -> P x -> Forall P (list_insert i x l).
Proof.
  induction i as [|i IH]; intros l x F H; cbn [list_insert]; [constructor; assumption|].
  destruct l; [constructor; auto|]. apply Forall_cons_iff in F. destruct F. constructor; auto.
Qed.
Lemma Forall_erase {A} (P : A -> Prop) l : forall i, Forall P l -> Forall P (list_erase i l).
Proof.
  induction l as [|y r IH]; intros i F; [destruct i; constructor|].
  apply Forall_cons_iff in F. destruct F, i; cbn [list_erase]; [assumption|]. constructor; auto.
Qed.

Section Keep.
  Variables (K : str -> Prop) (L : value -> Prop).
  Hypothesis L_obj : forall fs, StronglySorted key_lt (map fst fs) -> L (VObj fs).
  Hypothesis L_arr : forall vs, L (VArr vs).

  Notation ev := (every K L).

  Lemma ev_obj fs : ev (VObj fs) <-> L (VObj fs) /\ Forall (fun kv => K (fst kv) /\ ev (snd kv)) fs.
  Proof using. split; [intros H; inversion H; auto|]. intros []. constructor; assumption. Qed.
  Lemma ev_arr vs : ev (VArr vs) <-> Forall ev vs.
  Proof using L_arr. split; [intros H; inversion H; auto|]. intros. constructor; auto. Qed.

  Definition kept (r : res (value * nat)) : Prop := match r with Ok (v, _) => ev v | _ => True end.
  Definition kept' (r : res value) : Prop := match r with Ok v => ev v | _ => True end.

  Lemma keep_pairs fs key : Forall (fun kv : str * value => K (fst kv) /\ ev (snd kv)) fs ->
    StronglySorted key_lt (map fst fs) -> forall j x, ev x -> map_find key fs = Some j ->
    Forall (fun kv => K (fst kv) /\ ev (snd kv)) (list_set j (match nth_error fs j with Some (k', _) => (k', x) | None => (key, x) end) fs).
  Proof using.
    intros F S j x X E. unfold map_find in E.
    destruct (nth_error fs (map_lower_bound key fs)) as [[k' y]|] eqn:N; [|discriminate].
    destruct (dart_ltb key k'); [discriminate|]. injection E as <-. rewrite N.
    apply Forall_set; [assumption|]. cbn [fst snd]. split; [|assumption].
    apply nth_error_In in N. rewrite Forall_forall in F. apply (F _ N).
  Qed.

  Lemma keep_insert v k x : ev v -> (forall s, k = VStr s -> zlen s <= 65535 -> K s) -> ev x ->
    (forall fs, v = VObj fs -> StronglySorted key_lt (map fst fs)) -> kept (h_insert v k x).
  Proof using L_obj L_arr.
    intros V HK X S. destruct k; try exact I; cbn [h_insert].
    - destruct (65535 <? zlen s) eqn:Q; [exact I|]. destruct v; try exact I.
      specialize (S _ eq_refl). assert (Z1 : zlen s <= 65535) by lia.
      destruct (h_insert_spec fs S s x Z1) as (fs' & i & E & S' & _). cbn [h_insert] in E. rewrite Q in E.
      cbn [h_fields] in E |- *. destruct (map_find s fs) as [j|] eqn:MF; apply Ok_inj in E; injection E as E1 E2.
      + cbn [kept]. apply ev_obj. apply ev_obj in V. destruct V as [_ V]. split; [rewrite E1; auto|].
        apply keep_pairs; assumption.
      + cbn [kept]. apply ev_obj. apply ev_obj in V. destruct V as [_ V]. split; [rewrite E1; auto|].
        apply Forall_insert; [assumption|]. cbn [fst snd]. auto.
    - destruct v; try exact I. cbn [h_elements]. destruct (_ <? _); [exact I|]. cbn [kept].
      apply ev_arr. apply ev_arr in V. apply Forall_insert; assumption.
  Qed.
  Lemma keep_set v k x : ev v -> ev x ->
    (forall fs, v = VObj fs -> StronglySorted key_lt (map fst fs)) -> kept (h_set v k x).
  Proof using L_obj L_arr.
    intros V X S. destruct k; try exact I; cbn [h_set].
    - destruct (65535 <? zlen s) eqn:Q; [exact I|]. destruct v; try exact I.
      specialize (S _ eq_refl). assert (Z1 : zlen s <= 65535) by lia.
      pose proof (h_set_spec fs S s x Z1) as HS. cbn [h_set] in HS. rewrite Q in HS.
      cbn [h_fields] in HS |- *. destruct (map_find s fs) as [j|] eqn:MF; [|exact I].
      destruct (lookup s fs); [|discriminate]. destruct HS as (fs' & i & E & S' & _).
      apply Ok_inj in E; injection E as E1 E2.
      cbn [kept]. apply ev_obj. apply ev_obj in V. destruct V as [_ V]. split; [rewrite E1; auto|].
      apply keep_pairs; assumption.
    - destruct v; try exact I. cbn [h_elements]. destruct (_ <=? _); [exact I|]. cbn [kept].
      apply ev_arr. apply ev_arr in V. apply Forall_set; assumption.
  Qed.
  Lemma keep_erase_idx v i : ev v -> kept (h_erase_idx v i).
  Proof using L_arr.
    intros V. destruct v; try exact I. cbn [h_erase_idx h_elements]. destruct (_ <=? _); [exact V|]. cbn [kept].
    apply ev_arr. apply ev_arr in V. apply Forall_erase; assumption.
  Qed.
  Lemma keep_erase v k : ev v ->
    (forall fs, v = VObj fs -> StronglySorted key_lt (map fst fs)) -> kept (h_erase v k).
  Proof using L_obj L_arr.
    intros V S. destruct k; try exact I; cbn [h_erase]; [|apply keep_erase_idx; assumption].
    destruct v; try exact I. specialize (S _ eq_refl).
    destruct (h_erase_key_spec fs S s) as (fs' & i & E & S' & _). rewrite E. cbn [kept].
    cbn [h_erase_key h_fields] in E. apply ev_obj. apply ev_obj in V. destruct V as [LV V]. split; [auto|].
    destruct (map_find s fs); apply Ok_inj in E; injection E as E1 E2; rewrite <- E1; [|assumption].
    apply Forall_erase; assumption.
  Qed.

  Lemma kept_op v r : ev v -> kept r -> ev (fst (mutated v ('(v', i) <- r ;; Ok (v', iter_ans v' i)))).
  Proof using. intros V H. destruct r as [[v' i]|e| | |]; cbn in *; assumption. Qed.
  Lemma kept_op' v r : ev v -> kept' r -> ev (fst (mutated v (v' <- r ;; Ok (v', A_unit)))).
  Proof using. intros V H. destruct r as [v'|e| | |]; cbn in *; assumption. Qed.
  Lemma answered_fst v r : fst (answered v r) = v.
  Proof using. destruct r; reflexivity. Qed.

  Theorem run_op_every v o : ev v -> op_values ev o ->
    (forall k x, o = Insert (VStr k) x -> zlen k <= 65535 -> K k) ->
    (forall fs, v = VObj fs -> StronglySorted key_lt (map fst fs)) ->
    ev (fst (run_op v o)).
  Proof using L_obj L_arr.
    intros V A HK S. destruct o; cbn [run_op op_values] in *; rewrite ?answered_fst; try assumption.
    - apply kept_op; [assumption|]. apply keep_insert; try tauto. intros s -> Z. eapply HK; [reflexivity|assumption].
    - apply kept_op; [assumption|]. apply keep_set; tauto.
    - apply kept_op; [assumption|]. apply keep_erase; tauto.
    - apply kept_op'; [assumption|]. unfold h_push_front.
      pose proof (keep_insert v (VInt 0) x V ltac:(discriminate) A S) as H.
      destruct (h_insert _ _ _) as [[v' i]|e| | |]; exact H.
    - apply kept_op'; [assumption|]. unfold h_push_back. destruct (h_size v) as [n|e| | |]; try exact I. cbn [bind].
      pose proof (keep_insert v (VInt n) x V ltac:(discriminate) A S) as H.
      destruct (h_insert _ _ _) as [[v' i]|e| | |]; exact H.
    - apply kept_op'; [assumption|]. unfold h_pop_front. pose proof (keep_erase_idx v 0 V) as H.
      destruct (h_erase_idx _ _) as [[v' i]|e| | |]; exact H.
    - apply kept_op'; [assumption|]. unfold h_pop_back. destruct (h_size v) as [n|e| | |]; try exact I. cbn [bind].
      pose proof (keep_erase_idx v ((n - 1) mod 2 ^ 64) V) as H.
      destruct (h_erase_idx _ _) as [[v' i]|e| | |]; exact H.
    - apply kept_op'; [assumption|]. destruct v; try exact I. cbn [h_resize h_elements kept'].
      apply ev_arr. apply ev_arr in V. apply Forall_app. split.
      + rewrite Forall_forall in *. intros y I. apply V. rewrite <- (firstn_skipn (Z.to_nat n) vs). apply in_or_app. auto.
      + apply Forall_forall. intros y I. apply repeat_spec in I. subst. assumption.
    - apply kept_op'; [assumption|]. destruct v; try exact I; cbn [h_clear kept'].
      + apply ev_obj. split; [apply L_obj; constructor|constructor].
      + apply ev_arr. constructor.
  Qed.
End Keep.

Lemma heap_sorted' v fs : heap_value v -> v = VObj fs -> StronglySorted key_lt (map fst fs).
Proof. intros H ->. apply heap_sorted; assumption. Qed.

Lemma run_op_heap v o : heap_value v -> op_values heap_value o -> heap_value (fst (run_op v o)).
Proof.
  intros V A. apply run_op_every; [intros fs S; exact S|intros vs; exact I|assumption|assumption| |].
  - intros k x _ Z. exact Z.
  - intros fs. apply heap_sorted'. assumption.
Qed.
Lemma run_op_good v o : heap_value v -> good_all v -> op_values good_all o ->
  match o with Insert (VStr k) _ => good_key k | _ => True end -> good_all (fst (run_op v o)).
Proof.
  intros H V A G. apply run_op_every; [intros; exact I|intros; exact I|assumption|assumption| |].
  - intros k x -> _. exact G.
  - intros fs. apply heap_sorted'. assumption.
Qed.
