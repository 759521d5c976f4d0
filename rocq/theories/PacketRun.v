(** Histories of calls on packets follow the machine of SpecPacket.v. *)

From Coq Require Import ZArith List Bool Lia Sorted.
From Coq Require Import ZifyBool ZifyNat.
From Verif Require Import Base BaseFacts Keys KeysFacts Dec Wire Read Enc EncSize Spec ReadFacts Lookup Buf BufFacts
Canon HeapOps HeapFacts Nested NestedFacts IterFacts WireMore SpecOps HeapRun HistFacts SpecPacket Packet PacketFacts.
Import ListNotations.
Open Scope Z_scope.

(** ** Reads of a finalized packet *)

Lemma T bs m e v (R : represents bs m e v) : b_type e = h_type v.
Proof. rewrite (represents_type _ _ _ _ R). destruct v; reflexivity. Qed.

Lemma b_object_other {A} bs m e v (R : represents bs m e v) (k : Z -> res A) : h_type v <> T_object -> b_object e k = Throw type_error.
Proof. intros N. unfold b_object. rewrite (T _ _ _ _ R). destruct (h_type v); congruence || reflexivity. Qed.
Lemma b_array_other {A} bs m e v (R : represents bs m e v) (k : Z -> res A) : h_type v <> T_array -> b_array e k = Throw type_error.
Proof. intros N. unfold b_array. rewrite (T _ _ _ _ R). destruct (h_type v); congruence || reflexivity. Qed.

Lemma shown_rep bs m e' x : represents bs m e' x -> shown (Ok (PBuf bs m e')) = Ok (A_value x).
Proof. intros H. unfold shown. cbn [bind p_value]. rewrite (represents_value _ _ _ _ H). reflexivity. Qed.

Lemma show_all bs m es xs : Forall2 (represents bs m) es xs -> p_show (map (PBuf bs m) es) = Ok xs.
Proof.
  induction 1 as [|a x es xs H F IH]; [reflexivity|]. cbn [map p_show p_value].
  rewrite (represents_value _ _ _ _ H). cbn [bind]. rewrite IH. reflexivity.
Qed.

Lemma key_value bs m a k : is_key m a k -> b_value bs m a = Ok (VStr k).
Proof.
  unfold is_key, b_scalar, b_value. destruct a as [t [o|]]; cbn [fst snd].
  - unfold b_type. cbn [fst]. destruct (utype_eqb (simplify_type t) T_string) eqn:E; [|discriminate].
    intros H. cbn [read_value]. unfold simplify_type in E.
    destruct (t =? R_object) eqn:E0; [discriminate|]. destruct (t =? R_array) eqn:E1; [discriminate|]. exact H.
  - destruct (utype_eqb _ _); discriminate.
Qed.
Lemma show_keys bs m es ks : Forall2 (is_key m) es ks -> p_show (map (PBuf bs m) es) = Ok (map VStr ks).
Proof.
  induction 1 as [|a k es ks H F IH]; [reflexivity|]. cbn [map p_show p_value].
  rewrite (key_value _ _ _ _ H). cbn [bind]. rewrite IH. reflexivity.
Qed.

Lemma p_size_eq bs m e v (R : represents bs m e v) : p_size (PBuf bs m e) = h_size v.
Proof. cbn [p_size]. rewrite (b_size_spec _ _ _ _ R). destruct v; reflexivity. Qed.

Lemma fin_get bs m e v (R : represents bs m e v) (G : good_all v) k : shown (p_get (PBuf bs m e) k) = (x <- h_get v k ;; Ok (A_value x)).
Proof.
  unfold p_get, visit. destruct v as [fs| | | | | |]; try (unfold b_get; rewrite (b_object_other _ _ _ _ R) by discriminate; reflexivity).
  destruct (b_get_spec bs m e fs k R (good_all_keys _ G)) as (e' & -> & R'). cbn [bind].
  rewrite (shown_rep _ _ _ _ R'), h_get_spec by (apply heap_sorted; apply R). reflexivity.
Qed.
Lemma fin_at bs m e v (R : represents bs m e v) (G : good_all v) k : shown (p_at (PBuf bs m e) k) = (x <- h_at v k ;; Ok (A_value x)).
Proof.
  unfold p_at, visit. destruct v as [fs| | | | | |]; try (unfold b_at; rewrite (b_object_other _ _ _ _ R) by discriminate; reflexivity).
  pose proof (b_at_spec bs m e fs k R (good_all_keys _ G)) as B. rewrite h_at_spec by (apply heap_sorted; apply R).
  destruct (lookup k fs) as [x|]; [|rewrite B; reflexivity]. destruct B as (e' & -> & R'). cbn [bind].
  apply shown_rep; assumption.
Qed.
Lemma fin_has bs m e v (R : represents bs m e v) (G : good_all v) k : p_has_key (PBuf bs m e) k = h_has_key v k.
Proof.
  cbn [p_has_key]. destruct v as [fs| | | | | |]; try (unfold b_has_key; rewrite (b_object_other _ _ _ _ R) by discriminate; reflexivity).
  rewrite (b_has_key_spec bs m e fs k R (good_all_keys _ G)), h_has_key_spec by (apply heap_sorted; apply R). reflexivity.
Qed.
Lemma fin_get_or bs m e v (R : represents bs m e v) (G : good_all v) k d : shown (p_get_or (PBuf bs m e) k d) = (x <- h_get_or v k d ;; Ok (A_value x)).
Proof.
  unfold p_get_or, h_get_or. cbn [p_type]. rewrite (T _ _ _ _ R), (fin_has _ _ _ _ R G).
  destruct (h_type v) eqn:E; try reflexivity. destruct (h_has_key v k) as [[]|w| | |]; try reflexivity. cbn [bind].
  apply (fin_get _ _ _ _ R G).
Qed.
Lemma fin_find bs m e v (R : represents bs m e v) (G : good_all v) k : depends_on_form v (Find k) = false -> p_find (PBuf bs m e) k = (i <- h_find v k ;; Ok (iter_ans v i)).
Proof.
  intros D. cbn [p_find]. destruct v as [fs| | | | | |]; try (unfold b_find; rewrite (b_object_other _ _ _ _ R) by discriminate; reflexivity).
  cbn [depends_on_form] in D. pose proof (b_find_spec bs m e fs k R (good_all_keys _ G)) as B.
  destruct (h_find_spec fs (heap_sorted _ (proj1 R)) k) as (i' & -> & N').
  destruct (lookup k fs) as [x|] eqn:L; [|discriminate]. destruct B as (i & -> & I & N). cbn [bind].
  destruct (b_deref_key_spec bs m e fs i k x R I N) as (q & -> & RS). cbn [bind].
  destruct (b_deref_spec bs m e (VObj fs) i x R I) as (e' & -> & R').
  { cbn [members]. rewrite nth_error_map, N. reflexivity. }
  cbn [bind]. rewrite (key_value bs m (R_string, Some q) k); [|exact RS]. cbn [bind].
  rewrite (represents_value _ _ _ _ R'). cbn [bind]. f_equal. unfold iter_ans. cbn [h_end].
  destruct (Nat.eqb i' (length fs)) eqn:E.
  { apply Nat.eqb_eq in E. subst i'. assert (nth_error fs (length fs) = None) by (apply nth_error_None; lia). congruence. }
  cbn [h_deref_key h_deref]. rewrite N'. reflexivity.
Qed.
Lemma fin_values bs m e v (R : represents bs m e v) : shown_all (p_values (PBuf bs m e)) = (l <- h_iterate v ;; Ok (A_values l)).
Proof.
  unfold p_values. rewrite (p_size_eq _ _ _ _ R). destruct (is_aggregate v) eqn:A.
  - rewrite h_iterate_spec by assumption. cbn [bind].
    destruct (b_iterate_spec bs m e v R A) as (es & E & F).
    replace (h_size v) with (Ok (zlen (members v))).
    2: { destruct v; try discriminate; cbn; [unfold zlen; rewrite map_length|]; reflexivity. }
    cbn [bind p_iterate]. rewrite E. cbn [bind]. unfold shown_all. cbn [bind]. rewrite (show_all _ _ _ _ F). reflexivity.
  - assert (E : b_iterate bs m e = Throw type_error).
    { unfold b_iterate, b_end. rewrite (T _ _ _ _ R). destruct v; try discriminate; reflexivity. }
    destruct v; try discriminate; cbn [h_size bind p_iterate]; rewrite ?E; reflexivity.
Qed.
Lemma fin_rvalues bs m e v (R : represents bs m e v) : shown_all (p_riterate (PBuf bs m e)) = (l <- h_riterate v ;; Ok (A_values l)).
Proof.
  destruct (is_aggregate v) eqn:A.
  - rewrite h_riterate_spec by assumption. destruct (b_riterate_spec bs m e v R A) as (es & E & F).
    cbn [bind p_riterate]. rewrite E. cbn [bind]. unfold shown_all. cbn [bind]. rewrite (show_all _ _ _ _ F). reflexivity.
  - assert (E : b_riterate bs m e = Throw type_error).
    { unfold b_riterate, b_end. rewrite (T _ _ _ _ R). destruct v; try discriminate; reflexivity. }
    cbn [p_riterate]. rewrite E. destruct v; try discriminate; reflexivity.
Qed.
Lemma fin_keys bs m e v (R : represents bs m e v) : shown_all (p_keys (PBuf bs m e)) = (l <- h_iterate_keys v ;; Ok (A_values l)).
Proof.
  unfold p_keys. rewrite (p_size_eq _ _ _ _ R). destruct v as [fs| | | | | |];
    try reflexivity;
    try (cbn [h_size bind p_iterate_keys]; unfold b_iterate_keys, b_key_end; rewrite (T _ _ _ _ R); reflexivity).
  rewrite h_iterate_keys_spec. cbn [h_size bind p_iterate_keys].
  destruct (b_iterate_keys_spec bs m e fs R) as (es & -> & F). cbn [bind]. unfold shown_all. cbn [bind].
  rewrite (show_keys _ _ _ _ F). reflexivity.
Qed.

Lemma fin_get_idx bs m e v (R : represents bs m e v) i : 0 <= i -> shown (p_get_idx (PBuf bs m e) i) = (x <- h_get_idx v i ;; Ok (A_value x)).
Proof.
  intros I. unfold p_get_idx, visit. destruct v as [|vs| | | | |];
    try (unfold b_get_idx; rewrite (b_array_other _ _ _ _ R) by discriminate; reflexivity).
  destruct (b_get_idx_spec bs m e vs i R I) as (e' & -> & R'). cbn [bind]. rewrite (shown_rep _ _ _ _ R').
  cbn [h_get_idx h_elements h_size bind]. pose proof (nth_error_split_z vs i I) as N.
  destruct (nth_error vs (Z.to_nat i)) as [x|].
  - destruct N as (a & b & -> & <-). rewrite zlen_app, zlen_cons.
    replace (zlen a <? _) with true by zlia. reflexivity.
  - replace (i <? zlen vs) with false by lia. reflexivity.
Qed.
Lemma fin_at_idx bs m e v (R : represents bs m e v) i vs : v = VArr vs -> 0 <= i -> shown (p_at_idx (PBuf bs m e) i) = (x <- h_at_idx v i ;; Ok (A_value x)).
Proof.
  intros E I. rewrite E in *. unfold p_at_idx, visit. pose proof (b_at_idx_spec bs m e vs i R I) as B.
  cbn [h_at_idx h_elements h_size bind]. pose proof (nth_error_split_z vs i I) as N.
  destruct (nth_error vs (Z.to_nat i)) as [x|].
  - destruct B as (e' & -> & R'). cbn [bind]. rewrite (shown_rep _ _ _ _ R').
    destruct N as (a & b & -> & <-). rewrite zlen_app, zlen_cons.
    replace (zlen a <? _) with true by zlia. reflexivity.
  - rewrite B. replace (i <? zlen vs) with false by lia. reflexivity.
Qed.
Lemma fin_get_idx_or bs m e v (R : represents bs m e v) i d : 0 <= i -> shown (p_get_idx_or (PBuf bs m e) i d) = (x <- h_get_idx_or v i d ;; Ok (A_value x)).
Proof.
  intros I. unfold p_get_idx_or, h_get_idx_or. cbn [p_type]. rewrite (T _ _ _ _ R), (p_size_eq _ _ _ _ R).
  destruct (h_type v); try reflexivity. destruct (h_size v) as [n|w| | |]; try reflexivity. cbn [bind].
  destruct (i <? n); [|reflexivity]. apply (fin_get_idx _ _ _ _ R); assumption.
Qed.
Lemma h_back_last vs : h_back (VArr vs) = Ok (last vs VNull).
Proof.
  cbn [h_back h_elements]. destruct vs as [|x r] eqn:E; [reflexivity|]. rewrite <- E.
  destruct (nth_error_last vs) as (y & N & L); [rewrite E; discriminate|].
  replace (length vs - 1)%nat with (Z.to_nat (zlen vs - 1)) by (unfold zlen; lia). rewrite N.
  f_equal. rewrite <- L. clear - E. assert (NE : vs <> []) by (rewrite E; discriminate).
  destruct (exists_last NE) as (l & z & ->). rewrite !last_last. reflexivity.
Qed.
Lemma h_front_hd vs : h_front (VArr vs) = Ok (hd VNull vs).
Proof. destruct vs; reflexivity. Qed.
Lemma fin_front bs m e v (R : represents bs m e v) : shown (p_front (PBuf bs m e)) = (x <- h_front v ;; Ok (A_value x)).
Proof.
  unfold p_front, visit. destruct v as [|vs| | | | |];
    try (unfold b_front; rewrite (b_array_other _ _ _ _ R) by discriminate; reflexivity).
  destruct (b_front_spec bs m e vs R) as (e' & -> & R'). cbn [bind]. rewrite (shown_rep _ _ _ _ R'), h_front_hd. reflexivity.
Qed.
Lemma fin_back bs m e v (R : represents bs m e v) : shown (p_back (PBuf bs m e)) = (x <- h_back v ;; Ok (A_value x)).
Proof.
  unfold p_back, visit. destruct v as [|vs| | | | |];
    try (unfold b_back; rewrite (b_array_other _ _ _ _ R) by discriminate; reflexivity).
  destruct (b_back_spec bs m e vs R) as (e' & -> & R'). cbn [bind]. rewrite (shown_rep _ _ _ _ R'), h_back_last. reflexivity.
Qed.
Lemma fin_at_front bs m e v (R : represents bs m e v) : shown (p_at_front (PBuf bs m e)) = (x <- h_at_front v ;; Ok (A_value x)).
Proof.
  unfold p_at_front, visit, b_at_front, h_at_front. fold (p_size (PBuf bs m e)).
  change (b_size m e) with (p_size (PBuf bs m e)). rewrite (p_size_eq _ _ _ _ R). destruct (h_size v) as [n|w| | |]; try reflexivity. cbn [bind].
  destruct (n =? 0); [reflexivity|]. exact (fin_front _ _ _ _ R).
Qed.
Lemma fin_at_back bs m e v (R : represents bs m e v) : shown (p_at_back (PBuf bs m e)) = (x <- h_at_back v ;; Ok (A_value x)).
Proof.
  unfold p_at_back, visit, b_at_back, h_at_back.
  change (b_size m e) with (p_size (PBuf bs m e)). rewrite (p_size_eq _ _ _ _ R). destruct (h_size v) as [n|w| | |]; try reflexivity. cbn [bind].
  destruct (n =? 0); [reflexivity|]. exact (fin_back _ _ _ _ R).
Qed.

Lemma snd_answered v r : snd (answered v r) = ans_of r.
Proof. destruct r; reflexivity. Qed.

Theorem fin_reads bs m e v (R : represents bs m e v) (G : good_all v) o : op_ok o -> mutates o = false -> depends_on_form v o = false ->
  ans_of (p_read (PBuf bs m e) o) = snd (run_op v o).
Proof.
  intros OK M D. destruct o; try discriminate; cbn [run_op p_read op_ok] in *; rewrite snd_answered; f_equal.
  - apply (fin_get _ _ _ _ R G).
  - apply (fin_at _ _ _ _ R G).
  - rewrite (fin_has _ _ _ _ R G). reflexivity.
  - apply (fin_get_or _ _ _ _ R G).
  - apply (fin_find _ _ _ _ R G); assumption.
  - rewrite (p_size_eq _ _ _ _ R). reflexivity.
  - apply (fin_keys _ _ _ _ R).
  - apply (fin_values _ _ _ _ R).
  - apply (fin_rvalues _ _ _ _ R).
  - apply (fin_get_idx _ _ _ _ R); lia.
  - cbn [depends_on_form] in D. destruct v as [|vs| | | | |]; try discriminate. apply (fin_at_idx bs m e _ R i vs); [reflexivity|lia].
  - apply (fin_get_idx_or _ _ _ _ R); lia.
  - apply (fin_front _ _ _ _ R).
  - apply (fin_back _ _ _ _ R).
  - apply (fin_at_front _ _ _ _ R).
  - apply (fin_at_back _ _ _ _ R).
Qed.

Lemma fin_scalar bs m e v (R : represents bs m e v) t : scalar_type t = true -> p_scalar t (PBuf bs m e) = h_scalar t v.
Proof.
  intros S. cbn [p_scalar]. unfold h_scalar, b_scalar. rewrite (T _ _ _ _ R).
  destruct (utype_eqb (h_type v) t) eqn:E; [|reflexivity].
  destruct (is_aggregate v) eqn:A; [destruct v; try discriminate; destruct t; discriminate|].
  assert (N : v <> VNull) by (intros ->; destruct t; discriminate).
  pose proof (b_scalar_spec bs m e v t R A N) as B. unfold b_scalar in B. rewrite (T _ _ _ _ R) in B. rewrite E in B.
  replace (vtype v) with (h_type v) in B by (destruct v; reflexivity). rewrite E in B. exact B.
Qed.


(** ** Reads of a mutable packet *)
Lemma heap_show l : p_show (map PHeap l) = Ok l.
Proof. induction l as [|v l IH]; [reflexivity|]. cbn [map p_show p_value bind]. rewrite IH. reflexivity. Qed.

Lemma heap_do v o : p_do (PHeap v) o = (PHeap (fst (run_op v o)), snd (run_op v o)).
Proof.
  assert (A : forall r, PHeap (fst (answered v r)) = PHeap v) by (intros []; reflexivity).
  assert (B : forall r, snd (answered v r) = ans_of r) by (intros []; reflexivity).
  assert (S : forall r : res value, shown (x <- r ;; Ok (PHeap x)) = (x <- r ;; Ok (A_value x))) by (intros []; reflexivity).
  destruct o; cbn [p_do p_mutate]; try (destruct (run_op v _); reflexivity);
    cbn [run_op]; rewrite A, B; f_equal; f_equal; cbn [p_read]; try apply S; try reflexivity.
  - unfold p_get_or, h_get_or. cbn [p_type p_has_key]. destruct (h_type v); try reflexivity.
    destruct (h_has_key v k) as [[]|w| | |]; try reflexivity. cbn [bind]. apply S.
  - unfold p_keys. cbn [p_size p_iterate_keys]. unfold shown_all.
    destruct v; try reflexivity. rewrite h_iterate_keys_spec. cbn [h_size bind]. rewrite heap_show. reflexivity.
  - unfold p_values. cbn [p_size p_iterate]. unfold shown_all.
    destruct v as [fs|vs| | | | |] eqn:E; try reflexivity; rewrite h_iterate_spec by reflexivity; cbn [h_size bind]; rewrite heap_show; reflexivity.
  - cbn [p_riterate]. unfold shown_all.
    destruct v as [fs|vs| | | | |] eqn:E; try reflexivity; rewrite h_riterate_spec by reflexivity; cbn [h_size bind]; rewrite heap_show; reflexivity.
  - unfold p_get_idx_or, h_get_idx_or. cbn [p_type p_size]. destruct (h_type v); try reflexivity.
    destruct (h_size v) as [n|w| | |]; try reflexivity. cbn [bind]. destruct (i <? n); [apply S|reflexivity].
Qed.

(** ** Histories *)
Definition stands (p : packet) (s : pstate) : Prop :=
  heap_value (fst s) /\ good_all (fst s) /\
  match p with
  | PHeap v => s = (v, false)
  | PBuf bs m e => snd s = true /\ represents bs m e (fst s)
  end.

Lemma good_elem vs x : good_all (VArr vs) -> In x vs -> good_all x.
Proof. intros H I. inversion H as [|? _ F| | | | |]; subst. rewrite Forall_forall in F. exact (F _ I). Qed.

Theorem step_ok p s c : stands p s -> pcall_ok c ->
  exists s', pstep run_op s c (snd (p_call p c)) s' /\ stands (fst (p_call p c)) s'.
Proof.
  intros (H & G & P) OK. destruct s as [v fin]. cbn [fst snd] in *. destruct c; cbn [p_call].
  - destruct OK as (O1 & O2 & O3 & O4). destruct p as [w|bs m e].
    + injection P as -> ->. rewrite heap_do. cbn [fst snd pstep]. eexists. split; [split; reflexivity|].
      split; [apply run_op_heap; assumption|]. split; [apply run_op_good; assumption|]. reflexivity.
    + destruct P as [-> R]. exists (v, true). cbn [pstep].
      assert (E : fst (p_do (PBuf bs m e) o) = PBuf bs m e) by (destruct o; reflexivity).
      assert (A : if mutates o then snd (p_do (PBuf bs m e) o) = A_err state_error
                  else depends_on_form v o = false -> snd (p_do (PBuf bs m e) o) = snd (run_op v o)).
      { destruct (mutates o) eqn:M; [destruct o; try discriminate; reflexivity|]. intros D.
        rewrite <- (fin_reads bs m e v R G o O1 M D). destruct o; try discriminate; reflexivity. }
      destruct (p_do (PBuf bs m e) o) as [q a]. cbn [fst snd] in *. subst q. split.
      * split; [reflexivity|]. destruct (mutates o); [congruence|]. intros D. rewrite (A D). reflexivity.
      * split; [assumption|]. split; [assumption|]. split; [reflexivity|assumption].
  - exists (v, fin). cbn [fst snd pstep]. split; [split; [reflexivity|]|split; [assumption|split; assumption]].
    destruct p as [w|bs m e]; cbn [p_type].
    + injection P as -> ->. destruct w; reflexivity.
    + destruct P as [-> R]. rewrite (represents_type _ _ _ _ R). reflexivity.
  - exists (v, fin). cbn [fst snd pstep]. split; [split; [reflexivity|]|split; [assumption|split; assumption]].
    destruct p; cbn [is_finalized]; [congruence|]. destruct P. congruence.
  - exists (v, fin). cbn [fst snd pstep]. split; [split; [reflexivity|]|split; [assumption|split; assumption]].
    assert (E : p_size p = h_size v).
    { destruct p as [w|bs m e]; [injection P as -> ->; reflexivity|]. destruct P as [_ R]. apply p_size_eq; assumption. }
    unfold p_empty. rewrite E. destruct v; reflexivity.
  - exists (v, fin). cbn [fst snd pstep]. split; [split; [reflexivity|]|split; [assumption|split; assumption]].
    assert (E : p_scalar t p = h_scalar t v).
    { destruct p as [w|bs m e]; [injection P as -> ->; reflexivity|]. destruct P as [_ R]. apply fin_scalar; assumption. }
    rewrite E. unfold h_scalar. replace (h_type v) with (vtype v) by (destruct v; reflexivity).
    destruct (utype_eqb (vtype v) t); reflexivity.
  - exists (v, fin). cbn [fst snd pstep]. split; [split; [reflexivity|]|split; [assumption|split; assumption]].
    assert (E : p_scalar t p = h_scalar t v /\ p_type p = vtype v).
    { destruct p as [w|bs m e]; [injection P as -> ->; destruct w; split; reflexivity|]. destruct P as [_ R].
      split; [apply fin_scalar; assumption|]. apply (represents_type _ _ _ _ R). }
    destruct E as [E1 E2]. unfold p_scalar_or. rewrite E1, E2. unfold h_scalar.
    replace (h_type v) with (vtype v) by (destruct v; reflexivity). destruct (utype_eqb (vtype v) t); reflexivity.
  - exists (v, fin). cbn [fst snd pstep]. split; [split; [reflexivity|]|split; [assumption|split; assumption]].
    assert (E : exists x, ans_of (shown (p_get_nested p path sep)) = A_value x /\
      (path = [] -> x = v) /\
      (forall ks trailing, path = join sep ks ++ trailing -> Forall (fun k => ~ In sep k) ks -> ks <> [] ->
           (trailing = [sep] \/ (trailing = [] /\ last ks [] <> [])) -> x = follow v ks)).
    2: { destruct E as (x & E & Q). exists x. rewrite E. auto. }
    destruct p as [w|bs m e]; cbn [p_get_nested visit].
    + injection P as -> ->. destruct (path_shapes sep path) as [->|(ks & tr & -> & F & N & TR)].
      * exists w. split; [reflexivity|]. split; [auto|]. intros ks tr E F N TR. exfalso.
        symmetry in E. apply app_eq_nil in E. destruct E as [E ->]. destruct TR as [|[_ NL]]; [discriminate|].
        destruct ks as [|k [|]]; [congruence| |]; cbn in E.
        -- subst k. exact (NL eq_refl).
        -- apply app_eq_nil in E. destruct E. discriminate.
      * exists (follow w ks). rewrite (h_get_nested_spec w sep ks tr H F N TR). split; [reflexivity|]. split.
        -- intros E. apply app_eq_nil in E. destruct E as [E ->]. destruct TR as [|[_ NL]]; [discriminate|].
           destruct ks as [|k [|]]; [congruence| |]; cbn in E.
           ++ subst k. exfalso. exact (NL eq_refl).
           ++ apply app_eq_nil in E. destruct E. discriminate.
        -- intros ks' tr' E F' N' TR'. pose proof (h_get_nested_spec w sep ks' tr' H F' N' TR') as Q.
           rewrite <- E, (h_get_nested_spec w sep ks tr H F N TR) in Q. apply Ok_inj in Q. exact Q.
    + destruct P as [-> R]. destruct (path_shapes sep path) as [->|(ks & tr & -> & F & N & TR)].
      * exists v. change (b_get_nested bs m e [] sep) with (Ok e). cbn [bind].
        rewrite (shown_rep bs m e v R). split; [reflexivity|]. split; [auto|]. intros ks tr E F N TR. exfalso.
        symmetry in E. apply app_eq_nil in E. destruct E as [E ->]. destruct TR as [|[_ NL]]; [discriminate|].
        destruct ks as [|k [|]]; [congruence| |]; cbn in E.
        -- subst k. exact (NL eq_refl).
        -- apply app_eq_nil in E. destruct E. discriminate.
      * exists (follow v ks). destruct (b_get_nested_spec bs m e v sep ks tr R G F N TR) as (e' & E' & R').
        rewrite E'. cbn [bind]. rewrite (shown_rep bs m e' _ R'). split; [reflexivity|]. split.
        -- intros E. apply app_eq_nil in E. destruct E as [E ->]. destruct TR as [|[_ NL]]; [discriminate|].
           destruct ks as [|k [|]]; [congruence| |]; cbn in E.
           ++ subst k. exfalso. exact (NL eq_refl).
           ++ apply app_eq_nil in E. destruct E. discriminate.
        -- intros ks' tr' E F' N' TR'. pose proof (h_get_nested_spec v sep ks' tr' H F' N' TR') as Q.
           rewrite <- E, (h_get_nested_spec v sep ks tr H F N TR) in Q. apply Ok_inj in Q. exact Q.
  - destruct p as [w|bs m e]; cbn [p_finalize].
    + injection P as -> ->. destruct w as [fs| | | | | |];
        try (cbn [finalize bind p_become fst snd pstep]; eexists; split; [split; reflexivity|]; split; [assumption|split; [assumption|reflexivity]]).
      destruct (finalize_in_bounds fs (plain_short _ (heap_plain _ H))) as [E|(m & n & E & _)]; rewrite E.
      * cbn [bind p_become fst snd pstep]. eexists. split.
        -- right. split; [reflexivity|]. split; [|split; reflexivity].
           destruct (Z_lt_le_dec (room (VObj fs)) (2 ^ 32)) as [L|]; [|assumption].
           destruct (small_objects_finalize fs H L) as (m & E'). congruence.
        -- split; [assumption|]. split; [assumption|]. reflexivity.
      * cbn [bind p_become fst snd pstep]. eexists. split; [left; split; reflexivity|].
        split; [assumption|]. split; [assumption|]. split; [reflexivity|].
        apply (finalize_root fs m addr H E OK).
    + destruct P as [-> R]. cbn [p_become fst snd pstep]. exists (v, true). split.
      * destruct v; try (split; reflexivity). left. split; reflexivity.
      * split; [assumption|]. split; [assumption|]. split; [reflexivity|assumption].
  - destruct p as [w|bs m e]; cbn [p_definalize].
    + injection P as -> ->. cbn [p_become fst snd pstep]. eexists. split; [split; reflexivity|]. split; [assumption|split; [assumption|reflexivity]].
    + destruct P as [-> R]. rewrite (from_buffer_spec _ bs m e v R (walk_fuel _ _ _ _ R)).
      cbn [bind p_become fst snd pstep]. eexists. split; [split; reflexivity|]. split; [assumption|split; [assumption|reflexivity]].
  - destruct p as [w|bs m e]; cbn [p_get visit].
    + injection P as -> ->. destruct w as [fs| | | | | |];
        try (cbn [h_get h_fields bind p_become fst snd pstep]; eexists; split; [split; reflexivity|]; split; [assumption|split; [assumption|reflexivity]]).
      rewrite h_get_spec by (apply heap_sorted; assumption). cbn [bind p_become fst snd pstep].
      eexists. split; [split; reflexivity|]. cbn [fst snd]. split; [apply heap_lookup; assumption|].
      split; [apply good_all_lookup; assumption|reflexivity].
    + destruct P as [-> R]. destruct v as [fs| | | | | |];
        try (unfold b_get; rewrite (b_object_other bs m e _ R) by discriminate; cbn [bind p_become fst snd pstep];
             eexists; split; [split; reflexivity|]; split; [assumption|split; [assumption|split; [reflexivity|assumption]]]).
      destruct (b_get_spec bs m e fs k R (good_all_keys _ G)) as (e' & -> & R'). cbn [bind p_become fst snd pstep].
      eexists. split; [split; reflexivity|]. cbn [fst snd]. split; [apply heap_lookup; assumption|].
      split; [apply good_all_lookup; assumption|]. split; [reflexivity|assumption].
  - cbn [pcall_ok] in OK.
    assert (HI : forall vs, v = VArr vs -> heap_value (match nth_error vs (Z.to_nat i) with Some x => x | None => VNull end) /\
                            good_all (match nth_error vs (Z.to_nat i) with Some x => x | None => VNull end)).
    { intros vs ->. destruct (nth_error vs (Z.to_nat i)) as [x|] eqn:N; [|split; constructor; exact I].
      apply nth_error_In in N. split; [eapply heap_elem|eapply good_elem]; eassumption. }
    destruct p as [w|bs m e]; cbn [p_get_idx visit].
    + injection P as -> ->. destruct w as [|vs| | | | |];
        try (cbn [h_get_idx h_elements bind p_become fst snd pstep]; eexists; split; [split; reflexivity|]; split; [assumption|split; [assumption|reflexivity]]).
      assert (E : h_get_idx (VArr vs) i = Ok (match nth_error vs (Z.to_nat i) with Some x => x | None => VNull end)).
      { cbn [h_get_idx h_elements h_size bind]. pose proof (nth_error_split_z vs i ltac:(lia)) as N.
        destruct (nth_error vs (Z.to_nat i)) as [x|].
        - destruct N as (a & b & -> & <-). rewrite zlen_app, zlen_cons. replace (zlen a <? _) with true by zlia. reflexivity.
        - replace (i <? zlen vs) with false by lia. reflexivity. }
      rewrite E. cbn [bind p_become fst snd pstep]. destruct (HI _ eq_refl).
      eexists. split; [split; reflexivity|]. cbn [fst snd]. split; [assumption|]. split; [assumption|reflexivity].
    + destruct P as [-> R]. destruct v as [|vs| | | | |];
        try (unfold b_get_idx; rewrite (b_array_other bs m e _ R) by discriminate; cbn [bind p_become fst snd pstep];
             eexists; split; [split; reflexivity|]; split; [assumption|split; [assumption|split; [reflexivity|assumption]]]).
      destruct (b_get_idx_spec bs m e vs i R ltac:(lia)) as (e' & -> & R'). cbn [bind p_become fst snd pstep].
      destruct (HI _ eq_refl). eexists. split; [split; reflexivity|]. cbn [fst snd]. split; [assumption|].
      split; [assumption|]. split; [reflexivity|assumption].
Qed.

Theorem run_ok cs : forall p s, stands p s -> Forall pcall_ok cs ->
  exists s', psteps run_op s cs (snd (p_run p cs)) s' /\ stands (fst (p_run p cs)) s'.
Proof.
  induction cs as [|c cs IH]; intros p s S F; cbn [p_run].
  - exists s. split; [constructor|assumption].
  - apply Forall_cons_iff in F. destruct F as [F1 F2]. destruct (step_ok p s c S F1) as (s1 & St & S1).
    destruct (p_call p c) as [q a]. cbn [fst snd] in *.
    destruct (IH q s1 S1 F2) as (s2 & St2 & S2). destruct (p_run q cs) as [q' l]. cbn [fst snd] in *.
    exists s2. split; [econstructor; eassumption|assumption].
Qed.
