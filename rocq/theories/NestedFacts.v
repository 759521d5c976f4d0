(** definalize and get_nested. *)

From Coq Require Import ZArith List Lia Bool Sorted.
From Coq Require Import ZifyBool ZifyNat ZifyN.
From Verif Require Import Base BaseFacts Keys KeysFacts Dec Wire Read Buf HeapOps Nested Enc EncSize Spec ReadFacts Lookup BufFacts Canon HeapFacts.
Import ListNotations.
Open Scope Z_scope.

Lemma fold_range_list {A B} (f : Z -> A -> res A) (P : list B -> A -> Prop) (l : list B) :
  (forall l1 x l2 acc, l = l1 ++ x :: l2 -> P l1 acc ->
     exists acc', f (zlen l1) acc = Ok acc' /\ P (l1 ++ [x]) acc') ->
  forall acc, P [] acc -> exists acc', fold_range f 0 (length l) acc = Ok acc' /\ P l acc'.
Proof.
  intros H.
  assert (G : forall l2 l1 acc, l = l1 ++ l2 -> P l1 acc ->
     exists acc', fold_range f (zlen l1) (length l2) acc = Ok acc' /\ P l acc').
  { induction l2 as [|x l2 IH]; intros l1 acc E Q; cbn [fold_range length].
    - rewrite app_nil_r in E. subst l1. eauto.
    - destruct (H l1 x l2 acc E Q) as (acc' & -> & Q'). cbn [bind].
      destruct (IH (l1 ++ [x]) acc') as (a2 & R & Q2); [rewrite <- app_assoc; exact E|assumption|].
      rewrite zlen_app, zlen_cons in R. change (zlen (@nil B)) with 0 in R.
      replace (zlen l1 + (1 + 0)) with (zlen l1 + 1) in R by lia. eauto. }
  intros acc Q. exact (G l [] acc eq_refl Q).
Qed.

Lemma sorted_prefix {A} (f1 f2 : list (str * A)) :
  StronglySorted key_lt (map fst (f1 ++ f2)) -> StronglySorted key_lt (map fst f1).
Proof. rewrite map_fst_app, sorted_app. tauto. Qed.

Lemma h_insert_last f1 k x :
  StronglySorted key_lt (map fst (f1 ++ [(k, x)])) -> zlen k <= 65535 ->
  exists i, h_insert (VObj f1) (VStr k) x = Ok (VObj (f1 ++ [(k, x)]), i).
Proof.
  intros S K. destruct (h_insert_spec f1 (sorted_prefix _ _ S) k x K) as (fs' & i & -> & S' & L & _).
  exists i. repeat f_equal. apply sorted_ext; [assumption..|]. intros q. rewrite L, lookup_app. cbn [lookup].
  destruct (list_eq_dec Byte.byte_eq_dec q k) as [->|].
  - destruct (lookup k f1) eqn:E; [|reflexivity]. apply lookup_in in E.
    rewrite map_fst_app, sorted_app in S. destruct S as (_ & _ & S). exfalso. apply (key_lt_irrefl k).
    apply S; [apply (in_map fst) in E; exact E|left; reflexivity].
  - destruct (lookup q f1); reflexivity.
Qed.

Lemma rep_key_short bs m e fs k x : represents bs m e (VObj fs) -> In (k, x) fs -> zlen k <= 65535.
Proof.
  intros [H _] I. inversion H as [? _ F| | | | | |]; subst. rewrite Forall_forall in F. apply (F _ I).
Qed.

Lemma aggregate_size_small bs m e v n : represents bs m e v -> vsize v = Some n -> is_aggregate v = true -> n < 2 ^ 31.
Proof.
  intros [_ R] E A. destruct e as [t [o|]]; cbn [fst snd] in R; [|destruct R; subst; discriminate].
  destruct R as (_ & F & _). pose proof (fits_size _ F A) as FS.
  destruct v; cbn [is_aggregate] in A; try discriminate; cbn [vsize] in E; inversion E; subst.
  - pose proof (align_up_ge (8 + 8 * zlen fs + zlen (enc_body enc fs (8 + 8 * zlen fs))) 8 ltac:(lia)) as G.
    rewrite <- esize_obj in G. zlia.
  - rewrite esize_arr in FS. zlia.
Qed.

Theorem from_buffer_spec fuel : forall bs m e v,
  represents bs m e v -> (depth v < fuel)%nat -> from_buffer fuel bs m e = Ok v.
Proof.
  induction fuel as [|fuel IH]; intros bs m e v R D; [lia|].
  pose proof (b_size_spec _ _ _ _ R) as SZ. pose proof (represents_type _ _ _ _ R) as T.
  cbn [from_buffer]. rewrite T. destruct v as [fs|vs|s|z|d|b|]; cbn [vtype vsize] in *.
  - rewrite SZ. cbn [bind]. unfold zlen. rewrite Nat2Z.id.
    pose proof (heap_sorted fs (proj1 R)) as S.
    match goal with |- fold_range ?f _ _ _ = _ =>
      destruct (fold_range_list f (fun l acc => acc = VObj l) fs) with (acc := VObj (@nil (str * value))) as (acc' & E & ->)
    end; [|reflexivity|exact E].
    intros l1 [k x] l2 acc E ->.
    assert (N : nth_error fs (Z.to_nat (zlen l1)) = Some (k, x)).
    { unfold zlen. rewrite Nat2Z.id. rewrite E. apply nth_mid. }
    destruct (b_deref_key_spec bs m e fs (zlen l1) k x R (zlen_nonneg _) N) as (p & -> & RS). cbn [bind].
    assert (IN : In (k, x) fs) by (rewrite E; apply in_elt).
    assert (DX : (depth x < depth (VObj fs))%nat) by (apply (depth_obj fs _ IN)).
    assert (FK : from_buffer fuel bs m (R_string, Some p) = Ok (VStr k)).
    { destruct fuel as [|f]; [lia|]. cbn [from_buffer]. exact RS. }
    rewrite FK. cbn [bind].
    destruct (b_deref_spec bs m e (VObj fs) (zlen l1) x R (zlen_nonneg _)) as (e' & -> & R').
    { cbn [members]. rewrite nth_error_map, N. reflexivity. }
    cbn [bind]. rewrite (IH _ _ _ _ R') by lia. cbn [bind].
    destruct (h_insert_last l1 k x) as (i & ->).
    { rewrite E in S. replace (l1 ++ (k, x) :: l2) with ((l1 ++ [(k, x)]) ++ l2) in S by (rewrite <- app_assoc; reflexivity).
      eapply sorted_prefix; eassumption. }
    { eapply rep_key_short; eassumption. }
    cbn [bind]. eauto.
  - rewrite SZ. cbn [bind].
    pose proof (aggregate_size_small _ _ _ _ _ R eq_refl eq_refl) as SM.
    unfold zlen at 1. rewrite Nat2Z.id.
    match goal with |- fold_range ?f _ _ _ = _ =>
      destruct (fold_range_list f (fun l acc => acc = VArr l) vs) with (acc := VArr (@nil value)) as (acc' & E & ->)
    end; [|reflexivity|exact E].
    intros l1 x l2 acc E ->.
    destruct (b_deref_spec bs m e (VArr vs) (zlen l1) x R (zlen_nonneg _)) as (e' & -> & R').
    { cbn [members]. unfold zlen. rewrite Nat2Z.id. rewrite E. apply nth_mid. }
    assert (IN : In x vs) by (rewrite E; apply in_elt).
    assert (DX : (depth x < depth (VArr vs))%nat) by (apply (depth_arr vs _ IN)).
    cbn [bind]. rewrite (IH _ _ _ _ R') by lia. cbn [bind].
    unfold h_push_back. cbn [h_size bind h_insert h_elements].
    assert (0 <= zlen l1 < 2 ^ 31).
    { split; [apply zlen_nonneg|]. rewrite E, zlen_app in SM. pose proof (zlen_nonneg (x :: l2)). lia. }
    rewrite Z.mod_small by lia. replace (zlen l1 <? zlen l1) with false by lia. cbn [bind].
    exists (VArr (l1 ++ [x])). split; [|reflexivity]. repeat f_equal.
    unfold zlen. rewrite Nat2Z.id. rewrite <- (app_nil_r l1) at 2. apply list_insert_mid.
  - rewrite (b_scalar_spec _ _ _ _ T_string R eq_refl); [reflexivity|discriminate].
  - rewrite (b_scalar_spec _ _ _ _ T_integer R eq_refl); [reflexivity|discriminate].
  - rewrite (b_scalar_spec _ _ _ _ T_decimal R eq_refl); [reflexivity|discriminate].
  - rewrite (b_scalar_spec _ _ _ _ T_boolean R eq_refl); [reflexivity|discriminate].
  - reflexivity.
Qed.

Theorem definalize_finalize fs m bs :
  heap_value (VObj fs) -> finalize (VObj fs) = Ok m -> bs mod 8 = 0 -> definalize bs m = Ok (VObj fs).
Proof.
  intros H E B. destruct (finalize_root fs m bs H E B) as (R & _). apply from_buffer_spec; [assumption|].
  exact (walk_fuel _ _ _ _ R).
Qed.

(** ** get_nested *)

Lemma take_tok_app sep k r : ~ In sep k -> take_tok sep (k ++ sep :: r) = (k, sep :: r).
Proof.
  induction k as [|c k IH]; cbn; intros N.
  - destruct (Byte.eqb sep sep) eqn:E; [reflexivity|]. pose proof (Byte.byte_dec_lb (eq_refl sep)). congruence.
  - destruct (Byte.eqb c sep) eqn:E; [apply Byte.byte_dec_bl in E; subst; tauto|]. rewrite IH by tauto. reflexivity.
Qed.
Lemma take_tok_end sep k : ~ In sep k -> take_tok sep k = (k, []).
Proof.
  induction k as [|c k IH]; cbn; intros N; [reflexivity|].
  destruct (Byte.eqb c sep) eqn:E; [apply Byte.byte_dec_bl in E; subst; tauto|]. rewrite IH by tauto. reflexivity.
Qed.

Section Nested.
  Context {T : Type} (is_obj : T -> bool) (get : T -> str -> res T) (null : T).
  Variable rep : T -> value -> Prop.
  Hypothesis rep_obj : forall t v, rep t v -> is_obj t = match v with VObj _ => true | _ => false end.
  Hypothesis rep_get : forall t fs k, rep t (VObj fs) ->
    exists t', get t k = Ok t' /\ rep t' (match lookup k fs with Some x => x | None => VNull end).
  Hypothesis rep_null : rep null VNull.

  Lemma follow_null path : path <> [] -> follow VNull path = VNull.
  Proof. destruct path; [congruence|reflexivity]. Qed.

  (** Each component without separators; either the text ends with a non-empty
      component or with one more separator. *)
  Lemma nested_loop_spec sep : forall path fuel t v trailing,
    Forall (fun k => ~ In sep k) path -> path <> [] ->
    (trailing = [sep] \/ (trailing = [] /\ last path [] <> [])) ->
    (length (join sep path ++ trailing) < fuel)%nat -> rep t v ->
    exists t', nested_loop is_obj get null fuel (join sep path ++ trailing) sep t = Ok t' /\ rep t' (follow v path).
  Proof using rep_obj rep_get rep_null.
    induction path as [|k r IH]; intros fuel t v trailing FP NE TR LF R; [congruence|].
    destruct fuel as [|fuel]; [lia|].
    apply Forall_cons_iff in FP. destruct FP as [NK FP].
    destruct (join sep (k :: r) ++ trailing) as [|c tl] eqn:EJ.
    { exfalso. destruct r as [|k2 r]; cbn [join] in EJ.
      - apply app_eq_nil in EJ. destruct EJ as [-> ->]. destruct TR as [|[_ TR]]; [discriminate|]. apply TR. reflexivity.
      - destruct k; discriminate. }
    cbn [nested_loop]. rewrite (rep_obj _ _ R). cbn [follow].
    destruct v as [fs|vs|s|z|d|b|]; try (exists null; split; [reflexivity|exact rep_null]).
    rewrite <- EJ. rewrite <- EJ in LF. clear EJ c tl.
    destruct (rep_get t fs k R) as (t' & EG & R').
    destruct r as [|k2 r].
    - cbn [join] in *. destruct TR as [-> | [-> NL]].
      + rewrite take_tok_app by assumption. rewrite EG. cbn [bind].
        exists t'. split; [|exact R']. destruct fuel; [rewrite app_length in LF; cbn in LF; lia|reflexivity].
      + rewrite app_nil_r, take_tok_end by assumption. rewrite EG. cbn [bind].
        exists t'. split; [|exact R']. destruct fuel; [|reflexivity].
        rewrite app_nil_r in LF. destruct k; [cbn in NL; congruence|cbn in LF; lia].
    - change (join sep (k :: k2 :: r)) with (k ++ sep :: join sep (k2 :: r)) in *.
      rewrite <- app_assoc in *. cbn [app] in *. rewrite take_tok_app by assumption. rewrite EG. cbn [bind].
      apply (IH fuel t' _ trailing); [assumption|discriminate| | |exact R'].
      + destruct TR as [|[-> NL]]; [auto|]. right. split; [reflexivity|exact NL].
      + rewrite app_length in LF. cbn [length] in LF. lia.
  Qed.

  Theorem get_nested_spec sep path trailing t v :
    Forall (fun k => ~ In sep k) path -> path <> [] ->
    (trailing = [sep] \/ (trailing = [] /\ last path [] <> [])) -> rep t v ->
    exists t', get_nested is_obj get null t (join sep path ++ trailing) sep = Ok t' /\ rep t' (follow v path).
  Proof using rep_obj rep_get rep_null.
    intros. unfold get_nested. apply nested_loop_spec; auto; lia.
  Qed.
End Nested.

(** Every text is one of the three shapes: empty, or a path, or a path and a
    separator. *)
Theorem path_shapes sep s : s = [] \/
  exists path trailing, s = join sep path ++ trailing /\ Forall (fun k => ~ In sep k) path /\ path <> [] /\
    (trailing = [sep] \/ (trailing = [] /\ last path [] <> [])).
Proof.
  induction s as [|c s IH]; [left; reflexivity|right].
  destruct IH as [-> | (path & trailing & -> & FP & NE & TR)].
  - destruct (Byte.byte_eq_dec c sep) as [-> | N].
    + exists [[]], [sep]. repeat split; [repeat constructor; intros []|discriminate|left; reflexivity].
    + exists [[c]], []. repeat split; [constructor; [intros [|[]]; congruence|constructor]|discriminate|].
      right. split; [reflexivity|discriminate].
  - destruct (Byte.byte_eq_dec c sep) as [-> | N].
    + exists ([] :: path), trailing. destruct path as [|k r]; [congruence|]. repeat split.
      * constructor; [intros []|assumption].
      * discriminate.
      * destruct TR as [|[-> NL]]; [auto|right; split; [reflexivity|exact NL]].
    + destruct path as [|k r]; [congruence|]. exists ((c :: k) :: r), trailing. repeat split.
      * destruct r; reflexivity.
      * apply Forall_cons_iff in FP. destruct FP. constructor; [|assumption]. intros [|]; [congruence|auto].
      * discriminate.
      * destruct TR as [|[-> NL]]; [auto|right; split; [reflexivity|]]. destruct r; [discriminate|exact NL].
Qed.

Lemma good_all_field fs k x : good_all (VObj fs) -> In (k, x) fs -> good_key k /\ good_all x.
Proof. intros H I. inversion H as [? _ F| | | | | |]; subst. rewrite Forall_forall in F. apply (F _ I). Qed.
Lemma good_all_lookup fs k : good_all (VObj fs) -> good_all (match lookup k fs with Some x => x | None => VNull end).
Proof.
  intros G. destruct (lookup k fs) eqn:E; [|constructor; exact I].
  apply lookup_in in E. apply (good_all_field _ _ _ G E).
Qed.
Lemma good_all_keys fs : good_all (VObj fs) -> good_keys fs.
Proof. intros G. apply Forall_forall. intros [k x] I. apply (good_all_field _ _ _ G I). Qed.

Theorem b_get_nested_spec bs m e v sep path trailing :
  represents bs m e v -> good_all v ->
  Forall (fun k => ~ In sep k) path -> path <> [] ->
  (trailing = [sep] \/ (trailing = [] /\ last path [] <> [])) ->
  exists e', b_get_nested bs m e (join sep path ++ trailing) sep = Ok e' /\ represents bs m e' (follow v path).
Proof.
  intros R G FP NE TR.
  destruct (get_nested_spec (fun e => utype_eqb (b_type e) T_object) (b_get bs m) (R_null, None)
    (fun e v => represents bs m e v /\ good_all v)) with (sep := sep) (path := path) (trailing := trailing) (t := e) (v := v)
    as (e' & E & R' & _); auto.
  - intros t w [H _]. rewrite (represents_type _ _ _ _ H). destruct w; reflexivity.
  - intros t fs k [H H']. destruct (b_get_spec bs m t fs k H (good_all_keys _ H')) as (t' & E & R').
    exists t'. auto using good_all_lookup.
  - split; [apply rep_null_elem|constructor; exact I].
  - eauto.
Qed.

Lemma heap_lookup fs k : heap_value (VObj fs) -> heap_value (match lookup k fs with Some x => x | None => VNull end).
Proof.
  intros G. destruct (lookup k fs) eqn:E; [|constructor; exact I].
  apply lookup_in in E. apply (heap_field _ _ _ G E).
Qed.

Theorem h_get_nested_spec v sep path trailing :
  heap_value v ->
  Forall (fun k => ~ In sep k) path -> path <> [] ->
  (trailing = [sep] \/ (trailing = [] /\ last path [] <> [])) ->
  h_get_nested v (join sep path ++ trailing) sep = Ok (follow v path).
Proof.
  intros H FP NE TR.
  destruct (get_nested_spec (fun v => utype_eqb (h_type v) T_object) h_get VNull
    (fun v w => v = w /\ heap_value v)) with (sep := sep) (path := path) (trailing := trailing) (t := v) (v := v)
    as (e' & E & R' & _); auto.
  - intros t w [-> _]. destruct w; reflexivity.
  - intros t fs k [-> H']. exists (match lookup k fs with Some x => x | None => VNull end).
    rewrite h_get_spec by (apply heap_sorted; assumption). auto using heap_lookup.
  - split; [reflexivity|constructor; exact I].
  - unfold h_get_nested. rewrite E, R'. reflexivity.
Qed.
