(** Buffer elements that represent a value, and what each read operation returns
    on them. *)

From Coq Require Import ZArith List Lia Bool Sorted.
From Coq Require Import ZifyBool ZifyNat ZifyN.
From Verif Require Import Base BaseFacts Keys KeysFacts Dec Wire Read Buf Enc EncSize Spec ReadFacts Lookup.
Import ListNotations.
Open Scope Z_scope.

Definition sorted_node (n : value) : Prop :=
  match n with VObj fs => StronglySorted key_lt (map fst fs) | _ => True end.

(** Element [e] of block [m] represents [v]. *)
Definition represents (bs : Z) (m : mem) (e : elem) (v : value) : Prop :=
  heap_value v /\
  match snd e with
  | None => fst e = R_null /\ v = VNull
  | Some o =>
      holds m o (enc v) /\ fits v /\ (bs + o) mod al v = 0 /\
      (fst e = raw_type_of v \/ fst e = entry_type (raw_type_of v))
  end.

Lemma heap_sorted fs : heap_value (VObj fs) -> StronglySorted key_lt (map fst fs).
Proof. intros H. apply every_node in H. exact H. Qed.
Lemma heap_field fs k x : heap_value (VObj fs) -> In (k, x) fs -> zlen k <= 65535 /\ heap_value x.
Proof.
  intros H I. inversion H as [? _ F| | | | | |]; subst. rewrite Forall_forall in F. apply (F _ I).
Qed.
Lemma heap_elem vs x : heap_value (VArr vs) -> In x vs -> heap_value x.
Proof.
  intros H I. inversion H as [|? _ F| | | | |]; subst. rewrite Forall_forall in F. apply (F _ I).
Qed.
Lemma fits_field fs k x : fits (VObj fs) -> In (k, x) fs -> fits x.
Proof. intros H I. apply fits_obj in H. destruct H as [H _]. rewrite Forall_forall in H. apply (H _ I). Qed.
Lemma fits_elem vs x : fits (VArr vs) -> In x vs -> fits x.
Proof. intros H I. apply fits_arr in H. destruct H as [H _]. rewrite Forall_forall in H. apply (H _ I). Qed.
Lemma fits_size v : fits v -> is_aggregate v = true -> esize v < 2 ^ 32.
Proof. destruct v; try discriminate; intros H _; [apply fits_obj in H|apply fits_arr in H]; apply H. Qed.
Lemma heap_short_keys fs : heap_value (VObj fs) -> Forall (fun kv : str * value => zlen (fst kv) <= 65535) fs.
Proof. intros H. apply Forall_forall. intros [k x] I. apply (heap_field _ _ _ H I). Qed.

Lemma simplify_raw v : simplify_type (raw_type_of v) = vtype v.
Proof.
  destruct v; cbn [raw_type_of vtype]; try reflexivity;
    unfold identify_string, identify_integer, identify_decimal;
    repeat match goal with |- context [if ?b then _ else _] => destruct b end; reflexivity.
Qed.
Lemma simplify_entry v : simplify_type (entry_type (raw_type_of v)) = vtype v.
Proof.
  destruct v; cbn [raw_type_of vtype]; try reflexivity;
    unfold identify_string, identify_integer, identify_decimal;
    repeat match goal with |- context [if ?b then _ else _] => destruct b end; reflexivity.
Qed.

Lemma represents_type bs m e v : represents bs m e v -> b_type e = vtype v.
Proof.
  intros [_ R]. unfold b_type. destruct e as [t [o|]]; cbn [fst snd] in *.
  - destruct R as (_ & _ & _ & [-> | ->]); [apply simplify_raw|apply simplify_entry].
  - destruct R as [-> ->]. reflexivity.
Qed.

Lemma represents_read bs m e v fuel :
  represents bs m e v -> (depth v < fuel)%nat -> elem_value fuel bs m e = Ok v.
Proof.
  intros [H R] D. unfold elem_value. destruct e as [t [o|]]; cbn [fst snd] in *.
  - destruct R as (Hh & F & A & T). apply read_enc; auto using heap_plain.
  - destruct R as [_ ->]. reflexivity.
Qed.

(** The root of a finalized object. *)
Lemma finalize_root fs m bs :
  heap_value (VObj fs) -> finalize (VObj fs) = Ok m -> bs mod 8 = 0 ->
  represents bs m (R_object, Some 0) (VObj fs) /\ esize (VObj fs) <= zlen m /\ upper_bound (VObj fs) = Ok (zlen m).
Proof.
  intros H E A. pose proof (plain_short _ (heap_plain _ H)) as SS.
  destruct (upper_bound_cases (VObj fs)) as [(u & U & _) | U];
    [|unfold finalize in E; rewrite U in E; discriminate].
  destruct (finalize_spec fs u SS U) as [L E']. rewrite E' in E. apply Ok_inj in E. subst m.
  destruct (upper_bound_ok _ SS _ U) as [F _].
  assert (Z1 : zlen (fill (enc (VObj fs)) ++ zeros (u - esize (VObj fs))) = u).
  { rewrite zlen_app, zlen_fill, zlen_zeros by lia. unfold esize. lia. }
  rewrite Z1. split; [|auto].
  split; [assumption|]. cbn [fst snd]. split; [|split; [assumption|split; [|left; reflexivity]]].
  - apply (holds_fill [] (enc (VObj fs))).
  - rewrite Z.add_0_r. exact A.
Qed.

(** Members. *)
Lemma rep_field bs m o f1 k x f2 :
  let fs := f1 ++ (k, x) :: f2 in
  heap_value (VObj fs) -> holds m o (enc (VObj fs)) -> fits (VObj fs) -> (bs + o) mod 8 = 0 ->
  represents bs m (entry_type (raw_type_of x), Some (o + vpos (opos (zlen fs) f1) k x)) x.
Proof.
  intros fs HV H F A. destruct (obj_slot m o f1 k x f2 H) as (_ & _ & Hv).
  assert (I : In (k, x) fs) by apply in_elt.
  split; [apply (heap_field _ _ _ HV I)|]. cbn [fst snd].
  split; [exact Hv|]. split; [apply (fits_field _ _ _ F I)|]. split; [|right; reflexivity].
  apply mod8_vpos; [assumption|apply align_up_mod_al].
Qed.
Lemma rep_elem bs m o f1 x f2 :
  let vs := f1 ++ x :: f2 in
  heap_value (VArr vs) -> holds m o (enc (VArr vs)) -> fits (VArr vs) -> (bs + o) mod 8 = 0 ->
  represents bs m (entry_type (raw_type_of x), Some (o + apos (epos (zlen vs) f1) x)) x.
Proof.
  intros vs HV H F A. destruct (arr_slot m o f1 x f2 H) as (_ & Hv).
  assert (I : In x vs) by apply in_elt.
  split; [apply (heap_elem _ _ HV I)|]. cbn [fst snd].
  split; [exact Hv|]. split; [apply (fits_elem _ _ F I)|]. split; [|right; reflexivity].
  apply mod8_vpos; [assumption|apply align_up_mod_al].
Qed.

Lemma rep_object bs m e fs : represents bs m e (VObj fs) ->
  exists o, e = (R_object, Some o) /\ heap_value (VObj fs) /\ holds m o (enc (VObj fs)) /\
            fits (VObj fs) /\ (bs + o) mod 8 = 0.
Proof.
  intros [H R]. destruct e as [t [o|]]; cbn [fst snd] in *.
  - destruct R as (Hh & F & A & T). exists o. split; [|auto].
    destruct T as [-> | ->]; reflexivity.
  - destruct R; discriminate.
Qed.
Lemma rep_array bs m e vs : represents bs m e (VArr vs) ->
  exists o, e = (R_array, Some o) /\ heap_value (VArr vs) /\ holds m o (enc (VArr vs)) /\
            fits (VArr vs) /\ (bs + o) mod 8 = 0.
Proof.
  intros [H R]. destruct e as [t [o|]]; cbn [fst snd] in *.
  - destruct R as (Hh & F & A & T). exists o. split; [|auto].
    destruct T as [-> | ->]; reflexivity.
  - destruct R; discriminate.
Qed.

Lemma rep_null_elem bs m : represents bs m (R_null, None) VNull.
Proof. split; [constructor; exact I|]. cbn. auto. Qed.

(** ** Operations *)
Definition good_keys (fs : list (str * value)) : Prop := Forall (fun kv => good_key (fst kv)) fs.

Theorem b_get_impl bs m e fs key absent : represents bs m e (VObj fs) -> good_keys fs ->
  match lookup key fs with
  | Some x => exists e', b_object e (fun o => get_value_impl bs m o key absent) = Ok e' /\ represents bs m e' x
  | None => b_object e (fun o => get_value_impl bs m o key absent) = absent
  end.
Proof.
  intros R G. apply rep_object in R. destruct R as (o & -> & HV & H & F & A).
  cbn [b_object b_type simplify_type fst snd Z.eqb R_object].
  pose proof (heap_sorted _ HV) as S. pose proof (heap_short_keys _ HV) as HK.
  pose proof (fits_size _ F eq_refl) as FS.
  unfold get_value_impl.
  destruct (get_key_spec m o fs key H FS HK S G) as [(r & -> & f1 & x & f2 & E & ->) | (-> & ->)];
    cbn [bind]; [|reflexivity].
  replace (lookup key fs) with (Some x) by (rewrite E in S |- *; symmetry; apply lookup_mid; assumption).
  assert (I : In (key, x) fs) by (rewrite E; apply in_elt).
  destruct (entry_type (raw_type_of x) =? R_null) eqn:N.
  { apply entry_type_null in N. subst x. eexists. split; [reflexivity|]. apply rep_null_elem. }
  pose proof (obj_slot m o f1 key x f2) as SL. rewrite <- E in SL. destruct (SL H) as (_ & Hk & _). clear SL.
  destruct (heap_field _ _ _ HV I) as [PK _].
  rewrite (key_sizeof _ _ _ Hk PK). cbn [bind]. eexists. split; [reflexivity|].
  rewrite <- Z.add_assoc, align_ptr_at by assumption. rewrite entry_type_align.
  pose proof (rep_field bs m o f1 key x f2) as RF. rewrite <- E in RF. exact (RF HV H F A).
Qed.

Theorem b_get_spec bs m e fs key : represents bs m e (VObj fs) -> good_keys fs ->
  exists e', b_get bs m e key = Ok e' /\
    represents bs m e' (match lookup key fs with Some x => x | None => VNull end).
Proof.
  intros R G. pose proof (b_get_impl bs m e fs key (Ok (R_null, None)) R G) as B.
  destruct (lookup key fs) as [x|]; [exact B|].
  exists (R_null, None). split; [exact B|apply rep_null_elem].
Qed.

Theorem b_at_spec bs m e fs key : represents bs m e (VObj fs) -> good_keys fs ->
  match lookup key fs with
  | Some x => exists e', b_at bs m e key = Ok e' /\ represents bs m e' x
  | None => b_at bs m e key = Throw out_of_range
  end.
Proof. intros R G. exact (b_get_impl bs m e fs key (Throw out_of_range) R G). Qed.

Theorem b_has_key_spec bs m e fs key : represents bs m e (VObj fs) -> good_keys fs ->
  b_has_key m e key = Ok (match lookup key fs with Some _ => true | None => false end).
Proof.
  intros R G. apply rep_object in R. destruct R as (o & -> & HV & H & F & A).
  apply has_key_spec; auto using heap_plain, heap_sorted.
Qed.

Lemma get_elem_oob m o vs i :
  holds m o (enc (VArr vs)) -> esize (VArr vs) < 2 ^ 32 -> zlen vs <= i ->
  get_elem m o i = Ok (R_null, None) /\ at_elem m o i = Throw out_of_range.
Proof.
  intros H S L. destruct (arr_header m o vs H S) as (_ & C).
  unfold get_elem, at_elem. rewrite C. cbn [bind]. replace (i <? zlen vs) with false by lia. auto.
Qed.
Lemma at_elem_spec m o v1 x v2 :
  let vs := v1 ++ x :: v2 in
  holds m o (enc (VArr vs)) -> esize (VArr vs) < 2 ^ 32 -> at_elem m o (zlen v1) = get_elem m o (zlen v1).
Proof.
  intros vs H S. destruct (arr_header m o vs H S) as (_ & C).
  unfold get_elem, at_elem. rewrite C. cbn [bind].
  replace (zlen v1 <? zlen vs) with true; [reflexivity|].
  unfold vs. rewrite zlen_app, zlen_cons. zlia.
Qed.

Lemma nth_error_split_z {A} (l : list A) i : 0 <= i ->
  match nth_error l (Z.to_nat i) with
  | Some x => exists a b, l = a ++ x :: b /\ zlen a = i
  | None => zlen l <= i
  end.
Proof.
  intros Hi. destruct (nth_error l (Z.to_nat i)) as [x|] eqn:E.
  - apply nth_error_split in E. destruct E as (a & b & -> & L). exists a, b. split; [reflexivity|].
    unfold zlen. lia.
  - apply nth_error_None in E. unfold zlen. lia.
Qed.

Theorem b_get_idx_spec bs m e vs i : represents bs m e (VArr vs) -> 0 <= i ->
  exists e', b_get_idx m e i = Ok e' /\
    represents bs m e' (match nth_error vs (Z.to_nat i) with Some x => x | None => VNull end).
Proof.
  intros R Hi. apply rep_array in R. destruct R as (o & -> & HV & H & F & A).
  cbn [b_get_idx b_array b_type simplify_type fst snd Z.eqb R_object R_array].
  pose proof (fits_size _ F eq_refl) as FS. pose proof (nth_error_split_z vs i Hi) as N.
  destruct (nth_error vs (Z.to_nat i)) as [x|].
  - destruct N as (v1 & v2 & E & <-). pose proof (get_elem_spec m o v1 x v2) as G. rewrite <- E in G.
    eexists. split; [exact (G H FS)|]. pose proof (rep_elem bs m o v1 x v2) as RE. rewrite <- E in RE. auto.
  - eexists. split; [apply (get_elem_oob m o vs i H FS N)|apply rep_null_elem].
Qed.

Theorem b_at_idx_spec bs m e vs i : represents bs m e (VArr vs) -> 0 <= i ->
  match nth_error vs (Z.to_nat i) with
  | Some x => exists e', b_at_idx m e i = Ok e' /\ represents bs m e' x
  | None => b_at_idx m e i = Throw out_of_range
  end.
Proof.
  intros R Hi. apply rep_array in R. destruct R as (o & -> & HV & H & F & A).
  cbn [b_at_idx b_array b_type simplify_type fst snd Z.eqb R_object R_array].
  pose proof (fits_size _ F eq_refl) as FS. pose proof (nth_error_split_z vs i Hi) as N.
  destruct (nth_error vs (Z.to_nat i)) as [x|].
  - destruct N as (v1 & v2 & E & <-). pose proof (get_elem_spec m o v1 x v2) as G.
    pose proof (at_elem_spec m o v1 x v2) as G'. rewrite <- E in G, G'.
    eexists. split; [exact (eq_trans (G' H FS) (G H FS))|].
    pose proof (rep_elem bs m o v1 x v2) as RE. rewrite <- E in RE. auto.
  - apply (get_elem_oob m o vs i H FS N).
Qed.

Theorem b_size_spec bs m e v : represents bs m e v ->
  b_size m e = match vsize v with Some n => Ok n | None => Throw type_error end.
Proof.
  intros R. pose proof (represents_type _ _ _ _ R) as T. unfold b_size. rewrite T.
  destruct v; cbn [vtype vsize]; try reflexivity.
  - apply rep_object in R. destruct R as (o & -> & HV & H & F & A). cbn [snd].
    apply (obj_header m o fs H). apply (fits_size _ F eq_refl).
  - apply rep_array in R. destruct R as (o & -> & HV & H & F & A). cbn [snd].
    apply (arr_header m o vs H). apply (fits_size _ F eq_refl).
  - destruct R as [HV R]. destruct e as [t [o|]]; cbn [fst snd] in *; [|destruct R; discriminate].
    destruct R as (H & F & A & T'). cbn [enc] in H. unfold enc_str in H. rewrite !sb_app in H.
    apply holds_app in H. destruct H as [H _]. apply every_node in HV. cbn [heap_node] in HV.
    assert (E : (t =? R_big_string) = (65535 <? zlen s)).
    { cbn [raw_type_of] in T'. unfold identify_string, entry_type in T'.
      destruct (65535 <? zlen s); [destruct T' as [-> | ->]; reflexivity|].
      destruct (sso_bytes <? zlen s); destruct T' as [-> | ->]; reflexivity. }
    rewrite E. unfold str_w in H. destruct (65535 <? zlen s) eqn:C;
      apply holds_rd_le_small; try assumption;
      [change (2 ^ (8 * Z.of_nat 4)) with (2 ^ 32)|change (2 ^ (8 * Z.of_nat 2)) with 65536]; zlia.
Qed.

Lemma nth_error_last {A} (l : list A) : l <> [] -> exists x, nth_error l (Z.to_nat (zlen l - 1)) = Some x /\ last l x = x.
Proof.
  intros N. destruct (exists_last N) as (l' & x & ->). exists x. rewrite zlen_app. split.
  - replace (Z.to_nat (zlen l' + zlen [x] - 1)) with (length l') by (unfold zlen; cbn [length]; lia).
    rewrite nth_error_app2 by lia. rewrite Nat.sub_diag. reflexivity.
  - apply last_last.
Qed.

Theorem b_front_spec bs m e vs : represents bs m e (VArr vs) ->
  exists e', b_front m e = Ok e' /\ represents bs m e' (hd VNull vs).
Proof.
  intros R. pose proof (b_size_spec _ _ _ _ R) as S. cbn [vsize] in S.
  pose proof (b_get_idx_spec bs m e vs 0 R ltac:(lia)) as G.
  unfold b_front. pose proof R as R'. apply rep_array in R'. destruct R' as (o & -> & _).
  cbn [b_array b_type simplify_type fst snd Z.eqb R_object R_array]. rewrite S. cbn [bind].
  destruct vs as [|x vs].
  - change (zlen (@nil value)) with 0. eexists. split; [reflexivity|apply rep_null_elem].
  - rewrite zlen_cons. replace (1 + zlen vs =? 0) with false by zlia. exact G.
Qed.

Theorem b_back_spec bs m e vs : represents bs m e (VArr vs) ->
  exists e', b_back m e = Ok e' /\ represents bs m e' (last vs VNull).
Proof.
  intros R. pose proof (b_size_spec _ _ _ _ R) as S. cbn [vsize] in S.
  destruct (zlen vs =? 0) eqn:Z0.
  - assert (vs = []) by (apply zlen_0_nil; lia). subst vs.
    unfold b_back. apply rep_array in R. destruct R as (o & -> & _).
    cbn [b_array b_type simplify_type fst snd Z.eqb R_object R_array]. rewrite S. cbn [bind].
    eexists. split; [reflexivity|apply rep_null_elem].
  - pose proof (b_get_idx_spec bs m e vs (zlen vs - 1) R ltac:(zlia)) as G.
    unfold b_back. apply rep_array in R. destruct R as (o & -> & _).
    cbn [b_array b_type simplify_type fst snd Z.eqb R_object R_array]. rewrite S. cbn [bind]. rewrite Z0.
    assert (N : vs <> []) by (intros ->; discriminate).
    destruct (nth_error_last vs N) as (x & E & L). rewrite E in G.
    replace (last vs VNull) with x; [exact G|].
    rewrite <- L. destruct (exists_last N) as (l' & y & ->). rewrite !last_last. reflexivity.
Qed.

Theorem b_at_front_spec bs m e vs : represents bs m e (VArr vs) ->
  match vs with
  | x :: _ => exists e', b_at_front m e = Ok e' /\ represents bs m e' x
  | [] => b_at_front m e = Throw out_of_range
  end.
Proof.
  intros R. unfold b_at_front. rewrite (b_size_spec _ _ _ _ R). cbn [vsize bind].
  destruct vs as [|x vs]; [reflexivity|]. rewrite zlen_cons. replace (1 + zlen vs =? 0) with false by zlia.
  exact (b_front_spec _ _ _ _ R).
Qed.
Theorem b_at_back_spec bs m e vs : represents bs m e (VArr vs) ->
  match vs with
  | _ :: _ => exists e', b_at_back m e = Ok e' /\ represents bs m e' (last vs VNull)
  | [] => b_at_back m e = Throw out_of_range
  end.
Proof.
  intros R. unfold b_at_back. rewrite (b_size_spec _ _ _ _ R). cbn [vsize bind].
  destruct vs as [|x vs]; [reflexivity|]. rewrite zlen_cons. replace (1 + zlen vs =? 0) with false by zlia.
  exact (b_back_spec _ _ _ _ R).
Qed.

(** Iteration. *)
Theorem b_deref_spec bs m e v i x : represents bs m e v ->
  0 <= i -> nth_error (members v) (Z.to_nat i) = Some x ->
  exists e', b_deref bs m e i = Ok e' /\ represents bs m e' x.
Proof.
  intros R Hi N. destruct v as [fs|vs| | | | |]; cbn [members] in N;
    try (destruct (Z.to_nat i); discriminate).
  - apply rep_object in R. destruct R as (o & -> & HV & H & F & A).
    cbn [b_deref b_type simplify_type fst snd Z.eqb R_object R_array].
    rewrite nth_error_map in N. pose proof (nth_error_split_z fs i Hi) as S.
    destruct (nth_error fs (Z.to_nat i)) as [[k y]|]; [|discriminate]. cbn in N. injection N as ->.
    destruct S as (f1 & f2 & E & <-).
    assert (I : In (k, x) fs) by (rewrite E; apply in_elt).
    pose proof (load_value_spec bs m o f1 k x f2) as L. rewrite <- E in L.
    rewrite L; [|assumption|exact (fits_size _ F eq_refl)|apply (heap_field _ _ _ HV I)|assumption].
    cbn [bind]. eexists. split; [reflexivity|].
    pose proof (rep_field bs m o f1 k x f2) as RF. rewrite <- E in RF. auto.
  - pose proof (b_get_idx_spec bs m e vs i R Hi) as G. rewrite N in G.
    apply rep_array in R. destruct R as (o & -> & HV & H & F & A). exact G.
Qed.

Theorem b_deref_key_spec bs m e fs i k x : represents bs m e (VObj fs) ->
  0 <= i -> nth_error fs (Z.to_nat i) = Some (k, x) ->
  exists p, b_deref_key m e i = Ok (R_string, Some p) /\ rd_scalar m R_string p = Ok (VStr k).
Proof.
  intros R Hi N. apply rep_object in R. destruct R as (o & -> & HV & H & F & A).
  cbn [b_deref_key b_object b_type simplify_type fst snd Z.eqb R_object R_array].
  pose proof (nth_error_split_z fs i Hi) as S. rewrite N in S. destruct S as (f1 & f2 & E & <-).
  assert (I : In (k, x) fs) by (rewrite E; apply in_elt).
  pose proof (load_key_spec m o f1 k x f2) as L. rewrite <- E in L.
  rewrite L; [|assumption|exact (fits_size _ F eq_refl)]. cbn [bind].
  eexists. split; [reflexivity|].
  pose proof (obj_slot m o f1 k x f2) as SL. rewrite <- E in SL. destruct (SL H) as (_ & Hk & _).
  unfold rd_scalar. cbn [Z.eqb R_string R_small_string Pos.eqb orb].
  rewrite (rd_key_spec _ _ _ Hk); [reflexivity|]. apply (heap_field _ _ _ HV I).
Qed.

Theorem b_find_spec bs m e fs key : represents bs m e (VObj fs) -> good_keys fs ->
  match lookup key fs with
  | Some x => exists i, b_find m e key = Ok i /\ 0 <= i /\ nth_error fs (Z.to_nat i) = Some (key, x)
  | None => b_find m e key = Undef
  end.
Proof.
  intros R G. apply rep_object in R. destruct R as (o & -> & HV & H & F & A).
  cbn [b_find b_object b_type simplify_type fst snd Z.eqb R_object].
  pose proof (heap_sorted _ HV) as S. pose proof (heap_short_keys _ HV) as HK.
  pose proof (fits_size _ F eq_refl) as FS.
  destruct (get_key_spec m o fs key H FS HK S G) as [(r & -> & f1 & x & f2 & E & ->) | (-> & ->)];
    cbn [bind]; [|reflexivity].
  replace (lookup key fs) with (Some x) by (rewrite E in S |- *; symmetry; apply lookup_mid; assumption).
  exists (zlen f1). split; [reflexivity|]. split; [apply zlen_nonneg|].
  rewrite E. unfold zlen. rewrite Nat2Z.id, nth_error_app2 by lia. rewrite Nat.sub_diag. reflexivity.
Qed.

(** Scalars. *)
Theorem b_scalar_spec bs m e v want : represents bs m e v ->
  is_aggregate v = false -> v <> VNull ->
  b_scalar want m e = if utype_eqb (vtype v) want then Ok v else Throw type_error.
Proof.
  intros R A N. unfold b_scalar. rewrite (represents_type _ _ _ _ R).
  destruct (utype_eqb (vtype v) want); [|reflexivity].
  destruct R as [HV R]. destruct e as [t [o|]]; cbn [fst snd] in *; [|destruct R; congruence].
  destruct R as (H & F & Al & T). apply read_scalar; try assumption.
  pose proof (every_node _ _ _ (heap_plain _ HV)) as P. exact P.
Qed.

(** ** Relocation: the bytes of any represented aggregate, moved elsewhere. *)
Lemma holds_copy m o p :
  holds m o p -> exists bytes, rd m o (zlen p) = Ok bytes /\ matches p bytes.
Proof.
  intros (pre & bs & post & -> & <- & M). exists bs. split; [|assumption].
  apply rd_app; [reflexivity|]. apply matches_len. assumption.
Qed.

Theorem relocate bs m o v :
  represents bs m (raw_type_of v, Some o) v -> is_aggregate v = true ->
  exists bytes,
    find_sizeof m (raw_type_of v) o = Ok (zlen bytes) /\ rd m o (zlen bytes) = Ok bytes /\
    forall bs' pre post, (bs' + zlen pre) mod 8 = 0 ->
      represents bs' (pre ++ bytes ++ post) (raw_type_of v, Some (zlen pre)) v.
Proof.
  intros [HV (H & F & A & T)] AG. destruct (holds_copy _ _ _ H) as (bytes & RD & M).
  exists bytes. pose proof (matches_len _ _ M) as L. fold (esize v) in L.
  split; [|split].
  - rewrite <- L. destruct v as [fs|vs| | | | |]; try discriminate.
    + change (find_sizeof m (raw_type_of (VObj fs)) o) with (rd_le m o 4).
      apply (obj_header m o fs H). apply (fits_size _ F eq_refl).
    + change (find_sizeof m (raw_type_of (VArr vs)) o) with (rd_le m o 4).
      apply (arr_header m o vs H). apply (fits_size _ F eq_refl).
  - rewrite <- L. exact RD.
  - intros bs' pre post A'. split; [assumption|]. cbn [fst snd].
    split; [exists pre, bytes, post; auto|]. split; [assumption|]. split; [|auto].
    apply mod8_mod; [apply al_pow2|assumption].
Qed.
