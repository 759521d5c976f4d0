(** Comparing finalized elements: positions inside a block, bytes, and values. *)

From Coq Require Import ZArith List Bool Lia.
From Coq Require Import ZifyBool ZifyNat ZifyN.
From Verif Require Import Base BaseFacts Keys Dec Wire Read Buf Enc EncSize Spec ReadFacts BufFacts Canon.
From Verif Require MergeFacts Compare.
Import ListNotations.
Open Scope Z_scope.

(** The bytes at [o] are the encoding of [v] with zero padding. *)
Definition clean_at (m : mem) (o : Z) (v : value) : Prop := MergeFacts.holdsQ MergeFacts.filled m o (enc v).

Lemma clean_app m o p q : MergeFacts.holdsQ MergeFacts.filled m o (p ++ q) ->
  MergeFacts.holdsQ MergeFacts.filled m o p /\ MergeFacts.holdsQ MergeFacts.filled m (o + zlen p) q.
Proof. apply MergeFacts.holdsQ_app; [apply MergeFacts.filled_split|apply MergeFacts.filled_matches]. Qed.
Lemma clean_bytes m o v : clean_at m o v -> rd m o (esize v) = Ok (fill (enc v)).
Proof.
  intros C. destruct (MergeFacts.holdsQ_copy _ MergeFacts.filled_matches _ _ _ C) as (bs & E & F).
  unfold esize. rewrite E, F. reflexivity.
Qed.

Lemma clean_field m o f1 k x f2 : let fs := f1 ++ (k, x) :: f2 in
  clean_at m o (VObj fs) -> clean_at m (o + vpos (opos (zlen fs) f1) k x) x.
Proof. intros fs. apply MergeFacts.objQ_slot; [apply MergeFacts.filled_split|apply MergeFacts.filled_matches]. Qed.

Lemma clean_elem m o vs1 x vs2 : let vs := vs1 ++ x :: vs2 in
  clean_at m o (VArr vs) -> clean_at m (o + apos (epos (zlen vs) vs1) x) x.
Proof.
  intros vs H. unfold clean_at in *. set (pos := epos (zlen vs) vs1). cbn [enc] in H.
  apply clean_app in H. destruct H as [H1 H]. rewrite zlen_sb, zlen_le_enc in H.
  apply clean_app in H. destruct H as [H2 H]. rewrite zlen_sb, zlen_le_enc in H.
  apply clean_app in H. destruct H as [_ Hb]. rewrite zlen_enc_aentries in Hb.
  unfold vs at 2 in Hb. rewrite enc_abody_app in Hb.
  fold (epos (zlen vs) vs1) in Hb. fold pos in Hb. cbn [enc_abody] in Hb.
  apply clean_app in Hb. destruct Hb as [_ Hb].
  apply clean_app in Hb. destruct Hb as [Hb _]. unfold aseg in Hb.
  apply clean_app in Hb. destruct Hb as [_ Hb].
  pose proof (apos_ge pos x). rewrite zlen_gap in Hb by lia.
  replace (o + apos pos x) with (o + Z.of_nat 4 + Z.of_nat 4 + 8 * zlen vs +
    zlen (enc_abody enc vs1 (8 + 8 * zlen vs)) + (apos pos x - pos))
    by (unfold pos, epos in *; lia). assumption.
Qed.

(** ** Where the elements of a block are *)
Definition child_pos (v : value) (i : nat) : Z :=
  match v with
  | VObj fs => match nth_error fs i with
               | Some (k, x) => vpos (opos (zlen fs) (firstn i fs)) k x | None => 0 end
  | VArr vs => match nth_error vs i with
               | Some x => apos (epos (zlen vs) (firstn i vs)) x | None => 0 end
  | _ => 0
  end.
Fixpoint place (v : value) (path : list nat) : Z :=
  match path with
  | [] => 0
  | i :: r => match nth_error (members v) i with Some x => child_pos v i + place x r | None => 0 end
  end.

Lemma nth_error_firstn_split {A} (l : list A) i x : nth_error l i = Some x ->
  l = firstn i l ++ x :: skipn (S i) l /\ length (firstn i l) = i.
Proof.
  revert l. induction i as [|i IH]; intros [|a l] E; try discriminate; cbn in *.
  - injection E as ->. auto.
  - destruct (IH l E) as [E1 E2]. split; [f_equal; exact E1|f_equal; exact E2].
Qed.
Lemma firstn_app_split {A} (l : list A) i j x : nth_error l i = Some x -> (i < j)%nat ->
  exists g, firstn j l = firstn i l ++ x :: g.
Proof.
  revert l j. induction i as [|i IH]; intros [|a l] [|j] E L; try discriminate; try lia; cbn in *.
  - injection E as ->. eauto.
  - destruct (IH l j E) as [g G]; [lia|]. exists g. rewrite G. reflexivity.
Qed.

Lemma child_in v i x : nth_error (members v) i = Some x -> 8 <= child_pos v i /\ child_pos v i + esize x <= esize v.
Proof.
  destruct v as [fs|vs| | | | |]; cbn [members child_pos]; try (destruct i; discriminate).
  - rewrite nth_error_map. destruct (nth_error fs i) as [[k y]|] eqn:N; [|discriminate]. cbn [option_map snd]. intros E. injection E as ->.
    destruct (nth_error_firstn_split _ _ _ N) as [E _].
    pose proof (obj_slot_bounds (firstn i fs) k x (skipn (S i) fs)) as B. cbv zeta in B. rewrite <- E in B.
    pose proof (zlen_nonneg fs). pose proof (zlen_nonneg (enc_str k)). lia.
  - intros N. rewrite N. destruct (nth_error_firstn_split _ _ _ N) as [E _].
    pose proof (arr_slot_bounds (firstn i vs) x (skipn (S i) vs)) as B. cbv zeta in B. rewrite <- E in B.
    pose proof (zlen_nonneg vs). lia.
Qed.

Lemma child_order v i j x y : nth_error (members v) i = Some x -> nth_error (members v) j = Some y -> (i < j)%nat ->
  child_pos v i + esize x <= child_pos v j.
Proof.
  destruct v as [fs|vs| | | | |]; cbn [members child_pos]; try (destruct i; discriminate).
  - rewrite !nth_error_map. destruct (nth_error fs i) as [[k x']|] eqn:N; [|discriminate]. cbn [option_map snd]. intros E. injection E as ->.
    destruct (nth_error fs j) as [[k' y']|] eqn:N'; [|discriminate]. cbn [option_map snd]. intros E L. injection E as ->.
    destruct (firstn_app_split fs i j _ N L) as [g G]. rewrite G.
    pose proof (kpos_ge (opos (zlen fs) (firstn i fs ++ (k, x) :: g))).
    pose proof (vpos_ge (opos (zlen fs) (firstn i fs ++ (k, x) :: g)) k' y). pose proof (zlen_nonneg (enc_str k')).
    enough (vpos (opos (zlen fs) (firstn i fs)) k x + esize x <= opos (zlen fs) (firstn i fs ++ (k, x) :: g)) by lia.
    unfold opos at 2. rewrite enc_body_app, zlen_app. cbn [enc_body]. rewrite zlen_app. fold (opos (zlen fs) (firstn i fs)).
    rewrite zlen_seg. fold (esize x).
    match goal with |- _ <= _ + (_ + (_ + ?z)) => assert (0 <= z) by apply zlen_nonneg end.
    unfold opos at 3. lia.
  - intros N N' L. rewrite N, N'. destruct (firstn_app_split vs i j _ N L) as [g G]. rewrite G.
    pose proof (apos_ge (epos (zlen vs) (firstn i vs ++ x :: g)) y).
    enough (apos (epos (zlen vs) (firstn i vs)) x + esize x <= epos (zlen vs) (firstn i vs ++ x :: g)) by lia.
    unfold epos at 2. rewrite enc_abody_app, zlen_app. cbn [enc_abody]. rewrite zlen_app. fold (epos (zlen vs) (firstn i vs)).
    rewrite zlen_aseg. fold (esize x).
    match goal with |- _ <= _ + (_ + (_ + ?z)) => assert (0 <= z) by apply zlen_nonneg end.
    unfold epos at 3. lia.
Qed.

Lemma place_in path : forall v w, sub_value v path = Some w -> 0 <= place v path /\ place v path + esize w <= esize v.
Proof.
  induction path as [|i r IH]; intros v w S; cbn [sub_value place] in *.
  - injection S as ->. lia.
  - destruct (nth_error (members v) i) as [x|] eqn:N; [|discriminate].
    pose proof (child_in v i x N). pose proof (IH x w S). lia.
Qed.

(** Elements that take up room are at different offsets when they are different. *)
Theorem place_inj p : forall q v w x, sub_value v p = Some w -> sub_value v q = Some x ->
  0 < esize w -> 0 < esize x -> place v p = place v q -> p = q.
Proof.
  induction p as [|i r IH]; intros [|j s] v w x P Q W X E; cbn [sub_value place] in *.
  - reflexivity.
  - destruct (nth_error (members v) j) as [y|] eqn:N; [|discriminate].
    pose proof (child_in v j y N). pose proof (place_in s y x Q). lia.
  - destruct (nth_error (members v) i) as [y|] eqn:N; [|discriminate].
    pose proof (child_in v i y N). pose proof (place_in r y w P). lia.
  - destruct (nth_error (members v) i) as [y|] eqn:N; [|discriminate].
    destruct (nth_error (members v) j) as [z|] eqn:N'; [|discriminate].
    pose proof (place_in r y w P). pose proof (place_in s z x Q).
    destruct (Nat.lt_trichotomy i j) as [L|[->|L]].
    + pose proof (child_order v i j y z N N' L). lia.
    + rewrite N in N'. injection N' as <-. f_equal. apply (IH s y w x); try assumption. lia.
    + pose proof (child_order v j i z y N' N L). lia.
Qed.

(** Iterators lead to those places. *)
Lemma deref_place bs m t o v i x : represents bs m (t, Some o) v -> clean_at m o v ->
  nth_error (members v) i = Some x ->
  exists t', b_deref bs m (t, Some o) (Z.of_nat i) = Ok (t', Some (o + child_pos v i)) /\
    represents bs m (t', Some (o + child_pos v i)) x /\ clean_at m (o + child_pos v i) x.
Proof.
  intros R C N. exists (entry_type (raw_type_of x)).
  destruct v as [fs|vs| | | | |]; cbn [members child_pos] in *; try (destruct i; discriminate).
  - apply rep_object in R. destruct R as (o' & E & HV & H & F & A). injection E as -> <-.
    cbn [b_deref b_type simplify_type fst snd Z.eqb R_object R_array].
    rewrite nth_error_map in N. destruct (nth_error fs i) as [[k y]|] eqn:NE; [|discriminate]. cbn in N. injection N as ->.
    destruct (nth_error_firstn_split _ _ _ NE) as [E L].
    assert (I : In (k, x) fs) by (apply (nth_error_In _ _ NE)).
    pose proof (load_value_spec bs m o (firstn i fs) k x (skipn (S i) fs)) as LV. cbv zeta in LV. rewrite <- E in LV.
    assert (ZL : zlen (firstn i fs) = Z.of_nat i) by (unfold zlen; rewrite L; reflexivity). rewrite ZL in LV.
    rewrite LV; [|assumption|exact (fits_size _ F eq_refl)|apply (heap_field _ _ _ HV I)|assumption].
    cbn [bind]. split; [reflexivity|]. split.
    + pose proof (rep_field bs m o (firstn i fs) k x (skipn (S i) fs)) as RF. cbv zeta in RF. rewrite <- E in RF. auto.
    + pose proof (clean_field m o (firstn i fs) k x (skipn (S i) fs)) as CF. cbv zeta in CF. rewrite <- E in CF. auto.
  - apply rep_array in R. destruct R as (o' & E & HV & H & F & A). injection E as -> <-.
    cbn [b_deref b_type simplify_type fst snd Z.eqb R_object R_array]. rewrite N.
    destruct (nth_error_firstn_split _ _ _ N) as [E L].
    pose proof (get_elem_spec m o (firstn i vs) x (skipn (S i) vs)) as LV. cbv zeta in LV. rewrite <- E in LV.
    assert (ZL : zlen (firstn i vs) = Z.of_nat i) by (unfold zlen; rewrite L; reflexivity). rewrite ZL in LV. split; [|split].
    + exact (LV H (fits_size _ F eq_refl)).
    + pose proof (rep_elem bs m o (firstn i vs) x (skipn (S i) vs)) as RF. cbv zeta in RF. rewrite <- E in RF. auto.
    + pose proof (clean_elem m o (firstn i vs) x (skipn (S i) vs)) as CF. cbv zeta in CF. rewrite <- E in CF. auto.
Qed.

Theorem nav_place bs m path : forall t o v w, represents bs m (t, Some o) v -> clean_at m o v ->
  sub_value v path = Some w ->
  exists t', nav bs m (t, Some o) path = Ok (t', Some (o + place v path)) /\
    represents bs m (t', Some (o + place v path)) w /\ clean_at m (o + place v path) w.
Proof.
  induction path as [|i r IH]; intros t o v w R C S; cbn [nav sub_value place] in *.
  - injection S as ->. rewrite Z.add_0_r. eauto.
  - destruct (nth_error (members v) i) as [x|] eqn:N; [|discriminate].
    destruct (deref_place bs m t o v i x R C N) as (t' & -> & R' & C'). cbn [bind].
    destruct (IH t' _ x w R' C' S) as (t2 & E & R2 & C2). exists t2. rewrite Z.add_assoc. auto.
Qed.

(** ** Bytes determine values *)
Lemma esize_pos v : v <> VNull -> 0 < esize v.
Proof.
  intros N. destruct v as [fs|vs|s|z|d|b|].
  - rewrite esize_obj. pose proof (align_up_ge (8 + 8 * zlen fs + zlen (enc_body enc fs (8 + 8 * zlen fs))) 8).
    pose proof (zlen_nonneg fs). pose proof (zlen_nonneg (enc_body enc fs (8 + 8 * zlen fs))). lia.
  - rewrite esize_arr. pose proof (zlen_nonneg vs). pose proof (zlen_nonneg (enc_abody enc vs (8 + 8 * zlen vs))). lia.
  - unfold esize. cbn [enc]. rewrite zlen_sb, zlen_enc_str. pose proof (zlen_nonneg s). lia.
  - unfold esize. cbn [enc]. rewrite zlen_sb, zlen_le_enc. destruct (_ =? _); [lia|]. destruct (_ =? _); lia.
  - unfold esize. cbn [enc]. rewrite zlen_sb. destruct (fits_single d); rewrite zlen_le_enc; lia.
  - unfold esize. cbn [enc]. rewrite zlen_sb, zlen_le_enc. lia.
  - congruence.
Qed.

Lemma raw_by_size v w : vtype v = vtype w -> esize v = esize w -> entry_type (raw_type_of v) = entry_type (raw_type_of w).
Proof.
  destruct v as [fs|vs|s|z|d|b|], w as [fs'|vs'|s'|z'|d'|b'|]; try discriminate; intros _ E; try reflexivity.
  - unfold esize in E. cbn [enc raw_type_of] in *. rewrite !zlen_sb, !zlen_enc_str in E.
    unfold str_w, identify_string, entry_type, R_big_string, R_string, R_small_string in *.
    destruct (Z.ltb_spec 65535 (zlen s)), (Z.ltb_spec 65535 (zlen s')); try lia; try reflexivity.
    destruct (sso_bytes <? zlen s), (sso_bytes <? zlen s'); reflexivity.
  - unfold esize in E. cbn [enc raw_type_of] in *. rewrite !zlen_sb, !zlen_le_enc in E.
    unfold identify_integer, R_long_integer, R_integer, R_short_integer in *.
    destruct ((2147483647 <? z) || (z <? -2147483648)), ((2147483647 <? z') || (z' <? -2147483648));
      destruct ((32767 <? z) || (z <? -32768)), ((32767 <? z') || (z' <? -32768)); try reflexivity; cbn in E; lia.
  - unfold esize in E. cbn [enc raw_type_of] in *. rewrite !zlen_sb in E. unfold identify_decimal.
    destruct (fits_single d), (fits_single d'); try reflexivity; rewrite !zlen_le_enc in E; lia.
Qed.

Theorem bytes_injective v w : heap_value v -> heap_value w -> fits v -> fits w -> vtype v = vtype w ->
  fill (enc v) = fill (enc w) -> v = w.
Proof.
  intros HV HW FV FW T E.
  assert (L : esize v = esize w) by (unfold esize; rewrite <- (zlen_fill (enc v)), <- (zlen_fill (enc w)), E; reflexivity).
  assert (RV : represents 0 (fill (enc v)) (entry_type (raw_type_of v), Some 0) v).
  { split; [assumption|]. cbn [fst snd]. split; [|split; [assumption|split; [apply Z.mod_0_l; pose proof (al_pos v); lia|right; reflexivity]]].
    exists [], (fill (enc v)), []. rewrite app_nil_r. split; [reflexivity|]. split; [reflexivity|apply matches_fill]. }
  assert (RW : represents 0 (fill (enc v)) (entry_type (raw_type_of v), Some 0) w).
  { split; [assumption|]. cbn [fst snd]. split; [|split; [assumption|split; [apply Z.mod_0_l; pose proof (al_pos w); lia|]]].
    - exists [], (fill (enc w)), []. rewrite app_nil_r. split; [exact E|]. split; [reflexivity|apply matches_fill].
    - right. apply raw_by_size; assumption. }
  pose proof (represents_read _ _ _ v _ RV (walk_fuel _ _ _ _ RV)) as A.
  pose proof (represents_read _ _ _ w _ RW (walk_fuel _ _ _ _ RW)) as B. congruence.
Qed.

(** ** buffer == buffer *)
Lemma vtype_null v : vtype v = T_null -> v = VNull.
Proof. destruct v; try discriminate. reflexivity. Qed.
Lemma utype_eqb_eq a b : utype_eqb a b = true <-> a = b.
Proof. destruct a, b; cbn; split; congruence. Qed.

Theorem bcmp_spec bs m t o v bs' m' t' o' w :
  represents bs m (t, Some o) v -> clean_at m o v ->
  represents bs' m' (t', Some o') w -> clean_at m' o' w ->
  (bs + o = bs' + o' -> v <> VNull -> w <> VNull -> v = w) ->
  exists q, Compare.bcmp bs m (t, Some o) bs' m' (t', Some o') = Ok q /\ (q = true <-> v = w).
Proof.
  intros R C R' C' SA. unfold Compare.bcmp. rewrite (represents_type _ _ _ _ R), (represents_type _ _ _ _ R').
  assert (G : (v <> VNull \/ w <> VNull) ->
    exists q, (if negb (utype_eqb (vtype v) (vtype w)) then Ok false
       else if bs + o =? bs' + o' then Ok true
       else n <- find_sizeof m t o ;; n' <- find_sizeof m' t' o' ;;
            if n =? n' then a <- rd m o n ;; b <- rd m' o' n ;;
              Ok (if list_eq_dec Byte.byte_eq_dec a b then true else false) else Ok false) = Ok q /\ (q = true <-> v = w)).
  { intros NN. destruct (utype_eqb (vtype v) (vtype w)) eqn:U; cbn [negb].
    2:{ exists false. split; [reflexivity|]. split; [discriminate|]. intros ->.
        assert (X : utype_eqb (vtype w) (vtype w) = true) by (apply utype_eqb_eq; reflexivity). congruence. }
    apply utype_eqb_eq in U.
    assert (NV : v <> VNull /\ w <> VNull).
    { split; intros ->; cbn [vtype] in U; [symmetry in U|]; apply vtype_null in U; destruct NN; congruence. }
    destruct (Z.eqb_spec (bs + o) (bs' + o')) as [E|NE].
    { exists true. split; [reflexivity|]. split; [intros _; apply SA; tauto|reflexivity]. }
    destruct R as [HV (H & F & _ & T)], R' as [HW (H' & F' & _ & T')]. cbn [fst snd] in *.
    rewrite (MergeFacts.sizeof_spec m o v t H F (every_node _ _ _ (heap_plain _ HV)) T).
    rewrite (MergeFacts.sizeof_spec m' o' w t' H' F' (every_node _ _ _ (heap_plain _ HW)) T'). cbn [bind].
    destruct (Z.eqb_spec (esize v) (esize w)) as [E|NE'].
    - rewrite (clean_bytes _ _ _ C), E, (clean_bytes _ _ _ C'). cbn [bind].
      destruct (list_eq_dec Byte.byte_eq_dec (fill (enc v)) (fill (enc w))) as [X|X].
      + exists true. split; [reflexivity|]. split; [intros _; apply bytes_injective; assumption|reflexivity].
      + exists false. split; [reflexivity|]. split; [discriminate|]. intros ->. congruence.
    - exists false. split; [reflexivity|]. split; [discriminate|]. intros ->. congruence. }
  destruct (vtype v) eqn:TV; cbn [snd fst] in *; try (apply G; left; intros ->; discriminate).
  destruct (vtype w) eqn:TW; try (apply G; right; intros ->; discriminate).
  exists true. split; [reflexivity|]. split; [intros _|reflexivity]. rewrite (vtype_null v TV), (vtype_null w TW). reflexivity.
Qed.

(** Blocks in one address space: one and the same, or without a common address. *)
Definition one_or_apart (bs : Z) (m : mem) (bs' : Z) (m' : mem) : Prop :=
  (bs = bs' /\ m = m') \/ bs + zlen m <= bs' \/ bs' + zlen m' <= bs.

Theorem bcmp_finalized bs fs m p v bs' gs m' q w :
  heap_value (VObj fs) -> heap_value (VObj gs) -> finalize (VObj fs) = Ok m -> finalize (VObj gs) = Ok m' ->
  bs mod 8 = 0 -> bs' mod 8 = 0 -> one_or_apart bs m bs' m' ->
  sub_value (VObj fs) p = Some v -> sub_value (VObj gs) q = Some w ->
  exists e e' r, nav bs m root p = Ok e /\ nav bs' m' root q = Ok e' /\
    represents bs m e v /\ represents bs' m' e' w /\
    Compare.bcmp bs m e bs' m' e' = Ok r /\ (r = true <-> v = w).
Proof.
  intros HV HW E E' A A' OA SV SW.
  destruct (finalize_root fs m bs HV E A) as (R & L & _). destruct (finalize_root gs m' bs' HW E' A') as (R' & L' & _).
  assert (CL : forall fs m, heap_value (VObj fs) -> finalize (VObj fs) = Ok m -> clean_at m 0 (VObj fs)).
  { clear. intros fs m HV E. pose proof (plain_short _ (heap_plain _ HV)) as SS.
    destruct (upper_bound_cases (VObj fs)) as [(n & UB & _) | UB]; [|unfold finalize in E; rewrite UB in E; discriminate].
    destruct (finalize_spec fs n SS UB) as [_ E']. rewrite E' in E. apply Ok_inj in E. subst m.
    exists [], (fill (enc (VObj fs))), (zeros (n - esize (VObj fs))). split; [reflexivity|]. split; reflexivity. }
  destruct (nav_place bs m p _ _ _ v R (CL _ _ HV E) SV) as (t & N & RV & CV).
  destruct (nav_place bs' m' q _ _ _ w R' (CL _ _ HW E') SW) as (t' & N' & RW & CW).
  destruct (bcmp_spec _ _ _ _ _ _ _ _ _ _ RV CV RW CW) as (r & B & Q).
  { intros EA NV NW. apply esize_pos in NV, NW. pose proof (place_in p _ _ SV). pose proof (place_in q _ _ SW).
    destruct OA as [[-> ->]|[D|D]]; [|lia..].
    assert (VObj fs = VObj gs).
    { pose proof (represents_read _ _ _ _ _ R (walk_fuel _ _ _ _ R)) as X.
      pose proof (represents_read _ _ _ _ _ R' (walk_fuel _ _ _ _ R')) as Y. congruence. }
    rewrite <- H1 in *. assert (p = q) by (apply (place_inj p q _ v w SV SW NV NW); lia). subst q. congruence. }
  exists (t, Some (0 + place (VObj fs) p)), (t', Some (0 + place (VObj gs) q)), r. auto 7.
Qed.
