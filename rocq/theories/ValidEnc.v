(** Validation accepts what finalization writes, as long as nothing is null. *)

From Coq Require Import ZArith List Lia Bool.
From Coq Require Import ZifyBool ZifyNat ZifyN.
From Verif Require Import Base BaseFacts Keys Dec Wire Read Buf Enc EncSize Spec ReadFacts BufFacts.
Import ListNotations.
Open Scope Z_scope.

Definition null_free : value -> Prop := every (fun _ => True) (fun n => n <> VNull).

Lemma esize_pos v : v <> VNull -> 1 <= esize v.
Proof.
  intros N. destruct v; try congruence; unfold esize; cbn [enc].
  - rewrite !zlen_app, zlen_sb, zlen_le_enc. zlia.
  - rewrite !zlen_app, zlen_sb, zlen_le_enc. zlia.
  - rewrite zlen_sb. unfold enc_str. rewrite !zlen_app, zlen_le_enc. unfold str_w. destruct (_ <? _); zlia.
  - rewrite zlen_sb, zlen_le_enc. repeat destruct (_ =? _); lia.
  - rewrite zlen_sb. match goal with |- context [if ?b then _ else _] => destruct b end; rewrite zlen_le_enc; lia.
  - rewrite zlen_sb, zlen_le_enc. lia.
Qed.

Lemma valid_string_enc s m w o str bytes :
  holds m o (sb (le_enc w (zlen str) ++ str ++ [x00])) -> zlen str < 2 ^ (8 * Z.of_nat w) ->
  Z.of_nat w + zlen str + 1 <= bytes -> valid_string s m w o bytes = Ok true.
Proof.
  intros H B L. rewrite !sb_app in H. apply holds_app in H. destruct H as [H1 H].
  rewrite zlen_sb, zlen_le_enc in H. apply holds_app in H. destruct H as [_ H]. rewrite zlen_sb in H.
  unfold valid_string. replace (bytes <? Z.of_nat w) with false by zlia.
  rewrite (holds_rd_le_small _ _ _ _ H1) by zlia. cbn [bind].
  replace (bytes <? Z.of_nat w + zlen str + 1) with false by lia.
  rewrite (holds_rd' _ _ _ 1 H) by reflexivity. reflexivity.
Qed.

Lemma align_ptr_id bs p t : (bs + p) mod alignment_of t = 0 -> align_ptr bs p t = p.
Proof. intros H. unfold align_ptr. rewrite align_up_id; [lia|apply alignment_pos|exact H]. Qed.

Lemma valid_child_ok s bs t p o total prev :
  p - o <= total -> prev < p -> (bs + p) mod alignment_of t = 0 -> valid_child s bs t p o total prev = Ok true.
Proof.
  intros A B C. unfold valid_child. replace (total <? p - o) with false by lia.
  replace (p <=? prev) with false by lia. rewrite (align_ptr_id bs p t C), Z.eqb_refl. reflexivity.
Qed.

Lemma child_aligned bs o p t : (bs + o) mod 8 = 0 -> p mod alignment_of t = 0 -> (bs + (o + p)) mod alignment_of t = 0.
Proof.
  intros A B. rewrite Z.add_assoc. rewrite Z.add_mod by (pose proof (alignment_pos t); lia).
  rewrite (mod8_mod _ _ (alignment_pow2 t) A), B. apply Z.mod_0_l. pose proof (alignment_pos t). lia.
Qed.

Lemma opos_snoc n f1 k x : opos n (f1 ++ [(k, x)]) = vpos (opos n f1) k x + esize x.
Proof.
  unfold opos. rewrite enc_body_app, zlen_app. cbn [enc_body]. rewrite app_nil_r, zlen_seg.
  unfold esize. lia.
Qed.
Lemma epos_snoc n v1 x : epos n (v1 ++ [x]) = apos (epos n v1) x + esize x.
Proof.
  unfold epos. rewrite enc_abody_app, zlen_app. cbn [enc_abody]. rewrite app_nil_r, zlen_aseg.
  unfold esize. lia.
Qed.

Lemma valid_types_ok s m o n : forall k i, 0 <= i -> i + Z.of_nat k <= n ->
  (forall j, 0 <= j < n -> exists ty, entry_rawtype m o j = Ok ty /\ valid_type ty = true) ->
  valid_types s m o i k = Ok true.
Proof.
  induction k as [|k IH]; intros i I K H; cbn [valid_types]; [reflexivity|].
  destruct (H i ltac:(lia)) as (ty & E & V). rewrite E. cbn [bind]. rewrite V. apply IH; [lia|lia|exact H].
Qed.

Lemma split_nth {A} (l : list A) j : 0 <= j < zlen l -> exists l1 x l2, l = l1 ++ x :: l2 /\ zlen l1 = j.
Proof.
  intros J. destruct (nth_error l (Z.to_nat j)) as [x|] eqn:E.
  - apply nth_error_split in E. destruct E as (l1 & l2 & -> & L). exists l1, x, l2. split; [reflexivity|]. unfold zlen. lia.
  - apply nth_error_None in E. unfold zlen in J. lia.
Qed.

Lemma entry_type_valid x : valid_type (entry_type (raw_type_of x)) = true.
Proof. pose proof (entry_type_range _ (raw_type_range x)). unfold valid_type. lia. Qed.

Theorem valid_enc s bs m : forall f v o t bytes,
  heap_value v -> null_free v -> fits v -> holds m o (enc v) -> (bs + o) mod al v = 0 ->
  (t = raw_type_of v \/ t = entry_type (raw_type_of v)) -> esize v <= bytes -> (depth v < f)%nat ->
  valid_buffer f s bs m t o bytes = Ok true.
Proof.
  induction f as [|f IH]; intros v o t bytes HV NF F H A T B D; [lia|].
  assert (TV : valid_type t = true).
  { destruct T as [-> | ->]; [|apply entry_type_valid]. pose proof (raw_type_range v). unfold valid_type. lia. }
  cbn [valid_buffer]. rewrite TV. cbn [negb].
  destruct v as [fs|vs|str|z|d|b|].
  - assert (t = R_object) by (destruct T; assumption). subst t.
    change (R_object =? R_null) with false. change (R_object =? R_object) with true. cbn iota.
    pose proof (fits_size _ F eq_refl) as FS.
    destruct (obj_header m o fs H FS) as [T4 N].
    pose proof (align_up_ge (8 + 8 * zlen fs + zlen (enc_body enc fs (8 + 8 * zlen fs))) 8 ltac:(lia)) as G.
    rewrite <- esize_obj in G.
    unfold valid_aggregate. replace (bytes <? 8) with false by zlia. rewrite T4. cbn [bind].
    replace (bytes <? esize (VObj fs)) with false by lia. rewrite N. cbn [bind].
    replace (esize (VObj fs) <? 8 + 8 * zlen fs) with false by zlia.
    rewrite (valid_types_ok s m o (zlen fs)); [|lia|zlia|].
    2: { intros j J. destruct (split_nth fs j J) as (f1 & [k x] & f2 & E & L). subst fs.
      destruct (obj_slot m o f1 k x f2 H) as (He & _).
      destruct (obj_slot_bounds f1 k x f2) as (B1 & B2 & B3 & B4).
      destruct (obj_entry_read _ _ _ _ _ _ He) as (_ & R2 & _).
      { pose proof (esize_nonneg x). zlia. } { apply raw_type_range. }
      rewrite L in R2. exists (entry_type (raw_type_of x)). split; [exact R2|apply entry_type_valid]. }
    cbn [bind negb]. change (al (VObj fs)) with 8 in A.
    assert (LOOP : forall r f1 prev, fs = f1 ++ r -> prev < o + opos (zlen fs) f1 ->
      valid_pairs (fun t o b => valid_buffer f s bs m t o b) s bs m o (esize (VObj fs)) prev (zlen f1) (length r) = Ok true).
    { induction r as [|[k x] r IHr]; intros f1 prev E P; cbn [valid_pairs length]; [reflexivity|].
      assert (I : In (k, x) fs) by (rewrite E; apply in_or_app; right; left; reflexivity).
      destruct (heap_field _ _ _ HV I) as [KL HX].
      assert (NX : null_free x).
      { inversion NF as [? _ NF'| | | | | |]; subst fs0. rewrite Forall_forall in NF'. apply (NF' _ I). }
      pose proof (load_key_spec m o f1 k x r) as LK. pose proof (load_value_spec bs m o f1 k x r) as LV.
      pose proof (obj_slot m o f1 k x r) as SL. pose proof (obj_slot_bounds f1 k x r) as SB.
      cbv zeta in LK, LV, SL, SB. rewrite <- E in LK, LV, SL, SB.
      specialize (LK H FS). specialize (LV H FS KL A). destruct (SL H) as (_ & Hk & Hv). clear SL.
      set (pos := opos (zlen fs) f1) in *. destruct SB as (B1 & B2 & B3 & B4).
      pose proof (esize_pos x (every_node _ _ _ NX)) as EP.
      assert (W : str_w k = 2%nat) by (unfold str_w; destruct (65535 <? zlen k) eqn:?; lia).
      assert (ZK : zlen (enc_str k) = 2 + zlen k + 1) by (unfold enc_str; rewrite W, !zlen_app, zlen_le_enc, zlen_cons, zlen_nil; lia).
      rewrite LK. cbn [bind].
      rewrite valid_child_ok; [|zlia|zlia|apply child_aligned; [exact A|]; apply (align_up_mod pos 2); lia].
      cbn [bind negb].
      assert (VK : valid_buffer f s bs m R_string (o + kpos pos) (esize (VObj fs) - (o + kpos pos - o)) = Ok true).
      { destruct f as [|f']; [pose proof (depth_obj fs (k, x) I); lia|].
        change (valid_string s m 2 (o + kpos pos) (esize (VObj fs) - (o + kpos pos - o)) = Ok true).
        apply valid_string_enc with (str := k); [|cbn; lia|change (Z.of_nat 2) with 2; lia].
        unfold enc_str in Hk. rewrite W in Hk. exact Hk. }
      rewrite VK. cbn [bind negb]. rewrite LV. cbn [bind].
      rewrite valid_child_ok; [|lia|zlia|].
      2: { rewrite entry_type_align. apply child_aligned; [exact A|]. apply align_up_mod. apply alignment_pos. }
      cbn [bind negb].
      rewrite (IH x); [|exact HX|exact NX|apply (fits_field _ _ _ F I)|exact Hv| |right; reflexivity|lia|].
      2: { apply child_aligned; [exact A|]. apply align_up_mod. apply alignment_pos. }
      2: { pose proof (depth_obj fs (k, x) I). cbn [snd] in H0. lia. }
      cbn [bind negb]. replace (zlen f1 + 1) with (zlen (f1 ++ [(k, x)])) by (rewrite zlen_app; reflexivity).
      apply IHr; [rewrite <- app_assoc; exact E|]. rewrite opos_snoc. fold pos. lia. }
    replace (Z.to_nat (zlen fs)) with (length fs) by (unfold zlen; lia). apply (LOOP fs []); [reflexivity|]. unfold opos. cbn [enc_body]. rewrite zlen_nil. zlia.
  - assert (t = R_array) by (destruct T; assumption). subst t.
    change (R_array =? R_null) with false. change (R_array =? R_object) with false. change (R_array =? R_array) with true. cbn iota.
    pose proof (fits_size _ F eq_refl) as FS.
    destruct (arr_header m o vs H FS) as [T4 N].
    pose proof (esize_arr vs) as G.
    unfold valid_aggregate. replace (bytes <? 8) with false by zlia. rewrite T4. cbn [bind].
    replace (bytes <? esize (VArr vs)) with false by lia. rewrite N. cbn [bind].
    replace (esize (VArr vs) <? 8 + 8 * zlen vs) with false by zlia.
    rewrite (valid_types_ok s m o (zlen vs)); [|lia|zlia|].
    2: { intros j J. destruct (split_nth vs j J) as (v1 & x & v2 & E & L). subst vs.
      destruct (arr_slot m o v1 x v2 H) as (He & _).
      destruct (arr_slot_bounds v1 x v2) as (B1 & B2 & B3).
      destruct (arr_entry_read _ _ _ _ _ He) as (_ & R2).
      { pose proof (esize_nonneg x). zlia. } { apply raw_type_range. }
      rewrite L in R2. exists (entry_type (raw_type_of x)). split; [exact R2|apply entry_type_valid]. }
    cbn [bind negb]. change (al (VArr vs)) with 8 in A.
    assert (LOOP : forall r v1 prev, vs = v1 ++ r -> prev < o + epos (zlen vs) v1 ->
      valid_elems (fun t o b => valid_buffer f s bs m t o b) s bs m o (esize (VArr vs)) prev (zlen v1) (length r) = Ok true).
    { induction r as [|x r IHr]; intros v1 prev E P; cbn [valid_elems length]; [reflexivity|].
      assert (I : In x vs) by (rewrite E; apply in_or_app; right; left; reflexivity).
      pose proof (heap_elem _ _ HV I) as HX.
      assert (NX : null_free x).
      { inversion NF as [|? _ NF'| | | | |]; subst vs0. rewrite Forall_forall in NF'. apply (NF' _ I). }
      pose proof (get_elem_spec m o v1 x r) as GE. pose proof (arr_slot m o v1 x r) as SL.
      pose proof (arr_slot_bounds v1 x r) as SB.
      cbv zeta in GE, SL, SB. rewrite <- E in GE, SL, SB. specialize (GE H FS). destruct (SL H) as (_ & Hv). clear SL.
      set (pos := epos (zlen vs) v1) in *. destruct SB as (B1 & B2 & B3).
      pose proof (esize_pos x (every_node _ _ _ NX)) as EP.
      rewrite GE. cbn [bind].
      rewrite valid_child_ok; [|lia|lia|].
      2: { rewrite entry_type_align. apply child_aligned; [exact A|]. apply align_up_mod. apply alignment_pos. }
      cbn [bind negb].
      rewrite (IH x); [|exact HX|exact NX|apply (fits_elem _ _ F I)|exact Hv| |right; reflexivity|lia|].
      2: { apply child_aligned; [exact A|]. apply align_up_mod. apply alignment_pos. }
      2: { pose proof (depth_arr vs x I). lia. }
      cbn [bind negb]. replace (zlen v1 + 1) with (zlen (v1 ++ [x])) by (rewrite zlen_app; reflexivity).
      apply IHr; [rewrite <- app_assoc; exact E|]. rewrite epos_snoc. fold pos. lia. }
    replace (Z.to_nat (zlen vs)) with (length vs) by (unfold zlen; lia). apply (LOOP vs []); [reflexivity|]. unfold epos. cbn [enc_abody]. rewrite zlen_nil. zlia.
  - assert (SL : zlen str < 2 ^ 32) by (apply every_node in HV; exact HV).
    cbn [enc] in H. unfold esize in B. cbn [enc] in B. rewrite zlen_sb in B. unfold enc_str, str_w in *.
    cbn [raw_type_of] in T. unfold identify_string in T. rewrite !zlen_app, zlen_le_enc in B. change (zlen [x00]) with 1 in B.
    destruct (65535 <? zlen str) eqn:BIG.
    + assert (t = R_big_string) by (destruct T; assumption). subst t. cbn [Z.eqb].
      change (valid_string s m 4 o bytes = Ok true). apply valid_string_enc with (str := str); [exact H|exact SL|lia].
    + assert (TS : t = R_string \/ t = R_small_string) by (destruct (sso_bytes <? zlen str); cbn in T; tauto).
      assert (Q : valid_string s m 2 o bytes = Ok true).
      { apply valid_string_enc with (str := str); [exact H|change (2 ^ (8 * Z.of_nat 2)) with 65536; lia|lia]. }
      destruct TS as [-> | ->]; exact Q.
  - assert (E : t = identify_integer z).
    { destruct T as [-> | ->]; [reflexivity|]. cbn [raw_type_of]. unfold identify_integer.
      repeat match goal with |- context [if ?b then _ else _] => destruct b end; reflexivity. }
    clear T. subst t. clear TV. unfold esize in B. cbn [enc] in B. rewrite zlen_sb, zlen_le_enc in B.
    unfold identify_integer in *.
    destruct ((2147483647 <? z) || (z <? -2147483648)); [|destruct ((32767 <? z) || (z <? -32768))];
      cbn in B |- *; unfold valid_primitive; (replace (bytes <? _) with false by lia); reflexivity.
  - assert (E : t = identify_decimal d).
    { destruct T as [-> | ->]; [reflexivity|]. cbn [raw_type_of]. unfold identify_decimal. destruct (fits_single d); reflexivity. }
    clear T. subst t. clear TV. unfold esize in B. cbn [enc] in B. unfold identify_decimal in *.
    destruct (fits_single d);
      rewrite zlen_sb, zlen_le_enc in B; cbn in B |- *; unfold valid_primitive;
      (replace (bytes <? _) with false by lia); reflexivity.
  - assert (E : t = R_boolean) by (destruct T; assumption). subst t.
    unfold esize in B. cbn [enc] in B. rewrite zlen_sb, zlen_le_enc in B.
    cbn. unfold valid_primitive. replace (bytes <? 1) with false by lia. reflexivity.
  - exfalso. apply every_node in NF. congruence.
Qed.
