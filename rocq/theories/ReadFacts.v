(** Reading back what layout wrote. *)

From Coq Require Import ZArith List Lia Bool Sorted.
From Coq Require Import ZifyBool ZifyNat ZifyN.
From Verif Require Import Base BaseFacts Keys Dec DecFacts Wire Read Enc EncSize Spec.
Import ListNotations.
Open Scope Z_scope.
Ltac Zify.zify_post_hook ::= Z.div_mod_to_equations.

(** ** Memory holding a pattern *)
Definition pmatch (c : option byte) (b : byte) : Prop :=
  match c with Some x => x = b | None => True end.
Definition matches (p : pat) (bs : list byte) : Prop := Forall2 pmatch p bs.
Definition holds (m : mem) (o : Z) (p : pat) : Prop :=
  exists pre bs post, m = pre ++ bs ++ post /\ zlen pre = o /\ matches p bs.

Lemma matches_len p bs : matches p bs -> zlen p = zlen bs.
Proof. induction 1; rewrite ?zlen_cons; [reflexivity|lia]. Qed.

Lemma matches_overlay p old : zlen old = zlen p -> matches p (overlay p old).
Proof.
  revert old. induction p as [|[b|] p IH]; intros [|x old]; rewrite ?zlen_cons, ?zlen_nil; intros H;
    try constructor; try (exfalso; zlia); cbn; auto; apply IH; lia.
Qed.

Lemma matches_fill p : matches p (fill p).
Proof. induction p as [|[b|] p IH]; constructor; cbn; auto. Qed.

Lemma matches_sb bs x : matches (sb bs) x -> x = bs.
Proof.
  revert x. induction bs as [|b bs IH]; intros x H; inversion H; subst; [reflexivity|].
  cbn in H2. subst. f_equal. apply IH. assumption.
Qed.

Lemma holds_fill pre p post : holds (pre ++ fill p ++ post) (zlen pre) p.
Proof. exists pre, (fill p), post. auto using matches_fill. Qed.

Lemma holds_overlay pre p old post :
  zlen old = zlen p -> holds (pre ++ overlay p old ++ post) (zlen pre) p.
Proof. exists pre, (overlay p old), post. auto using matches_overlay. Qed.

Lemma holds_app m o p q : holds m o (p ++ q) -> holds m o p /\ holds m (o + zlen p) q.
Proof.
  intros (pre & bs & post & -> & <- & H).
  apply Forall2_app_inv_l in H. destruct H as (b1 & b2 & H1 & H2 & ->).
  split.
  - exists pre, b1, (b2 ++ post). rewrite <- app_assoc. auto.
  - exists (pre ++ b1), b2, post. rewrite <- !app_assoc, zlen_app.
    rewrite (matches_len p b1) by assumption. auto.
Qed.

Lemma holds_bounds m o p : holds m o p -> 0 <= o /\ o + zlen p <= zlen m.
Proof.
  intros (pre & bs & post & -> & <- & H). apply matches_len in H. rewrite !zlen_app.
  zpos. zlia.
Qed.

Lemma holds_rd m o bs : holds m o (sb bs) -> rd m o (zlen bs) = Ok bs.
Proof.
  intros (pre & x & post & -> & <- & H). apply matches_sb in H. subst x.
  apply rd_app; reflexivity.
Qed.

Lemma holds_rd' m o bs n : holds m o (sb bs) -> n = zlen bs -> rd m o n = Ok bs.
Proof. intros H ->. apply holds_rd. assumption. Qed.

Lemma holds_rd_le m o n z :
  holds m o (sb (le_enc n z)) -> rd_le m o n = Ok (z mod 2 ^ (8 * Z.of_nat n)).
Proof.
  intros H. unfold rd_le. rewrite (holds_rd' _ _ _ _ H) by (rewrite zlen_le_enc; lia).
  cbn [bind]. rewrite le_dec_enc. reflexivity.
Qed.

Lemma holds_rd_le_small m o n z :
  holds m o (sb (le_enc n z)) -> 0 <= z < 2 ^ (8 * Z.of_nat n) -> rd_le m o n = Ok z.
Proof. intros H B. rewrite (holds_rd_le _ _ _ _ H), Z.mod_small by assumption. reflexivity. Qed.

(** ** Positions inside an aggregate *)
Lemma enc_body_app e a b pos :
  enc_body e (a ++ b) pos = enc_body e a pos ++ enc_body e b (pos + zlen (enc_body e a pos)).
Proof.
  revert pos. induction a as [|[k x] a IH]; intros pos; cbn [app enc_body].
  - rewrite zlen_nil, Z.add_0_r. reflexivity.
  - rewrite IH, <- app_assoc, zlen_app, Z.add_assoc. reflexivity.
Qed.
Lemma enc_entries_app e a b pos :
  enc_entries e (a ++ b) pos = enc_entries e a pos ++ enc_entries e b (pos + zlen (enc_body e a pos)).
Proof.
  revert pos. induction a as [|[k x] a IH]; intros pos; cbn [app enc_entries enc_body].
  - rewrite zlen_nil, Z.add_0_r. reflexivity.
  - rewrite IH, <- app_assoc, zlen_app, Z.add_assoc. reflexivity.
Qed.
Lemma enc_abody_app e a b pos :
  enc_abody e (a ++ b) pos = enc_abody e a pos ++ enc_abody e b (pos + zlen (enc_abody e a pos)).
Proof.
  revert pos. induction a as [|x a IH]; intros pos; cbn [app enc_abody].
  - rewrite zlen_nil, Z.add_0_r. reflexivity.
  - rewrite IH, <- app_assoc, zlen_app, Z.add_assoc. reflexivity.
Qed.
Lemma enc_aentries_app e a b pos :
  enc_aentries e (a ++ b) pos = enc_aentries e a pos ++ enc_aentries e b (pos + zlen (enc_abody e a pos)).
Proof.
  revert pos. induction a as [|x a IH]; intros pos; cbn [app enc_aentries enc_abody].
  - rewrite zlen_nil, Z.add_0_r. reflexivity.
  - rewrite IH, <- !app_assoc, zlen_app, Z.add_assoc. reflexivity.
Qed.

(** Where the pair after [fs1] starts in an object of [n] pairs. *)
Definition opos (n : Z) (fs1 : list (str * value)) : Z :=
  8 + 8 * n + zlen (enc_body enc fs1 (8 + 8 * n)).
Definition epos (n : Z) (vs1 : list value) : Z :=
  8 + 8 * n + zlen (enc_abody enc vs1 (8 + 8 * n)).

Lemma obj_header m o fs :
  holds m o (enc (VObj fs)) -> esize (VObj fs) < 2 ^ 32 ->
  rd_le m o 4 = Ok (esize (VObj fs)) /\ agg_count m o = Ok (zlen fs).
Proof.
  intros H F. pose proof (esize_obj fs) as E. cbn [enc] in H. rewrite <- E in H.
  apply holds_app in H. destruct H as [H1 H]. apply holds_app in H. destruct H as [H2 _].
  rewrite zlen_sb, zlen_le_enc in H2.
  pose proof (align_up_ge (8 + 8 * zlen fs + zlen (enc_body enc fs (8 + 8 * zlen fs))) 8 ltac:(lia)).
  change (2 ^ 32) with 4294967296 in F.
  split.
  - apply holds_rd_le_small; [assumption|]. pose proof (esize_nonneg (VObj fs)). split; [lia|].
    change (2 ^ (8 * Z.of_nat 4)) with 4294967296. lia.
  - unfold agg_count. apply holds_rd_le_small; [assumption|].
    change (2 ^ (8 * Z.of_nat 4)) with 4294967296. zlia.
Qed.

Lemma obj_slot m o fs1 k x fs2 :
  let fs := fs1 ++ (k, x) :: fs2 in
  let pos := opos (zlen fs) fs1 in
  holds m o (enc (VObj fs)) ->
  holds m (o + 8 + 8 * zlen fs1) (sb (obj_entry (raw_type_of x) (kpos pos) k)) /\
  holds m (o + kpos pos) (sb (enc_str k)) /\
  holds m (o + vpos pos k x) (enc x).
Proof.
  intros fs pos H. cbn [enc] in H.
  apply holds_app in H. destruct H as [H1 H]. rewrite zlen_sb, zlen_le_enc in H.
  apply holds_app in H. destruct H as [H2 H]. rewrite zlen_sb, zlen_le_enc in H.
  apply holds_app in H. destruct H as [He H]. rewrite zlen_enc_entries in H.
  apply holds_app in H. destruct H as [Hb _].
  unfold fs at 1 in He. unfold fs at 2 in Hb.
  rewrite enc_entries_app in He. rewrite enc_body_app in Hb.
  fold (opos (zlen fs) fs1) in He, Hb. fold pos in He, Hb.
  cbn [enc_entries] in He. cbn [enc_body] in Hb.
  apply holds_app in He. destruct He as [_ He]. rewrite zlen_enc_entries in He.
  apply holds_app in He. destruct He as [He _].
  apply holds_app in Hb. destruct Hb as [_ Hb].
  apply holds_app in Hb. destruct Hb as [Hb _].
  split; [|clear He].
  { replace (o + 8 + 8 * zlen fs1) with (o + Z.of_nat 4 + Z.of_nat 4 + 8 * zlen fs1) by lia. assumption. }
  unfold seg in Hb.
  apply holds_app in Hb. destruct Hb as [_ Hb].
  apply holds_app in Hb. destruct Hb as [Hk Hb].
  apply holds_app in Hb. destruct Hb as [_ Hb].
  pose proof (kpos_ge pos). pose proof (vpos_ge pos k x).
  rewrite zlen_gap in Hk, Hb by lia. rewrite zlen_sb, zlen_gap in Hb by lia.
  assert (E : o + Z.of_nat 4 + Z.of_nat 4 + 8 * zlen fs +
    zlen (enc_body enc fs1 (8 + 8 * zlen fs)) = o + pos) by (unfold pos, opos; lia).
  rewrite E in Hk, Hb. split.
  - replace (o + kpos pos) with (o + pos + (kpos pos - pos)) by lia. assumption.
  - replace (o + vpos pos k x) with (o + pos + (kpos pos - pos) + zlen (enc_str k) +
       (vpos pos k x - (kpos pos + zlen (enc_str k)))) by lia. assumption.
Qed.

(** Bounds on those positions. *)
Lemma obj_slot_bounds fs1 k x fs2 :
  let fs := fs1 ++ (k, x) :: fs2 in
  let pos := opos (zlen fs) fs1 in
  8 + 8 * zlen fs <= pos /\ pos <= kpos pos /\
  kpos pos + zlen (enc_str k) <= vpos pos k x /\
  vpos pos k x + esize x <= esize (VObj fs).
Proof.
  intros fs pos.
  pose proof (kpos_ge pos). pose proof (vpos_ge pos k x).
  split; [unfold pos, opos; zlia|]. split; [assumption|]. split; [assumption|].
  pose proof (align_up_ge (8 + 8 * zlen fs + zlen (enc_body enc fs (8 + 8 * zlen fs))) 8 ltac:(lia)) as G.
  rewrite <- esize_obj in G. unfold fs at 2 in G. rewrite enc_body_app, zlen_app in G.
  cbn [enc_body] in G. fold (opos (zlen fs) fs1) in G. fold pos in G.
  rewrite zlen_app, zlen_seg in G. fold (esize x) in G. unfold pos, opos in *. zlia.
Qed.

Lemma arr_header m o vs :
  holds m o (enc (VArr vs)) -> esize (VArr vs) < 2 ^ 32 ->
  rd_le m o 4 = Ok (esize (VArr vs)) /\ agg_count m o = Ok (zlen vs).
Proof.
  intros H F. pose proof (esize_arr vs) as E. cbn [enc] in H. rewrite <- E in H.
  apply holds_app in H. destruct H as [H1 H]. apply holds_app in H. destruct H as [H2 _].
  rewrite zlen_sb, zlen_le_enc in H2.
  change (2 ^ 32) with 4294967296 in F.
  split.
  - apply holds_rd_le_small; [assumption|]. pose proof (esize_nonneg (VArr vs)). split; [lia|].
    change (2 ^ (8 * Z.of_nat 4)) with 4294967296. lia.
  - unfold agg_count. apply holds_rd_le_small; [assumption|].
    change (2 ^ (8 * Z.of_nat 4)) with 4294967296. zlia.
Qed.

Lemma arr_slot m o vs1 x vs2 :
  let vs := vs1 ++ x :: vs2 in
  let pos := epos (zlen vs) vs1 in
  holds m o (enc (VArr vs)) ->
  holds m (o + 8 + 8 * zlen vs1) (sb (arr_entry (raw_type_of x) (apos pos x))) /\
  holds m (o + apos pos x) (enc x).
Proof.
  intros vs pos H. cbn [enc] in H.
  apply holds_app in H. destruct H as [H1 H]. rewrite zlen_sb, zlen_le_enc in H.
  apply holds_app in H. destruct H as [H2 H]. rewrite zlen_sb, zlen_le_enc in H.
  apply holds_app in H. destruct H as [He Hb]. rewrite zlen_enc_aentries in Hb.
  unfold vs at 1 in He. unfold vs at 2 in Hb.
  rewrite enc_aentries_app in He. rewrite enc_abody_app in Hb.
  fold (epos (zlen vs) vs1) in He, Hb. fold pos in He, Hb.
  cbn [enc_aentries] in He. cbn [enc_abody] in Hb.
  apply holds_app in He. destruct He as [_ He]. rewrite zlen_enc_aentries in He.
  apply holds_app in He. destruct He as [He _]. apply holds_app in He. destruct He as [He _].
  apply holds_app in Hb. destruct Hb as [_ Hb].
  apply holds_app in Hb. destruct Hb as [Hb _].
  split; [|clear He].
  { replace (o + 8 + 8 * zlen vs1) with (o + Z.of_nat 4 + Z.of_nat 4 + 8 * zlen vs1) by lia. assumption. }
  unfold aseg in Hb.
  apply holds_app in Hb. destruct Hb as [_ Hb].
  pose proof (apos_ge pos x).
  rewrite zlen_gap in Hb by lia.
  replace (o + apos pos x) with (o + Z.of_nat 4 + Z.of_nat 4 + 8 * zlen vs +
    zlen (enc_abody enc vs1 (8 + 8 * zlen vs)) + (apos pos x - pos))
    by (unfold pos, epos in *; lia). assumption.
Qed.

Lemma arr_slot_bounds vs1 x vs2 :
  let vs := vs1 ++ x :: vs2 in
  let pos := epos (zlen vs) vs1 in
  8 + 8 * zlen vs <= pos /\ pos <= apos pos x /\ apos pos x + esize x <= esize (VArr vs).
Proof.
  intros vs pos. pose proof (apos_ge pos x).
  split; [unfold pos, epos; zlia|]. split; [assumption|].
  pose proof (esize_arr vs) as G. unfold vs at 3 in G. rewrite enc_abody_app, zlen_app in G.
  cbn [enc_abody] in G. fold (epos (zlen vs) vs1) in G. fold pos in G.
  rewrite zlen_app, zlen_aseg in G. fold (esize x) in G. unfold pos, epos in *. zlia.
Qed.

(** ** Entries *)
Lemma raw_type_range v : 0 <= raw_type_of v <= 11.
Proof.
  destruct v; cbn [raw_type_of]; unfold R_object, R_array, R_boolean, R_null; try lia;
  unfold identify_string, identify_integer, identify_decimal, R_big_string, R_string, R_small_string,
    R_long_integer, R_integer, R_short_integer, R_decimal, R_long_decimal;
  repeat match goal with |- context [if ?b then _ else _] => destruct b end; lia.
Qed.
Lemma entry_type_range t : 0 <= t <= 11 -> 0 <= entry_type t <= 11.
Proof. unfold entry_type, R_small_string, R_string. destruct (t =? 3); lia. Qed.
Lemma entry_type_align t : alignment_of (entry_type t) = alignment_of t.
Proof.
  unfold entry_type, R_small_string. destruct (t =? 3) eqn:E; [|reflexivity].
  apply Z.eqb_eq in E. subst. reflexivity.
Qed.

Lemma obj_entry_read m o i t off k :
  holds m (o + 8 + 8 * i) (sb (obj_entry t off k)) -> 0 <= off < 2 ^ 32 -> 0 <= t <= 11 ->
  entry_offset m o i = Ok off /\ entry_rawtype m o i = Ok (entry_type t) /\
  rd_entry m o i = Ok (mk_entry_raw off (entry_type t) (prefix_len (cstr k)) (prefix_bytes (cstr k))).
Proof.
  intros H Hoff Ht. unfold obj_entry in H. rewrite !sb_app in H.
  apply holds_app in H. destruct H as [H1 H]. rewrite zlen_sb, zlen_le_enc in H.
  apply holds_app in H. destruct H as [H2 H]. rewrite zlen_sb, zlen_le_enc in H.
  apply holds_app in H. destruct H as [H3 H4]. rewrite zlen_sb, zlen_le_enc in H4.
  apply entry_type_range in Ht.
  assert (PL : 0 <= prefix_len (cstr k) < 256).
  { clear. unfold prefix_len. pose proof (zlen_nonneg (cstr k)). destruct (zlen (cstr k) <? 255) eqn:E; lia. }
  assert (A1 : entry_offset m o i = Ok off) by (unfold entry_offset; apply holds_rd_le_small; assumption).
  assert (A2 : entry_rawtype m o i = Ok (entry_type t)).
  { unfold entry_rawtype. apply holds_rd_le_small; [assumption|]. cbn. lia. }
  split; [assumption|]. split; [assumption|].
  unfold rd_entry. rewrite A1, A2. cbn [bind].
  replace (o + 8 + 8 * i + 5) with (o + 8 + 8 * i + Z.of_nat 4 + Z.of_nat 1) by lia.
  rewrite (holds_rd_le_small _ _ _ _ H3) by (cbn; lia). cbn [bind].
  replace (o + 8 + 8 * i + 6) with (o + 8 + 8 * i + Z.of_nat 4 + Z.of_nat 1 + Z.of_nat 1) by lia.
  rewrite (holds_rd' _ _ _ 2 H4) by (rewrite zlen_prefix_bytes; reflexivity). reflexivity.
Qed.

Lemma arr_entry_read m o i t off :
  holds m (o + 8 + 8 * i) (sb (arr_entry t off)) -> 0 <= off < 2 ^ 32 -> 0 <= t <= 11 ->
  entry_offset m o i = Ok off /\ entry_rawtype m o i = Ok (entry_type t).
Proof.
  intros H Hoff Ht. unfold arr_entry in H. rewrite !sb_app in H.
  apply holds_app in H. destruct H as [H1 H2]. rewrite zlen_sb, zlen_le_enc in H2.
  apply entry_type_range in Ht. split.
  - unfold entry_offset; apply holds_rd_le_small; assumption.
  - unfold entry_rawtype. apply holds_rd_le_small; [assumption|]. cbn. lia.
Qed.

(** ** Strings *)
Lemma rd_strv_spec m o s :
  holds m o (sb (enc_str s)) -> zlen s < 2 ^ 32 -> rd_strv m (str_w s) o = Ok s.
Proof.
  intros H B. unfold enc_str in H. rewrite !sb_app in H.
  apply holds_app in H. destruct H as [H1 H]. rewrite zlen_sb, zlen_le_enc in H.
  apply holds_app in H. destruct H as [H2 _].
  unfold rd_strv. rewrite (holds_rd_le_small _ _ _ _ H1).
  - cbn [bind]. apply holds_rd. assumption.
  - unfold str_w. destruct (65535 <? zlen s) eqn:E;
      [change (2 ^ (8 * Z.of_nat 4)) with (2 ^ 32)|change (2 ^ (8 * Z.of_nat 2)) with 65536]; zlia.
Qed.
Lemma rd_key_spec m o s :
  holds m o (sb (enc_str s)) -> zlen s <= 65535 -> rd_strv m 2 o = Ok s.
Proof.
  intros H B. replace 2%nat with (str_w s); [apply rd_strv_spec; [assumption|lia]|].
  unfold str_w. destruct (65535 <? zlen s) eqn:E; lia.
Qed.
Lemma key_sizeof m o s :
  holds m o (sb (enc_str s)) -> zlen s <= 65535 -> find_sizeof m R_string o = Ok (zlen (enc_str s)).
Proof.
  intros H B. change (find_sizeof m R_string o) with (len <- rd_le m o 2 ;; Ok (2 + len + 1)).
  assert (W : str_w s = 2%nat) by (unfold str_w; destruct (65535 <? zlen s) eqn:E; lia).
  rewrite zlen_enc_str, W. unfold enc_str in H. rewrite W, !sb_app in H.
  apply holds_app in H. destruct H as [H1 _].
  rewrite (holds_rd_le_small _ _ _ _ H1); [reflexivity|]. cbn. zlia.
Qed.

(** ** Scalars *)
Definition is_aggregate (v : value) : bool :=
  match v with VObj _ | VArr _ => true | _ => false end.

(** The in-memory ranges of the scalar types, and the limits of the format. *)
Definition node_ok (n : value) : Prop :=
  match n with
  | VStr s => zlen s < 2 ^ 32
  | VInt z => - 2 ^ 63 <= z < 2 ^ 63
  | VDec d => 0 <= d < 2 ^ 64
  | _ => True
  end.

Lemma read_scalar v m o t :
  is_aggregate v = false -> node_ok v -> holds m o (enc v) ->
  (t = raw_type_of v \/ t = entry_type (raw_type_of v)) -> rd_scalar m t o = Ok v.
Proof.
  intros A N H T. destruct v; try discriminate; cbn [enc raw_type_of] in *.
  - cbn [node_ok] in N. pose proof (rd_strv_spec _ _ _ H N) as R.
    unfold identify_string, str_w in *. destruct (65535 <? zlen s).
    + destruct T as [-> | ->]; unfold rd_scalar; cbn [entry_type Z.eqb R_small_string R_big_string R_string Pos.eqb orb];
      rewrite R; reflexivity.
    + destruct (sso_bytes <? zlen s); destruct T as [-> | ->]; unfold rd_scalar;
        cbn [entry_type Z.eqb R_small_string R_big_string R_string Pos.eqb orb]; rewrite R; reflexivity.
  - assert (E : t = identify_integer z).
    { destruct T as [-> | ->]; [reflexivity|]. unfold identify_integer.
      repeat match goal with |- context [if ?b then _ else _] => destruct b end; reflexivity. }
    clear T. subst t. cbn [node_ok] in N. apply holds_rd_le in H. unfold identify_integer in *.
    destruct ((2147483647 <? z) || (z <? -2147483648)) eqn:E1; [|destruct ((32767 <? z) || (z <? -32768)) eqn:E2];
      unfold rd_scalar;
      cbn [Z.eqb R_small_string R_big_string R_string R_short_integer R_integer R_long_integer Pos.eqb orb] in *;
      rewrite H; cbn [bind]; do 2 f_equal.
    + change (8 * Z.of_nat 8) with 64. rewrite to_signed_mod. apply to_signed_small; cbn; lia.
    + change (8 * Z.of_nat 4) with 32. rewrite to_signed_mod. apply to_signed_small; cbn; lia.
    + change (8 * Z.of_nat 2) with 16. rewrite to_signed_mod. apply to_signed_small; cbn; lia.
  - assert (E : t = identify_decimal d).
    { destruct T as [-> | ->]; [reflexivity|]. unfold identify_decimal. destruct (fits_single d); reflexivity. }
    clear T. subst t. cbn [node_ok] in N. unfold identify_decimal in *. destruct (fits_single d) eqn:F;
      unfold rd_scalar;
      cbn [Z.eqb R_small_string R_big_string R_string R_short_integer R_integer R_long_integer R_decimal R_long_decimal Pos.eqb orb] in *.
    + rewrite (holds_rd_le_small _ _ _ _ H) by (apply narrow_range; assumption). cbn [bind].
      rewrite widen_narrow by assumption. reflexivity.
    + rewrite (holds_rd_le_small _ _ _ _ H) by assumption. reflexivity.
  - assert (E : t = R_boolean) by (destruct T; assumption). clear T. subst t.
    unfold rd_scalar; cbn [Z.eqb R_small_string R_big_string R_string R_short_integer R_integer R_long_integer R_decimal R_long_decimal R_boolean Pos.eqb orb] in *.
    rewrite (holds_rd_le_small _ _ _ _ H) by (destruct b; cbn; lia). destruct b; reflexivity.
  - assert (E : t = R_null) by (destruct T; assumption). subst t. reflexivity.
Qed.

(** ** Whole values *)
Fixpoint depth (v : value) : nat :=
  match v with
  | VObj fs => S ((fix go (fs : list (str * value)) :=
                    match fs with [] => O | (_, x) :: r => Nat.max (depth x) (go r) end) fs)
  | VArr vs => S ((fix go (vs : list value) :=
                    match vs with [] => O | x :: r => Nat.max (depth x) (go r) end) vs)
  | _ => O
  end.

Lemma depth_obj fs kv : In kv fs -> (depth (snd kv) < depth (VObj fs))%nat.
Proof.
  cbn [depth]. induction fs as [|[k x] r IH]; intros []; [subst; cbn; lia|].
  specialize (IH H). lia.
Qed.
Lemma depth_arr vs x : In x vs -> (depth x < depth (VArr vs))%nat.
Proof.
  cbn [depth]. induction vs as [|y r IH]; intros []; [subst; lia|].
  specialize (IH H). lia.
Qed.
Lemma depth_obj_le fs n : Forall (fun kv => (depth (snd kv) <= n)%nat) fs -> (depth (VObj fs) <= S n)%nat.
Proof.
  cbn [depth]. induction fs as [|[k x] r IH]; intros H; [lia|].
  apply Forall_cons_iff in H. destruct H as [H1 H2]. specialize (IH H2). cbn [snd] in H1. lia.
Qed.
Lemma depth_arr_le vs n : Forall (fun x => (depth x <= n)%nat) vs -> (depth (VArr vs) <= S n)%nat.
Proof.
  cbn [depth]. induction vs as [|x r IH]; intros H; [lia|].
  apply Forall_cons_iff in H. destruct H as [H1 H2]. specialize (IH H2). lia.
Qed.

Lemma esize_in_obj fs kv : In kv fs -> esize (snd kv) + 8 <= esize (VObj fs).
Proof.
  intros I. apply in_split in I. destruct I as (f1 & f2 & ->). destruct kv as [k x].
  destruct (obj_slot_bounds f1 k x f2) as (A & B & C & D).
  pose proof (zlen_nonneg (enc_str k)). pose proof (zlen_nonneg (f1 ++ (k, x) :: f2)). cbn [snd]. lia.
Qed.
Lemma esize_in_arr vs x : In x vs -> esize x + 8 <= esize (VArr vs).
Proof.
  intros I. apply in_split in I. destruct I as (f1 & f2 & ->).
  destruct (arr_slot_bounds f1 x f2) as (A & B & C). pose proof (zlen_nonneg (f1 ++ x :: f2)). lia.
Qed.

Lemma depth_esize v : Z.of_nat (depth v) <= esize v.
Proof.
  induction v using value_ind'; try (cbn [depth]; apply esize_nonneg).
  - assert (8 <= esize (VObj fs)).
    { rewrite esize_obj. pose proof (align_up_ge (8 + 8 * zlen fs + zlen (enc_body enc fs (8 + 8 * zlen fs))) 8 ltac:(lia)). zlia. }
    enough (depth (VObj fs) <= S (Z.to_nat (esize (VObj fs) - 8)))%nat by lia.
    apply depth_obj_le. rewrite Forall_forall in *. intros kv I.
    pose proof (esize_in_obj fs kv I). pose proof (H kv I). lia.
  - assert (8 <= esize (VArr vs)) by (rewrite esize_arr; zlia).
    enough (depth (VArr vs) <= S (Z.to_nat (esize (VArr vs) - 8)))%nat by lia.
    apply depth_arr_le. rewrite Forall_forall in *. intros x I.
    pose proof (esize_in_arr vs x I). pose proof (H x I). lia.
Qed.

Lemma for_each_split {A B} (f : Z -> res A) (g : B -> A) (l : list B) :
  (forall l1 x l2, l = l1 ++ x :: l2 -> f (zlen l1) = Ok (g x)) ->
  for_each f 0 (Z.to_nat (zlen l)) = Ok (map g l).
Proof.
  intros H. unfold zlen at 1. rewrite Nat2Z.id.
  change 0 with (zlen (@nil B)).
  assert (G : forall l0, l = l0 ++ l -> True) by auto. clear G.
  enough (G : forall r l0, l = l0 ++ r -> for_each f (zlen l0) (length r) = Ok (map g r))
    by (apply (G l []); reflexivity).
  induction r as [|x r IH]; intros l0 E; cbn [for_each length map]; [reflexivity|].
  rewrite (H _ _ _ E). cbn [bind].
  replace (zlen l0 + 1) with (zlen (l0 ++ [x])) by (rewrite zlen_app; cbn; lia).
  rewrite IH by (rewrite <- app_assoc; exact E). reflexivity.
Qed.

(** What reading needs: keys whose length fits the 16 bits readers look at. *)
Definition plain : value -> Prop := every (fun k => zlen k <= 65535) node_ok.

Lemma every_impl (K K' : str -> Prop) (L L' : value -> Prop) v :
  (forall k, K k -> K' k) -> (forall n, L n -> L' n) -> every K L v -> every K' L' v.
Proof.
  intros HK HL. induction v using value_ind'; intros E;
    inversion E as [? N F|? N F| | | | |]; subst; constructor; auto.
  - rewrite Forall_forall in *. intros kv I. destruct (F kv I). auto.
  - rewrite Forall_forall in *. auto.
Qed.
Lemma every_node K L v : every K L v -> L v.
Proof. intros []; assumption. Qed.

Lemma heap_plain v : heap_value v -> plain v.
Proof. apply every_impl; [auto|]. intros []; cbn; auto. Qed.
Lemma plain_short v : plain v -> short_strings v.
Proof.
  induction v using value_ind'; intros E;
    inversion E as [? N F|? N F|? N| | | |]; subst; constructor.
  - rewrite Forall_forall in *. intros kv I. destruct (F kv I) as [KL KX].
    split; [apply Z.le_lt_trans with 65535; [exact KL|lia]|]. apply (H kv I KX).
  - rewrite Forall_forall in *. intros x I. apply (H x I (F x I)).
  - exact N.
Qed.

Lemma align_ptr_at bs o p t :
  (bs + o) mod 8 = 0 -> align_ptr bs (o + p) t = o + align_up p (alignment_of t).
Proof.
  intros H. unfold align_ptr. rewrite Z.add_assoc.
  rewrite align_up_add; [lia|apply alignment_pos|apply mod8_mod; [apply alignment_pow2|assumption]].
Qed.

Lemma align_up_mod_al p v : align_up p (al v) mod al v = 0.
Proof. apply align_up_mod, al_pos. Qed.

Lemma load_key_spec m o f1 k x f2 :
  let fs := f1 ++ (k, x) :: f2 in
  holds m o (enc (VObj fs)) -> esize (VObj fs) < 2 ^ 32 ->
  load_key m o (zlen f1) = Ok (R_string, o + kpos (opos (zlen fs) f1)).
Proof.
  intros fs H S. destruct (obj_slot m o f1 k x f2 H) as (He & Hk & Hv).
  destruct (obj_slot_bounds f1 k x f2) as (B1 & B2 & B3 & B4). fold fs in He, Hk, Hv, B1, B2, B3, B4.
  destruct (obj_entry_read _ _ _ _ _ _ He) as (R1 & R2 & R3).
  { pose proof (esize_nonneg x). zlia. } { apply raw_type_range. }
  unfold load_key. rewrite R1. reflexivity.
Qed.

Lemma load_value_spec bs m o f1 k x f2 :
  let fs := f1 ++ (k, x) :: f2 in
  holds m o (enc (VObj fs)) -> esize (VObj fs) < 2 ^ 32 -> zlen k <= 65535 -> (bs + o) mod 8 = 0 ->
  load_value bs m o (zlen f1) = Ok (entry_type (raw_type_of x), o + vpos (opos (zlen fs) f1) k x).
Proof.
  intros fs H S K A. destruct (obj_slot m o f1 k x f2 H) as (He & Hk & Hv).
  destruct (obj_slot_bounds f1 k x f2) as (B1 & B2 & B3 & B4). fold fs in He, Hk, Hv, B1, B2, B3, B4.
  destruct (obj_entry_read _ _ _ _ _ _ He) as (R1 & R2 & R3).
  { pose proof (esize_nonneg x). zlia. } { apply raw_type_range. }
  unfold load_value. rewrite R1. cbn [bind]. rewrite R2. cbn [bind].
  rewrite (key_sizeof _ _ _ Hk K). cbn [bind].
  rewrite <- Z.add_assoc, align_ptr_at by assumption.
  rewrite entry_type_align. reflexivity.
Qed.

Lemma get_elem_spec m o v1 x v2 :
  let vs := v1 ++ x :: v2 in
  holds m o (enc (VArr vs)) -> esize (VArr vs) < 2 ^ 32 ->
  get_elem m o (zlen v1) = Ok (entry_type (raw_type_of x), Some (o + apos (epos (zlen vs) v1) x)).
Proof.
  intros vs H S. destruct (arr_slot m o v1 x v2 H) as (He & Hv).
  destruct (arr_slot_bounds v1 x v2) as (B1 & B2 & B3). fold vs in He, Hv, B1, B2, B3.
  destruct (arr_entry_read _ _ _ _ _ He) as (R1 & R2).
  { pose proof (esize_nonneg x). zlia. } { apply raw_type_range. }
  destruct (arr_header m o vs H S) as (_ & C).
  unfold get_elem. rewrite C. cbn [bind].
  replace (zlen v1 <? zlen vs) with true by (unfold vs; rewrite zlen_app, zlen_cons; zlia).
  rewrite R1, R2. reflexivity.
Qed.

Lemma agg_type v t : is_aggregate v = true ->
  (t = raw_type_of v \/ t = entry_type (raw_type_of v)) -> t = raw_type_of v.
Proof. destruct v; try discriminate; intros _ [-> | ->]; reflexivity. Qed.

Lemma mod8_vpos bs o p v : (bs + o) mod 8 = 0 -> p mod al v = 0 -> (bs + (o + p)) mod al v = 0.
Proof.
  intros H1 H2. apply (mod8_mod (al v)) in H1; [|apply al_pow2].
  rewrite Z.add_assoc, Zplus_mod, H1, H2. reflexivity.
Qed.

Theorem read_enc v : plain v -> fits v ->
  forall fuel bs m o t,
    holds m o (enc v) -> (bs + o) mod al v = 0 ->
    (t = raw_type_of v \/ t = entry_type (raw_type_of v)) ->
    (depth v < fuel)%nat ->
    read_value fuel bs m t o = Ok v.
Proof.
  induction v as [fs IH|vs IH|s|z|d|b|] using value_ind'; intros P F fuel bs m o t H A T D;
    (destruct fuel as [|fuel]; [lia|]).
  - apply agg_type in T; [|reflexivity]. cbn in T. subst t. cbn [read_value Z.eqb R_object].
    inversion P as [? _ PF| | | | | |]; subst. apply fits_obj in F. destruct F as [FF FS].
    destruct (obj_header m o fs H FS) as (_ & ->). cbn [bind].
    rewrite (for_each_split _ (fun kv => kv) fs); [rewrite map_id; reflexivity|].
    intros f1 [k x] f2 E.
    assert (I : In (k, x) fs) by (rewrite E; apply in_elt).
    rewrite Forall_forall in IH, PF, FF.
    destruct (PF _ I) as [PK PX]. destruct (FF _ I) as [_ FX]. cbn [fst snd] in *.
    pose proof (depth_obj fs _ I). cbn [snd] in *.
    change (al (VObj fs)) with 8 in A.
    pose proof (obj_slot m o f1 k x f2) as SL. rewrite <- E in SL. destruct (SL H) as (_ & Hk & Hv). clear SL.
    pose proof (load_key_spec m o f1 k x f2) as LK. rewrite <- E in LK. rewrite LK by assumption. clear LK.
    cbn [bind]. rewrite (rd_key_spec _ _ _ Hk PK). cbn [bind].
    pose proof (load_value_spec bs m o f1 k x f2) as LV. rewrite <- E in LV. rewrite LV by assumption. clear LV.
    cbn [bind]. rewrite (IH _ I PX FX); [reflexivity|assumption| |right; reflexivity|cbn [snd]; lia].
    apply mod8_vpos; [assumption|apply align_up_mod_al].
  - apply agg_type in T; [|reflexivity]. cbn in T. subst t. cbn [read_value Z.eqb R_object R_array].
    inversion P as [|? _ PF| | | | |]; subst. apply fits_arr in F. destruct F as [FF FS].
    destruct (arr_header m o vs H FS) as (_ & ->). cbn [bind].
    rewrite (for_each_split _ (fun x => x) vs); [rewrite map_id; reflexivity|].
    intros f1 x f2 E.
    assert (I : In x vs) by (rewrite E; apply in_elt).
    rewrite Forall_forall in IH, PF, FF.
    pose proof (depth_arr vs _ I).
    change (al (VArr vs)) with 8 in A.
    pose proof (arr_slot m o f1 x f2) as SL. rewrite <- E in SL. destruct (SL H) as (_ & Hv). clear SL.
    pose proof (get_elem_spec m o f1 x f2) as LK. rewrite <- E in LK. rewrite LK by assumption. clear LK.
    cbn [bind]. apply (IH _ I (PF _ I) (FF _ I)); [assumption| |right; reflexivity|lia].
    apply mod8_vpos; [assumption|apply align_up_mod_al].
  - cbn [read_value].
    replace (t =? R_object) with false; [replace (t =? R_array) with false|].
    + apply read_scalar; [reflexivity|exact (every_node _ _ _ P)|assumption..].
    + destruct T as [-> | ->]; cbn; unfold identify_string;
      repeat match goal with |- context [if ?b then _ else _] => destruct b end; reflexivity.
    + destruct T as [-> | ->]; cbn; unfold identify_string;
      repeat match goal with |- context [if ?b then _ else _] => destruct b end; reflexivity.
  - cbn [read_value].
    replace (t =? R_object) with false; [replace (t =? R_array) with false|].
    + apply read_scalar; [reflexivity|exact (every_node _ _ _ P)|assumption..].
    + destruct T as [-> | ->]; cbn; unfold identify_integer;
      repeat match goal with |- context [if ?b then _ else _] => destruct b end; reflexivity.
    + destruct T as [-> | ->]; cbn; unfold identify_integer;
      repeat match goal with |- context [if ?b then _ else _] => destruct b end; reflexivity.
  - cbn [read_value].
    replace (t =? R_object) with false; [replace (t =? R_array) with false|].
    + apply read_scalar; [reflexivity|exact (every_node _ _ _ P)|assumption..].
    + destruct T as [-> | ->]; cbn; unfold identify_decimal; destruct (fits_single d); reflexivity.
    + destruct T as [-> | ->]; cbn; unfold identify_decimal; destruct (fits_single d); reflexivity.
  - destruct T as [-> | ->]; apply read_scalar; auto; exact (every_node _ _ _ P).
  - destruct T as [-> | ->]; reflexivity.
Qed.

(** ** finalize then walk *)
Theorem finalize_walk fs m :
  plain (VObj fs) -> finalize (VObj fs) = Ok m ->
  forall bs, bs mod 8 = 0 -> walk bs m = Ok (VObj fs).
Proof.
  intros P E bs A. pose proof (plain_short _ P) as SS.
  destruct (upper_bound_cases (VObj fs)) as [(u & U & _) | U];
    [|unfold finalize in E; rewrite U in E; discriminate].
  destruct (finalize_spec fs u SS U) as [L E']. rewrite E' in E. apply Ok_inj in E. subst m.
  destruct (upper_bound_ok _ SS _ U) as [F _].
  apply read_enc; [assumption|assumption| | |left; reflexivity|].
  - apply (holds_fill [] (enc (VObj fs))).
  - rewrite Z.add_0_r. exact A.
  - pose proof (depth_esize (VObj fs)).
    assert (zlen (fill (enc (VObj fs)) ++ zeros (u - esize (VObj fs))) = u).
    { rewrite zlen_app, zlen_fill, zlen_zeros by lia. unfold esize. lia. }
    unfold zlen at 1 in H0. lia.
Qed.
