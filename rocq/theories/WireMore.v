(** Statements about the wire format assembled from the lemmas of the other files. *)

From Coq Require Import ZArith List Lia Bool Sorted.
From Coq Require Import ZifyBool ZifyNat ZifyN.
From Verif Require Import Base BaseFacts Keys KeysFacts Dec SpecDec DecFacts Wire Read Buf Enc EncSize Spec ReadFacts Lookup BufFacts Canon.
Import ListNotations.
Open Scope Z_scope.

Lemma represents_value bs m e v : represents bs m e v -> b_value bs m e = Ok v.
Proof. intros R. exact (represents_read bs m e v _ R (walk_fuel bs m e v R)). Qed.

Lemma Forall2_impl {A B} (P Q : A -> B -> Prop) a c : (forall x y, P x y -> Q x y) -> Forall2 P a c -> Forall2 Q a c.
Proof. intros H. induction 1; constructor; auto. Qed.

Lemma finalize_holds fs u :
  short_strings (VObj fs) -> upper_bound (VObj fs) = Ok u ->
  exists m, finalize (VObj fs) = Ok m /\ zlen m = u /\ holds m 0 (enc (VObj fs)) /\
    8 <= esize (VObj fs) <= u /\ esize (VObj fs) < 2 ^ 32.
Proof.
  intros SS U. destruct (finalize_spec fs u SS U) as [L E]. destruct (upper_bound_ok _ SS _ U) as [F _].
  eexists. split; [exact E|]. pose proof (esize_nonneg (VObj fs)). split; [|split; [|split; [split; [|lia]|]]].
  - rewrite zlen_app, zlen_fill, zlen_zeros by lia. fold (esize (VObj fs)). lia.
  - exact (holds_fill [] (enc (VObj fs)) _).
  - rewrite esize_obj.
    pose proof (align_up_ge (8 + 8 * zlen fs + zlen (enc_body enc fs (8 + 8 * zlen fs))) 8 ltac:(lia)). zlia.
  - exact (fits_size _ F eq_refl).
Qed.

Lemma finalize_in_bounds fs :
  short_strings (VObj fs) ->
  finalize (VObj fs) = Throw length_error \/
  exists m n, finalize (VObj fs) = Ok m /\ upper_bound (VObj fs) = Ok (zlen m) /\
    find_sizeof m R_object 0 = Ok n /\ 8 <= n <= zlen m.
Proof.
  intros SS. destruct (upper_bound_cases (VObj fs)) as [(u & U & P) | U].
  - right. destruct (finalize_holds fs u SS U) as (m & E & <- & H & B & F).
    exists m, (esize (VObj fs)). repeat split; try assumption; try lia.
    apply (obj_header m 0 fs H F).
  - left. unfold finalize. rewrite U. reflexivity.
Qed.

(** A string whose length does not fit the 32-bit length field. *)
Lemma wr_too_long m o bytes : zlen m < zlen bytes -> 0 <= o -> wr m o bytes = Oob.
Proof. intros L O. unfold wr. replace (o + zlen bytes <=? zlen m) with false by lia. rewrite andb_false_r. reflexivity. Qed.

Definition huge_prefix : mem :=
  zeros 4 ++ le_enc 4 1 ++ le_enc 4 16 ++ [x04; x00; x00; x00] ++ zeros 24.

Lemma huge_fields lay s : raw_type_of (VStr s) = R_big_string ->
  layout_fields lay 0 [([], VStr s)] (zeros 4 ++ le_enc 4 1 ++ zeros 32) 16 0 =
  ('(m, n) <- lay huge_prefix 20 (VStr s) ;; Ok (m, 20 + n)).
Proof.
  intros RT. cbn [layout_fields]. rewrite RT.
  match goal with |- bind ?e _ = _ => replace e with (Ok (zeros 4 ++ le_enc 4 1 ++ le_enc 4 16 ++ [x04; x00; x00; x00] ++ zeros 24)) by (vm_compute; reflexivity) end.
  cbn [bind].
  match goal with |- bind ?e _ = _ => replace e with (Ok (huge_prefix, 3)) by (vm_compute; reflexivity) end.
  cbn [bind]. reflexivity.
Qed.

Lemma finalize_huge s : zlen s = 2 ^ 32 -> finalize (VObj [([], VStr s)]) = Oob.
Proof.
  intros L. unfold finalize.
  assert (RT : raw_type_of (VStr s) = R_big_string).
  { cbn [raw_type_of]. unfold identify_string. rewrite L. reflexivity. }
  assert (U : upper_bound (VObj [([], VStr s)]) = Ok 40).
  { cbn [upper_bound ub_fields]. unfold str_upper_bound. rewrite RT, L. reflexivity. }
  rewrite U. cbn [bind]. cbn [layout].
  change (wr_le (zeros 40) (0 + 4) 4 (zlen [([], VStr s)])) with (Ok (zeros 4 ++ le_enc 4 1 ++ zeros 32)).
  cbn [bind]. change (8 + 8 * zlen [([], VStr s)]) with 16. rewrite (huge_fields layout s RT).
  cbn [layout]. unfold layout_str. cbn [raw_type_of] in RT. rewrite RT.
  change (R_big_string =? R_big_string) with true. cbn [bind]. unfold wr_string.
  unfold wr_le. destruct (wr huge_prefix 20 (le_enc 4 (zlen s))) as [m'| | | |] eqn:W.
  - cbn [bind]. apply wr_len in W. rewrite wr_too_long; [reflexivity| |lia].
    rewrite W, L. change (zlen huge_prefix) with 40. lia.
  - unfold wr in W. destruct (_ && _); discriminate.
  - reflexivity.
  - unfold wr in W. destruct (_ && _); discriminate.
  - unfold wr in W. destruct (_ && _); discriminate.
Qed.

(** Scalars written and read back in place. *)
Lemma split_at (m : mem) o w : 0 <= o -> 0 <= w -> o + w <= zlen m ->
  exists pre mid post, m = pre ++ mid ++ post /\ zlen pre = o /\ zlen mid = w.
Proof.
  intros A B C. destruct (proj2 (rd_bounds m o w)) as (bs & E); [lia|].
  apply rd_Ok in E. destruct E as (_ & _ & _ & L & pre & post & -> & P). eauto 8.
Qed.

Lemma wr_rd_le m o n z : 0 <= o -> o + Z.of_nat n <= zlen m ->
  exists m', wr_le m o n z = Ok m' /\ rd_le m' o n = Ok (z mod 2 ^ (8 * Z.of_nat n)).
Proof.
  intros O L. destruct (split_at m o (Z.of_nat n) O ltac:(lia) L) as (pre & mid & post & -> & P & M).
  exists (pre ++ le_enc n z ++ post). split; [apply wr_app; [lia|rewrite zlen_le_enc; assumption]|].
  apply rd_le_app. lia.
Qed.

Lemma integers_roundtrip m o z :
  - 2 ^ 63 <= z < 2 ^ 63 -> 0 <= o -> o + 8 <= zlen m ->
  exists m' w, layout m o (VInt z) = Ok (m', w) /\ rd_scalar m' (raw_type_of (VInt z)) o = Ok (VInt z) /\
    (w = 2 \/ w = 4 \/ w = 8) /\
    (forall w', w' = 2 \/ w' = 4 \/ w' = 8 -> - 2 ^ (8 * w' - 1) <= z < 2 ^ (8 * w' - 1) -> w <= w') /\
    - 2 ^ (8 * w - 1) <= z < 2 ^ (8 * w - 1).
Proof.
  intros Z O L. cbn [layout raw_type_of]. unfold identify_integer.
  destruct ((2147483647 <? z) || (z <? -2147483648)) eqn:E1; [|destruct ((32767 <? z) || (z <? -32768)) eqn:E2].
  - destruct (wr_rd_le m o 8 z O ltac:(lia)) as (m' & W & R). exists m', 8.
    cbn [Z.eqb R_long_integer R_short_integer R_integer Pos.eqb]. rewrite W. cbn [bind].
    split; [reflexivity|]. split.
    + unfold rd_scalar. cbn. rewrite R. cbn [bind].
      change (2 ^ (8 * Z.of_nat 8)) with (2 ^ 64). rewrite (to_signed_mod 64), to_signed_small by lia. reflexivity.
    + repeat split; try lia. intros w' [-> | [-> | ->]]; cbn; lia.
  - destruct (wr_rd_le m o 4 z O ltac:(lia)) as (m' & W & R). exists m', 4.
    cbn [Z.eqb R_long_integer R_short_integer R_integer Pos.eqb]. rewrite W. cbn [bind].
    split; [reflexivity|]. split.
    + unfold rd_scalar. cbn. rewrite R. cbn [bind].
      change (2 ^ (8 * Z.of_nat 4)) with (2 ^ 32). rewrite (to_signed_mod 32), to_signed_small by lia. reflexivity.
    + repeat split; try lia. intros w' [-> | [-> | ->]]; cbn; lia.
  - destruct (wr_rd_le m o 2 z O ltac:(lia)) as (m' & W & R). exists m', 2.
    cbn [Z.eqb R_long_integer R_short_integer R_integer Pos.eqb]. rewrite W. cbn [bind].
    split; [reflexivity|]. split.
    + unfold rd_scalar. cbn. rewrite R. cbn [bind].
      change (2 ^ (8 * Z.of_nat 2)) with (2 ^ 16). rewrite (to_signed_mod 16), to_signed_small by lia. reflexivity.
    + repeat split; try lia.
Qed.

Lemma decimals_roundtrip m o d :
  0 <= d < 2 ^ 64 -> 0 <= o -> o + 8 <= zlen m ->
  exists m' w, layout m o (VDec d) = Ok (m', w) /\ rd_scalar m' (raw_type_of (VDec d)) o = Ok (VDec d) /\
    (w = 4 \/ w = 8) /\
    (w = 4 <-> denote64 d <> FNaN /\ exists f, 0 <= f < 2 ^ 32 /\ denote32 f = denote64 d).
Proof.
  intros D O L. cbn [layout raw_type_of]. unfold identify_decimal. destruct (fits_single d) eqn:F.
  - destruct (wr_rd_le m o 4 (narrow d) O ltac:(lia)) as (m' & W & R). exists m', 4.
    pose proof (narrow_range d D F) as NR. destruct (denote_narrow d D F) as [DN NN].
    rewrite W. cbn [bind]. split; [reflexivity|]. split; [|split; [auto|]].
    + unfold rd_scalar. cbn. rewrite R. cbn [bind].
      change (2 ^ (8 * Z.of_nat 4)) with (2 ^ 32). rewrite Z.mod_small by lia.
      rewrite widen_narrow by assumption. reflexivity.
    + split; [|auto]. intros _. split; [assumption|]. exists (narrow d). auto.
  - destruct (wr_rd_le m o 8 d O ltac:(lia)) as (m' & W & R). exists m', 8.
    rewrite W. cbn [bind]. split; [reflexivity|]. split; [|split; [auto|]].
    + unfold rd_scalar. cbn. rewrite R. cbn [bind].
      change (2 ^ (8 * Z.of_nat 8)) with (2 ^ 64). rewrite Z.mod_small by lia. reflexivity.
    + split; [lia|]. intros (NN & f & Hf & EQ). rewrite (fits_single_complete d f D Hf EQ NN) in F. discriminate.
Qed.

(** Canonical bytes. *)
Lemma get_bytes_firstn fs m : heap_value (VObj fs) -> finalize (VObj fs) = Ok m ->
  b_get_bytes m root = Ok (firstn (Z.to_nat (esize (VObj fs))) m).
Proof.
  intros H E. destruct (finalize_root fs m 0 H E eq_refl) as ([_ R] & L & _).
  cbn [fst snd] in R. destruct R as (HH & F & _).
  unfold b_get_bytes. cbn [b_object root b_type simplify_type fst snd Z.eqb R_object].
  destruct (obj_header m 0 fs HH (fits_size _ F eq_refl)) as [-> _]. cbn [bind].
  unfold rd. pose proof (esize_nonneg (VObj fs)).
  replace (0 <=? 0) with true by lia. replace (0 <=? esize (VObj fs)) with true by lia.
  replace (0 + esize (VObj fs) <=? zlen m) with true by lia. reflexivity.
Qed.

Lemma get_bytes_exist fs m : heap_value (VObj fs) -> finalize (VObj fs) = Ok m ->
  exists bytes, b_get_bytes m root = Ok bytes.
Proof. intros H E. eexists. exact (get_bytes_firstn fs m H E). Qed.

Lemma canonical v w m1 m2 b1 b2 :
  heap_value v -> heap_value w -> finalize v = Ok m1 -> finalize w = Ok m2 ->
  b_get_bytes m1 root = Ok b1 -> b_get_bytes m2 root = Ok b2 ->
  (same v w <-> b1 = b2) /\ (same v w -> m1 = m2).
Proof.
  intros H1 H2 E1 E2 B1 B2.
  assert (SE : same v w -> v = w) by (apply same_eq; assumption).
  split; [split|].
  - intros S. apply SE in S. subst w. congruence.
  - intros ->. destruct v as [fs| | | | | |]; try discriminate. destruct w as [gs| | | | | |]; try discriminate.
    rewrite (get_bytes_firstn fs m1 H1 E1) in B1. rewrite (get_bytes_firstn gs m2 H2 E2) in B2.
    apply Ok_inj in B1, B2. rewrite (finalize_injective _ _ m1 m2 H1 H2 E1 E2) by congruence.
    apply same_refl. assumption.
  - intros S. apply SE in S. subst w. congruence.
Qed.
