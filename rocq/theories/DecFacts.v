(** Narrowing a double to single precision (supports C20, C01).

    The specification is the numeric meaning of a bit pattern, independent of the
    case analysis in Dec.fits_single: a finite number is an integer multiple of
    2^-1074 (the smallest subnormal double). *)

From Coq Require Import ZArith Lia Bool.
From Coq Require Import ZifyBool.
From Verif Require Import Dec SpecDec.
Open Scope Z_scope.

(** ** Fields *)
Lemma d_split d : 0 <= d < 2 ^ 64 ->
  d = d_sign d * 2 ^ 63 + d_exp d * 2 ^ 52 + d_man d /\
  0 <= d_sign d < 2 /\ 0 <= d_exp d < 2 ^ 11 /\ 0 <= d_man d < 2 ^ 52.
Proof.
  intros H. unfold d_sign, d_exp, d_man.
  pose proof (Z.mod_pos_bound (d / 2 ^ 52) (2 ^ 11) ltac:(lia)).
  pose proof (Z.mod_pos_bound d (2 ^ 52) ltac:(lia)).
  pose proof (Z.div_mod d (2 ^ 52) ltac:(lia)).
  pose proof (Z.div_mod (d / 2 ^ 52) (2 ^ 11) ltac:(lia)).
  assert (E : d / 2 ^ 52 / 2 ^ 11 = d / 2 ^ 63) by (rewrite Z.div_div by lia; reflexivity).
  rewrite E in *.
  assert (0 <= d / 2 ^ 63 < 2).
  { split; [apply Z.div_pos; lia|]. apply Z.div_lt_upper_bound; lia. }
  repeat split; try lia.
Qed.

Lemma f_split f : 0 <= f < 2 ^ 32 ->
  f = f_sign f * 2 ^ 31 + f_exp f * 2 ^ 23 + f_man f /\
  0 <= f_sign f < 2 /\ 0 <= f_exp f < 2 ^ 8 /\ 0 <= f_man f < 2 ^ 23.
Proof.
  intros H. unfold f_sign, f_exp, f_man.
  pose proof (Z.mod_pos_bound (f / 2 ^ 23) (2 ^ 8) ltac:(lia)).
  pose proof (Z.mod_pos_bound f (2 ^ 23) ltac:(lia)).
  pose proof (Z.div_mod f (2 ^ 23) ltac:(lia)).
  pose proof (Z.div_mod (f / 2 ^ 23) (2 ^ 8) ltac:(lia)).
  assert (E : f / 2 ^ 23 / 2 ^ 8 = f / 2 ^ 31) by (rewrite Z.div_div by lia; reflexivity).
  rewrite E in *.
  assert (0 <= f / 2 ^ 31 < 2).
  { split; [apply Z.div_pos; lia|]. apply Z.div_lt_upper_bound; lia. }
  repeat split; try lia.
Qed.

Lemma f_fields s e m :
  0 <= s < 2 -> 0 <= e < 2 ^ 8 -> 0 <= m < 2 ^ 23 ->
  let f := s * 2 ^ 31 + e * 2 ^ 23 + m in
  0 <= f < 2 ^ 32 /\ f_sign f = s /\ f_exp f = e /\ f_man f = m.
Proof.
  intros Hs He Hm f. subst f. unfold f_sign, f_exp, f_man.
  split; [lia|]. split; [|split].
  - symmetry. apply Z.div_unique with (e * 2 ^ 23 + m); lia.
  - replace ((s * 2 ^ 31 + e * 2 ^ 23 + m) / 2 ^ 23) with (e + s * 2 ^ 8).
    + rewrite Z_mod_plus_full. apply Z.mod_small. lia.
    + apply Z.div_unique with m; lia.
  - symmetry. apply Z.mod_unique with (s * 2 ^ 8 + e); lia.
Qed.

Lemma d_fields s e m :
  0 <= s < 2 -> 0 <= e < 2 ^ 11 -> 0 <= m < 2 ^ 52 ->
  let d := s * 2 ^ 63 + e * 2 ^ 52 + m in
  0 <= d < 2 ^ 64 /\ d_sign d = s /\ d_exp d = e /\ d_man d = m.
Proof.
  intros Hs He Hm d. subst d. unfold d_sign, d_exp, d_man.
  split; [lia|]. split; [|split].
  - symmetry. apply Z.div_unique with (e * 2 ^ 52 + m); lia.
  - replace ((s * 2 ^ 63 + e * 2 ^ 52 + m) / 2 ^ 52) with (e + s * 2 ^ 11).
    + rewrite Z_mod_plus_full. apply Z.mod_small. lia.
    + apply Z.div_unique with m; lia.
  - symmetry. apply Z.mod_unique with (s * 2 ^ 11 + e); lia.
Qed.

(** ** Narrowing a number that fits *)

(** Fields of the single, and the exact relation between the mantissas. *)
Lemma narrow_fields d :
  0 <= d < 2 ^ 64 -> fits_single d = true ->
  0 <= narrow d < 2 ^ 32 /\ f_sign (narrow d) = d_sign d /\
  ( (d_exp d = 2047 /\ d_man d = 0 /\ f_exp (narrow d) = 255 /\ f_man (narrow d) = 0)
  \/ (d_exp d = 0 /\ d_man d = 0 /\ f_exp (narrow d) = 0 /\ f_man (narrow d) = 0)
  \/ (1 <= f_exp (narrow d) <= 254 /\ d_exp d = f_exp (narrow d) + 896
      /\ d_man d = f_man (narrow d) * 2 ^ 29)
  \/ (exists k, f_exp (narrow d) = 0 /\ 0 <= k <= 22 /\ d_exp d = k + 874 /\
      2 ^ k <= f_man (narrow d) < 2 ^ (k + 1) /\
      2 ^ 52 + d_man d = f_man (narrow d) * 2 ^ (52 - k)) ).
Proof.
  intros Hd HF. destruct (d_split d Hd) as (_ & Hs & He & Hm).
  unfold fits_single in HF. unfold narrow.
  set (s := d_sign d) in *. set (e := d_exp d) in *. set (m := d_man d) in *.
  destruct (e =? 2047) eqn:E1.
  { pose proof (f_fields s 255 0 Hs ltac:(lia) ltac:(lia)) as (R & A & B & C).
    rewrite Z.add_0_r in R, A, B, C. rewrite A, B, C. split; [lia|]. split; [reflexivity|].
    left. lia. }
  destruct (e =? 0) eqn:E2.
  { pose proof (f_fields s 0 0 Hs ltac:(lia) ltac:(lia)) as (R & A & B & C).
    rewrite Z.mul_0_l, Z.add_0_r in R, A, B, C. rewrite A, B, C.
    split; [lia|]. split; [reflexivity|]. right; left. lia. }
  destruct ((-126 <=? e - 1023) && (e - 1023 <=? 127)) eqn:E3.
  { replace (-126 <=? e - 1023) with true by lia.
    assert (M : m mod 2 ^ 29 = 0) by lia.
    assert (Mq : m = m / 2 ^ 29 * 2 ^ 29) by (pose proof (Z.div_mod m (2 ^ 29)); lia).
    assert (Mb : 0 <= m / 2 ^ 29 < 2 ^ 23).
    { split; [apply Z.div_pos; lia|]. apply Z.div_lt_upper_bound; lia. }
    pose proof (f_fields s (e - 1023 + 127) (m / 2 ^ 29) Hs ltac:(lia) Mb) as (R & A & B & C).
    rewrite !Z.add_assoc. rewrite A, B, C.
    split; [lia|]. split; [reflexivity|]. right; right; left. lia. }
  destruct ((-149 <=? e - 1023) && (e - 1023 <? -126)) eqn:E4; [|discriminate].
  replace (-126 <=? e - 1023) with false by lia.
  set (k := e - 874).
  assert (Hk : 0 <= k <= 22) by lia.
  replace (- 97 - (e - 1023)) with (52 - k) in * by lia.
  assert (M0 : (2 ^ 52 + m) mod 2 ^ (52 - k) = 0) by lia.
  assert (P1 : 0 < 2 ^ (52 - k)) by (apply Z.pow_pos_nonneg; lia).
  assert (P2 : 2 ^ 52 = 2 ^ k * 2 ^ (52 - k)) by (rewrite <- Z.pow_add_r by lia; f_equal; lia).
  assert (P3 : 2 ^ (k + 1) = 2 * 2 ^ k) by (rewrite Z.pow_add_r by lia; lia).
  assert (P4 : 2 ^ (k + 1) <= 2 ^ 23) by (apply Z.pow_le_mono_r; lia).
  set (M := (2 ^ 52 + m) / 2 ^ (52 - k)).
  assert (EM : 2 ^ 52 + m = M * 2 ^ (52 - k)).
  { unfold M. pose proof (Z.div_mod (2 ^ 52 + m) (2 ^ (52 - k)) ltac:(lia)). lia. }
  assert (BM : 2 ^ k <= M < 2 ^ (k + 1)) by nia.
  assert (P5 : 0 < 2 ^ k) by (apply Z.pow_pos_nonneg; lia).
  pose proof (f_fields s 0 M Hs ltac:(lia) ltac:(lia)) as (R & A & B & C).
  rewrite Z.mul_0_l, Z.add_0_r in R, A, B, C. rewrite A, B, C.
  split; [lia|]. split; [reflexivity|]. right; right; right. exists k.
  repeat split; try lia.
Qed.

Theorem narrow_range d : 0 <= d < 2 ^ 64 -> fits_single d = true -> 0 <= narrow d < 2 ^ 32.
Proof. intros. now apply narrow_fields. Qed.

Theorem widen_narrow d :
  0 <= d < 2 ^ 64 -> fits_single d = true -> widen (narrow d) = d.
Proof.
  intros Hd HF. destruct (d_split d Hd) as (E & Hs & He & Hm).
  destruct (narrow_fields d Hd HF) as (R & S & H).
  unfold widen. rewrite S.
  destruct H as [(A & B & C & D) | [(A & B & C & D) | [(A & B & C) | (k & A & Hk & B & C & D)]]].
  - rewrite C, D. cbn [Z.eqb Pos.eqb]. lia.
  - rewrite C, D. cbn [Z.eqb]. lia.
  - replace (f_exp (narrow d) =? 255) with false by lia.
    replace (f_exp (narrow d) =? 0) with false by lia. lia.
  - rewrite A. cbn [Z.eqb].
    assert (P5 : 0 < 2 ^ k) by (apply Z.pow_pos_nonneg; lia).
    replace (f_man (narrow d) =? 0) with false by lia.
    rewrite (Z.log2_unique (f_man (narrow d)) k) by lia.
    replace (2 ^ 52) with (2 ^ k * 2 ^ (52 - k)) in D
      by (rewrite <- Z.pow_add_r by lia; f_equal; lia).
    nia.
Qed.

(** ** Single precision is chosen exactly when it denotes the same number *)
Theorem denote_narrow d :
  0 <= d < 2 ^ 64 -> fits_single d = true ->
  denote32 (narrow d) = denote64 d /\ denote64 d <> FNaN.
Proof.
  intros Hd HF. destruct (d_split d Hd) as (E & Hs & He & Hm).
  destruct (narrow_fields d Hd HF) as (R & S & H).
  unfold denote32, denote64. rewrite S.
  destruct H as [(A & B & C & D) | [(A & B & C & D) | [(A & B & C) | (k & A & Hk & B & C & D)]]].
  - rewrite A, B, C, D. cbn [Z.eqb Pos.eqb]. split; [reflexivity|discriminate].
  - rewrite A, B, C, D. cbn [Z.eqb]. rewrite Z.mul_0_l. split; [reflexivity|discriminate].
  - replace (f_exp (narrow d) =? 255) with false by lia.
    replace (f_exp (narrow d) =? 0) with false by lia.
    replace (d_exp d =? 2047) with false by lia.
    replace (d_exp d =? 0) with false by lia.
    split; [|discriminate]. do 2 f_equal. rewrite B, C.
    replace (f_exp (narrow d) + 896 - 1) with (f_exp (narrow d) + 895) by lia.
    replace (924 + f_exp (narrow d)) with (29 + (f_exp (narrow d) + 895)) by lia.
    rewrite (Z.pow_add_r 2 29) by lia.
    change (2 ^ 52) with (2 ^ 23 * 2 ^ 29). ring.
  - rewrite A. cbn [Z.eqb]. replace (d_exp d =? 2047) with false by lia.
    replace (d_exp d =? 0) with false by lia.
    split; [|discriminate]. do 2 f_equal. rewrite D, B.
    replace 925 with ((52 - k) + (k + 874 - 1)) by lia.
    rewrite (Z.pow_add_r 2 (52 - k)) by lia. ring.
Qed.

Lemma sgn_inj_abs s1 a s2 b : 0 <= a -> 0 <= b -> sgn s1 a = sgn s2 b -> a = b.
Proof. unfold sgn. destruct (s1 =? 0), (s2 =? 0); lia. Qed.

Lemma log2_mul_pow2 a b n : 0 < a -> 0 <= n -> b = a * 2 ^ n -> Z.log2 b = Z.log2 a + n.
Proof. intros. subst. rewrite Z.log2_mul_pow2 by lia. lia. Qed.

Lemma FFin_inj a b : FFin a = FFin b -> a = b.
Proof. congruence. Qed.

Lemma pow925 : exists P, 2 ^ 925 = P /\ 2 ^ 52 <= P.
Proof. exists (2 ^ 925). split; [reflexivity|]. apply Z.pow_le_mono_r; lia. Qed.

Theorem fits_single_complete d f :
  0 <= d < 2 ^ 64 -> 0 <= f < 2 ^ 32 ->
  denote32 f = denote64 d -> denote64 d <> FNaN -> fits_single d = true.
Proof.
  intros Hd Hf EQ NN.
  destruct (d_split d Hd) as (_ & Hs & He & Hm). destruct (f_split f Hf) as (_ & Hs' & He' & Hm').
  unfold denote64, denote32 in *. unfold fits_single.
  set (e := d_exp d) in *. set (m := d_man d) in *.
  set (ef := f_exp f) in *. set (mf := f_man f) in *.
  clearbody e m ef mf.
  destruct (e =? 2047) eqn:E1.
  { destruct (m =? 0) eqn:E2; [reflexivity|congruence]. }
  destruct (ef =? 255) eqn:F1.
  { destruct (mf =? 0); destruct (e =? 0); discriminate. }
  clear NN.
  destruct (e =? 0) eqn:E2.
  { destruct pow925 as (P & EP & HP). 
    destruct (ef =? 0) eqn:F2.
    - apply FFin_inj in EQ. rewrite EP in EQ. apply sgn_inj_abs in EQ; [|nia|lia].
      assert (mf = 0 \/ 1 <= mf) as [M0 | M1] by lia; [lia|nia].
    - apply FFin_inj in EQ.
      assert (P2 : 2 ^ 925 <= 2 ^ (924 + ef)) by (apply Z.pow_le_mono_r; lia).
      rewrite EP in P2. revert EQ P2. generalize (2 ^ (924 + ef)). intros Q EQ P2.
      apply sgn_inj_abs in EQ; [|nia|lia]. nia. }
  assert (PE : 0 < 2 ^ (e - 1)) by (apply Z.pow_pos_nonneg; lia).
  assert (LM : Z.log2 (2 ^ 52 + m) = 52) by (apply Z.log2_unique; lia).
  destruct (ef =? 0) eqn:F2.
  { apply FFin_inj in EQ.
    assert (EQ' : mf * 2 ^ 925 = (2 ^ 52 + m) * 2 ^ (e - 1)).
    { destruct pow925 as (P & EP & HP). rewrite EP in *. clear EP.
      revert EQ PE. generalize (2 ^ (e - 1)). intros Q EQ PE.
      apply sgn_inj_abs in EQ; [assumption|nia|nia]. }
    clear EQ.
    assert (Hmf : 0 < mf).
    { destruct pow925 as (P & EP & HP). rewrite EP in *. clear EP.
      revert EQ' PE. generalize (2 ^ (e - 1)). intros Q EQ PE.
      assert (mf = 0 \/ 0 < mf) as [-> | ?] by lia; [nia|assumption]. }
    assert (L : Z.log2 mf + 925 = 52 + (e - 1)).
    { rewrite <- LM at 1.
      rewrite <- (log2_mul_pow2 mf (mf * 2 ^ 925) 925) by (reflexivity || lia).
      rewrite <- (log2_mul_pow2 (2 ^ 52 + m) ((2 ^ 52 + m) * 2 ^ (e - 1)) (e - 1)) by (reflexivity || lia).
      rewrite EQ'. reflexivity. }
    set (k := Z.log2 mf) in *.
    assert (Hk : 0 <= k <= 22).
    { split; [apply Z.log2_nonneg|]. assert (k < 23); [|lia]. apply Z.log2_lt_pow2; lia. }
    replace ((-126 <=? e - 1023) && (e - 1023 <=? 127)) with false by lia.
    replace ((-149 <=? e - 1023) && (e - 1023 <? -126)) with true by lia.
    replace (- 97 - (e - 1023)) with (52 - k) by lia.
    assert (EM : 2 ^ 52 + m = mf * 2 ^ (52 - k)).
    { replace 925 with ((52 - k) + (e - 1)) in EQ' by lia.
      rewrite Z.pow_add_r in EQ' by lia.
      apply Z.mul_reg_r with (2 ^ (e - 1)); [lia|]. rewrite <- EQ'. ring. }
    rewrite EM. rewrite Z_mod_mult. reflexivity. }
  apply FFin_inj in EQ.
  assert (PF : 0 < 2 ^ (924 + ef)) by (apply Z.pow_pos_nonneg; lia).
  assert (EQ' : (2 ^ 23 + mf) * 2 ^ (924 + ef) = (2 ^ 52 + m) * 2 ^ (e - 1)).
  { revert EQ PE PF. generalize (2 ^ (e - 1)) (2 ^ (924 + ef)). intros Q R EQ PE PF.
    apply sgn_inj_abs in EQ; [assumption|nia|nia]. }
  clear EQ.
  assert (LF : Z.log2 (2 ^ 23 + mf) = 23) by (apply Z.log2_unique; lia).
  assert (L : 23 + (924 + ef) = 52 + (e - 1)).
  { rewrite <- LM at 1. rewrite <- LF at 1.
    rewrite <- (log2_mul_pow2 (2 ^ 23 + mf) ((2 ^ 23 + mf) * 2 ^ (924 + ef)) (924 + ef)) by (reflexivity || lia).
    rewrite <- (log2_mul_pow2 (2 ^ 52 + m) ((2 ^ 52 + m) * 2 ^ (e - 1)) (e - 1)) by (reflexivity || lia).
    rewrite EQ'. reflexivity. }
  replace ((-126 <=? e - 1023) && (e - 1023 <=? 127)) with true by lia.
  assert (EM : 2 ^ 52 + m = (2 ^ 23 + mf) * 2 ^ 29).
  { replace (924 + ef) with (29 + (e - 1)) in EQ' by lia.
    rewrite Z.pow_add_r in EQ' by lia.
    apply Z.mul_reg_r with (2 ^ (e - 1)); [lia|]. rewrite <- EQ'. ring. }
  assert (EM' : m = mf * 2 ^ 29) by lia.
  rewrite EM', Z_mod_mult. reflexivity.
Qed.
