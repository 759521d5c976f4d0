(** Integers and floats through a packet. *)

From Coq Require Import ZArith List Bool Lia ZifyBool Floats.SpecFloat.
From Verif Require Import Base BaseFacts Dec DecFacts SpecDec Float Ordered SpecConv Conv.
Open Scope Z_scope.

(** ** Single precision *)
Lemma widen_fields f : 0 <= f < 2 ^ 32 ->
  0 <= widen f < 2 ^ 64 /\ d_sign (widen f) = f_sign f /\
  ( (f_exp f = 255 /\ d_exp (widen f) = 2047 /\ d_man (widen f) = f_man f * 2 ^ 29)
  \/ (f_exp f = 0 /\ f_man f = 0 /\ d_exp (widen f) = 0 /\ d_man (widen f) = 0)
  \/ (1 <= f_exp f <= 254 /\ d_exp (widen f) = f_exp f + 896 /\ d_man (widen f) = f_man f * 2 ^ 29)
  \/ (exists k, f_exp f = 0 /\ 0 <= k <= 22 /\ 2 ^ k <= f_man f < 2 ^ (k + 1) /\
        d_exp (widen f) = k + 874 /\ d_man (widen f) = (f_man f - 2 ^ k) * 2 ^ (52 - k))).
Proof.
  intros Hf. destruct (f_split f Hf) as (E & Hs & He & Hm).
  unfold widen.
  destruct (Z.eqb_spec (f_exp f) 255) as [E1|E1].
  { destruct (d_fields (f_sign f) 2047 (f_man f * 2 ^ 29) ltac:(lia) ltac:(lia) ltac:(lia)) as (R & A & B & C).
    rewrite Z.add_assoc. split; [exact R|]. split; [exact A|]. left. auto. }
  destruct (Z.eqb_spec (f_exp f) 0) as [E0|E0].
  { destruct (Z.eqb_spec (f_man f) 0) as [M0|M0].
    - destruct (d_fields (f_sign f) 0 0 ltac:(lia) ltac:(lia) ltac:(lia)) as (R & A & B & C).
      replace (f_sign f * 2 ^ 63 + 0) with (f_sign f * 2 ^ 63 + 0 * 2 ^ 52 + 0) by lia.
      split; [exact R|]. split; [exact A|]. right. left. auto.
    - set (k := Z.log2 (f_man f)).
      assert (K : 2 ^ k <= f_man f < 2 ^ (k + 1)) by (apply Z.log2_spec; lia).
      assert (K0 : 0 <= k) by apply Z.log2_nonneg.
      assert (K1 : k < 23) by (apply Z.log2_lt_pow2; lia).
      assert (M : 0 <= (f_man f - 2 ^ k) * 2 ^ (52 - k) < 2 ^ 52).
      { replace (2 ^ 52) with (2 ^ k * 2 ^ (52 - k)) by (rewrite <- Z.pow_add_r; f_equal; lia).
        assert (0 < 2 ^ (52 - k)) by (apply Z.pow_pos_nonneg; lia).
        rewrite Z.pow_add_r in K by lia. nia. }
      destruct (d_fields (f_sign f) (k + 874) _ ltac:(lia) ltac:(lia) M) as (R & A & B & C).
      replace (k - 149 + 1023) with (k + 874) by lia.
      rewrite Z.add_assoc. split; [exact R|]. split; [exact A|]. right. right. right. exists k.
      split; [auto|]. split; [lia|]. auto. }
  destruct (d_fields (f_sign f) (f_exp f + 896) (f_man f * 2 ^ 29) ltac:(lia) ltac:(lia) ltac:(lia)) as (R & A & B & C).
  replace (f_exp f - 127 + 1023) with (f_exp f + 896) by lia.
  rewrite Z.add_assoc. split; [exact R|]. split; [exact A|]. right. right. left. split; [lia|]. auto.
Qed.

Theorem widen_range f : 0 <= f < 2 ^ 32 -> 0 <= widen f < 2 ^ 64.
Proof. intros H. apply widen_fields. auto. Qed.

Theorem denote_widen f : 0 <= f < 2 ^ 32 -> denote64 (widen f) = denote32 f.
Proof.
  intros Hf. destruct (f_split f Hf) as (E & Hs & He & Hm).
  destruct (widen_fields f Hf) as (R & S & H). unfold denote64, denote32. rewrite S.
  destruct H as [(A & B & C) | [(A & B & C & D) | [(A & B & C) | (k & A & Hk & B & C & D)]]].
  - rewrite A, B, C. cbn [Z.eqb Pos.eqb]. destruct (Z.eqb_spec (f_man f) 0), (Z.eqb_spec (f_man f * 2 ^ 29) 0); auto; lia.
  - rewrite A, B, C, D. cbn [Z.eqb Pos.eqb]. rewrite Z.mul_0_l. auto.
  - destruct (Z.eqb_spec (d_exp (widen f)) 2047); [lia|]. destruct (Z.eqb_spec (d_exp (widen f)) 0); [lia|].
    destruct (Z.eqb_spec (f_exp f) 255); [lia|]. destruct (Z.eqb_spec (f_exp f) 0); [lia|].
    f_equal. f_equal. rewrite B, C.
    replace (924 + f_exp f) with (29 + (f_exp f + 896 - 1)) by lia.
    rewrite (Z.pow_add_r 2 29) by lia. lia.
  - destruct (Z.eqb_spec (d_exp (widen f)) 2047); [lia|]. destruct (Z.eqb_spec (d_exp (widen f)) 0); [lia|].
    rewrite A. cbn [Z.eqb]. f_equal. f_equal. rewrite C, D.
    replace (2 ^ 52) with (2 ^ k * 2 ^ (52 - k)) by (rewrite <- Z.pow_add_r; f_equal; lia).
    replace (2 ^ 925) with (2 ^ (52 - k) * 2 ^ (k + 874 - 1)) by (rewrite <- Z.pow_add_r by lia; f_equal; lia).
    lia.
Qed.

Lemma narrow_widen f : 0 <= f < 2 ^ 32 -> denote32 f <> FNaN -> narrow (widen f) = f.
Proof.
  intros Hf N. destruct (f_split f Hf) as (E & Hs & He & Hm).
  destruct (widen_fields f Hf) as (R & S & H). unfold narrow. rewrite S.
  destruct H as [(A & B & C) | [(A & B & C & D) | [(A & B & C) | (k & A & Hk & B & C & D)]]].
  - unfold denote32 in N. rewrite A in N. cbn [Z.eqb Pos.eqb] in N.
    destruct (Z.eqb_spec (f_man f) 0); [|congruence]. rewrite B. cbn [Z.eqb Pos.eqb]. lia.
  - rewrite C. cbn [Z.eqb]. lia.
  - destruct (Z.eqb_spec (d_exp (widen f)) 2047); [lia|]. destruct (Z.eqb_spec (d_exp (widen f)) 0); [lia|].
    destruct (Z.leb_spec (-126) (d_exp (widen f) - 1023)); [|lia].
    rewrite B, C, Z.div_mul by lia. lia.
  - destruct (Z.eqb_spec (d_exp (widen f)) 2047); [lia|]. destruct (Z.eqb_spec (d_exp (widen f)) 0); [lia|].
    destruct (Z.leb_spec (-126) (d_exp (widen f) - 1023)); [lia|].
    rewrite C, D. replace (-97 - (k + 874 - 1023)) with (52 - k) by lia.
    replace (2 ^ 52) with (2 ^ k * 2 ^ (52 - k)) by (rewrite <- Z.pow_add_r; f_equal; lia).
    rewrite <- Z.mul_add_distr_r, Z.div_mul by (apply Z.pow_nonzero; lia). lia.
Qed.

Theorem to_float_widen f : 0 <= f < 2 ^ 32 ->
  to_float (widen f) = f \/ denote32 f = FNaN /\ denote32 (to_float (widen f)) = FNaN.
Proof.
  intros Hf. pose proof (denote_widen f Hf) as W. pose proof (widen_range f Hf) as R.
  destruct (denote32 f) as [|b|n] eqn:D.
  - right. split; auto. unfold to_float.
    assert (X : d_exp (widen f) = 2047 /\ d_man (widen f) <> 0).
    { unfold denote64 in W. destruct (Z.eqb_spec (d_exp (widen f)) 2047).
      - destruct (Z.eqb_spec (d_man (widen f)) 0); [discriminate | auto].
      - destruct (d_exp (widen f) =? 0); discriminate. }
    destruct X as [X Y]. unfold fits_single. rewrite X. cbn [Z.eqb Pos.eqb].
    destruct (Z.eqb_spec (d_man (widen f)) 0); [congruence|].
    unfold sf_of_bits. rewrite X. cbn [Z.eqb Pos.eqb].
    destruct (Z.eqb_spec (d_man (widen f)) 0); [congruence|]. reflexivity.
  - left. unfold to_float. rewrite (fits_single_complete (widen f) f) by (auto; congruence).
    apply narrow_widen; congruence.
  - left. unfold to_float. rewrite (fits_single_complete (widen f) f) by (auto; congruence).
    apply narrow_widen; congruence.
Qed.

(** ** Integers *)
Lemma conv_cong i z : (1 <= it_bytes i)%nat -> (conv i z - z) mod 2 ^ it_bits i = 0.
Proof.
  intros Hi. assert (P : 0 < 2 ^ it_bits i) by (apply Z.pow_pos_nonneg; unfold it_bits; lia).
  apply Z.mod_divide; [lia|]. unfold conv, to_signed.
  assert (D : (2 ^ it_bits i | z mod 2 ^ it_bits i - z)).
  { exists (- (z / 2 ^ it_bits i)). pose proof (Z.div_mod z (2 ^ it_bits i)). lia. }
  destruct (it_signed i); auto. destruct (_ <? _); auto.
  replace (z mod 2 ^ it_bits i - 2 ^ it_bits i - z) with (z mod 2 ^ it_bits i - z + (-1) * 2 ^ it_bits i) by lia.
  apply Z.divide_add_r; auto. exists (-1). lia.
Qed.

Lemma conv_range i z : (1 <= it_bytes i)%nat -> in_range i (conv i z).
Proof.
  intros Hi. assert (P : 0 < 2 ^ (it_bits i - 1)) by (apply Z.pow_pos_nonneg; unfold it_bits; lia).
  assert (Q : 2 ^ it_bits i = 2 * 2 ^ (it_bits i - 1)) by (rewrite <- Z.pow_succ_r by (unfold it_bits; lia); f_equal; lia).
  pose proof (Z.mod_pos_bound z (2 ^ it_bits i) ltac:(lia)).
  unfold in_range, conv, to_signed. destruct (it_signed i); [|auto].
  destruct (Z.ltb_spec (z mod 2 ^ it_bits i) (2 ^ (it_bits i - 1))); lia.
Qed.

Lemma range_unique i x y : (1 <= it_bytes i)%nat -> in_range i x -> in_range i y ->
  (x - y) mod 2 ^ it_bits i = 0 -> x = y.
Proof.
  intros Hi Hx Hy H. assert (P : 0 < 2 ^ (it_bits i - 1)) by (apply Z.pow_pos_nonneg; unfold it_bits; lia).
  assert (Q : 2 ^ it_bits i = 2 * 2 ^ (it_bits i - 1)) by (rewrite <- Z.pow_succ_r by (unfold it_bits; lia); f_equal; lia).
  apply Z.mod_divide in H; [|lia]. destruct H as [q H].
  assert (-2 ^ it_bits i < x - y < 2 ^ it_bits i) by (unfold in_range in *; destruct (it_signed i); lia).
  assert (q = 0) by nia. subst. lia.
Qed.

Lemma conv_mult i z y : (1 <= it_bytes i)%nat -> in_range i z -> (y - z) mod 2 ^ it_bits i = 0 -> conv i y = z.
Proof.
  intros Hi Hz H. apply (range_unique i); auto using conv_range.
  assert (P : 0 < 2 ^ it_bits i) by (apply Z.pow_pos_nonneg; unfold it_bits; lia).
  pose proof (conv_cong i y Hi) as C. apply Z.mod_divide in H; [|lia]. apply Z.mod_divide in C; [|lia].
  apply Z.mod_divide; [lia|]. replace (conv i y - z) with (conv i y - y + (y - z)) by lia.
  apply Z.divide_add_r; auto.
Qed.

Theorem conv_back i z : (1 <= it_bytes i <= 8)%nat -> in_range i z -> conv i (conv int64 z) = z.
Proof.
  intros Hi Hz. apply conv_mult; [lia | auto|].
  assert (C : (conv int64 z - z) mod 2 ^ 64 = 0) by exact (conv_cong int64 z ltac:(cbn; lia)).
  assert (P : 0 < 2 ^ it_bits i) by (apply Z.pow_pos_nonneg; unfold it_bits; lia).
  apply Z.mod_divide in C; [|lia]. apply Z.mod_divide; [lia|].
  apply Z.divide_trans with (2 ^ 64); auto.
  exists (2 ^ (64 - it_bits i)). rewrite <- Z.pow_add_r by (unfold it_bits; lia). f_equal. lia.
Qed.

Theorem conv64 z :
  - 2 ^ 63 <= conv int64 z < 2 ^ 63 /\ (conv int64 z - z) mod 2 ^ 64 = 0.
Proof.
  split; [exact (conv_range int64 z ltac:(cbn; lia)) | exact (conv_cong int64 z ltac:(cbn; lia))].
Qed.
