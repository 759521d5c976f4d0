(** Facts: the operations of Arith.v are those of IEEE-754 (SpecArith.v). *)

From Coq Require Import ZArith List Bool Lia Floats.SpecFloat ZifyBool.
From Verif Require Import Base Dec SpecDec DecFacts Float Round RoundOps SpecArith FloatFacts Arith Packet Wire.
Open Scope Z_scope.

Lemma limit_pos : 0 < limit64.
Proof. unfold limit64. apply Z.mul_pos_pos; [lia|]. apply Z.pow_pos_nonneg; lia. Qed.

Lemma finite_limit x n : valid64 x = true -> den64 x = Some n -> Z.abs n < limit64.
Proof.
  intros V E. pose proof limit_pos. destruct x as [s|s| |s m e]; cbn [den] in E; try discriminate.
  - injection E as <-. change (Z.abs 0) with 0. assumption.
  - cbn [valid_binary] in V. apply bounded_spec in V; [|lia]. rewrite emin64 in *. destruct V as (A & B & _).
    change (1024 - 53) with 971 in A.
    assert (X : Z.abs n = Zpos m * 2 ^ (e - - 1074)).
    { assert (0 < 2 ^ (e - - 1074)) by (apply Z.pow_pos_nonneg; lia).
      assert (n = cond_Zopp s (Zpos m * 2 ^ (e - - 1074))) as -> by congruence.
      destruct s; cbn [cond_Zopp]; rewrite ?Z.abs_opp; apply Z.abs_eq; lia. }
    rewrite X. unfold limit64.
    assert (2 ^ (e - - 1074) <= 2 ^ 2045) by (apply Z.pow_le_mono_r; lia).
    assert (P : 2 ^ 2045 = 2 * 2 ^ 2044) by (change 2045 with (1 + 2044); rewrite Z.pow_add_r by lia; reflexivity).
    assert (0 < 2 ^ 2044) by (apply Z.pow_pos_nonneg; lia).
    set (u := 2 ^ 2044) in *. set (t := 2 ^ (e - - 1074)) in *.
    assert (Zpos m * t <= (2 ^ 53 - 1) * (2 * u)) by (apply Z.mul_le_mono_nonneg; lia).
    lia.
Qed.

(** What is a double already is not changed by rounding. *)
Lemma exact_rounded x n : valid64 x = true -> den64 x = Some n -> n <> 0 -> rounded n 1 (n <? 0) (bits_of_sf x).
Proof.
  intros V E NZ. pose proof (finite_limit x n V E) as L. apply correct_rounded. unfold correct. rewrite limit64_eq.
  assert (Z.abs n <? limit64 * 1 = true) as -> by lia.
  split.
  { destruct x as [s|s| |s m e]; cbn [den] in E; try discriminate; [congruence|]. cbn [sf_sign].
    assert (n = cond_Zopp s (Zpos m * 2 ^ (e - SpecFloat.emin 53 1024))) as -> by congruence.
    rewrite emin64 in *. cbn [valid_binary] in V. apply bounded_spec in V; [|lia]. rewrite emin64 in V.
    assert (0 < 2 ^ (e - - 1074)) by (apply Z.pow_pos_nonneg; lia).
    assert (0 < Zpos m * 2 ^ (e - - 1074)) by (apply Z.mul_pos_pos; lia).
    destruct s; cbn [cond_Zopp]; lia. }
  split; [exact V|]. exists n. split; [exact E|]. intros y n' _ _.
  replace (n - n * 1) with 0 by lia. cbn [Z.abs]. split; [lia|]. left. lia.
Qed.

Lemma zero_rounded D s : 0 < D -> rounded 0 D s (bits_of_sf (S754_zero s)).
Proof.
  intros HD. apply correct_rounded. unfold correct. rewrite limit64_eq. pose proof limit_pos.
  assert (Z.abs 0 <? limit64 * D = true) as -> by (pose proof (Z.mul_pos_pos limit64 D); cbn [Z.abs]; lia).
  split; [reflexivity|]. split; [reflexivity|]. exists 0. split; [reflexivity|].
  intros y n' _ _. cbn [Z.mul Z.sub Z.add Z.opp Z.abs]. split; [lia|]. now right.
Qed.

Lemma zero_is s : is_zero s (bits_of_sf (S754_zero s)).
Proof. destruct s; (split; [split; [discriminate|reflexivity]|]); split; reflexivity. Qed.
Lemma inf_is s : is_inf s (bits_of_sf (S754_infinity s)).
Proof. destruct s; (split; [split; [discriminate|reflexivity]|]); reflexivity. Qed.
Lemma nan_is : is_nan (bits_of_sf S754_nan).
Proof. split; [split; [discriminate|reflexivity]|]. reflexivity. Qed.

Lemma P1074 : 0 < 2 ^ 1074.
Proof. apply Z.pow_pos_nonneg; lia. Qed.
Lemma H53 : 1 < 53. Proof. lia. Qed.
Lemma H1024 : 53 < 1024. Proof. lia. Qed.

Lemma den_sign s m e n : valid64 (S754_finite s m e) = true -> den64 (S754_finite s m e) = Some n -> (n <? 0) = s.
Proof.
  intros V E. cbn [den] in E. rewrite emin64 in E. cbn [valid_binary] in V.
  apply bounded_spec in V; [|lia]. rewrite emin64 in V. destruct V as [V _].
  assert (0 < 2 ^ (e - - 1074)) by (apply Z.pow_pos_nonneg; lia).
  assert (0 < Zpos m * 2 ^ (e - - 1074)) by (apply Z.mul_pos_pos; lia).
  set (u := Zpos m * 2 ^ (e - - 1074)) in *.
  assert (n = cond_Zopp s u) as -> by congruence. destruct s; cbn [cond_Zopp]; lia.
Qed.

Theorem d_op_ieee o a b : bits64 a -> bits64 b -> ieee o a b (d_op o a b).
Proof.
  intros A B. pose proof (of_bits_spec a A) as [VA SA]. pose proof (of_bits_spec b B) as [VB SB].
  unfold ieee, d_op. set (x := sf_of_bits a) in *. set (y := sf_of_bits b) in *. cbv zeta.
  destruct (denote64 a) as [|sa|na].
  { rewrite SA. destruct o; exact nan_is. }
  { destruct SA as [-> EA].
    destruct (denote64 b) as [|sb|nb].
    - rewrite SB. destruct o; exact nan_is.
    - destruct SB as [-> EB]. rewrite <- EA, <- EB.
      destruct o, sa, sb; first [exact nan_is | exact (inf_is true) | exact (inf_is false)].
    - destruct SB as (_ & _ & Z0 & NZ). rewrite <- EA. destruct (Z.eq_dec nb 0) as [E|E].
      + rewrite (Z0 E). rewrite E. cbn [Z.eqb]. destruct o, sa, (negative b); first [exact nan_is | exact (inf_is true) | exact (inf_is false)].
      + destruct (NZ E) as (m & e & ->). replace (nb =? 0) with false by (clear - E; lia).
        destruct o, sa, (negative b); first [exact (inf_is true) | exact (inf_is false)]. }
  destruct SA as (DA & GA & ZA & FA).
  destruct (denote64 b) as [|sb|nb].
  { rewrite SB. destruct (Z.eq_dec na 0) as [E|E]; [rewrite (ZA E)|destruct (FA E) as (m & e & ->)]; destruct o; exact nan_is. }
  { destruct SB as [-> EB]. rewrite <- EB. destruct (Z.eq_dec na 0) as [E|E].
    - rewrite (ZA E), E. cbn [Z.eqb]. destruct o, sb, (negative a);
        first [exact nan_is | exact (inf_is true) | exact (inf_is false) | exact (zero_is true) | exact (zero_is false)].
    - destruct (FA E) as (m & e & ->). replace (na =? 0) with false by (clear - E; lia).
      destruct o, sb, (negative a);
        first [exact (inf_is true) | exact (inf_is false) | exact (zero_is true) | exact (zero_is false)]. }
  destruct SB as (DB & GB & ZB & FB).
  clearbody x y.
  destruct (Z.eq_dec na 0) as [Ea|Ea]; destruct (Z.eq_dec nb 0) as [Eb|Eb].
  - rewrite (ZA Ea), (ZB Eb), Ea, Eb. destruct o.
    + destruct (negative a), (negative b); first [exact (zero_is true) | exact (zero_is false)].
    + destruct (negative a), (negative b); first [exact (zero_is true) | exact (zero_is false)].
    + exact (zero_rounded _ _ P1074).
    + exact nan_is.
  - rewrite (ZA Ea). destruct (FB Eb) as (m & e & Ey). rewrite Ey, Ea. destruct o.
    + replace (0 + nb =? 0) with false by (clear - Ea Eb; lia). cbn [SFadd]. rewrite <- Ey. apply (exact_rounded y nb VB DB Eb).
    + replace (0 - nb =? 0) with false by (clear - Ea Eb; lia). cbn [SFsub].
      apply (exact_rounded (S754_finite (negb (negative b)) m e) (0 - nb)).
      * rewrite Ey in VB. exact VB.
      * rewrite Ey in DB. change (S754_finite (negb (negative b)) m e) with (SFopp (S754_finite (negative b) m e)).
        rewrite den_opp, DB. reflexivity.
      * lia.
    + cbn [SFmul Z.mul]. exact (zero_rounded _ _ P1074).
    + replace (nb =? 0) with false by (clear - Ea Eb; lia). cbn [SFdiv Z.mul]. apply zero_rounded. lia.
  - destruct (FA Ea) as (m & e & Ex). rewrite (ZB Eb), Ex, Eb. destruct o.
    + replace (na + 0 =? 0) with false by (clear - Ea Eb; lia). cbn [SFadd]. rewrite <- Ex. replace (na + 0) with na by lia. now apply (exact_rounded x na).
    + replace (na - 0 =? 0) with false by (clear - Ea Eb; lia). cbn [SFsub]. rewrite <- Ex. replace (na - 0) with na by lia. now apply (exact_rounded x na).
    + cbn [SFmul]. rewrite Z.mul_0_r. exact (zero_rounded _ _ P1074).
    + replace (na =? 0) with false by (clear - Ea Eb; lia). cbn [SFdiv Z.eqb]. apply inf_is.
  - destruct (FA Ea) as (mx & ex & Ex). destruct (FB Eb) as (my & ey & Ey). rewrite Ex, Ey in *.
    set (sa := negative a) in *. set (sb := negative b) in *.
    destruct o.
    + destruct (add_finite 53 1024 H53 H1024 _ _ _ _ _ _ na nb VA VB DA DB) as [[S ->]|[S C]].
      * replace (na + nb =? 0) with true by (clear - S; lia).
        assert (SG : sa && sb = false).
        { rewrite <- (den_sign _ _ _ _ VA DA), <- (den_sign _ _ _ _ VB DB). clear - S. lia. }
        rewrite SG. apply zero_is.
      * replace (na + nb =? 0) with false by (clear - S; lia). now apply correct_rounded.
    + destruct (sub_finite 53 1024 H53 H1024 _ _ _ _ _ _ na nb VA VB DA DB) as [[S ->]|[S C]].
      * replace (na - nb =? 0) with true by (clear - S; lia).
        assert (SG : sa && negb sb = false).
        { rewrite <- (den_sign _ _ _ _ VA DA), <- (den_sign _ _ _ _ VB DB). clear - S Ea. lia. }
        rewrite SG. apply zero_is.
      * replace (na - nb =? 0) with false by (clear - S; lia). now apply correct_rounded.
    + apply correct_rounded. exact (mul_finite 53 1024 H53 H1024 _ _ _ _ _ _ na nb VA VB DA DB).
    + replace (nb =? 0) with false by (clear - Ea Eb; lia).
      apply correct_rounded. exact (div_finite 53 1024 H53 H1024 _ _ _ _ _ _ na nb VA VB DA DB).
Qed.

Theorem int_bits_of_int z : of_int z (int_bits z).
Proof.
  unfold of_int, int_bits, sf_of_int. destruct (Z.eq_dec z 0) as [->|NZ].
  - exact (zero_rounded 1 false ltac:(lia)).
  - apply correct_rounded. apply normalize_correct; try lia.
    exists 0. rewrite emin64. split; [lia|]. split; [lia|]. change (0 - - 1074 + 0) with 1074. lia.
Qed.
