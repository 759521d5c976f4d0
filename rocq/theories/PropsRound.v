(** Rounding elsewhere: large integers in JSON text (C26), doubles read as floats
    (C37), integers compared with decimals (C38). *)

From Coq Require Import ZArith List Bool Lia Floats.SpecFloat ZifyBool.
From Verif Require Import Base Keys Dec SpecDec DecFacts Float Wire SpecArith ArithSpec Round RoundOps FloatFacts
  ArithFacts Arith Float32 ConvNum SpecConv Conv Json CompareFacts.
Import ListNotations.
Open Scope Z_scope.

(** ** C26: an integer of 2^63 or more becomes the nearest double. *)
Theorem c26_large_integer_nearest z : 2 ^ 63 <= z < 2 ^ 64 -> of_int z (dec_of_uint64 z).
Proof.
  intros H. unfold dec_of_uint64. set (q := z / 2048). set (r := z mod 2048).
  pose proof (Z.div_mod z 2048 ltac:(lia)) as DM. fold q r in DM.
  pose proof (Z.mod_pos_bound z 2048 ltac:(lia)) as MB. fold r in MB.
  set (l := if r =? 0 then loc_Exact else loc_Inexact (2 * r ?= 2048)).
  assert (L : located z 2048 q l).
  { unfold l. destruct (r =? 0) eqn:E; cbn [located]; [lia|]. split; [lia|]. f_equal. lia. }
  set (q' := if (1024 <? r) || ((r =? 1024) && Z.odd q) then q + 1 else q).
  assert (Q : q' = round_nearest_even q l).
  { unfold q', l. rewrite <- Z.negb_even. destruct (r =? 0) eqn:E; cbn [round_nearest_even].
    - assert (1024 <? r = false) as -> by lia. assert (r =? 1024 = false) as -> by lia. reflexivity.
    - destruct (Z.compare_spec (2 * r) 2048) as [C|C|C].
      + assert (1024 <? r = false) as -> by lia. assert (r =? 1024 = true) as -> by lia.
        cbn [orb andb]. destruct (Z.even q); reflexivity.
      + assert (1024 <? r = false) as -> by lia. assert (r =? 1024 = false) as -> by lia. reflexivity.
      + assert (1024 <? r = true) as -> by lia. reflexivity. }
  pose proof (rne_nearest z 2048 q l ltac:(lia) L) as NR. rewrite <- Q in NR.
  assert (QB : 2 ^ 52 <= q' <= 2 ^ 53).
  { unfold q'. destruct ((1024 <? r) || ((r =? 1024) && Z.odd q)); lia. }
  clearbody q' l. clear Q L.
  unfold of_int, rounded.
  assert (FB : bits64 (1086 * 2 ^ 52 + (q' - 2 ^ 52)) /\ negative (1086 * 2 ^ 52 + (q' - 2 ^ 52)) = false /\
               denote64 (1086 * 2 ^ 52 + (q' - 2 ^ 52)) = FFin (q' * 2 ^ 1085) /\
               Z.even (1086 * 2 ^ 52 + (q' - 2 ^ 52)) = Z.even q').
  { split; [unfold bits64; lia|]. split; [|split].
    - destruct (Z.eq_dec q' (2 ^ 53)) as [->|N]; [reflexivity|].
      destruct (d_fields 0 1086 (q' - 2 ^ 52) ltac:(lia) ltac:(lia) ltac:(lia)) as (_ & F2 & _).
      replace (0 * 2 ^ 63 + 1086 * 2 ^ 52 + (q' - 2 ^ 52)) with (1086 * 2 ^ 52 + (q' - 2 ^ 52)) in F2 by lia.
      unfold negative. rewrite F2. reflexivity.
    - destruct (Z.eq_dec q' (2 ^ 53)) as [->|N].
      + change (1086 * 2 ^ 52 + (2 ^ 53 - 2 ^ 52)) with (1087 * 2 ^ 52). vm_compute. reflexivity.
      + destruct (d_fields 0 1086 (q' - 2 ^ 52) ltac:(lia) ltac:(lia) ltac:(lia)) as (_ & F2 & F3 & F4).
        replace (0 * 2 ^ 63 + 1086 * 2 ^ 52 + (q' - 2 ^ 52)) with (1086 * 2 ^ 52 + (q' - 2 ^ 52)) in * by lia.
        unfold denote64. rewrite F2, F3, F4. cbn [Z.eqb Pos.eqb]. unfold sgn. cbn [Z.eqb]. f_equal.
        replace (2 ^ 52 + (q' - 2 ^ 52)) with q' by lia. reflexivity.
    - rewrite Z.even_add, Z.even_sub, Z.even_mul. cbn [Z.even]. change (Z.even (2 ^ 52)) with true. cbn [orb].
      destruct (Z.even q'); reflexivity. }
  destruct FB as (B & NG & D & EV). split; [exact B|]. assert (z <? 0 = false) as -> by lia. split; [exact NG|].
  assert (LIM : Z.abs (z * 2 ^ 1074) < limit64).
  { rewrite Z.abs_mul, (Z.abs_eq (2 ^ 1074)), (Z.abs_eq z) by (lia || (apply Z.pow_nonneg; lia)).
    unfold limit64. replace (2 ^ 2044) with (2 ^ 970 * 2 ^ 1074) by (rewrite <- Z.pow_add_r by lia; reflexivity).
    rewrite Z.mul_assoc. apply Z.mul_lt_mono_pos_r; [apply Z.pow_pos_nonneg; lia|].
    assert (X : 2 ^ 64 < 2 ^ 970) by (apply Z.pow_lt_mono_r; lia).
    apply Z.lt_trans with (2 ^ 64); [lia|]. apply Z.lt_le_trans with (1 * 2 ^ 970); [lia|].
    apply Z.mul_le_mono_nonneg_r; lia. }
  rewrite Z.mul_1_r. destruct (Z.abs (z * 2 ^ 1074) <? limit64) eqn:C; [|apply Z.ltb_ge in C; clear - C LIM; lia].
  clear C LIM.
  exists (q' * 2 ^ 1085). split; [exact D|]. rewrite EV.
  intros r' n' B' D'. pose proof (of_bits_spec r' B') as [V O]. rewrite D' in O. destruct O as [O _].
  assert (RS : z * 2 ^ 1074 * 2048 = z * 1 * 2 ^ 1085).
  { change 2048 with (2 ^ 11). rewrite <- Z.mul_assoc, <- Z.pow_add_r by lia. rewrite Z.mul_1_r. reflexivity. }
  refine (core_nearest 53 1024 H53 z 1 2048 (z * 2 ^ 1074) q' 1085 (sf_of_bits r') n' _ _ _ RS NR _ V O); try (clear; lia).
  right. change (53 - 1) with 52. clear - H. lia.
Qed.
Print Assumptions c26_large_integer_nearest.
Example c26_ex_large : dec_of_uint64 (2 ^ 64 - 1) = 1087 * 2 ^ 52 /\ dec_of_uint64 (2 ^ 63 + 1024) = 1086 * 2 ^ 52
  /\ dec_of_uint64 (2 ^ 63 + 1025) = 1086 * 2 ^ 52 + 1 /\ dec_of_uint64 (2 ^ 63 + 3072) = 1086 * 2 ^ 52 + 2.
Proof. repeat split; vm_compute; reflexivity. Qed.

(** ** C38: an integer and a decimal are equal when the nearest double to the integer
    is the decimal. *)
Lemma sf_eqb_den x y : valid64 x = true -> valid64 y = true -> forall a b, den64 x = Some a -> den64 y = Some b ->
  (SFeqb x y = true <-> a = b).
Proof.
  assert (FZ : forall s m e n, valid64 (S754_finite s m e) = true -> den64 (S754_finite s m e) = Some n -> n <> 0).
  { intros s m e n V E -> . pose proof (den_sign s m e 0 V E) as S. cbn [den] in E. rewrite emin64 in E.
    cbn [valid_binary] in V. apply bounded_spec in V; [|lia]. rewrite emin64 in V.
    assert (0 < 2 ^ (e - - 1074)) by (apply Z.pow_pos_nonneg; lia).
    assert (0 < Zpos m * 2 ^ (e - - 1074)) by (apply Z.mul_pos_pos; lia).
    set (u := Zpos m * 2 ^ (e - - 1074)) in *.
    assert (0 = cond_Zopp s u) by congruence. destruct s; unfold cond_Zopp in *; lia. }
  intros VX VY a b EX EY. destruct x as [s|s| |s m e], y as [t|t| |t n f]; try discriminate EX; try discriminate EY.
  - cbn [den] in *. unfold SFeqb, SFcompare. split; congruence.
  - pose proof (FZ _ _ _ _ VY EY). cbn [den] in EX. injection EX as <-. unfold SFeqb, SFcompare. destruct t; split; congruence.
  - pose proof (FZ _ _ _ _ VX EX). cbn [den] in EY. injection EY as <-. unfold SFeqb, SFcompare. destruct s; split; congruence.
  - pose proof (den_sign _ _ _ _ VX EX) as SX. pose proof (den_sign _ _ _ _ VY EY) as SY.
    pose proof (FZ _ _ _ _ VX EX) as NX. pose proof (FZ _ _ _ _ VY EY) as NY.
    cbn [den] in EX, EY. rewrite emin64 in EX, EY. cbn [valid_binary] in VX, VY.
    apply bounded_spec in VX; [|lia]. apply bounded_spec in VY; [|lia]. rewrite emin64 in VX, VY.
    change (53 - 1) with 52 in *. destruct VX as (A1 & A2 & A3), VY as (B1 & B2 & B3).
    assert (EA : a = cond_Zopp s (Zpos m * 2 ^ (e - - 1074))) by congruence.
    assert (EB : b = cond_Zopp t (Zpos n * 2 ^ (f - - 1074))) by congruence. clear EX EY.
    assert (CANON : Zpos m * 2 ^ (e - - 1074) = Zpos n * 2 ^ (f - - 1074) -> e = f /\ m = n).
    { intros E. assert (EF : e = f).
      { assert (LT : forall m' e' n' f', - 1074 <= e' -> e' < f' -> Zpos m' < 2 ^ 53 -> 2 ^ 52 <= Zpos n' ->
                     Zpos m' * 2 ^ (e' - - 1074) < Zpos n' * 2 ^ (f' - - 1074)).
        { intros m' e' n' f' C1 C2 C3 C4.
          assert (2 ^ (e' - - 1074 + 1) <= 2 ^ (f' - - 1074)) by (apply Z.pow_le_mono_r; lia).
          rewrite Z.pow_add_r in H by lia. change (2 ^ 1) with 2 in H.
          assert (0 < 2 ^ (e' - - 1074)) by (apply Z.pow_pos_nonneg; lia).
          set (u := 2 ^ (e' - - 1074)) in *. set (w := 2 ^ (f' - - 1074)) in *. clearbody u w.
          apply Z.lt_le_trans with (2 ^ 53 * u); [apply Z.mul_lt_mono_pos_r; lia|].
          apply Z.le_trans with (2 ^ 52 * w); [lia|]. apply Z.mul_le_mono_nonneg_r; lia. }
        destruct (Z.lt_trichotomy e f) as [C|[C|C]]; auto.
        - specialize (LT m e n f). lia.
        - specialize (LT n f m e). lia. }
      split; [exact EF|]. rewrite EF in E. apply Z.mul_reg_r in E; [congruence|].
      assert (0 < 2 ^ (f - - 1074)) by (apply Z.pow_pos_nonneg; lia). lia. }
    unfold SFeqb, SFcompare. split.
    + destruct s, t; try discriminate.
      * destruct (e ?= f) eqn:C; try discriminate. apply Z.compare_eq in C. subst f.
        destruct (Pos.compare_cont Eq m n) eqn:D; try discriminate. apply Pos.compare_eq in D. intros _. congruence.
      * destruct (e ?= f) eqn:C; try discriminate. apply Z.compare_eq in C. subst f.
        destruct (Pos.compare_cont Eq m n) eqn:D; try discriminate. apply Pos.compare_eq in D. intros _. congruence.
    + intros AB. assert (ST : s = t) by congruence. clear SX SY. subst t.
      assert (X : Zpos m * 2 ^ (e - - 1074) = Zpos n * 2 ^ (f - - 1074)).
      { rewrite AB, EB in EA. clear - EA. set (u := Zpos m * 2 ^ (e - - 1074)) in *. set (w := Zpos n * 2 ^ (f - - 1074)) in *.
        clearbody u w. destruct s; unfold cond_Zopp in EA; lia. }
      destruct (CANON X) as [-> ->]. rewrite Z.compare_refl.
      change (Pos.compare_cont Eq n n) with (n ?= n)%positive. rewrite Pos.compare_refl. destruct s; reflexivity.
Qed.

Lemma sf_of_int_valid z : Z.abs z < 2 ^ 64 -> valid64 (sf_of_int z) = true /\ exists n, den64 (sf_of_int z) = Some n.
Proof.
  intros H. destruct (Z.eq_dec z 0) as [->|NZ]; [split; [reflexivity|exists 0; reflexivity]|].
  pose proof (normalize_correct 53 1024 H53 H1024 z 0 (z * 2 ^ 1074) 1 false NZ ltac:(lia)) as C.
  assert (SV : same_value 53 1024 0 z 1 (z * 2 ^ 1074) 1).
  { exists 0. rewrite emin64. split; [lia|]. split; [lia|]. change (0 - - 1074 + 0) with 1074. lia. }
  specialize (C SV). fold (sf_of_int z) in C. unfold correct in C. rewrite limit64_eq in C.
  assert (LIM : Z.abs (z * 2 ^ 1074) <? limit64 * 1 = true).
  { apply Z.ltb_lt. rewrite Z.mul_1_r. rewrite Z.abs_mul, (Z.abs_eq (2 ^ 1074)) by (apply Z.pow_nonneg; lia).
    unfold limit64. replace (2 ^ 2044) with (2 ^ 970 * 2 ^ 1074) by (rewrite <- Z.pow_add_r by lia; reflexivity).
    rewrite Z.mul_assoc. apply Z.mul_lt_mono_pos_r; [apply Z.pow_pos_nonneg; lia|].
    assert (X : 2 ^ 64 < 2 ^ 970) by (apply Z.pow_lt_mono_r; lia).
    apply Z.lt_trans with (2 ^ 64); [lia|]. apply Z.lt_le_trans with (1 * 2 ^ 970); [lia|].
    apply Z.mul_le_mono_nonneg_r; lia. }
  rewrite LIM in C. destruct C as (_ & V & n & D & _). split; [exact V|]. exists n. exact D.
Qed.

Theorem c38_integer_against_decimal d z : bits64 d -> - 2 ^ 63 <= z < 2 ^ 64 ->
  exists r, of_int z r /\ (num_eq d z = true <-> denote64 d = denote64 r /\ denote64 d <> FNaN).
Proof.
  intros B H. exists (int_bits z). split; [apply int_bits_of_int|].
  destruct (sf_of_int_valid z ltac:(lia)) as (V & n & D).
  pose proof (of_bits_spec d B) as [VD S]. unfold num_eq, int_bits.
  pose proof (to_bits_spec (sf_of_int z) V) as [_ T].
  assert (E : denote64 (bits_of_sf (sf_of_int z)) = FFin n).
  { destruct (sf_of_int z); cbn [den] in D; try discriminate; destruct T as (_ & _ & n0 & T1 & T2); cbn [den] in T1; congruence. }
  rewrite E. destruct (denote64 d) as [|s|k].
  - rewrite S. cbn. split; [discriminate|]. intros []; discriminate.
  - destruct S as [-> _]. split; [|intros []; discriminate].
    destruct (sf_of_int z) as [t|t| |t m e]; cbn [den] in D; try discriminate; destruct s; discriminate.
  - destruct S as [S _]. rewrite (sf_eqb_den _ _ VD V k n S D). split.
    + intros ->. split; [reflexivity|discriminate].
    + intros [X _]. congruence.
Qed.
Print Assumptions c38_integer_against_decimal.
Example c38_ex_mixed : num_eq (int_bits (2 ^ 53)) (2 ^ 53 + 1) = true /\ num_eq (int_bits (2 ^ 53)) (2 ^ 53 + 2) = false.
Proof. split; vm_compute; reflexivity. Qed.

(** ** C37: a decimal read as a float is the nearest float, ties to even; infinities and
    NaN stay what they are. *)
Theorem c37_float_nearest d : bits64 d ->
  exists f, from_dart TFloat (VDec d) = Ok (CFloat f) /\ 0 <= f < 2 ^ 32 /\
  match denote64 d with
  | FFin n => rounded32 n (negative d) f
  | x => denote32 f = x
  end.
Proof.
  intros B. exists (to_float d). split; [reflexivity|]. pose proof (to_float_rounded d B) as T.
  destruct (denote64 d) as [|s|n]; [exact T|exact T|]. split; [apply T|exact T].
Qed.
Print Assumptions c37_float_nearest.
(** 0.1 rounds; 1e300 overflows to infinity. *)
Example c37_ex_tenth : bits64 0x3FB999999999999A /\ from_dart TFloat (VDec 0x3FB999999999999A) = Ok (CFloat 0x3DCCCCCD) /\
  from_dart TFloat (VDec 0x7E37E43C8800759C) = Ok (CFloat 0x7F800000).
Proof. split; [split; [discriminate|reflexivity]|]. split; reflexivity. Qed.
