(** Facts: bit patterns and the floating point numbers of the standard library agree;
    correct rounding (Round.v) in terms of patterns. *)

From Coq Require Import ZArith Bool Lia Floats.SpecFloat ZifyBool.
From Verif Require Import Dec SpecDec DecFacts Float Round RoundOps SpecArith.
Open Scope Z_scope.

Notation den64 := (den 53 1024).
Notation valid64 := (valid_binary 53 1024).

Lemma emin64 : SpecFloat.emin 53 1024 = - 1074.
Proof. reflexivity. Qed.

Lemma sign_cases d : bits64 d -> d_sign d = 0 \/ d_sign d = 1.
Proof. intros B. destruct (d_split d B) as (_ & S & _). lia. Qed.

Lemma negative_sign d : bits64 d -> negative d = negb (d_sign d =? 0).
Proof. intros B. unfold negative. destruct (sign_cases d B) as [-> | ->]; reflexivity. Qed.

(** from bits *)
Lemma of_bits_spec d : bits64 d ->
  valid64 (sf_of_bits d) = true /\
  match denote64 d with
  | FNaN => sf_of_bits d = S754_nan
  | FInf s => sf_of_bits d = S754_infinity s /\ s = negative d
  | FFin n => den64 (sf_of_bits d) = Some n /\ sf_sign (sf_of_bits d) = negative d /\
              (n = 0 -> sf_of_bits d = S754_zero (negative d)) /\
              (n <> 0 -> exists m e, sf_of_bits d = S754_finite (negative d) m e)
  end.
Proof.
  intros B. destruct (d_split d B) as (_ & S & E & M).
  rewrite (negative_sign d B). unfold sf_of_bits, denote64. set (s := negb (d_sign d =? 0)).
  assert (SG : forall z, sgn (d_sign d) z = cond_Zopp s z).
  { intros z. unfold sgn, s. destruct (d_sign d =? 0); reflexivity. }
  destruct (d_exp d =? 2047) eqn:E1.
  - destruct (d_man d =? 0); auto.
  - destruct (d_exp d =? 0) eqn:E0.
    + rewrite SG. destruct (d_man d) as [|m|m] eqn:DM; [|cbn [valid_binary]|lia].
      * cbn [cond_Zopp]. replace (cond_Zopp s 0) with 0 by (destruct s; reflexivity).
        split; [reflexivity|]. split; [reflexivity|]. split; [reflexivity|]. split; [reflexivity|]. intros; lia.
      * split.
        { apply bounded_spec; [lia|]. rewrite emin64. split; [lia|]. split; [|now left].
          pose proof (eq_refl : 2 ^ 53 = 2 * 2 ^ 52). lia. }
        cbn [den sf_sign]. rewrite emin64. change (2 ^ (- 1074 - -1074)) with 1. rewrite Z.mul_1_r.
        split; [reflexivity|]. split; [reflexivity|].
        split; [destruct s; cbn [cond_Zopp]; lia|]. intros _. eauto.
    + rewrite SG. destruct (2 ^ 52 + d_man d) as [|m|m] eqn:DM; [lia| |lia].
      cbn [valid_binary]. split.
      { apply bounded_spec; [lia|]. rewrite emin64. split; [lia|]. split; [|right].
        - pose proof (eq_refl : 2 ^ 53 = 2 * 2 ^ 52). lia.
        - change (53 - 1) with 52. lia. }
      cbn [den sf_sign]. rewrite emin64. replace (d_exp d - 1075 - - 1074) with (d_exp d - 1) by lia.
      assert (0 < 2 ^ (d_exp d - 1)) by (apply Z.pow_pos_nonneg; lia).
      assert (0 < Zpos m * 2 ^ (d_exp d - 1)) by (apply Z.mul_pos_pos; lia).
      split; [reflexivity|]. split; [reflexivity|].
      split; [destruct s; cbn [cond_Zopp]; lia|]. intros _. eauto.
Qed.

(** to bits *)
Lemma to_bits_spec x : valid64 x = true ->
  bits64 (bits_of_sf x) /\
  match x with
  | S754_nan => denote64 (bits_of_sf x) = FNaN
  | S754_infinity s => denote64 (bits_of_sf x) = FInf s /\ negative (bits_of_sf x) = s
  | _ => negative (bits_of_sf x) = sf_sign x /\ Z.even (bits_of_sf x) = sf_even x /\
         exists n, den64 x = Some n /\ denote64 (bits_of_sf x) = FFin n
  end.
Proof.
  intros V.
  assert (SB : forall s : bool, (if s then 2 ^ 63 else 0) = (if s then 1 else 0) * 2 ^ 63) by (intros []; reflexivity).
  assert (SR : forall s : bool, 0 <= (if s then 1 else 0) < 2) by (intros []; lia).
  assert (SN : forall s : bool, ((if s then 1 else 0) =? 1) = s) by (intros []; reflexivity).
  assert (SZ : forall s : bool, negb ((if s then 1 else 0) =? 0) = s) by (intros []; reflexivity).
  destruct x as [s|s| |s m e].
  - destruct s; (split; [split; [discriminate|reflexivity]|]); (split; [reflexivity|]); (split; [reflexivity|]); exists 0; split; reflexivity.
  - destruct s; (split; [split; [discriminate|reflexivity]|]); split; reflexivity.
  - split; [split; [discriminate|reflexivity]|]. reflexivity.
  - cbn [valid_binary] in V. apply bounded_spec in V; [|lia]. rewrite emin64 in V. destruct V as (A & B & C).
    change (53 - 1) with 52 in C. change (1024 - 53) with 971 in A.
    pose proof (eq_refl : 2 ^ 53 = 2 * 2 ^ 52) as P53.
    cbn [sf_sign sf_even den]. rewrite emin64. cbn [bits_of_sf].
    assert (EV : forall a k : Z, Z.even (a * 2 ^ 63 + k * 2 ^ 52 + (Zpos m - 2 ^ 52)) = Z.even (Zpos m) /\
                                 Z.even (a * 2 ^ 63 + 0 * 2 ^ 52 + Zpos m) = Z.even (Zpos m)).
    { intros a k. split.
      - rewrite !Z.even_add, Z.even_sub, !Z.even_mul. change (Z.even (2 ^ 63)) with true. change (Z.even (2 ^ 52)) with true.
        rewrite !orb_true_r. destruct (Z.even (Zpos m)); reflexivity.
      - rewrite !Z.even_add, !Z.even_mul. change (Z.even (2 ^ 63)) with true. change (Z.even (2 ^ 52)) with true.
        rewrite !orb_true_r. destruct (Z.even (Zpos m)); reflexivity. }
    rewrite SB. destruct (Zpos m <? 2 ^ 52) eqn:SM.
    + replace ((if s then 1 else 0) * 2 ^ 63 + Zpos m) with ((if s then 1 else 0) * 2 ^ 63 + 0 * 2 ^ 52 + Zpos m) by lia.
      destruct (d_fields (if s then 1 else 0) 0 (Zpos m) (SR s) ltac:(lia) ltac:(lia)) as (F1 & F2 & F3 & F4).
      unfold negative, denote64. rewrite F2, F3, F4. split; [exact F1|].
      split; [apply SN|]. split; [apply (EV _ 0)|].
      assert (e = - 1074) as -> by lia. change (2 ^ (- 1074 - -1074)) with 1. rewrite Z.mul_1_r.
      exists (cond_Zopp s (Zpos m)). split; [reflexivity|]. destruct s; reflexivity.
    + destruct (d_fields (if s then 1 else 0) (e + 1075) (Zpos m - 2 ^ 52) (SR s) ltac:(lia) ltac:(lia)) as (F1 & F2 & F3 & F4).
      unfold negative, denote64. rewrite F2, F3, F4. split; [exact F1|].
      split; [apply SN|]. split; [apply EV|].
      assert (e + 1075 =? 2047 = false) as -> by lia. assert (e + 1075 =? 0 = false) as -> by lia.
      exists (cond_Zopp s (Zpos m * 2 ^ (e - - 1074))). split; [reflexivity|].
      replace (2 ^ 52 + (Zpos m - 2 ^ 52)) with (Zpos m) by lia. replace (e + 1075 - 1) with (e - - 1074) by lia.
      destruct s; reflexivity.
Qed.

Lemma limit64_eq : limit 53 1024 = limit64.
Proof. unfold limit, limit64. rewrite emin64. reflexivity. Qed.

Theorem correct_rounded N D s x : correct 53 1024 N D s x -> rounded N D s (bits_of_sf x).
Proof.
  unfold correct, rounded. rewrite limit64_eq. destruct (Z.abs N <? limit64 * D) eqn:L.
  - intros (S & V & n & DN & H). pose proof (to_bits_spec x V) as [B T].
    split; [exact B|].
    assert (X : negative (bits_of_sf x) = sf_sign x /\ Z.even (bits_of_sf x) = sf_even x /\ denote64 (bits_of_sf x) = FFin n).
    { destruct x as [s0|s0| |s0 m e]; cbn [den] in DN; try discriminate.
      - destruct T as (T1 & T2 & n0 & T3 & T4). split; [exact T1|]. split; [exact T2|]. cbn [den] in T3. congruence.
      - destruct T as (T1 & T2 & n0 & T3 & T4). split; [exact T1|]. split; [exact T2|]. cbn [den] in T3. congruence. }
    destruct X as (X1 & X2 & X3). split; [congruence|]. exists n. split; [exact X3|].
    intros r' n' B' D'. pose proof (of_bits_spec r' B') as [V' O]. rewrite D' in O. destruct O as [O _].
    rewrite X2. exact (H (sf_of_bits r') n' V' O).
  - intros ->. pose proof (to_bits_spec (S754_infinity s) eq_refl) as [B [T1 T2]]. auto.
Qed.
