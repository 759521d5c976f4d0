(** Facts about the specification of arithmetic: it determines its result. *)

From Coq Require Import ZArith List Bool Lia ZifyBool.
From Verif Require Import Base Dec SpecDec DecFacts SpecArith.
Open Scope Z_scope.

(** The finite doubles are in the order of their patterns. *)
Definition mag (e m : Z) : Z := if e =? 0 then m else (2 ^ 52 + m) * 2 ^ (e - 1).

Lemma mag_mono e m e' m' : 0 <= e -> 0 <= m < 2 ^ 52 -> 0 <= e' -> 0 <= m' < 2 ^ 52 ->
  e * 2 ^ 52 + m < e' * 2 ^ 52 + m' -> mag e m < mag e' m'.
Proof.
  intros E M E' M' L. unfold mag.
  destruct (Z.eq_dec e e') as [<-|NE].
  - destruct (e =? 0) eqn:Z0; [lia|]. apply Z.mul_lt_mono_pos_r; [apply Z.pow_pos_nonneg|]; lia.
  - assert (e < e') by lia. assert (e' =? 0 = false) as -> by lia.
    assert (P : 0 < 2 ^ (e' - 1)) by (apply Z.pow_pos_nonneg; lia).
    destruct (e =? 0) eqn:Z0; [nia|].
    assert (X : 2 ^ e = 2 * 2 ^ (e - 1)) by (replace e with (1 + (e - 1)) at 1 by lia; rewrite Z.pow_add_r by lia; reflexivity).
    assert (2 ^ e <= 2 ^ (e' - 1)) by (apply Z.pow_le_mono_r; lia).
    assert (0 < 2 ^ (e - 1)) by (apply Z.pow_pos_nonneg; lia).
    set (u := 2 ^ (e - 1)) in *. set (w := 2 ^ (e' - 1)) in *. nia.
Qed.

Definition pos_bits (r : Z) : Z := d_exp r * 2 ^ 52 + d_man r.

Lemma denote_mag r n : bits64 r -> denote64 r = FFin n ->
  n = sgn (d_sign r) (mag (d_exp r) (d_man r)) /\ d_exp r < 2047.
Proof.
  intros B. destruct (d_split r B) as (_ & S & E & M). unfold denote64, mag.
  destruct (d_exp r =? 2047) eqn:E1; [destruct (d_man r =? 0); discriminate|].
  destruct (d_exp r =? 0); intros D; (split; [congruence|lia]).
Qed.

Lemma negative_bit r : bits64 r -> d_sign r = if negative r then 1 else 0.
Proof. intros B. destruct (d_split r B) as (_ & S & _). unfold negative. destruct (d_sign r =? 1) eqn:E; lia. Qed.

Lemma bits_same r r' : bits64 r -> bits64 r' -> negative r = negative r' -> pos_bits r = pos_bits r' -> r = r'.
Proof.
  intros B B' N P. destruct (d_split r B) as (X & _). destruct (d_split r' B') as (X' & _).
  rewrite (negative_bit r B) in X. rewrite (negative_bit r' B'), <- N in X'. unfold pos_bits in P. lia.
Qed.

Lemma even_pos r : bits64 r -> Z.even r = Z.even (pos_bits r).
Proof.
  intros B. destruct (d_split r B) as (X & _). rewrite X at 1. unfold pos_bits.
  rewrite !Z.even_add, !Z.even_mul. change (Z.even (2 ^ 63)) with true. rewrite orb_true_r.
  destruct (Z.even (d_exp r) || Z.even (2 ^ 52)), (Z.even (d_man r)); reflexivity.
Qed.

(** Between two patterns that end in 0 there is another. *)
Lemma between r r' n n' : bits64 r -> bits64 r' -> negative r = negative r' ->
  denote64 r = FFin n -> denote64 r' = FFin n' -> Z.even r = true -> Z.even r' = true -> pos_bits r < pos_bits r' ->
  exists c nc, bits64 c /\ denote64 c = FFin nc /\
    if negative r then n' < nc < n else n < nc < n'.
Proof.
  intros B B' NG D D' V V' L.
  destruct (denote_mag r n B D) as [En Lr]. destruct (denote_mag r' n' B' D') as [En' Lr'].
  destruct (d_split r B) as (_ & S & E & M). destruct (d_split r' B') as (_ & S' & E' & M').
  rewrite (even_pos r B) in V. rewrite (even_pos r' B') in V'.
  set (p := pos_bits r + 1).
  assert (P : pos_bits r < p < pos_bits r').
  { unfold p. split; [lia|]. destruct (Z.eq_dec (pos_bits r + 1) (pos_bits r')) as [C|C]; [|lia].
    rewrite <- C, Z.even_add, V in V'. discriminate. }
  set (e := p / 2 ^ 52). set (m := p mod 2 ^ 52).
  pose proof (Z.mod_pos_bound p (2 ^ 52) ltac:(lia)) as Bm. fold m in Bm.
  pose proof (Z.div_mod p (2 ^ 52) ltac:(lia)) as PE. fold e m in PE.
  unfold pos_bits in P.
  assert (Be : 0 <= e < 2047) by lia.
  destruct (d_fields (if negative r then 1 else 0) e m ltac:(destruct (negative r); lia) ltac:(lia) ltac:(lia)) as (F1 & F2 & F3 & F4).
  set (c := (if negative r then 1 else 0) * 2 ^ 63 + e * 2 ^ 52 + m) in *.
  exists c, (sgn (if negative r then 1 else 0) (mag e m)). split; [exact F1|]. split.
  { unfold denote64, mag. rewrite F2, F3, F4. assert (e =? 2047 = false) as -> by lia. destruct (e =? 0); reflexivity. }
  assert (M1 : mag (d_exp r) (d_man r) < mag e m) by (apply mag_mono; lia).
  assert (M2 : mag e m < mag (d_exp r') (d_man r')) by (apply mag_mono; lia).
  rewrite En, En', (negative_bit r B), (negative_bit r' B'), <- NG.
  destruct (negative r); unfold sgn; cbn [Z.eqb]; lia.
Qed.

Lemma mid_closer N D n c n' : 0 < D -> n < c < n' -> Z.abs (N - n * D) = Z.abs (N - n' * D) ->
  Z.abs (N - c * D) < Z.abs (N - n * D).
Proof.
  intros HD C E. assert (n * D < c * D < n' * D) by (split; apply Z.mul_lt_mono_pos_r; lia). lia.
Qed.

Theorem rounded_unique N D s r r' : 0 < D -> rounded N D s r -> rounded N D s r' -> r = r'.
Proof.
  intros HD (B & NG & R) (B' & NG' & R'). apply bits_same; auto; [congruence|].
  destruct (Z.abs N <? limit64 * D).
  - destruct R as (n & Dn & H). destruct R' as (n' & Dn' & H').
    destruct (H r' n' B' Dn') as [H1 H2]. destruct (H' r n B Dn) as [H3 H4].
    assert (EQ : Z.abs (N - n * D) = Z.abs (N - n' * D)) by lia.
    destruct (Z.lt_trichotomy (pos_bits r) (pos_bits r')) as [L|[L|L]]; auto; exfalso.
    + destruct (denote_mag r n B Dn) as [E1 X1]. destruct (denote_mag r' n' B' Dn') as [E2 X2].
      destruct (d_split r B) as (_ & _ & F1 & F2). destruct (d_split r' B') as (_ & _ & G1 & G2).
      assert (n <> n').
      { intros C. pose proof (mag_mono (d_exp r) (d_man r) (d_exp r') (d_man r') ltac:(lia) F2 ltac:(lia) G2 L).
        rewrite (negative_bit r B), NG in E1. rewrite (negative_bit r' B'), NG' in E2. destruct s; unfold sgn in *; cbn [Z.eqb] in *; lia. }
      destruct (H2 EQ) as [|V]; [auto|]. destruct (H4 (eq_sym EQ)) as [|V']; [congruence|].
      destruct (between r r' n n' B B' ltac:(congruence) Dn Dn' V V' L) as (c & nc & Bc & Dc & Lc).
      destruct (H c nc Bc Dc) as [Hc _].
      destruct (negative r).
      * pose proof (mid_closer N D n' nc n HD Lc (eq_sym EQ)). lia.
      * pose proof (mid_closer N D n nc n' HD Lc EQ). lia.
    + destruct (denote_mag r n B Dn) as [E1 X1]. destruct (denote_mag r' n' B' Dn') as [E2 X2].
      destruct (d_split r B) as (_ & _ & F1 & F2). destruct (d_split r' B') as (_ & _ & G1 & G2).
      assert (n <> n').
      { intros C. pose proof (mag_mono (d_exp r') (d_man r') (d_exp r) (d_man r) ltac:(lia) G2 ltac:(lia) F2 L).
        rewrite (negative_bit r B), NG in E1. rewrite (negative_bit r' B'), NG' in E2. destruct s; unfold sgn in *; cbn [Z.eqb] in *; lia. }
      destruct (H2 EQ) as [|V]; [auto|]. destruct (H4 (eq_sym EQ)) as [|V']; [congruence|].
      destruct (between r' r n' n B' B ltac:(congruence) Dn' Dn V' V L) as (c & nc & Bc & Dc & Lc).
      destruct (H c nc Bc Dc) as [Hc _].
      destruct (negative r').
      * pose proof (mid_closer N D n nc n' HD Lc EQ). lia.
      * pose proof (mid_closer N D n' nc n HD Lc (eq_sym EQ)). lia.
  - assert (INF : forall x, bits64 x -> denote64 x = FInf s -> pos_bits x = 2047 * 2 ^ 52).
    { intros x Bx. unfold denote64, pos_bits. destruct (d_exp x =? 2047) eqn:E1.
      - destruct (d_man x =? 0) eqn:E2; [|discriminate]. intros _. lia.
      - destruct (d_exp x =? 0); discriminate. }
    rewrite (INF r B R), (INF r' B' R'). reflexivity.
Qed.

Lemma inf_unique s r r' : is_inf s r -> is_inf s r' -> r = r'.
Proof.
  assert (INF : forall x, is_inf s x -> x = (if s then 1 else 0) * 2 ^ 63 + 2047 * 2 ^ 52).
  { intros x [Bx D]. destruct (d_split x Bx) as (X & Y & _). rewrite X. unfold denote64 in D.
    destruct (d_exp x =? 2047) eqn:E1.
    - destruct (d_man x =? 0) eqn:E2; [|discriminate]. injection D as <-.
      destruct (d_sign x =? 0) eqn:E3; cbn [negb]; lia.
    - destruct (d_exp x =? 0); discriminate. }
  intros A B. rewrite (INF r A), (INF r' B). reflexivity.
Qed.

Lemma zero_unique s r r' : is_zero s r -> is_zero s r' -> r = r'.
Proof.
  assert (Z0 : forall x, is_zero s x -> pos_bits x = 0).
  { intros x (Bx & D & _). destruct (denote_mag x 0 Bx D) as [E L]. destruct (d_split x Bx) as (_ & _ & F1 & F2).
    unfold pos_bits, mag, sgn in *. destruct (d_exp x =? 0) eqn:E0; [destruct (d_sign x =? 0); lia|].
    assert (0 < 2 ^ (d_exp x - 1)) by (apply Z.pow_pos_nonneg; lia). destruct (d_sign x =? 0); nia. }
  intros A B. apply bits_same; try apply A; try apply B.
  - destruct A as (_ & _ & ->), B as (_ & _ & ->). reflexivity.
  - rewrite (Z0 r A), (Z0 r' B). reflexivity.
Qed.

Theorem ieee_unique o a b r r' : ieee o a b r -> ieee o a b r' -> r = r' \/ is_nan r /\ is_nan r'.
Proof.
  assert (RU : forall N D s, 0 < D -> rounded N D s r -> rounded N D s r' -> r = r' \/ is_nan r /\ is_nan r').
  { intros N D s HD A B. left. now apply (rounded_unique N D s). }
  assert (IU : forall s, is_inf s r -> is_inf s r' -> r = r' \/ is_nan r /\ is_nan r').
  { intros s A B. left. now apply (inf_unique s). }
  assert (ZU : forall s, is_zero s r -> is_zero s r' -> r = r' \/ is_nan r /\ is_nan r').
  { intros s A B. left. now apply (zero_unique s). }
  assert (P : 0 < 2 ^ 1074) by (apply Z.pow_pos_nonneg; lia).
  unfold ieee. cbv zeta. destruct (denote64 a) as [|s|x]; [auto| |].
  - destruct (denote64 b) as [|t|y]; [auto| |].
    + destruct o; [destruct (Bool.eqb s t)|destruct (Bool.eqb s t)| |]; eauto.
    + destruct o; [| |destruct (y =? 0)|]; eauto.
  - destruct (denote64 b) as [|t|y]; [auto| |].
    + destruct o; [| |destruct (x =? 0)|]; eauto.
    + destruct o.
      * destruct (x + y =? 0); [eauto|]. apply RU. reflexivity.
      * destruct (x - y =? 0); [eauto|]. apply RU. reflexivity.
      * apply RU. exact P.
      * destruct (y =? 0) eqn:Y; [destruct (x =? 0); eauto|]. apply RU. clear - Y. lia.
Qed.

(** Sums and products do not depend on the order. *)
Theorem ieee_comm o a b r : o = Add \/ o = Mul -> ieee o a b r -> ieee o b a r.
Proof.
  unfold ieee. cbv zeta. rewrite (xorb_comm (negative b)), (andb_comm (negative b)).
  intros [-> | ->].
  - destruct (denote64 a) as [|s|x], (denote64 b) as [|t|y]; auto.
    + destruct s, t; auto.
    + rewrite (Z.add_comm y x). auto.
  - destruct (denote64 a) as [|s|x], (denote64 b) as [|t|y]; auto. rewrite (Z.mul_comm y x). auto.
Qed.

(** A result that is a double is not rounded. *)
Theorem rounded_exact n D s r d : 0 < D -> bits64 d -> denote64 d = FFin n -> Z.abs n < limit64 ->
  rounded (n * D) D s r -> denote64 r = FFin n.
Proof.
  intros HD B E L (Br & _ & R).
  assert (X : Z.abs (n * D) <? limit64 * D = true).
  { apply Z.ltb_lt. rewrite Z.abs_mul, (Z.abs_eq D) by (clear - HD; lia). apply Z.mul_lt_mono_pos_r; assumption. }
  rewrite X in R. destruct R as (m & Dm & H). destruct (H d n B E) as [H1 _].
  rewrite Z.sub_diag in H1. change (Z.abs 0) with 0 in H1.
  assert (n * D = m * D) by (clear - H1; lia). apply Z.mul_reg_r in H0; [|clear - HD; lia]. congruence.
Qed.


(** The integers that are doubles for certain. *)
Lemma int_limit z : Z.abs z <= 2 ^ 53 -> Z.abs (z * 2 ^ 1074) < limit64.
Proof.
  intros H. rewrite Z.abs_mul, (Z.abs_eq (2 ^ 1074)) by (apply Z.pow_nonneg; lia).
  unfold limit64. replace (2 ^ 2044) with (2 ^ 970 * 2 ^ 1074) by (rewrite <- Z.pow_add_r by lia; reflexivity).
  rewrite Z.mul_assoc. apply Z.mul_lt_mono_pos_r; [apply Z.pow_pos_nonneg; lia|].
  assert (X : 1 < 2 ^ 970) by (apply (Z.pow_lt_mono_r 2 0 970); lia).
  apply (Z.mul_lt_mono_pos_l (2 ^ 54 - 1)) in X; lia.
Qed.

Lemma int_double z : Z.abs z <= 2 ^ 53 -> exists d, bits64 d /\ denote64 d = FFin (z * 2 ^ 1074).
Proof.
  intros H. destruct (Z.eq_dec z 0) as [->|NZ].
  { exists 0. split; [split; [lia|reflexivity]|reflexivity]. }
  set (s := if z <? 0 then 1 else 0). set (a := Z.abs z) in *.
  assert (SG : forall u, sgn s (a * u) = z * u).
  { intros u. unfold sgn, s, a. destruct (z <? 0) eqn:E; cbn [Z.eqb].
    - rewrite Z.abs_neq by (clear - E; lia). ring.
    - rewrite Z.abs_eq by (clear - E; lia). reflexivity. }
  assert (Ss : 0 <= s < 2) by (unfold s; destruct (z <? 0); lia).
  assert (A0 : 0 < a) by (unfold a; lia). clearbody s a. clear NZ.
  destruct (Z.eq_dec a (2 ^ 53)) as [E|E].
  - destruct (d_fields s 1076 0 Ss ltac:(lia) ltac:(lia)) as (F1 & F2 & F3 & F4).
    exists (s * 2 ^ 63 + 1076 * 2 ^ 52 + 0). split; [exact F1|].
    unfold denote64. rewrite F2, F3, F4. change (1076 =? 2047) with false. change (1076 =? 0) with false. cbv iota.
    rewrite <- SG, E. apply f_equal. apply f_equal.
    rewrite <- (Z.pow_add_r 2 53) by lia. rewrite Z.add_0_r, <- Z.pow_add_r by lia. reflexivity.
  - set (k := Z.log2 a). pose proof (Z.log2_spec a A0) as [L U]. fold k in L, U. unfold Z.succ in U.
    pose proof (Z.log2_nonneg a) as K0. fold k in K0.
    assert (K : k <= 52).
    { destruct (Z_le_gt_dec k 52) as [|G]; auto.
      assert (2 ^ 53 <= 2 ^ k) by (apply Z.pow_le_mono_r; lia). lia. }
    assert (P : 0 < 2 ^ (52 - k)) by (apply Z.pow_pos_nonneg; lia).
    assert (M1 : 2 ^ 52 <= a * 2 ^ (52 - k)).
    { replace (2 ^ 52) with (2 ^ k * 2 ^ (52 - k)) by (rewrite <- Z.pow_add_r by lia; f_equal; lia).
      apply Z.mul_le_mono_nonneg_r; lia. }
    assert (M2 : a * 2 ^ (52 - k) < 2 * 2 ^ 52).
    { replace (2 * 2 ^ 52) with (2 ^ (k + 1) * 2 ^ (52 - k)) by (rewrite <- Z.pow_add_r by lia; change (2 * 2 ^ 52) with (2 ^ 53); f_equal; lia).
      apply Z.mul_lt_mono_pos_r; lia. }
    destruct (d_fields s (k + 1023) (a * 2 ^ (52 - k) - 2 ^ 52) Ss ltac:(lia) ltac:(lia)) as (F1 & F2 & F3 & F4).
    exists (s * 2 ^ 63 + (k + 1023) * 2 ^ 52 + (a * 2 ^ (52 - k) - 2 ^ 52)). split; [exact F1|].
    unfold denote64. rewrite F2, F3, F4.
    assert (k + 1023 =? 2047 = false) as -> by lia. assert (k + 1023 =? 0 = false) as -> by lia.
    rewrite <- SG. apply f_equal. apply f_equal.
    replace (2 ^ 52 + (a * 2 ^ (52 - k) - 2 ^ 52)) with (a * 2 ^ (52 - k)) by lia.
    rewrite <- Z.mul_assoc, <- Z.pow_add_r by lia. f_equal. f_equal. lia.
Qed.
