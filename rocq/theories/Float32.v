(** Facts: single precision patterns and the floating point numbers of the standard
    library; a double cast to float is correctly rounded. *)

From Coq Require Import ZArith Bool Lia Floats.SpecFloat ZifyBool.
From Verif Require Import Dec SpecDec DecFacts Float Round RoundOps SpecArith FloatFacts.
Open Scope Z_scope.

Notation den32 := (den 24 128).
Notation valid32 := (valid_binary 24 128).

Lemma emin32 : SpecFloat.emin 24 128 = - 149.
Proof. reflexivity. Qed.

Lemma limit32_eq : limit 24 128 * 2 ^ 925 = limit32.
Proof. vm_compute. reflexivity. Qed.

(** Every finite single precision pattern is a float of the library. *)
Lemma of_bits32_spec f k : 0 <= f < 2 ^ 32 -> denote32 f = FFin k ->
  exists y n, valid32 y = true /\ den32 y = Some n /\ k = n * 2 ^ 925.
Proof.
  intros B E. destruct (f_split f B) as (_ & S & X & M). unfold denote32 in E.
  set (s := negb (f_sign f =? 0)).
  assert (SG : forall z, sgn (f_sign f) z = cond_Zopp s z).
  { intros z. unfold sgn, s. destruct (f_sign f =? 0); reflexivity. }
  assert (CO : forall z w, cond_Zopp s (z * w) = cond_Zopp s z * w) by (intros z w; destruct s; cbn [cond_Zopp]; ring).
  rewrite !SG in E. clearbody s.
  destruct (f_exp f =? 255) eqn:E1; [destruct (f_man f =? 0); discriminate|].
  assert (INJ : forall a b, FFin a = FFin b -> b = a) by congruence.
  destruct (f_exp f =? 0) eqn:E0; apply INJ in E; subst k.
  - destruct (f_man f) as [|m|m] eqn:FM; [| |lia].
    + exists (S754_zero s), 0. split; [reflexivity|]. split; [reflexivity|]. destruct s; reflexivity.
    + exists (S754_finite s m (-149)), (cond_Zopp s (Zpos m)). split; [|split].
      * cbn [valid_binary]. apply bounded_spec; [lia|]. rewrite emin32. split; [lia|]. split; [|now left].
        pose proof (eq_refl : 2 ^ 24 = 2 * 2 ^ 23). lia.
      * cbn [den]. rewrite emin32. change (2 ^ (- 149 - -149)) with 1. rewrite Z.mul_1_r. reflexivity.
      * apply CO.
  - destruct (2 ^ 23 + f_man f) as [|m|m] eqn:FM; [lia| |lia].
    exists (S754_finite s m (f_exp f - 150)), (cond_Zopp s (Zpos m * 2 ^ (f_exp f - 1))). split; [|split].
    + cbn [valid_binary]. apply bounded_spec; [lia|]. rewrite emin32. split; [lia|]. split; [|right].
      * pose proof (eq_refl : 2 ^ 24 = 2 * 2 ^ 23). lia.
      * change (24 - 1) with 23. lia.
    + cbn [den]. rewrite emin32. replace (f_exp f - 150 - - 149) with (f_exp f - 1) by lia. reflexivity.
    + rewrite <- CO. f_equal. rewrite <- Z.mul_assoc, <- Z.pow_add_r by lia. f_equal. f_equal. lia.
Qed.

Lemma to_bits32_spec x : valid32 x = true ->
  0 <= bits32_of_sf x < 2 ^ 32 /\
  match x with
  | S754_nan => denote32 (bits32_of_sf x) = FNaN
  | S754_infinity s => denote32 (bits32_of_sf x) = FInf s /\ (f_sign (bits32_of_sf x) =? 1) = s
  | _ => (f_sign (bits32_of_sf x) =? 1) = sf_sign x /\ Z.even (bits32_of_sf x) = sf_even x /\
         exists n, den32 x = Some n /\ denote32 (bits32_of_sf x) = FFin (n * 2 ^ 925)
  end.
Proof.
  intros V.
  assert (SB : forall s : bool, (if s then 2 ^ 31 else 0) = (if s then 1 else 0) * 2 ^ 31) by (intros []; reflexivity).
  assert (SR : forall s : bool, 0 <= (if s then 1 else 0) < 2) by (intros []; lia).
  assert (SN : forall s : bool, ((if s then 1 else 0) =? 1) = s) by (intros []; reflexivity).
  assert (CO : forall (s : bool) z w, sgn (if s then 1 else 0) (z * w) = cond_Zopp s z * w).
  { intros s z w. destruct s; unfold sgn; cbn [cond_Zopp Z.eqb]; ring. }
  destruct x as [s|s| |s m e].
  - destruct s; (split; [split; [discriminate|reflexivity]|]); (split; [reflexivity|]); (split; [reflexivity|]); exists 0; split; reflexivity.
  - destruct s; (split; [split; [discriminate|reflexivity]|]); split; reflexivity.
  - split; [split; [discriminate|reflexivity]|]. reflexivity.
  - cbn [valid_binary] in V. apply bounded_spec in V; [|lia]. rewrite emin32 in V. destruct V as (A & B & C).
    change (24 - 1) with 23 in C. change (128 - 24) with 104 in A.
    pose proof (eq_refl : 2 ^ 24 = 2 * 2 ^ 23) as P24.
    cbn [sf_sign sf_even den]. rewrite emin32. cbn [bits32_of_sf].
    assert (EV : forall a k : Z, Z.even (a * 2 ^ 31 + k * 2 ^ 23 + (Zpos m - 2 ^ 23)) = Z.even (Zpos m) /\
                                 Z.even (a * 2 ^ 31 + 0 * 2 ^ 23 + Zpos m) = Z.even (Zpos m)).
    { intros a k. split.
      - rewrite !Z.even_add, Z.even_sub, !Z.even_mul. change (Z.even (2 ^ 31)) with true. change (Z.even (2 ^ 23)) with true.
        rewrite !orb_true_r. destruct (Z.even (Zpos m)); reflexivity.
      - rewrite !Z.even_add, !Z.even_mul. change (Z.even (2 ^ 31)) with true. change (Z.even (2 ^ 23)) with true.
        rewrite !orb_true_r. destruct (Z.even (Zpos m)); reflexivity. }
    rewrite SB. destruct (Zpos m <? 2 ^ 23) eqn:SM.
    + replace ((if s then 1 else 0) * 2 ^ 31 + Zpos m) with ((if s then 1 else 0) * 2 ^ 31 + 0 * 2 ^ 23 + Zpos m) by lia.
      destruct (f_fields (if s then 1 else 0) 0 (Zpos m) (SR s) ltac:(lia) ltac:(lia)) as (F1 & F2 & F3 & F4).
      unfold denote32. rewrite F2, F3, F4. split; [exact F1|].
      split; [apply SN|]. split; [apply (EV _ 0)|].
      assert (e = - 149) as -> by lia. change (2 ^ (- 149 - -149)) with 1. rewrite Z.mul_1_r.
      exists (cond_Zopp s (Zpos m)). split; [reflexivity|].
      change (0 =? 255) with false. change (0 =? 0) with true. cbn iota. rewrite CO. reflexivity.
    + destruct (f_fields (if s then 1 else 0) (e + 150) (Zpos m - 2 ^ 23) (SR s) ltac:(lia) ltac:(lia)) as (F1 & F2 & F3 & F4).
      unfold denote32. rewrite F2, F3, F4. split; [exact F1|].
      split; [apply SN|]. split; [apply EV|].
      assert (e + 150 =? 255 = false) as -> by lia. assert (e + 150 =? 0 = false) as -> by lia.
      exists (cond_Zopp s (Zpos m * 2 ^ (e - - 149))). split; [reflexivity|].
      replace (2 ^ 23 + (Zpos m - 2 ^ 23)) with (Zpos m) by lia.
      f_equal. rewrite <- CO. f_equal. rewrite <- Z.mul_assoc, <- Z.pow_add_r by lia. f_equal. f_equal. lia.
Qed.

(** Finite single precision numbers are below the limit. *)
Lemma finite_limit32 f k : 0 <= f < 2 ^ 32 -> denote32 f = FFin k -> Z.abs k < limit32.
Proof.
  intros B E. destruct (of_bits32_spec f k B E) as (y & n & V & D & ->).
  rewrite <- limit32_eq, Z.abs_mul, (Z.abs_eq (2 ^ 925)) by (apply Z.pow_nonneg; lia).
  apply Z.mul_lt_mono_pos_r; [apply Z.pow_pos_nonneg; lia|]. clear f B E.
  unfold limit. rewrite emin32. change (128 - 24 - 1 - -149) with 252. change (2 ^ (24 + 1) - 1) with (2 ^ 25 - 1).
  assert (P : 0 < 2 ^ 252) by (apply Z.pow_pos_nonneg; lia).
  destruct y as [s|s| |s m e]; cbn [den] in D; try discriminate.
  - assert (n = 0) as -> by congruence. change (Z.abs 0) with 0. apply Z.mul_pos_pos; lia.
  - cbn [valid_binary] in V. apply bounded_spec in V; [|lia]. rewrite emin32 in V, D. destruct V as (A & M & _).
    change (128 - 24) with 104 in A.
    assert (A2 : Z.abs n = Zpos m * 2 ^ (e - - 149)).
    { assert (n = cond_Zopp s (Zpos m * 2 ^ (e - -149))) as -> by congruence.
      assert (0 <= Zpos m * 2 ^ (e - -149)) by (apply Z.mul_nonneg_nonneg; [lia|apply Z.pow_nonneg; lia]).
      destruct s; cbn [cond_Zopp]; lia. }
    rewrite A2. clear - A M P.
    assert (L : 2 ^ (e - - 149) <= 2 ^ (252 + 1)) by (apply Z.pow_le_mono_r; lia).
    rewrite Z.pow_add_r in L by lia. change (2 ^ 1) with 2 in L.
    set (u := 2 ^ 252) in *. set (w := 2 ^ (e - - 149)) in *. clearbody u w.
    apply Z.le_lt_trans with (Zpos m * (u * 2)); [apply Z.mul_le_mono_nonneg_l; lia|].
    replace (Zpos m * (u * 2)) with ((Zpos m * 2) * u) by ring. apply Z.mul_lt_mono_pos_r; lia.
Qed.

Theorem correct_rounded32 n s x : correct 24 128 n (2 ^ 925) s x -> rounded32 n s (bits32_of_sf x).
Proof.
  unfold correct, rounded32. rewrite limit32_eq. destruct (Z.abs n <? limit32) eqn:L.
  - intros (S & V & k & DN & H). pose proof (to_bits32_spec x V) as [B T].
    split; [exact B|].
    assert (X : (f_sign (bits32_of_sf x) =? 1) = sf_sign x /\ Z.even (bits32_of_sf x) = sf_even x /\
                denote32 (bits32_of_sf x) = FFin (k * 2 ^ 925)).
    { destruct x as [s0|s0| |s0 m e]; cbn [den] in DN; try discriminate;
        destruct T as (T1 & T2 & n0 & T3 & T4); split; try exact T1; split; try exact T2; cbn [den] in T3;
        assert (n0 = k) as <- by congruence; exact T4. }
    destruct X as (X1 & X2 & X3). split; [congruence|]. exists (k * 2 ^ 925). split; [exact X3|].
    intros f' k' B' D'. destruct (of_bits32_spec f' k' B' D') as (y & n' & V' & D2 & ->).
    rewrite X2. specialize (H y n' V' D2). destruct H as [H1 H2]. split; [exact H1|].
    intros E. destruct (H2 E) as [->|Q]; auto.
  - intros ->. pose proof (to_bits32_spec (S754_infinity s) eq_refl) as [B [T1 T2]]. auto.
Qed.

Theorem to_float_rounded d : bits64 d ->
  match denote64 d with
  | FNaN => 0 <= to_float d < 2 ^ 32 /\ denote32 (to_float d) = FNaN
  | FInf s => 0 <= to_float d < 2 ^ 32 /\ denote32 (to_float d) = FInf s
  | FFin n => rounded32 n (negative d) (to_float d)
  end.
Proof.
  intros B. unfold to_float. destruct (fits_single d) eqn:F.
  - destruct (denote_narrow d B F) as [E NN]. destruct (narrow_fields d B F) as (R & S & _).
    destruct (denote64 d) as [|s|n] eqn:D; [congruence|auto|].
    pose proof (finite_limit32 _ _ R E) as L. unfold rounded32.
    split; [exact R|]. split; [rewrite S; reflexivity|]. apply Z.ltb_lt in L. rewrite L.
    exists n. split; [exact E|]. intros f' k' _ _. rewrite Z.sub_diag. change (Z.abs 0) with 0. split; [lia|]. intros; left; lia.
  - pose proof (of_bits_spec d B) as [V S]. destruct (denote64 d) as [|s|n] eqn:D.
    + rewrite S. split; [split; [discriminate|reflexivity]|reflexivity].
    + destruct S as [-> _]. destruct s; (split; [split; [discriminate|reflexivity]|reflexivity]).
    + destruct S as (S1 & S2 & S3 & S4). destruct (Z.eq_dec n 0) as [->|NZ].
      * exfalso. (* zeros fit *)
        unfold denote64 in D. unfold fits_single in F. destruct (d_split d B) as (_ & SS & EE & MM).
        destruct (d_exp d =? 2047); [destruct (d_man d =? 0); discriminate|].
        destruct (d_exp d =? 0) eqn:E0.
        { assert (d_man d = 0); [|lia].
          assert (Q : sgn (d_sign d) (d_man d) = 0) by congruence. unfold sgn in Q. destruct (d_sign d =? 0); lia. }
        { assert (Q : sgn (d_sign d) ((2 ^ 52 + d_man d) * 2 ^ (d_exp d - 1)) = 0) by congruence.
          assert (0 < (2 ^ 52 + d_man d) * 2 ^ (d_exp d - 1)).
          { apply Z.mul_pos_pos; [lia|]. apply Z.pow_pos_nonneg; lia. }
          set (u := (2 ^ 52 + d_man d) * 2 ^ (d_exp d - 1)) in *. clearbody u.
          unfold sgn in Q. destruct (d_sign d =? 0); lia. }
      * destruct (S4 NZ) as (m & e & X). rewrite X in *. cbn [valid_binary] in V. apply bounded_spec in V; [|lia].
        rewrite emin64 in V. apply correct_rounded32. cbn [den] in S1. rewrite emin64 in S1.
        assert (n = cond_Zopp (negative d) (Zpos m * 2 ^ (e - - 1074))) as -> by congruence.
        apply round_correct; [lia|lia|apply Z.pow_pos_nonneg; lia|].
        exists 925. rewrite emin32. split; [lia|]. split; [lia|].
        rewrite Z.mul_1_r, <- !Z.mul_assoc, <- !Z.pow_add_r by lia. f_equal. f_equal. lia.
Qed.
