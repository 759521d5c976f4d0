(** Facts: sums, products, quotients and conversions of Coq.Floats.SpecFloat are the
    exact results, correctly rounded (Round.v). *)

From Coq Require Import ZArith Bool Lia Floats.SpecFloat ZifyBool.
From Verif Require Import Round.
Open Scope Z_scope.

Lemma shl_align_spec m e e' :
  Zpos (fst (shl_align m e e')) = Zpos m * 2 ^ (e - snd (shl_align m e e')) /\ snd (shl_align m e e') = Z.min e e'.
Proof.
  unfold shl_align. destruct (e' - e) as [|p|p] eqn:E; cbn [fst snd].
  - replace (e - e) with 0 by lia. lia.
  - replace (e - e) with 0 by lia. lia.
  - split; [|lia]. rewrite shift_pos_correct, Z.pow_pos_fold. replace (e - e') with (Zpos p) by lia. lia.
Qed.

Section Fmt.
  Variables prec emax : Z.
  Hypothesis Hprec : 1 < prec.
  Hypothesis Hmax : prec < emax.
  Let emin := SpecFloat.emin prec emax.
  Let fexp := SpecFloat.fexp prec emax.
  Let ok x := valid_binary prec emax x = true.

  Lemma emin_neg : emin < 0.
  Proof. unfold emin, SpecFloat.emin. lia. Qed.

  Theorem round_correct s m e N1 D1 : 0 < D1 -> same_value prec emax e (Zpos m) 1 N1 D1 ->
    correct prec emax (cond_Zopp s N1) D1 s (binary_round prec emax s m e).
  Proof.
    intros HD SV. unfold binary_round. fold fexp.
    set (e0 := fexp (Zpos (digits2_pos m) + e)).
    pose proof (shl_align_spec m e e0) as [A B].
    destruct (shl_align m e e0) as [mz ez]. cbn [fst snd] in A, B.
    apply (aux_correct prec emax Hprec Hmax s (Zpos mz) ez loc_Exact (Zpos mz) 1 N1 D1); auto; try lia.
    - cbn. lia.
    - fold fexp. rewrite A, digits_shift by lia. cbn [Zdigits2]. unfold e0 in *.
      replace (Z.pos (digits2_pos m) + (e - ez) + ez) with (Z.pos (digits2_pos m) + e) by lia. lia.
    - destruct SV as (j & J & K & E). fold emin in K, E. exists (j + (e - ez)). fold emin.
      split; [lia|]. split; [lia|]. rewrite A.
      replace (ez - emin + (j + (e - ez))) with (e - emin + j) by lia.
      rewrite (Z.pow_add_r 2 j) by lia.
      transitivity ((N1 * 1 * 2 ^ j) * 2 ^ (e - ez)); [ring|]. rewrite E. ring.
  Qed.

  Theorem normalize_correct z e N1 D1 b : z <> 0 -> 0 < D1 -> same_value prec emax e z 1 N1 D1 ->
    correct prec emax N1 D1 (z <? 0) (binary_normalize prec emax z e b).
  Proof.
    intros NZ HD SV. destruct z as [|p|p]; [lia| |]; cbn [binary_normalize].
    - apply (round_correct false p e N1 D1); auto.
    - replace N1 with (cond_Zopp true (- N1)) by (cbn; lia).
      apply round_correct; auto. destruct SV as (j & J & K & E). exists j. split; auto. split; auto. nia.
  Qed.

  Lemma den_finite x n : den prec emax x = Some n -> n <> 0 ->
    exists s m e, x = S754_finite s m e /\ n = cond_Zopp s (Zpos m * 2 ^ (e - emin)).
  Proof.
    destruct x as [s|s| |s m e]; cbn [den]; intros E NZ; try discriminate.
    - injection E as <-. lia.
    - fold emin in E. exists s, m, e. split; auto. congruence.
  Qed.

  Lemma valid_min s m e : ok (S754_finite s m e) -> emin <= e /\ (e = emin \/ prec <= Zdigits2 (Zpos m)).
  Proof.
    intros V. apply (bounded_spec prec emax Hprec) in V. fold emin in V. destruct V as (A & B & C).
    split; [lia|]. destruct C as [C|C]; [now left|right].
    destruct (digits_bounds (Zpos m) ltac:(lia)) as [[B1 B2] B3].
    destruct (Z_le_gt_dec prec (Zdigits2 (Zpos m))) as [|G]; auto.
    pose proof (Z.pow_le_mono_r 2 (Zdigits2 (Zpos m)) (prec - 1) ltac:(lia) ltac:(lia)). lia.
  Qed.

  (** two finite numbers brought to the same exponent *)
  Lemma aligned s m e ez : ez <= e -> emin <= ez ->
    cond_Zopp s (Zpos (fst (shl_align m e ez))) * 2 ^ (ez - emin) = cond_Zopp s (Zpos m * 2 ^ (e - emin)).
  Proof.
    intros A B. pose proof (shl_align_spec m e ez) as [X Y]. rewrite Y in X. replace (Z.min e ez) with ez in X by lia.
    rewrite X. replace (2 ^ (e - emin)) with (2 ^ (e - ez) * 2 ^ (ez - emin)) by (rewrite <- Z.pow_add_r by lia; f_equal; lia).
    destruct s; cbn [cond_Zopp]; ring.
  Qed.

  Lemma pow_ne e : emin <= e -> 0 < 2 ^ (e - emin).
  Proof. intros. apply Z.pow_pos_nonneg; lia. Qed.

  Theorem add_finite sx mx ex sy my ey a b :
    ok (S754_finite sx mx ex) -> ok (S754_finite sy my ey) ->
    den prec emax (S754_finite sx mx ex) = Some a -> den prec emax (S754_finite sy my ey) = Some b ->
    (a + b = 0 /\ SFadd prec emax (S754_finite sx mx ex) (S754_finite sy my ey) = S754_zero false) \/
    (a + b <> 0 /\ correct prec emax (a + b) 1 (a + b <? 0) (SFadd prec emax (S754_finite sx mx ex) (S754_finite sy my ey))).
  Proof.
    intros Vx Vy Ex Ey. apply valid_min in Vx, Vy. destruct Vx as [Vx _], Vy as [Vy _].
    cbn [den] in Ex, Ey. fold emin in Ex, Ey.
    assert (A : a = cond_Zopp sx (Zpos mx * 2 ^ (ex - emin))) by congruence. clear Ex.
    assert (B : b = cond_Zopp sy (Zpos my * 2 ^ (ey - emin))) by congruence. clear Ey.
    unfold SFadd. set (ez := Z.min ex ey).
    rewrite <- (aligned sx mx ex ez) in A by lia. rewrite <- (aligned sy my ey ez) in B by lia.
    set (za := cond_Zopp sx _) in *. set (zb := cond_Zopp sy _) in *.
    assert (S : a + b = (za + zb) * 2 ^ (ez - emin)) by lia.
    pose proof (pow_ne ez ltac:(lia)) as P.
    destruct (Z.eq_dec (za + zb) 0) as [Z0|NZ].
    - left. split; [rewrite S, Z0; lia|]. rewrite Z0. reflexivity.
    - right. assert (SN : a + b <> 0) by (rewrite S; apply Z.neq_mul_0; lia). split; auto.
      assert (SG : (a + b <? 0) = (za + zb <? 0)).
      { rewrite S. destruct (Z.ltb_spec (za + zb) 0) as [L|L].
        - apply Z.ltb_lt. apply Z.mul_neg_pos; auto.
        - apply Z.ltb_ge. apply Z.mul_nonneg_nonneg; lia. }
      rewrite SG. apply normalize_correct; auto; try lia.
      exists 0. fold emin. split; [lia|]. split; [lia|]. rewrite S. replace (ez - emin + 0) with (ez - emin) by lia. ring.
  Qed.

  Theorem sub_finite sx mx ex sy my ey a b :
    ok (S754_finite sx mx ex) -> ok (S754_finite sy my ey) ->
    den prec emax (S754_finite sx mx ex) = Some a -> den prec emax (S754_finite sy my ey) = Some b ->
    (a - b = 0 /\ SFsub prec emax (S754_finite sx mx ex) (S754_finite sy my ey) = S754_zero false) \/
    (a - b <> 0 /\ correct prec emax (a - b) 1 (a - b <? 0) (SFsub prec emax (S754_finite sx mx ex) (S754_finite sy my ey))).
  Proof.
    intros Vx Vy Ex Ey. apply valid_min in Vx, Vy. destruct Vx as [Vx _], Vy as [Vy _].
    cbn [den] in Ex, Ey. fold emin in Ex, Ey.
    assert (A : a = cond_Zopp sx (Zpos mx * 2 ^ (ex - emin))) by congruence. clear Ex.
    assert (B : b = cond_Zopp sy (Zpos my * 2 ^ (ey - emin))) by congruence. clear Ey.
    unfold SFsub. set (ez := Z.min ex ey).
    rewrite <- (aligned sx mx ex ez) in A by lia. rewrite <- (aligned sy my ey ez) in B by lia.
    set (za := cond_Zopp sx _) in *. set (zb := cond_Zopp sy _) in *.
    assert (S : a - b = (za - zb) * 2 ^ (ez - emin)) by lia.
    pose proof (pow_ne ez ltac:(lia)) as P.
    destruct (Z.eq_dec (za - zb) 0) as [Z0|NZ].
    - left. split; [rewrite S, Z0; lia|]. rewrite Z0. reflexivity.
    - right. assert (SN : a - b <> 0) by (rewrite S; apply Z.neq_mul_0; lia). split; auto.
      assert (SG : (a - b <? 0) = (za - zb <? 0)).
      { rewrite S. destruct (Z.ltb_spec (za - zb) 0) as [L|L].
        - apply Z.ltb_lt. apply Z.mul_neg_pos; auto.
        - apply Z.ltb_ge. apply Z.mul_nonneg_nonneg; lia. }
      rewrite SG. apply normalize_correct; auto; try lia.
      exists 0. fold emin. split; [lia|]. split; [lia|]. rewrite S. replace (ez - emin + 0) with (ez - emin) by lia. ring.
  Qed.

  Lemma digits_mul a b : 0 < a -> 0 < b -> Zdigits2 a + Zdigits2 b - 1 <= Zdigits2 (a * b).
  Proof.
    intros A B. destruct (digits_bounds a A) as [[A1 A2] A3]. destruct (digits_bounds b B) as [[B1 B2] B3].
    destruct (digits_bounds (a * b) ltac:(nia)) as [[C1 C2] C3].
    destruct (Z_le_gt_dec (Zdigits2 a + Zdigits2 b - 1) (Zdigits2 (a * b))) as [|G]; auto.
    pose proof (Z.pow_le_mono_r 2 (Zdigits2 (a * b)) ((Zdigits2 a - 1) + (Zdigits2 b - 1)) ltac:(lia) ltac:(lia)) as H.
    rewrite Z.pow_add_r in H by lia.
    pose proof (Z.mul_le_mono_nonneg _ _ _ _ (Z.pow_nonneg 2 (Zdigits2 a - 1) ltac:(lia)) A1 (Z.pow_nonneg 2 (Zdigits2 b - 1) ltac:(lia)) B1).
    lia.
  Qed.

  Lemma cond_xor sx sy a b : cond_Zopp (xorb sx sy) (a * b) = cond_Zopp sx a * cond_Zopp sy b.
  Proof. destruct sx, sy; cbn [xorb cond_Zopp]; ring. Qed.

  Theorem mul_finite sx mx ex sy my ey a b :
    ok (S754_finite sx mx ex) -> ok (S754_finite sy my ey) ->
    den prec emax (S754_finite sx mx ex) = Some a -> den prec emax (S754_finite sy my ey) = Some b ->
    correct prec emax (a * b) (2 ^ (- emin)) (xorb sx sy) (SFmul prec emax (S754_finite sx mx ex) (S754_finite sy my ey)).
  Proof.
    intros Vx Vy Ex Ey. apply valid_min in Vx, Vy. destruct Vx as [Vx Wx], Vy as [Vy Wy].
    cbn [den] in Ex, Ey. fold emin in Ex, Ey.
    assert (A : a = cond_Zopp sx (Zpos mx * 2 ^ (ex - emin))) by congruence. clear Ex.
    assert (B : b = cond_Zopp sy (Zpos my * 2 ^ (ey - emin))) by congruence. clear Ey.
    rewrite A, B, <- cond_xor. unfold SFmul. pose proof emin_neg as EN.
    apply (aux_correct prec emax Hprec Hmax _ (Zpos (mx * my)) (ex + ey) loc_Exact (Zpos (mx * my)) 1); auto; try lia.
    - cbn [located]. lia.
    - fold fexp. rewrite Pos2Z.inj_mul. pose proof (digits_mul (Zpos mx) (Zpos my) ltac:(lia) ltac:(lia)) as DM.
      destruct (digits_bounds (Zpos mx) ltac:(lia)) as [_ X1]. destruct (digits_bounds (Zpos my) ltac:(lia)) as [_ Y1].
      unfold fexp, SpecFloat.fexp. fold emin. lia.
    - exists (- emin). fold emin. split; [lia|]. split; [lia|].
      rewrite Pos2Z.inj_mul.
      assert (X : 2 ^ (ex - emin) * 2 ^ (ey - emin) = 2 ^ (ex + ey - emin + - emin)).
      { rewrite <- Z.pow_add_r by lia. f_equal. lia. }
      rewrite <- X. ring.
  Qed.

  Lemma digits_le a b : 0 < a -> a <= b -> Zdigits2 a <= Zdigits2 b.
  Proof.
    intros A B. destruct (digits_bounds a A) as [[A1 A2] A3]. destruct (digits_bounds b ltac:(lia)) as [[B1 B2] B3].
    destruct (Z_le_gt_dec (Zdigits2 a) (Zdigits2 b)) as [|G]; auto.
    pose proof (Z.pow_le_mono_r 2 (Zdigits2 b) (Zdigits2 a - 1) ltac:(lia) ltac:(lia)). lia.
  Qed.

  Lemma new_location_located N D : 0 < D -> located N D (N / D) (new_location D (N mod D)).
  Proof.
    intros HD. pose proof (Z.div_mod N D ltac:(lia)) as E. pose proof (Z.mod_pos_bound N D HD) as B.
    set (q := N / D) in *. set (r := N mod D) in *.
    unfold new_location, new_location_even, new_location_odd.
    destruct (Z.even D) eqn:EV; cbv beta; destruct (Zeq_bool r 0) eqn:R0; cbn [located].
    - apply Zeq_bool_eq in R0. lia.
    - apply Zeq_bool_neq in R0. split; [lia|]. f_equal. lia.
    - apply Zeq_bool_eq in R0. lia.
    - apply Zeq_bool_neq in R0. split; [lia|]. replace (2 * (N - q * D)) with (2 * r) by lia.
      assert (2 * r <> D). { intros X. rewrite <- X in EV. rewrite Z.even_mul in EV. discriminate. }
      destruct (Z.compare_spec (2 * r + 1) D) as [C|C|C].
      + apply Z.compare_lt_iff. lia.
      + apply Z.compare_lt_iff. lia.
      + apply Z.compare_gt_iff. lia.
  Qed.

  Theorem div_core s0 mx ex my ey : emin <= ex -> emin <= ey ->
    correct prec emax (cond_Zopp s0 (Zpos mx * 2 ^ (ex - emin) * 2 ^ (- emin))) (Zpos my * 2 ^ (ey - emin)) s0
      (let '(m, e, l) := SFdiv_core_binary prec emax (Zpos mx) ex (Zpos my) ey in binary_round_aux prec emax s0 m e l).
  Proof.
    intros Vx Vy. pose proof emin_neg as EN.
    pose proof (pow_ne ex Vx) as Px. pose proof (pow_ne ey Vy) as Py.
    unfold SFdiv_core_binary. fold fexp.
    set (d1 := Zdigits2 (Zpos mx)). set (d2 := Zdigits2 (Zpos my)).
    set (e' := Z.min (fexp (d1 + ex - (d2 + ey))) (ex - ey)).
    set (s := ex - ey - e').
    assert (S0 : 0 <= s) by (unfold s, e'; lia).
    assert (M' : match s with Z0 => Zpos mx | Zpos _ => Z.shiftl (Zpos mx) s | Zneg _ => 0 end = Zpos mx * 2 ^ s).
    { destruct s as [|p|p] eqn:Es; [lia| |lia]. now rewrite Z.shiftl_mul_pow2 by lia. }
    rewrite M'. clear M'.
    pose proof (Z_div_mod (Zpos mx * 2 ^ s) (Zpos my) ltac:(lia)) as DM.
    pose proof (new_location_located (Zpos mx * 2 ^ s) (Zpos my) ltac:(lia)) as LOC.
    unfold Z.div, Z.modulo in LOC.
    destruct (Z.div_eucl (Zpos mx * 2 ^ s) (Zpos my)) as [q r].
    assert (Ps : 0 < 2 ^ s) by (apply Z.pow_pos_nonneg; lia).
    assert (Q0 : 0 <= q) by nia.
    apply (aux_correct prec emax Hprec Hmax _ q e' _ (Zpos mx * 2 ^ s) (Zpos my)); auto; try lia.
    - fold fexp.
      (* the quotient has about as many digits as expected *)
      destruct (digits_bounds (Zpos mx) ltac:(lia)) as [[X1 X2] X3]. destruct (digits_bounds (Zpos my) ltac:(lia)) as [[Y1 Y2] Y3].
      fold d1 in X1, X2, X3. fold d2 in Y1, Y2, Y3.
      assert (DQ : d1 + s - d2 <= Zdigits2 q).
      { destruct (Z_le_gt_dec (d1 + s - d2) 0) as [|G].
        { destruct (Z.eq_dec q 0) as [->|]; [cbn [Zdigits2]; lia|]. destruct (digits_bounds q ltac:(lia)) as [_ ?]. lia. }
        assert (2 ^ (d1 + s - d2 - 1) <= q).
        { assert (U : 2 ^ (d1 + s - d2 - 1) * Zpos my <= Zpos mx * 2 ^ s).
          { transitivity (2 ^ (d1 + s - d2 - 1) * 2 ^ d2).
            - apply Z.mul_le_mono_nonneg_l; [apply Z.pow_nonneg|]; lia.
            - rewrite <- Z.pow_add_r by lia. replace (d1 + s - d2 - 1 + d2) with ((d1 - 1) + s) by lia.
              rewrite Z.pow_add_r by lia. apply Z.mul_le_mono_nonneg_r; lia. }
          assert (2 ^ (d1 + s - d2 - 1) < q + 1).
          { apply (Z.mul_lt_mono_pos_r (Zpos my)); lia. }
          lia. }
        assert (q0 : 0 < q) by (pose proof (Z.pow_pos_nonneg 2 (d1 + s - d2 - 1)); lia).
        destruct (digits_bounds q q0) as [[Q1 Q2] Q3].
        destruct (Z_le_gt_dec (d1 + s - d2) (Zdigits2 q)) as [|G']; auto.
        pose proof (Z.pow_le_mono_r 2 (Zdigits2 q) (d1 + s - d2 - 1) ltac:(lia) ltac:(lia)). lia. }
      unfold s, e', fexp, SpecFloat.fexp in *. fold emin in DQ |- *. lia.
    - exists (Z.max 0 (emin - e')). fold emin. split; [lia|]. split; [lia|].
      set (j := Z.max 0 (emin - e')).
      assert (X : 2 ^ (ex - emin) * 2 ^ (- emin) * 2 ^ j = 2 ^ s * 2 ^ (ey - emin) * 2 ^ (e' - emin + j)).
      { rewrite <- !Z.pow_add_r by lia. f_equal. unfold s. lia. }
      transitivity (Zpos mx * Zpos my * (2 ^ (ex - emin) * 2 ^ (- emin) * 2 ^ j)); [ring|]. rewrite X. ring.
  Qed.

  Theorem div_finite sx mx ex sy my ey a b :
    ok (S754_finite sx mx ex) -> ok (S754_finite sy my ey) ->
    den prec emax (S754_finite sx mx ex) = Some a -> den prec emax (S754_finite sy my ey) = Some b ->
    correct prec emax (a * Z.sgn b * 2 ^ (- emin)) (Z.abs b) (xorb sx sy) (SFdiv prec emax (S754_finite sx mx ex) (S754_finite sy my ey)).
  Proof.
    intros Vx Vy Ex Ey. apply valid_min in Vx, Vy. destruct Vx as [Vx Wx], Vy as [Vy Wy].
    cbn [den] in Ex, Ey. fold emin in Ex, Ey.
    assert (A : a = cond_Zopp sx (Zpos mx * 2 ^ (ex - emin))) by congruence. clear Ex.
    assert (B : b = cond_Zopp sy (Zpos my * 2 ^ (ey - emin))) by congruence. clear Ey.
    pose proof emin_neg as EN.
    pose proof (pow_ne ex Vx) as Px. pose proof (pow_ne ey Vy) as Py.
    assert (SB : Z.sgn b = cond_Zopp sy 1).
    { rewrite B. destruct sy; cbn [cond_Zopp].
      - rewrite Z.sgn_opp, Z.sgn_mul. rewrite (Z.sgn_pos (2 ^ _)) by lia. reflexivity.
      - rewrite Z.sgn_mul. rewrite (Z.sgn_pos (2 ^ _)) by lia. reflexivity. }
    assert (AB : Z.abs b = Zpos my * 2 ^ (ey - emin)).
    { rewrite B. destruct sy; cbn [cond_Zopp]; rewrite ?Z.abs_opp; apply Z.abs_eq; lia. }
    rewrite SB, AB.
    replace (a * cond_Zopp sy 1 * 2 ^ (- emin)) with (cond_Zopp (xorb sx sy) (Zpos mx * 2 ^ (ex - emin) * 2 ^ (- emin)))
      by (rewrite A; destruct sx, sy; cbn [xorb cond_Zopp]; ring).
    unfold SFdiv. apply (div_core (xorb sx sy) mx ex my ey Vx Vy).
  Qed.
End Fmt.
