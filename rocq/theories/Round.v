(** Facts: the rounding of Coq.Floats.SpecFloat is correct rounding to nearest, ties
    to even.  Stated over integers: a finite number is an integer multiple of the
    smallest positive one, and the exact result is a fraction of it. *)

From Coq Require Import ZArith Bool Lia Floats.SpecFloat ZifyBool.
Open Scope Z_scope.

Lemma digits_log2 p : Zpos (digits2_pos p) = Z.log2 (Zpos p) + 1.
Proof.
  induction p as [p IH|p IH|]; cbn [digits2_pos].
  - rewrite Pos2Z.inj_succ, IH. rewrite (Pos2Z.inj_xI p).
    rewrite Z.log2_succ_double by lia. lia.
  - rewrite Pos2Z.inj_succ, IH. rewrite (Pos2Z.inj_xO p).
    rewrite Z.log2_double by lia. lia.
  - reflexivity.
Qed.

Lemma digits_bounds m : 0 < m -> 2 ^ (Zdigits2 m - 1) <= m < 2 ^ Zdigits2 m /\ 1 <= Zdigits2 m.
Proof.
  intros H. destruct m as [|p|p]; try lia. cbn [Zdigits2].
  pose proof (digits_log2 p) as E. pose proof (Z.log2_spec (Zpos p) H) as L.
  pose proof (Z.log2_nonneg (Zpos p)).
  rewrite E. replace (Z.log2 (Z.pos p) + 1 - 1) with (Z.log2 (Z.pos p)) by lia.
  unfold Z.succ in L. lia.
Qed.

Lemma digits_unique m d : 1 <= d -> 2 ^ (d - 1) <= m < 2 ^ d -> Zdigits2 m = d.
Proof.
  intros D B. assert (0 < m) by (pose proof (Z.pow_pos_nonneg 2 (d - 1)); lia).
  destruct (digits_bounds m H) as [[L U] P].
  destruct (Z.lt_trichotomy (Zdigits2 m) d) as [C|[C|C]]; auto.
  - pose proof (Z.pow_le_mono_r 2 (Zdigits2 m) (d - 1)). lia.
  - pose proof (Z.pow_le_mono_r 2 d (Zdigits2 m - 1)). lia.
Qed.

Lemma digits_shift m k : 0 < m -> 0 <= k -> Zdigits2 (m * 2 ^ k) = Zdigits2 m + k.
Proof.
  intros M K. destruct (digits_bounds m M) as [[L U] P].
  apply digits_unique; [lia|].
  replace (Zdigits2 m + k - 1) with ((Zdigits2 m - 1) + k) by lia.
  rewrite !Z.pow_add_r by lia. pose proof (Z.pow_pos_nonneg 2 k). nia.
Qed.

(** [m] and [l] locate N/D: [m] is the floor, [l] where in the gap. *)
Definition located (N D m : Z) (l : location) : Prop :=
  match l with
  | loc_Exact => N = m * D
  | loc_Inexact c => m * D < N < (m + 1) * D /\ Z.compare (2 * (N - m * D)) D = c
  end.

Lemma located_floor N D m l : 0 < D -> located N D m l -> m * D <= N < (m + 1) * D.
Proof. intros H. destruct l; cbn; lia. Qed.

Lemma loc_record m l : loc_of_shr_record (shr_record_of_loc m l) = l.
Proof. destruct l as [|[]]; reflexivity. Qed.
Lemma m_record m l : shr_m (shr_record_of_loc m l) = m.
Proof. destruct l as [|[]]; reflexivity. Qed.

Definition at_record (N D : Z) (r : shr_record) : Prop :=
  0 <= shr_m r /\ located N D (shr_m r) (loc_of_shr_record r).

Lemma shr_1_located N D r : 0 < D -> at_record N D r -> at_record N (2 * D) (shr_1 r).
Proof.
  intros HD [M L]. destruct r as [m r s]. cbn [shr_m] in *.
  assert (X : m = 2 * shr_m (shr_1 {| shr_m := m; shr_r := r; shr_s := s |})
              + (if shr_r (shr_1 {| shr_m := m; shr_r := r; shr_s := s |}) then 1 else 0)
              /\ shr_s (shr_1 {| shr_m := m; shr_r := r; shr_s := s |}) = r || s).
  { destruct m as [|[p|p|]|p]; cbn [shr_1 shr_m shr_r shr_s]; try (exfalso; lia); (split; [|reflexivity]); lia. }
  destruct (shr_1 {| shr_m := m; shr_r := r; shr_s := s |}) as [m' r' s']. cbn [shr_m shr_r shr_s] in X. destruct X as [X ->].
  unfold at_record. cbn [shr_m]. split; [destruct r'; lia|].
  revert L. destruct r, s, r'; cbn [orb loc_of_shr_record located]; intros L;
    repeat match goal with
    | H : _ /\ _ |- _ => destruct H
    | H : (_ ?= _) = _ |- _ => first [apply Z.compare_lt_iff in H | apply Z.compare_gt_iff in H | apply Z.compare_eq_iff in H]
    end; subst m; try nia;
    split; try nia; first [apply Z.compare_lt_iff | apply Z.compare_gt_iff | apply Z.compare_eq_iff]; nia.
Qed.

Lemma iter_located p : forall N D r, 0 < D -> at_record N D r -> at_record N (2 ^ Zpos p * D) (iter_pos shr_1 p r).
Proof.
  induction p as [p IH|p IH|]; intros N D r HD A; cbn [iter_pos].
  - replace (2 ^ Zpos p~1 * D) with (2 ^ Zpos p * (2 ^ Zpos p * (2 * D))).
    + apply IH; [pose proof (Z.pow_pos_nonneg 2 (Zpos p)); nia|]. apply IH; [lia|]. now apply shr_1_located.
    + replace (Zpos p~1) with (Zpos p + Zpos p + 1) by lia. rewrite !Z.pow_add_r by lia. lia.
  - replace (2 ^ Zpos p~0 * D) with (2 ^ Zpos p * (2 ^ Zpos p * D)).
    + apply IH; [pose proof (Z.pow_pos_nonneg 2 (Zpos p)); nia|]. now apply IH.
    + replace (Zpos p~0) with (Zpos p + Zpos p) by lia. rewrite !Z.pow_add_r by lia. lia.
  - change (2 ^ 1) with 2. now apply shr_1_located.
Qed.

Lemma shr_located N D m l e n : 0 < D -> 0 <= m -> located N D m l -> 0 <= n ->
  at_record N (2 ^ n * D) (fst (shr (shr_record_of_loc m l) e n)) /\ snd (shr (shr_record_of_loc m l) e n) = e + n.
Proof.
  intros HD M L Hn.
  assert (A : at_record N D (shr_record_of_loc m l)).
  { unfold at_record. rewrite m_record, loc_record. auto. }
  destruct n as [|p|p]; try lia; cbn [shr fst snd].
  - change (2 ^ 0) with 1. rewrite Z.mul_1_l. split; auto. lia.
  - split; auto. now apply iter_located.
Qed.

(** Rounding a located fraction. *)
Definition nearest (N D M : Z) : Prop :=
  forall M', Z.abs (N - M * D) <= Z.abs (N - M' * D) /\
             (Z.abs (N - M * D) = Z.abs (N - M' * D) -> M = M' \/ Z.even M = true).

Lemma rne_nearest N D m l : 0 < D -> located N D m l -> nearest N D (round_nearest_even m l).
Proof.
  intros HD L M'. destruct l as [|c]; cbn [located] in L.
  - subst N. cbn [round_nearest_even]. split; [rewrite Z.sub_diag; cbn; lia|]. intros E. left.
    rewrite Z.sub_diag in E. cbn in E. nia.
  - destruct L as [B C].
    assert (G : M' <= m \/ m + 1 <= M') by lia.
    destruct c; cbn [round_nearest_even];
      first [apply (proj1 (Z.compare_lt_iff _ _)) in C | apply (proj1 (Z.compare_gt_iff _ _)) in C | apply (proj1 (Z.compare_eq_iff _ _)) in C].
    + destruct (Z.even m) eqn:E.
      * split; [destruct G; nia|]. auto.
      * split; [destruct G; nia|]. intros _. right. rewrite Z.even_add, E. reflexivity.
    + assert (Z.abs (N - m * D) = N - m * D) by lia. rewrite H.
      destruct G as [G|G].
      * assert (M' * D <= m * D) by nia. assert (Z.abs (N - M' * D) = N - M' * D) by lia. rewrite H1.
        split; [lia|]. intros. left. nia.
      * assert ((m + 1) * D <= M' * D) by nia. assert (Z.abs (N - M' * D) = M' * D - N) by lia. rewrite H1.
        split; [lia|]. intros. lia.
    + assert (Z.abs (N - (m + 1) * D) = (m + 1) * D - N) by lia. rewrite H.
      destruct G as [G|G].
      * assert (M' * D <= m * D) by nia. assert (Z.abs (N - M' * D) = N - M' * D) by lia. rewrite H1.
        split; [lia|]. intros. lia.
      * assert ((m + 1) * D <= M' * D) by nia. assert (Z.abs (N - M' * D) = M' * D - N) by lia. rewrite H1.
        split; [lia|]. intros. left. nia.
Qed.

Lemma rne_range m l : round_nearest_even m l = m \/ round_nearest_even m l = m + 1.
Proof. destruct l as [|[]]; cbn; auto. destruct (Z.even m); auto. Qed.

Section Fmt.
  Variables prec emax : Z.
  Hypothesis Hprec : 1 < prec.
  Hypothesis Hmax : prec < emax.
  Let emin := SpecFloat.emin prec emax.
  Let fexp := SpecFloat.fexp prec emax.

  Definition pack (s : bool) (M e : Z) : spec_float :=
    if M =? 0 then S754_zero s
    else if M =? 2 ^ prec then
      (if e + 1 <=? emax - prec then S754_finite s (Z.to_pos (2 ^ (prec - 1))) (e + 1) else S754_infinity s)
    else if e <=? emax - prec then S754_finite s (Z.to_pos M) e else S754_infinity s.

  Lemma pow_pred : 2 ^ prec = 2 * 2 ^ (prec - 1).
  Proof. replace prec with (1 + (prec - 1)) at 1 by lia. rewrite Z.pow_add_r by lia. reflexivity. Qed.

  Lemma Zle_bool_leb a b : Zle_bool a b = (a <=? b).
  Proof. reflexivity. Qed.

  Lemma aux_spec s m e l N D :
    0 < D -> 0 <= m -> located N D m l -> e <= fexp (Zdigits2 m + e) ->
    exists M e', emin <= e' /\ e <= e' /\
      nearest N (2 ^ (e' - e) * D) M /\ 0 <= M <= 2 ^ prec /\
      (e' = emin \/ 2 ^ (prec - 1) * (2 ^ (e' - e) * D) <= N) /\ N < 2 ^ prec * (2 ^ (e' - e) * D) /\
      (e' = emin \/ 2 ^ (prec - 1) <= M) /\
      binary_round_aux prec emax s m e l = pack s M e'.
  Proof.
    intros HD Hm L P.
    set (k := fexp (Zdigits2 m + e) - e).
    assert (K : 0 <= k) by (unfold k; lia).
    destruct (shr_located N D m l e k HD Hm L K) as [A E].
    unfold binary_round_aux. unfold shr_fexp at 1. fold fexp. fold k.
    destruct (shr (shr_record_of_loc m l) e k) as [rc e'] eqn:SH. cbn [fst snd] in A, E.
    destruct A as [Am Al].
    set (m' := shr_m rc) in *. set (l' := loc_of_shr_record rc) in *.
    set (D' := 2 ^ k * D) in *.
    assert (PK : 0 < 2 ^ k) by (apply Z.pow_pos_nonneg; lia).
    assert (HD' : 0 < D') by (unfold D'; nia).
    set (M := round_nearest_even m' l') in *.
    pose proof (rne_nearest N D' m' l' HD' Al) as NR. fold M in NR.
    pose proof (rne_range m' l') as RR. fold M in RR.
    pose proof (located_floor _ _ _ _ HD' Al) as FL.
    pose proof (located_floor _ _ _ _ HD L) as FL0.
    assert (PP : 0 < 2 ^ (prec - 1)) by (apply Z.pow_pos_nonneg; lia).
    pose proof pow_pred as PW.
    assert (EM : emin <= e').
    { rewrite E. unfold k, fexp, SpecFloat.fexp. fold emin. lia. }
    (* the size of the floor *)
    assert (SZ : m' < 2 ^ prec /\ (e' = emin \/ 2 ^ (prec - 1) <= m')).
    { destruct (Z.eq_dec m 0) as [Z0|NZ].
      - subst m. assert (m' = 0) by nia. split; [lia|]. left.
        cbn [Zdigits2] in *. rewrite E. unfold k, fexp, SpecFloat.fexp in *. fold emin in P |- *. lia.
      - destruct (digits_bounds m ltac:(lia)) as [[B1 B2] B3].
        set (d := Zdigits2 m) in *.
        assert (KE : k = Z.max (d + e - prec) emin - e) by reflexivity.
        assert (U : m' < 2 ^ (d - k) \/ d - k < 0 /\ m' = 0).
        { destruct (Z_lt_le_dec (d - k) 0) as [N0|N0].
          - right. split; auto. assert (2 ^ d <= 2 ^ k) by (apply Z.pow_le_mono_r; lia).
            unfold D' in FL. nia.
          - left. replace (2 ^ d) with (2 ^ (d - k) * 2 ^ k) in B2 by (rewrite <- Z.pow_add_r by lia; f_equal; lia).
            unfold D' in FL. set (q := 2 ^ (d - k)) in *. nia. }
        split.
        + destruct U as [U|[_ ->]]; [|lia]. destruct (Z_lt_le_dec (d - k) 0).
          * rewrite Z.pow_neg_r in U by lia. lia.
          * pose proof (Z.pow_le_mono_r 2 (d - k) prec ltac:(lia) ltac:(lia)). lia.
        + destruct (Z_le_gt_dec emin (d + e - prec)) as [C|C]; [right|left; lia].
          assert (k = d - prec) by lia.
          replace (2 ^ (d - 1)) with (2 ^ (prec - 1) * 2 ^ k) in B1 by (rewrite <- Z.pow_add_r by lia; f_equal; lia).
          unfold D' in FL. set (q := 2 ^ (prec - 1)) in *. nia. }
    destruct SZ as [S1 S2].
    exists M, e'. replace (e' - e) with k by lia. fold D'.
    split; [exact EM|]. split; [lia|]. split; [exact NR|]. split; [lia|].
    split; [destruct S2; [now left|right; nia]|]. split; [nia|].
    split; [destruct S2; [now left|right; lia]|].
    (* the second shift *)
    assert (RM : 0 <= M <= 2 ^ prec) by lia.
    assert (RL : e' = emin \/ 2 ^ (prec - 1) <= M) by (destruct S2; [now left|right; lia]).
    clearbody M. clear NR RR S1 S2 FL Al Am.
    unfold shr_fexp. fold fexp. unfold pack.
    destruct (M =? 0) eqn:Z0.
    { apply Z.eqb_eq in Z0. subst M. cbn [Zdigits2]. unfold shr_record_of_loc.
      assert (X : fexp (0 + e') - e' <= 0).
      { unfold fexp, SpecFloat.fexp. fold emin. lia. }
      unfold shr. destruct (fexp (0 + e') - e') as [|p|p] eqn:F; try lia; reflexivity. }
    destruct (M =? 2 ^ prec) eqn:Zp.
    { apply Z.eqb_eq in Zp.
      assert (DG : Zdigits2 M = prec + 1).
      { apply digits_unique; [lia|]. replace (prec + 1 - 1) with prec by lia. rewrite Z.pow_add_r by lia. lia. }
      rewrite DG. assert (F : fexp (prec + 1 + e') - e' = 1).
      { unfold fexp, SpecFloat.fexp. fold emin. lia. }
      rewrite F. unfold shr, shr_record_of_loc. cbn [iter_pos].
      destruct M as [|[p|p|]|p]; try lia; cbn [shr_1 shr_m].
      - assert (X : Zpos p = 2 ^ (prec - 1)) by lia. rewrite <- X. cbn [Z.to_pos]. reflexivity. }
    destruct (digits_bounds M ltac:(lia)) as [[B1 B2] B3].
    assert (DP : Zdigits2 M <= prec).
    { destruct (Z_le_gt_dec (Zdigits2 M) prec) as [|C]; auto.
      pose proof (Z.pow_le_mono_r 2 prec (Zdigits2 M - 1) ltac:(lia) ltac:(lia)). lia. }
    assert (X : fexp (Zdigits2 M + e') - e' = 0).
    { unfold fexp, SpecFloat.fexp. fold emin. destruct RL as [RL|RL]; [lia|].
      assert (prec <= Zdigits2 M).
      { destruct (Z_le_gt_dec prec (Zdigits2 M)) as [|C]; auto.
        pose proof (Z.pow_le_mono_r 2 (Zdigits2 M) (prec - 1) ltac:(lia) ltac:(lia)). lia. }
      lia. }
    rewrite X. unfold shr, shr_record_of_loc. cbn [shr_m].
    destruct M as [|p|p]; try lia. cbn [Z.to_pos]. reflexivity.
  Qed.

  (** What a number is worth, in units of the smallest positive one. *)
  Definition den (x : spec_float) : option Z :=
    match x with
    | S754_zero _ => Some 0
    | S754_finite s m e => Some (cond_Zopp s (Zpos m * 2 ^ (e - emin)))
    | _ => None
    end.
  Definition sf_even (x : spec_float) : bool := match x with S754_finite _ m _ => Z.even (Zpos m) | _ => true end.
  Definition sf_sign (x : spec_float) : bool :=
    match x with S754_zero s | S754_infinity s | S754_finite s _ _ => s | S754_nan => false end.
  (** The largest finite number and half a step. *)
  Definition limit : Z := (2 ^ (prec + 1) - 1) * 2 ^ (emax - prec - 1 - emin).

  Definition correct (N D : Z) (s : bool) (x : spec_float) : Prop :=
    if Z.abs N <? limit * D then
      sf_sign x = s /\ valid_binary prec emax x = true /\
      exists n, den x = Some n /\
        forall y n', valid_binary prec emax y = true -> den y = Some n' ->
          Z.abs (N - n * D) <= Z.abs (N - n' * D) /\
          (Z.abs (N - n * D) = Z.abs (N - n' * D) -> n = n' \/ sf_even x = true)
    else x = S754_infinity s.

  Lemma emin_le : emin < emax - prec.
  Proof. unfold emin, SpecFloat.emin. lia. Qed.

  Lemma bounded_spec m e : bounded prec emax m e = true <->
    emin <= e <= emax - prec /\ Zpos m < 2 ^ prec /\ (e = emin \/ 2 ^ (prec - 1) <= Zpos m).
  Proof.
    unfold bounded, canonical_mantissa. rewrite andb_true_iff, <- Zeq_is_eq_bool, <- Zle_is_le_bool.
    fold fexp. unfold fexp, SpecFloat.fexp. fold emin.
    destruct (digits_bounds (Zpos m) ltac:(lia)) as [[B1 B2] B3]. cbn [Zdigits2] in *.
    set (d := Zpos (digits2_pos m)) in *. pose proof pow_pred as PW.
    assert (PP : 0 < 2 ^ (prec - 1)) by (apply Z.pow_pos_nonneg; lia).
    split.
    - intros [A B]. split; [lia|]. split.
      + pose proof (Z.pow_le_mono_r 2 d prec ltac:(lia) ltac:(lia)). lia.
      + destruct (Z.eq_dec e emin); [now left|right].
        assert (d = prec) by lia. congruence || lia.
    - intros (A & B & C). split; [|lia].
      assert (d <= prec).
      { destruct (Z_le_gt_dec d prec) as [|G]; auto.
        pose proof (Z.pow_le_mono_r 2 prec (d - 1) ltac:(lia) ltac:(lia)). lia. }
      destruct C as [C|C]; [lia|].
      assert (prec <= d).
      { destruct (Z_le_gt_dec prec d) as [|G]; auto.
        pose proof (Z.pow_le_mono_r 2 d (prec - 1) ltac:(lia) ltac:(lia)). lia. }
      lia.
  Qed.

  Lemma den_opp y : den (SFopp y) = option_map Z.opp (den y).
  Proof. destruct y as [b|b| |b m e]; cbn; auto. destruct b; cbn; f_equal; lia. Qed.
  Lemma valid_opp y : valid_binary prec emax (SFopp y) = valid_binary prec emax y.
  Proof. destruct y; reflexivity. Qed.

  (** Every finite number is a multiple of 2^k, or less than 2^(k + prec - 1). *)
  Lemma grid y n k : valid_binary prec emax y = true -> den y = Some n -> 0 <= k ->
    (exists M, n = M * 2 ^ k) \/ 0 < k /\ Z.abs n < 2 ^ (prec - 1) * 2 ^ k.
  Proof.
    intros V E K. destruct y as [b|b| |b m e]; cbn [valid_binary den] in V, E; try discriminate.
    - left. exists 0. injection E as <-. lia.
    - apply bounded_spec in V. destruct V as (A & B & C).
      assert (n = cond_Zopp b (Zpos m * 2 ^ (e - emin))) as -> by congruence. clear E.
      destruct (Z_le_gt_dec k (e - emin)) as [L|G].
      + left. exists (cond_Zopp b (Zpos m * 2 ^ (e - emin - k))).
        assert (X : 2 ^ (e - emin) = 2 ^ (e - emin - k) * 2 ^ k) by (rewrite <- Z.pow_add_r by lia; f_equal; lia).
        rewrite X.
        destruct b; unfold cond_Zopp; ring.
      + right. split; [lia|].
        assert (2 ^ (e - emin) <= 2 ^ (k - 1)) by (apply Z.pow_le_mono_r; lia).
        assert (X : 2 ^ k = 2 * 2 ^ (k - 1)).
        { replace k with (1 + (k - 1)) at 1 by lia. rewrite Z.pow_add_r by lia. reflexivity. }
        pose proof pow_pred as PW.
        assert (Z.abs (cond_Zopp b (Zpos m * 2 ^ (e - emin))) = Zpos m * 2 ^ (e - emin)).
        { assert (0 < 2 ^ (e - emin)) by (apply Z.pow_pos_nonneg; lia).
          set (t := 2 ^ (e - emin)) in *. destruct b; unfold cond_Zopp; nia. }
        rewrite H0. set (t := 2 ^ (e - emin)) in *. set (u := 2 ^ (k - 1)) in *. set (q := 2 ^ (prec - 1)) in *.
        assert (0 < t) by (apply Z.pow_pos_nonneg; lia). rewrite X. nia.
  Qed.

  Lemma pack_valid s M e : emin <= e -> 0 <= M <= 2 ^ prec -> (e = emin \/ 2 ^ (prec - 1) <= M) ->
    valid_binary prec emax (pack s M e) = true.
  Proof.
    intros E R L. unfold pack. assert (PP : 0 < 2 ^ (prec - 1)) by (apply Z.pow_pos_nonneg; lia).
    pose proof pow_pred as PW.
    destruct (M =? 0) eqn:A; [reflexivity|]. destruct (M =? 2 ^ prec) eqn:B.
    - destruct (e + 1 <=? emax - prec) eqn:C; [|reflexivity]. cbn [valid_binary]. apply bounded_spec.
      rewrite Z2Pos.id by lia. lia.
    - destruct (e <=? emax - prec) eqn:C; [|reflexivity]. cbn [valid_binary]. apply bounded_spec.
      rewrite Z2Pos.id by lia. lia.
  Qed.

  Lemma pack_sign s M e : sf_sign (pack s M e) = s.
  Proof.
    unfold pack. destruct (M =? 0); [reflexivity|]. destruct (M =? 2 ^ prec).
    - destruct (e + 1 <=? emax - prec); reflexivity.
    - destruct (e <=? emax - prec); reflexivity.
  Qed.

  Lemma pack_den s M e : emin <= e -> 0 <= M <= 2 ^ prec ->
    (M = 2 ^ prec -> e < emax - prec) -> e <= emax - prec ->
    den (pack s M e) = Some (cond_Zopp s (M * 2 ^ (e - emin))) /\
    sf_even (pack s M e) = Z.even M.
  Proof.
    intros E R F G. unfold pack. pose proof pow_pred as PW.
    assert (PP : 0 < 2 ^ (prec - 1)) by (apply Z.pow_pos_nonneg; lia).
    destruct (M =? 0) eqn:A.
    - apply Z.eqb_eq in A. subst M. cbn. destruct s; auto.
    - destruct (M =? 2 ^ prec) eqn:B.
      + apply Z.eqb_eq in B. assert (e + 1 <=? emax - prec = true) as -> by lia.
        cbn [den sf_even]. rewrite Z2Pos.id by lia.
        replace (e + 1 - emin) with ((e - emin) + 1) by lia. rewrite Z.pow_add_r by lia.
        split.
        { rewrite B, PW. replace (2 ^ (prec - 1) * (2 ^ (e - emin) * 2 ^ 1)) with (2 * 2 ^ (prec - 1) * 2 ^ (e - emin)) by ring. reflexivity. }
        rewrite B, PW.
        rewrite Z.even_mul. cbn [Z.even orb].
        replace (prec - 1) with (1 + (prec - 2)) by lia. rewrite Z.pow_add_r by lia. now rewrite Z.even_mul.
      + assert (e <=? emax - prec = true) as -> by lia. cbn [den sf_even].
        rewrite Z2Pos.id by lia. auto.
  Qed.

  Lemma pack_inf s M e : 0 < M <= 2 ^ prec -> (emax - prec < e \/ M = 2 ^ prec /\ e = emax - prec) ->
    pack s M e = S754_infinity s.
  Proof.
    intros R H. unfold pack. assert (M =? 0 = false) as -> by lia.
    destruct (M =? 2 ^ prec) eqn:B.
    - assert (e + 1 <=? emax - prec = false) as -> by lia. reflexivity.
    - assert (e <=? emax - prec = false) as -> by lia. reflexivity.
  Qed.

  (** N/D is in units of 2^e, N1/D1 in units of 2^emin. *)
  Definition same_value (e N D N1 D1 : Z) : Prop :=
    exists j, 0 <= j /\ 0 <= e - emin + j /\ N1 * D * 2 ^ j = N * D1 * 2 ^ (e - emin + j).

  Lemma rescale e e' N D N1 D1 : e <= e' -> emin <= e' -> same_value e N D N1 D1 ->
    N1 * (2 ^ (e' - e) * D) = N * D1 * 2 ^ (e' - emin).
  Proof.
    intros A B (j & J & K & E).
    assert (P : 0 < 2 ^ j) by (apply Z.pow_pos_nonneg; lia).
    assert (X : 2 ^ (e' - e) * 2 ^ (e - emin + j) = 2 ^ (e' - emin) * 2 ^ j).
    { rewrite <- !Z.pow_add_r by lia. f_equal. lia. }
    apply (Z.mul_reg_r _ _ (2 ^ j)); [lia|].
    transitivity ((N1 * D * 2 ^ j) * 2 ^ (e' - e)); [ring|]. rewrite E.
    transitivity (N * D1 * (2 ^ (e' - e) * 2 ^ (e - emin + j))); [ring|]. rewrite X. ring.
  Qed.

  Lemma abs_scale a b c d : 0 < c -> 0 < d -> a * c = b * d -> Z.abs a * c = Z.abs b * d.
  Proof. intros. nia. Qed.

  Lemma core_nearest N D1 D' N1 M k y n' :
    0 < D1 -> 0 < D' -> 0 <= k -> N1 * D' = N * D1 * 2 ^ k -> nearest N D' M ->
    (k = 0 \/ 2 ^ (prec - 1) * D' <= N) ->
    valid_binary prec emax y = true -> den y = Some n' ->
    Z.abs (N1 - M * 2 ^ k * D1) <= Z.abs (N1 - n' * D1) /\
    (Z.abs (N1 - M * 2 ^ k * D1) = Z.abs (N1 - n' * D1) -> M * 2 ^ k = n' \/ Z.even M = true).
  Proof.
    intros HD1 HD' K RS NR LO VY DY.
    assert (PK : 0 < 2 ^ k) by (apply Z.pow_pos_nonneg; lia).
    assert (ABS : forall n, Z.abs (N1 - n * D1) * D' = Z.abs (N * 2 ^ k - n * D') * D1).
    { intros n. apply abs_scale; auto. lia. }
    pose proof (ABS (M * 2 ^ k)) as B1. pose proof (ABS n') as B2. clear ABS.
    assert (SC : forall X, Z.abs (N * 2 ^ k - X * 2 ^ k * D') = Z.abs (N - X * D') * 2 ^ k).
    { intros X. replace (N * 2 ^ k - X * 2 ^ k * D') with ((N - X * D') * 2 ^ k) by ring.
      rewrite Z.abs_mul. f_equal. now apply Z.abs_eq, Z.lt_le_incl. }
    rewrite SC in B1.
    set (q := 2 ^ (prec - 1)) in *. set (u := 2 ^ k) in *.
    destruct (grid y n' k VY DY K) as [[M' ->]|[K0 SM]]; clear VY DY.
    - fold u in B2 |- *. destruct (NR M') as [NR1 NR2]. rewrite SC in B2. clear SC NR RS LO.
      set (x1 := Z.abs (N1 - M * u * D1)) in *. set (x2 := Z.abs (N1 - M' * u * D1)) in *.
      set (y1 := Z.abs (N - M * D')) in *. set (y2 := Z.abs (N - M' * D')) in *.
      split.
      + apply (Z.mul_le_mono_pos_r _ _ D'); [auto|]. rewrite B1, B2.
        apply Z.mul_le_mono_nonneg_r; [lia|]. apply Z.mul_le_mono_nonneg_r; lia.
      + intros XE. assert (H : y1 * (u * D1) = y2 * (u * D1))
          by (transitivity (y1 * u * D1); [ring|]; rewrite <- B1, XE, B2; ring).
        apply Z.mul_reg_r in H; [|assert (0 < u * D1) by (apply Z.mul_pos_pos; lia); lia].
        destruct (NR2 H) as [->|]; auto.
    - destruct LO as [LO|LO]; [lia|].
      destruct (NR q) as [NR1 _].
      assert (Q1 : Z.abs (N - q * D') = N - q * D') by (apply Z.abs_eq; lia). rewrite Q1 in NR1.
      assert (C2 : Z.abs (N - M * D') * u < Z.abs (N * u - n' * D')).
      { clear SC NR RS B1 B2. fold q in SM. fold u in SM.
        assert (n' * D' < q * u * D') by (apply Z.mul_lt_mono_pos_r; lia).
        assert (q * D' * u <= N * u) by (apply Z.mul_le_mono_nonneg_r; lia).
        assert (Z.abs (N * u - n' * D') = N * u - n' * D') by (apply Z.abs_eq; lia).
        assert (Z.abs (N - M * D') * u <= (N - q * D') * u) by (apply Z.mul_le_mono_nonneg_r; lia).
        lia. }
      clear SC NR RS NR1 Q1 LO SM.
      set (y1 := Z.abs (N - M * D')) in *.
      set (x1 := Z.abs (N1 - M * u * D1)) in *. set (x2 := Z.abs (N1 - n' * D1)) in *.
      set (y2 := Z.abs (N * u - n' * D')) in *.
      assert (x1 < x2).
      { apply (Z.mul_lt_mono_pos_r D'); [auto|]. rewrite B1, B2. apply Z.mul_lt_mono_pos_r; auto. }
      lia.
  Qed.

  Theorem aux_correct s m e l N D N1 D1 :
    0 < D -> 0 < D1 -> 0 <= m -> located N D m l -> e <= fexp (Zdigits2 m + e) ->
    same_value e N D N1 D1 ->
    correct (cond_Zopp s N1) D1 s (binary_round_aux prec emax s m e l).
  Proof.
    intros HD HD1 Hm L P SV.
    assert (N0 : 0 <= N) by (pose proof (located_floor _ _ _ _ HD L); nia).
    destruct (aux_spec s m e l N D HD Hm L P) as (M & e' & A1 & A2 & NR & RM & LO & HI & RL & ->).
    pose proof (rescale e e' N D N1 D1 A2 A1 SV) as RS.
    set (D' := 2 ^ (e' - e) * D) in *. set (k := e' - emin) in *.
    assert (K : 0 <= k) by (unfold k; lia).
    assert (PK : 0 < 2 ^ k) by (apply Z.pow_pos_nonneg; lia).
    assert (HD' : 0 < D').
    { assert (0 < 2 ^ (e' - e)) by (apply Z.pow_pos_nonneg; lia). unfold D'. nia. }
    assert (N10 : 0 <= N1) by nia.
    pose proof pow_pred as PW. assert (PP : 0 < 2 ^ (prec - 1)) by (apply Z.pow_pos_nonneg; lia).
    pose proof emin_le as EL.
    assert (AB : Z.abs (cond_Zopp s N1) = N1) by (destruct s; cbn; lia).
    unfold correct. rewrite AB.
    set (T0 := emax - prec - 1 - emin) in *.
    assert (PT : 0 < 2 ^ T0) by (apply Z.pow_pos_nonneg; unfold T0; lia).
    assert (LM : limit = (4 * 2 ^ (prec - 1) - 1) * 2 ^ T0).
    { unfold limit. fold T0. rewrite Z.pow_add_r by lia. rewrite PW. ring. }
    set (q := 2 ^ (prec - 1)) in *.
    (* is it too large? *)
    assert (BIG : (emax - prec < e' \/ M = 2 ^ prec /\ e' = emax - prec) <-> limit * D1 <= N1).
    { destruct (Z_lt_le_dec e' (emax - prec)) as [C|C]; [|destruct (Z.eq_dec e' (emax - prec)) as [C'|C']].
      - split; [lia|]. intros X. exfalso.
        assert (2 ^ k <= 2 ^ T0) by (apply Z.pow_le_mono_r; unfold k, T0; lia).
        assert (N1 * D' < 2 * q * D' * D1 * 2 ^ T0).
        { rewrite RS. assert (N * 2 ^ k < 2 * q * D' * 2 ^ T0) by nia. nia. }
        assert (limit * D1 * D' <= N1 * D') by nia. rewrite LM in *.
        assert (2 * q <= 4 * q - 1) by lia.
        assert (0 < D1 * D' * 2 ^ T0) by (repeat apply Z.mul_pos_pos; lia).
        set (u := D1 * D' * 2 ^ T0) in *.
        replace (2 * q * D' * D1 * 2 ^ T0) with (2 * q * u) in * by (unfold u; ring).
        replace ((4 * q - 1) * 2 ^ T0 * D1 * D') with ((4 * q - 1) * u) in * by (unfold u; ring). nia.
      - assert (KT : 2 ^ k = 2 * 2 ^ T0).
        { replace k with (1 + T0) by (unfold k, T0; lia). rewrite Z.pow_add_r by (unfold T0; lia). reflexivity. }
        assert (EQV : limit * D1 <= N1 <-> (4 * q - 1) * D' <= 2 * N).
        { rewrite LM. rewrite KT in RS. split; intros X.
          - assert ((4 * q - 1) * 2 ^ T0 * D1 * D' <= N1 * D') by nia. rewrite RS in H.
            assert (0 < D1 * 2 ^ T0) by nia. set (u := D1 * 2 ^ T0) in *.
            replace ((4 * q - 1) * 2 ^ T0 * D1 * D') with ((4 * q - 1) * D' * u) in H by (unfold u; ring).
            replace (N * D1 * (2 * 2 ^ T0)) with (2 * N * u) in H by (unfold u; ring). nia.
          - assert (0 < D1 * 2 ^ T0) by nia.
            assert ((4 * q - 1) * D' * (D1 * 2 ^ T0) <= 2 * N * (D1 * 2 ^ T0)) by nia.
            assert ((4 * q - 1) * 2 ^ T0 * D1 * D' <= N1 * D').
            { rewrite RS. replace (N * D1 * (2 * 2 ^ T0)) with (2 * N * (D1 * 2 ^ T0)) by ring.
              replace ((4 * q - 1) * 2 ^ T0 * D1 * D') with ((4 * q - 1) * D' * (D1 * 2 ^ T0)) by ring. auto. }
            nia. }
        rewrite EQV. split.
        + intros [X|[X _]]; [lia|]. destruct (NR (2 * q - 1)) as [NR1 _]. rewrite X, PW in NR1. rewrite PW in HI. nia.
        + intros X. right. split; auto. destruct (NR (2 * q)) as [NR1 NR2]. rewrite PW in *.
          destruct (Z.eq_dec M (2 * q)) as [|NE]; auto. exfalso.
          assert (MB : M <= 2 * q - 1) by lia.
          assert (M * D' <= (2 * q - 1) * D') by nia.
          assert (Q1 : Z.abs (N - M * D') = N - M * D') by lia.
          assert (Q2 : Z.abs (N - 2 * q * D') = 2 * q * D' - N) by lia.
          rewrite Q1, Q2 in *.
          assert (EQ : N - M * D' = 2 * q * D' - N) by lia.
          assert (M = 2 * q - 1) by nia.
          destruct (NR2 EQ) as [|EV]; [lia|]. subst M.
          rewrite Z.even_sub, Z.even_mul in EV. discriminate EV.
      - split; [|intros; lia]. intros _. destruct LO as [LO|LO]; [lia|].
        assert (4 * 2 ^ T0 <= 2 ^ k).
        { change 4 with (2 ^ 2). rewrite <- Z.pow_add_r by (unfold T0; lia). apply Z.pow_le_mono_r; unfold k, T0; lia. }
        assert (0 < D1 * D') by nia.
        assert (limit * D1 * D' <= N1 * D').
        { rewrite RS, LM. assert ((4 * q - 1) * 2 ^ T0 * D' <= N * 2 ^ k).
          { assert (q * D' * (4 * 2 ^ T0) <= N * 2 ^ k) by nia. nia. }
          nia. }
        nia. }
    destruct (N1 <? limit * D1) eqn:CMP.
    - assert (NB : ~ (emax - prec < e' \/ M = 2 ^ prec /\ e' = emax - prec)) by (rewrite BIG; lia).
      split; [apply pack_sign|]. split; [now apply pack_valid|].
      destruct (pack_den s M e' A1 RM ltac:(lia) ltac:(lia)) as [DE EV].
      exists (cond_Zopp s (M * 2 ^ k)). split; [exact DE|]. rewrite EV.
      intros y n' VY DY.
      assert (LO' : k = 0 \/ q * D' <= N) by (destruct LO as [LO|LO]; [left; unfold k; rewrite LO; apply Z.sub_diag|now right]).
      assert (CORE := fun y n' => core_nearest N D1 D' N1 M k y n' HD1 HD' K RS NR LO').
      clear - CORE VY DY.
      destruct s; cbn [cond_Zopp].
      + destruct (CORE (SFopp y) (- n')) as [C1 C2].
        { now rewrite valid_opp. } { rewrite den_opp, DY. reflexivity. }
        replace (- N1 - - (M * 2 ^ k) * D1) with (- (N1 - M * 2 ^ k * D1)) by ring.
        replace (- N1 - n' * D1) with (- (N1 - - n' * D1)) by ring. rewrite !Z.abs_opp.
        split; auto. intros X. destruct (C2 X); [left; lia|now right].
      + apply (CORE y n' VY DY).
    - apply pack_inf; [|apply BIG; lia].
      assert (emax - prec < e' \/ M = 2 ^ prec /\ e' = emax - prec) by (apply BIG; lia).
      destruct RL as [RL|RL]; lia.
  Qed.
End Fmt.
