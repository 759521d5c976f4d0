(** C39: arithmetic on number wrappers. *)

From Coq Require Import ZArith List Bool Lia Floats.SpecFloat ZifyBool.
From Verif Require Import Base Keys Dec SpecDec DecFacts Float Wire Spec Ordered Buf BufFacts HeapOps SpecArith ArithSpec
  Round RoundOps FloatFacts Arith ArithFacts ConvNum Packet SpecPacket PacketRun.
Import ListNotations.
Open Scope Z_scope.

(** What a number and an operand are worth as doubles. *)
Definition worth (v : value) (d : Z) : Prop :=
  match v with VInt z => of_int z d | VDec x => d = x | _ => False end.
Definition is_number (v : value) : Prop := match v with VInt _ | VDec _ => True | _ => False end.
Definition operand_ok (t : operand) : Prop :=
  match t with OInt _ => True | OFloat f => 0 <= f < 2 ^ 32 | ODouble d => bits64 d end.
Definition operand_worth (t : operand) (d : Z) : Prop :=
  match t with
  | OInt z => of_int z d
  | OFloat f => bits64 d /\ denote64 d = denote32 f /\ d_sign d = f_sign f
  | ODouble x => d = x
  end.

Lemma as_double_worth t : operand_ok t -> operand_worth t (as_double t) /\ bits64 (as_double t).
Proof.
  destruct t as [z|f|d]; cbn [operand_ok operand_worth as_double]; intros H.
  - pose proof (int_bits_of_int z) as X. split; [exact X|apply X].
  - pose proof (widen_range f H) as R. split; [|exact R]. split; [exact R|]. split; [now apply denote_widen|].
    destruct (widen_fields f H) as (_ & S & _). exact S.
  - auto.
Qed.

Lemma numeric_ok p v fin : stands p (v, fin) -> is_number v ->
  exists x, p_numeric p = Ok x /\ worth v x /\ bits64 x.
Proof.
  intros (HV & _ & R) N. cbn [fst snd] in *. unfold p_numeric.
  assert (B : forall d, v = VDec d -> bits64 d).
  { intros d ->. inversion HV as [| | | |? K| |]; subst. exact K. }
  assert (T : p_type p = vtype v /\ forall want, p_scalar want p = if utype_eqb (vtype v) want then Ok v else Throw type_error).
  { destruct p as [u|bs m e].
    - assert (u = v) as -> by congruence. split; [destruct v; reflexivity|]. intros want. destruct v; try contradiction; destruct want; reflexivity.
    - destruct R as [_ R]. split; [exact (represents_type _ _ _ _ R)|]. intros want. apply (b_scalar_spec bs); auto.
      + destruct v; try contradiction; reflexivity.
      + destruct v; try contradiction; discriminate. }
  destruct T as [-> SC]. destruct v as [| | |z|d| |]; try contradiction; cbn [vtype].
  - rewrite SC. cbn [vtype utype_eqb bind]. exists (int_bits z). pose proof (int_bits_of_int z) as X.
    split; [reflexivity|]. split; [exact X|apply X].
  - rewrite SC. cbn [vtype utype_eqb bind]. exists d. split; [reflexivity|]. split; [reflexivity|]. now apply B.
Qed.

(** ** A number and an operand: the IEEE operation on what they are worth. *)
Theorem c39_number_left o p v fin t : stands p (v, fin) -> is_number v -> operand_ok t ->
  exists x y r, worth v x /\ operand_worth t y /\ n_op o p t = Ok r /\ ieee o x y r.
Proof.
  intros S N T. destruct (numeric_ok p v fin S N) as (x & E & W & B). destruct (as_double_worth t T) as [Wt Bt].
  exists x, (as_double t), (d_op o x (as_double t)). split; [exact W|]. split; [exact Wt|].
  split; [unfold n_op; rewrite E; reflexivity|]. now apply d_op_ieee.
Qed.
Print Assumptions c39_number_left.

(** The specification leaves one answer, so nothing else is computed. *)
Theorem c39_answer_unique o x y r r' : ieee o x y r -> ieee o x y r' -> r = r' \/ is_nan r /\ is_nan r'.
Proof. apply ieee_unique. Qed.
Print Assumptions c39_answer_unique.

Lemma worth_unique v x x' : worth v x -> worth v x' -> x = x'.
Proof.
  destruct v; cbn [worth]; try contradiction; [|congruence].
  apply (rounded_unique _ 1). lia.
Qed.

(** ** An operand and a number: right for + and *. *)
Theorem c39_number_right o p v fin t : o = Add \/ o = Mul -> stands p (v, fin) -> is_number v -> operand_ok t ->
  exists x y r, worth v x /\ operand_worth t y /\ t_op o t p = Ok r /\ ieee o y x r.
Proof.
  intros O S N T. destruct (c39_number_left o p v fin t S N T) as (x & y & r & W & Wt & E & I).
  exists x, y, r. split; [exact W|]. split; [exact Wt|]. split; [exact E|]. now apply ieee_comm.
Qed.
Print Assumptions c39_number_right.

(** With - and / the operands change places: t - n is n - t, t / n is n / t. *)
Theorem c39_number_right_swapped o p v fin t : stands p (v, fin) -> is_number v -> operand_ok t ->
  exists x y r, worth v x /\ operand_worth t y /\ t_op o t p = Ok r /\ ieee o x y r.
Proof. exact (c39_number_left o p v fin t). Qed.
Print Assumptions c39_number_right_swapped.

Lemma refute o a b r : bits64 a -> bits64 b -> d_op o b a <> r -> denote64 r <> FNaN -> ~ ieee o b a r.
Proof.
  intros A B NE NN I. destruct (ieee_unique o b a _ _ I (d_op_ieee o b a B A)) as [E|[E _]].
  - congruence.
  - destruct E. contradiction.
Qed.

(** 5 - number(3) is -2, 1 / number(2) is 2. *)
Theorem c39_number_right_refuted :
  (exists r, t_op Sub (OInt 5) (PHeap (VInt 3)) = Ok r /\
     forall x y, worth (VInt 3) x -> operand_worth (OInt 5) y -> ~ ieee Sub y x r) /\
  (exists r, t_op Div (OInt 1) (PHeap (VInt 2)) = Ok r /\
     forall x y, worth (VInt 2) x -> operand_worth (OInt 1) y -> ~ ieee Div y x r).
Proof.
  split.
  - exists (d_op Sub (int_bits 3) (int_bits 5)). split; [vm_compute; reflexivity|]. intros x y X Y.
    rewrite (worth_unique _ _ _ X (int_bits_of_int 3)). rewrite (worth_unique (VInt 5) _ _ Y (int_bits_of_int 5)).
    apply refute; [apply int_bits_of_int|apply int_bits_of_int| |]; vm_compute; discriminate.
  - exists (d_op Div (int_bits 2) (int_bits 1)). split; [vm_compute; reflexivity|]. intros x y X Y.
    rewrite (worth_unique _ _ _ X (int_bits_of_int 2)). rewrite (worth_unique (VInt 1) _ _ Y (int_bits_of_int 1)).
    apply refute; [apply int_bits_of_int|apply int_bits_of_int| |]; vm_compute; discriminate.
Qed.
Print Assumptions c39_number_right_refuted.

(** ** The assigning forms: the same number, kept as a decimal, when the packet is
    mutable. *)
Theorem c39_update o p v t : stands p (v, false) -> is_number v -> operand_ok t ->
  exists x y r, worth v x /\ operand_worth t y /\ ieee o x y r /\
    n_update o p t = Ok (PHeap (VDec r)) /\ stands (PHeap (VDec r)) (VDec r, false).
Proof.
  intros S N T. destruct (c39_number_left o p v false t S N T) as (x & y & r & W & Wt & E & I).
  exists x, y, r. split; [exact W|]. split; [exact Wt|]. split; [exact I|].
  split; [unfold n_update; rewrite E; destruct p; [reflexivity|]; destruct S as (_ & _ & [F _]); discriminate F|].
  assert (B : bits64 r).
  { pose proof I as I'. unfold ieee in I'. cbv zeta in I'.
    repeat match type of I' with context [match ?d with _ => _ end] => destruct d end; apply I'. }
  split; [constructor; exact B|]. split; [constructor; exact Logic.I|]. reflexivity.
Qed.
Print Assumptions c39_update.

Theorem c39_increment p v : stands p (v, false) -> is_number v ->
  exists x y r, worth v x /\ of_int 1 y /\ ieee Add x y r /\ n_incr p = Ok (PHeap (VDec r)).
Proof.
  intros S N. destruct (c39_update Add p v (OInt 1) S N I) as (x & y & r & A & B & C & D & _).
  exists x, y, r. auto.
Qed.
Theorem c39_decrement p v : stands p (v, false) -> is_number v ->
  exists x y r, worth v x /\ of_int 1 y /\ ieee Sub x y r /\ n_decr p = Ok (PHeap (VDec r)).
Proof.
  intros S N. destruct (c39_update Sub p v (OInt 1) S N I) as (x & y & r & A & B & C & D & _).
  exists x, y, r. auto.
Qed.
Print Assumptions c39_increment.
Print Assumptions c39_decrement.

(** A number out of a finalized packet is not: the assignment throws inside a
    noexcept function, whatever the number and the operand. *)
Theorem c39_update_finalized_refuted o p v t : stands p (v, true) -> is_number v -> operand_ok t ->
  n_update o p t = Throw state_error.
Proof.
  intros S N T. destruct (c39_number_left o p v true t S N T) as (x & y & r & _ & _ & E & _).
  unfold n_update. rewrite E. destruct p; [|reflexivity]. destruct S as (_ & _ & F). congruence.
Qed.
Print Assumptions c39_update_finalized_refuted.
Example c39_update_finalized_case :
  (q <- p_finalize 0 (PHeap (VObj [([Init.Byte.x6e], VInt 1)])) ;; r <- p_get q [Init.Byte.x6e] ;;
   x <- p_numeric r ;; Ok (x =? int_bits 1)) = Ok true /\
  (q <- p_finalize 0 (PHeap (VObj [([Init.Byte.x6e], VInt 1)])) ;; r <- p_get q [Init.Byte.x6e] ;; n_incr r) = Throw state_error.
Proof. split; vm_compute; reflexivity. Qed.

(** An integer does not stay one, and above 2^53 it does not even change. *)
Theorem c39_increment_refuted :
  (exists p', n_incr (PHeap (VInt 1)) = Ok p' /\ p_type p' = T_decimal) /\
  n_incr (PHeap (VInt (2 ^ 53))) = Ok (PHeap (VDec (int_bits (2 ^ 53)))).
Proof. split; [eexists; split|]; vm_compute; reflexivity. Qed.
Print Assumptions c39_increment_refuted.

(** ** Integers up to 2^53: no rounding. *)
Definition exact_result (o : aop) (x y z : Z) : Prop :=
  match o with
  | Add => z = x + y
  | Sub => z = x - y
  | Mul => z = x * y
  | Div => y <> 0 /\ x = z * y
  end.

Lemma of_int_exact z d : Z.abs z <= 2 ^ 53 -> of_int z d -> denote64 d = FFin (z * 2 ^ 1074).
Proof.
  intros H O. destruct (int_double z H) as (c & B & E).
  apply (rounded_exact (z * 2 ^ 1074) 1 (z <? 0) d c); auto; [lia|now apply int_limit|].
  rewrite Z.mul_1_r. exact O.
Qed.

Lemma p1074 : 0 < 2 ^ 1074.
Proof. exact P1074. Qed.

Theorem c39_integers_exact o a b c : exact_result o a b c ->
  Z.abs a <= 2 ^ 53 -> Z.abs b <= 2 ^ 53 -> Z.abs c <= 2 ^ 53 ->
  exists r, n_op o (PHeap (VInt a)) (OInt b) = Ok r /\ denote64 r = FFin (c * 2 ^ 1074).
Proof.
  intros X A B C. exists (d_op o (int_bits a) (int_bits b)). split; [reflexivity|].
  pose proof (int_bits_of_int a) as OA. pose proof (int_bits_of_int b) as OB.
  pose proof (d_op_ieee o _ _ (proj1 OA) (proj1 OB)) as I.
  apply of_int_exact in OA; auto. apply of_int_exact in OB; auto.
  unfold ieee in I. rewrite OA, OB in I. cbv zeta in I. clear OA OB.
  destruct (int_double c C) as (d & Bd & Dd). pose proof (int_limit c C) as Lc. pose proof p1074 as P.
  set (u := 2 ^ 1074) in *. clearbody u.
  assert (ZM : forall z, (z * u = 0) -> z = 0) by (intros z E; apply Z.mul_eq_0 in E; lia).
  destruct o; cbn [exact_result] in X.
  - subst c. destruct (a * u + b * u =? 0) eqn:E.
    + destruct I as (_ & -> & _). f_equal. lia.
    + apply (rounded_exact ((a + b) * u) 1 (a * u + b * u <? 0) _ d); auto; [lia|].
      replace ((a + b) * u * 1) with (a * u + b * u) by ring. exact I.
  - subst c. destruct (a * u - b * u =? 0) eqn:E.
    + destruct I as (_ & -> & _). f_equal. lia.
    + apply (rounded_exact ((a - b) * u) 1 (a * u - b * u <? 0) _ d); auto; [lia|].
      replace ((a - b) * u * 1) with (a * u - b * u) by ring. exact I.
  - subst c. apply (rounded_exact (a * b * u) u (xorb (negative (int_bits a)) (negative (int_bits b))) _ d); auto.
    replace (a * b * u * u) with (a * u * (b * u)) by ring. exact I.
  - destruct X as [NB ->]. assert (b * u <> 0) by (intros E; apply ZM in E; contradiction).
    destruct (b * u =? 0) eqn:E; [lia|].
    apply (rounded_exact (c * u) (Z.abs (b * u)) (xorb (negative (int_bits (c * b))) (negative (int_bits b))) _ d); auto; [lia|].
    replace (c * u * Z.abs (b * u)) with (c * b * u * Z.sgn (b * u) * u) by (rewrite <- (Z.sgn_abs (b * u)); ring).
    exact I.
Qed.
Print Assumptions c39_integers_exact.

(** ** Casting a number. *)
Lemma in_rangeb_spec i z : in_rangeb i z = true <-> in_range i z.
Proof. unfold in_rangeb, in_range. destruct (it_signed i); lia. Qed.

Lemma trunc_spec d z : bits64 d -> sf_trunc (sf_of_bits d) = Some z <-> truncated d z.
Proof.
  intros B. pose proof (of_bits_spec d B) as [V S]. unfold truncated.
  destruct (denote64 d) as [|s|n].
  - rewrite S. cbn [sf_trunc]. split; [discriminate|]. intros (n & E & _). discriminate.
  - destruct S as [-> _]. cbn [sf_trunc]. split; [discriminate|]. intros (n & E & _). discriminate.
  - destruct S as (D & _ & Z0 & F).
    assert (U : (exists n0, FFin n = FFin n0 /\ Z.abs z * 2 ^ 1074 <= Z.abs n0 < (Z.abs z + 1) * 2 ^ 1074 /\ 0 <= n0 * z)
                <-> Z.abs z * 2 ^ 1074 <= Z.abs n < (Z.abs z + 1) * 2 ^ 1074 /\ 0 <= n * z).
    { split; [intros (n0 & E & H); injection E as <-; exact H|intros H; exists n; split; [reflexivity|exact H]]. }
    rewrite U. clear U. pose proof p1074 as P.
    destruct (Z.eq_dec n 0) as [->|NZ].
    + rewrite (Z0 eq_refl). cbn [sf_trunc]. set (u := 2 ^ 1074) in *. clearbody u. split.
      * intros E. injection E as <-. change (Z.abs 0) with 0. lia.
      * intros [[L _] _]. f_equal. change (Z.abs 0) with 0 in L. nia.
    + destruct (F NZ) as (m & e & E). rewrite E in D, V. rewrite E. clear E F Z0.
      cbn [sf_trunc]. set (s := negative d) in *.
      cbn [valid_binary] in V. apply bounded_spec in V; [|lia]. rewrite emin64 in V. destruct V as [V _].
      cbn [den] in D. rewrite emin64 in D.
      assert (En : n = cond_Zopp s (Zpos m * 2 ^ (e - - 1074))) by congruence. clear D.
      (* the magnitude *)
      set (w := if 0 <=? e then Zpos m * 2 ^ e else Zpos m / 2 ^ (- e)).
      assert (W : 0 <= w /\ w * 2 ^ 1074 <= Zpos m * 2 ^ (e - - 1074) < (w + 1) * 2 ^ 1074).
      { unfold w. destruct (0 <=? e) eqn:E0.
        - assert (0 < 2 ^ e) by (apply Z.pow_pos_nonneg; clear - E0; lia).
          replace (e - - 1074) with (e + 1074) by lia. rewrite Z.pow_add_r by (clear - E0; lia).
          set (u := 2 ^ 1074) in *. clearbody u. rewrite Z.mul_assoc. split; [apply Z.mul_nonneg_nonneg; lia|].
          split; [lia|]. apply Z.mul_lt_mono_pos_r; lia.
        - assert (PE : 0 < 2 ^ (- e)) by (apply Z.pow_pos_nonneg; clear - E0; lia).
          assert (PF : 0 < 2 ^ (e - - 1074)) by (apply Z.pow_pos_nonneg; clear - V; lia).
          replace (2 ^ 1074) with (2 ^ (- e) * 2 ^ (e - - 1074)) by (rewrite <- Z.pow_add_r by (clear - V E0; lia); f_equal; clear; lia).
          pose proof (Z.div_mod (Zpos m) (2 ^ (- e)) ltac:(clear - PE; lia)) as DM.
          pose proof (Z.mod_pos_bound (Zpos m) (2 ^ (- e)) PE) as MB.
          pose proof (Z.div_pos (Zpos m) (2 ^ (- e)) ltac:(clear; lia) PE) as DP.
          set (q := Zpos m / 2 ^ (- e)) in *. set (u := 2 ^ (- e)) in *. set (t := 2 ^ (e - - 1074)) in *. clearbody q u t.
          rewrite !Z.mul_assoc. split; [exact DP|].
          split; [apply Z.mul_le_mono_nonneg_r; lia|apply Z.mul_lt_mono_pos_r; lia]. }
      clearbody w.
      assert (Q : 0 < Zpos m * 2 ^ (e - - 1074)) by (apply Z.mul_pos_pos; [lia|apply Z.pow_pos_nonneg; lia]).
      set (a := Zpos m * 2 ^ (e - - 1074)) in *. clearbody a. set (u := 2 ^ 1074) in *. clearbody u.
      assert (AN : Z.abs n = a) by (rewrite En; destruct s; unfold cond_Zopp; lia).
      rewrite AN. split.
      * intros X. assert (z = cond_Zopp s w) as -> by congruence.
        assert (AZ : Z.abs (cond_Zopp s w) = w) by (destruct s; unfold cond_Zopp; lia). rewrite AZ.
        split; [lia|]. rewrite En. destruct s; unfold cond_Zopp; nia.
      * intros [[L1 L2] SG]. f_equal.
        assert (AZ : Z.abs z = w).
        { assert (Z.abs z * u < (w + 1) * u) by lia. assert (w * u < (Z.abs z + 1) * u) by lia.
          apply Z.mul_lt_mono_pos_r in H; [|lia]. apply Z.mul_lt_mono_pos_r in H0; [|lia]. lia. }
        rewrite En in SG. destruct s; unfold cond_Zopp in *; nia.
Qed.

(** To an integral type: an integer is reduced to the type's range; a decimal is cut
    off, and the cast is undefined exactly when the type cannot hold the result. *)
Theorem c39_cast_integer i p z fin : (1 <= it_bytes i)%nat -> stands p (VInt z, fin) ->
  exists w, n_to_int i p = Ok w /\ in_range i w /\ (w - z) mod 2 ^ it_bits i = 0.
Proof.
  intros I (HV & _ & R). cbn [fst snd] in *. exists (conv i z).
  split; [|split; [now apply conv_range|now apply conv_cong]].
  unfold n_to_int. destruct p as [u|bs m e].
  - assert (u = VInt z) as -> by congruence. reflexivity.
  - destruct R as [_ R]. cbn [p_type p_scalar]. rewrite (represents_type _ _ _ _ R). cbn [vtype].
    rewrite (b_scalar_spec bs m e (VInt z) T_integer R) by (reflexivity || discriminate). reflexivity.
Qed.
Print Assumptions c39_cast_integer.

Theorem c39_cast_decimal i p d fin : stands p (VDec d, fin) ->
  (forall z, n_to_int i p = Ok z <-> truncated d z /\ in_range i z) /\
  ((forall z, truncated d z -> ~ in_range i z) -> n_to_int i p = Undef).
Proof.
  intros (HV & _ & R). cbn [fst snd] in *.
  assert (B : bits64 d) by (inversion HV; subst; assumption).
  assert (E : n_to_int i p = d_to_int i d).
  { unfold n_to_int. destruct p as [u|bs m e].
    - assert (u = VDec d) as -> by congruence. reflexivity.
    - destruct R as [_ R]. cbn [p_type p_scalar]. rewrite (represents_type _ _ _ _ R). cbn [vtype].
      rewrite (b_scalar_spec bs m e (VDec d) T_decimal R) by (reflexivity || discriminate). reflexivity. }
  rewrite E. unfold d_to_int. destruct (sf_trunc (sf_of_bits d)) as [w|] eqn:T.
  - pose proof (proj1 (trunc_spec d w B) T) as TW. split.
    + intros z. rewrite <- (trunc_spec d z B), T, <- in_rangeb_spec. destruct (in_rangeb i w) eqn:RB.
      * split; [intros X; injection X as <-; auto|intros [X _]; congruence].
      * split; [discriminate|]. intros [X Y]. injection X as <-. congruence.
    + intros H. destruct (in_rangeb i w) eqn:RB; [|reflexivity]. apply in_rangeb_spec in RB. destruct (H w TW RB).
  - split; [|reflexivity]. intros z. rewrite <- (trunc_spec d z B), T. split; [discriminate|]. intros [X _]. discriminate.
Qed.
Print Assumptions c39_cast_decimal.

Theorem c39_cast_double p v fin : stands p (v, fin) -> is_number v ->
  exists d, n_to_double p = Ok d /\ worth v d.
Proof.
  intros S N. destruct (numeric_ok p v fin S N) as (x & E & W & _). exists x. split; [|exact W].
  revert E. unfold p_numeric, n_to_double. destruct S as (_ & _ & R). cbn [fst snd] in R.
  assert (T : p_type p = vtype v).
  { destruct p as [u|bs m e]; [assert (u = v) as -> by congruence; destruct v; reflexivity|exact (represents_type _ _ _ _ (proj2 R))]. }
  rewrite T. destruct v; try contradiction; auto.
Qed.
Print Assumptions c39_cast_double.

(** ** Cases *)
Example c39_ex_ops :
  n_op Add (PHeap (VInt 1)) (OInt 2) = Ok (int_bits 3) /\
  n_op Div (PHeap (VInt 1)) (OInt 3) = Ok 4599676419421066581 /\
  n_op Div (PHeap (VInt 1)) (OInt 0) = Ok (2047 * 2 ^ 52) /\
  n_op Mul (PHeap (VDec 9218868437227405311)) (OInt 2) = Ok (2047 * 2 ^ 52) /\
  n_op Add (PHeap (VDec 4591870180066957722)) (ODouble 4596373779694328218) = Ok 4599075939470750516.
Proof. repeat split; vm_compute; reflexivity. Qed.
Example c39_ex_ties :
  n_op Add (PHeap (VInt (2 ^ 53))) (OInt 1) = Ok (int_bits (2 ^ 53)) /\
  n_op Add (PHeap (VInt (2 ^ 53 + 2))) (OInt 1) = Ok (int_bits (2 ^ 53 + 4)).
Proof. split; vm_compute; reflexivity. Qed.
Example c39_ex_cast :
  n_to_int (mk_ity 4 true) (PHeap (VDec 13838998058182305382)) = Ok (-3) /\
  n_to_int (mk_ity 4 true) (PHeap (VDec 4751297606873776128)) = Undef /\
  n_to_int (mk_ity 1 false) (PHeap (VInt 257)) = Ok 1.
Proof. repeat split; vm_compute; reflexivity. Qed.
Example c39_ex_stands : stands (PHeap (VInt 3)) (VInt 3, false) /\ is_number (VInt 3) /\ operand_ok (OInt 5).
Proof. split; [|split; exact I]. split; [constructor; cbn; lia|]. split; [constructor; exact I|reflexivity]. Qed.
