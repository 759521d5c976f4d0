(** Facts about the vocabulary of Base.v. *)

From Coq Require Import ZArith List Lia Bool.
From Coq Require Import ZifyBool ZifyNat ZifyN.
From Verif Require Import Base.
Import ListNotations.
Open Scope Z_scope.

Ltac Zify.zify_post_hook ::= Z.div_mod_to_equations.

(** ** Outcomes *)
Lemma Ok_inj {A} (a b : A) : Ok a = Ok b -> a = b.
Proof. congruence. Qed.
Lemma bind_Ok {A B} (x : res A) (f : A -> res B) b :
  bind x f = Ok b <-> exists a, x = Ok a /\ f a = Ok b.
Proof.
  destruct x; cbn; split; intros H; try discriminate; eauto;
    destruct H as (a' & E & H); try discriminate.
  injection E as ->. exact H.
Qed.

(** ** Bytes *)
Lemma b2z_range b : 0 <= b2z b < 256.
Proof. unfold b2z. pose proof (Byte.to_N_bounded b). lia. Qed.

Lemma z2b_b2z b : z2b (b2z b) = b.
Proof.
  unfold z2b. rewrite Z.mod_small by apply b2z_range.
  unfold b2z. rewrite N2Z.id, Byte.of_to_N. reflexivity.
Qed.

Lemma b2z_z2b z : b2z (z2b z) = z mod 256.
Proof.
  unfold z2b. destruct (Byte.of_N _) eqn:E.
  - apply Byte.to_of_N in E. unfold b2z. rewrite E.
    rewrite Z2N.id; [reflexivity|]. apply Z.mod_pos_bound; lia.
  - apply Byte.of_N_None_iff in E.
    pose proof (Z.mod_pos_bound z 256 ltac:(lia)). lia.
Qed.

Lemma b2z_inj a b : b2z a = b2z b -> a = b.
Proof. intros H. rewrite <- (z2b_b2z a), <- (z2b_b2z b), H. reflexivity. Qed.

Lemma z2b_mod z : z2b (z mod 256) = z2b z.
Proof. unfold z2b. rewrite Z.mod_mod by lia. reflexivity. Qed.

Lemma byte_eqb_spec a b : reflect (a = b) (byte_eqb a b).
Proof.
  unfold byte_eqb. destruct (Byte.eqb a b) eqn:E; constructor.
  - now apply Byte.byte_dec_bl.
  - intros ->. rewrite Byte.byte_dec_lb in E; congruence.
Qed.

Lemma byte_eq_dec (a b : byte) : {a = b} + {a <> b}.
Proof. destruct (byte_eqb_spec a b); [left|right]; assumption. Qed.

Lemma b2z_x00 : b2z x00 = 0. Proof. reflexivity. Qed.

Lemma b2z_0 b : b2z b = 0 -> b = x00.
Proof. intros H. apply b2z_inj. exact H. Qed.

(** ** zlen *)
Lemma zlen_nonneg {A} (l : list A) : 0 <= zlen l.
Proof. unfold zlen. lia. Qed.
Lemma zlen_nil {A} : @zlen A [] = 0. Proof. reflexivity. Qed.
Lemma zlen_cons {A} (x : A) l : zlen (x :: l) = 1 + zlen l.
Proof. unfold zlen. cbn [length]. lia. Qed.
Lemma zlen_app {A} (l r : list A) : zlen (l ++ r) = zlen l + zlen r.
Proof. unfold zlen. rewrite app_length. lia. Qed.
Lemma zlen_0_nil {A} (l : list A) : zlen l = 0 -> l = [].
Proof. destruct l; [reflexivity|]. rewrite zlen_cons. pose proof (zlen_nonneg l). lia. Qed.
Lemma zlen_map {A B} (f : A -> B) l : zlen (map f l) = zlen l.
Proof. unfold zlen. rewrite map_length. reflexivity. Qed.
Lemma zlen_repeat {A} (x : A) n : zlen (repeat x n) = Z.of_nat n.
Proof. unfold zlen. rewrite repeat_length. reflexivity. Qed.
Lemma zlen_zeros n : 0 <= n -> zlen (zeros n) = n.
Proof. intros. unfold zeros. rewrite zlen_repeat. lia. Qed.
Lemma zeros_app a b : 0 <= a -> 0 <= b -> zeros (a + b) = zeros a ++ zeros b.
Proof.
  intros. unfold zeros. rewrite Z2Nat.inj_add by lia. apply repeat_app.
Qed.
Lemma zeros_0 : zeros 0 = []. Proof. reflexivity. Qed.
Lemma zeros_neg n : n <= 0 -> zeros n = [].
Proof. intros. unfold zeros. replace (Z.to_nat n) with O by lia. reflexivity. Qed.

#[global] Hint Rewrite @zlen_nil @zlen_cons @zlen_app @zlen_map : zlen.

(** ** Little-endian *)
Lemma le_enc_length n z : length (le_enc n z) = n.
Proof. revert z; induction n; intros; cbn; [reflexivity|now rewrite IHn]. Qed.
Lemma zlen_le_enc n z : zlen (le_enc n z) = Z.of_nat n.
Proof. unfold zlen. now rewrite le_enc_length. Qed.

Lemma le_dec_range bs : 0 <= le_dec bs < 2 ^ (8 * zlen bs).
Proof.
  induction bs as [|b r IH]; cbn [le_dec].
  - cbn. lia.
  - rewrite zlen_cons. pose proof (b2z_range b). pose proof (zlen_nonneg r).
    replace (8 * (1 + zlen r)) with (8 + 8 * zlen r) by lia.
    rewrite Z.pow_add_r by lia. change (2 ^ 8) with 256. nia.
Qed.

Lemma le_dec_enc n z : le_dec (le_enc n z) = z mod 2 ^ (8 * Z.of_nat n).
Proof.
  revert z; induction n as [|n IH]; intros z; cbn [le_enc le_dec].
  - change (2 ^ (8 * Z.of_nat 0)) with 1. now rewrite Z.mod_1_r.
  - rewrite IH, b2z_z2b.
    replace (8 * Z.of_nat (S n)) with (8 + 8 * Z.of_nat n) by lia.
    rewrite Z.pow_add_r by lia. change (2 ^ 8) with 256.
    set (P := 2 ^ (8 * Z.of_nat n)). assert (0 < P) by (unfold P; apply Z.pow_pos_nonneg; lia).
    rewrite Z.rem_mul_r by lia. lia.
Qed.

Lemma le_dec_enc_small n z :
  0 <= z < 2 ^ (8 * Z.of_nat n) -> le_dec (le_enc n z) = z.
Proof. intros. rewrite le_dec_enc. now apply Z.mod_small. Qed.

Lemma le_enc_dec bs : le_enc (length bs) (le_dec bs) = bs.
Proof.
  induction bs as [|b r IH]; cbn [le_enc le_dec length]; [reflexivity|].
  pose proof (b2z_range b).
  f_equal.
  - rewrite <- (z2b_b2z b) at 2. rewrite <- z2b_mod.
    replace ((b2z b + 256 * le_dec r) mod 256) with (b2z b); [reflexivity|].
    rewrite Z.mul_comm, Z_mod_plus_full. now rewrite Z.mod_small.
  - rewrite Z.mul_comm, Z.div_add by lia. rewrite Z.div_small by lia.
    cbn. exact IH.
Qed.

Lemma le_enc_mod n z : le_enc n (z mod 2 ^ (8 * Z.of_nat n)) = le_enc n z.
Proof.
  rewrite <- le_dec_enc. rewrite <- (le_enc_length n z) at 1. apply le_enc_dec.
Qed.

(** ** Signed reading *)
Lemma to_signed_small bits z :
  0 < bits -> - 2 ^ (bits - 1) <= z < 2 ^ (bits - 1) -> to_signed bits z = z.
Proof.
  intros Hb H. unfold to_signed.
  assert (E : 2 ^ bits = 2 * 2 ^ (bits - 1)).
  { rewrite <- Z.pow_succ_r by lia. f_equal. lia. }
  rewrite E. set (P := 2 ^ (bits - 1)) in *.
  assert (0 < P) by (apply Z.pow_pos_nonneg; lia).
  destruct (Z.ltb_spec (z mod (2 * P)) P) as [L|L].
  - assert (0 <= z \/ z < 0) as [?|?] by lia.
    + rewrite Z.mod_small; lia.
    + exfalso. replace (z mod (2*P)) with (z + 2 * P) in L; [lia|].
      apply (Z.mod_unique _ _ (-1)); lia.
  - assert (0 <= z \/ z < 0) as [?|?] by lia.
    + rewrite Z.mod_small in L by lia. lia.
    + replace (z mod (2*P)) with (z + 2 * P); [lia|].
      apply (Z.mod_unique _ _ (-1)); lia.
Qed.

Lemma to_signed_mod bits z : to_signed bits (z mod 2 ^ bits) = to_signed bits z.
Proof.
  unfold to_signed.
  destruct (Z.eq_dec (2 ^ bits) 0) as [E|E].
  - rewrite E, !Zmod_0_r. reflexivity.
  - rewrite Z.mod_mod by assumption. reflexivity.
Qed.

Lemma to_signed_range bits z :
  0 < bits -> - 2 ^ (bits - 1) <= to_signed bits z < 2 ^ (bits - 1).
Proof.
  intros Hb. unfold to_signed.
  assert (E : 2 ^ bits = 2 * 2 ^ (bits - 1)).
  { rewrite <- Z.pow_succ_r by lia. f_equal. lia. }
  rewrite E. set (P := 2 ^ (bits - 1)) in *.
  assert (0 < P) by (apply Z.pow_pos_nonneg; lia).
  pose proof (Z.mod_pos_bound z (2 * P) ltac:(lia)).
  destruct (Z.ltb_spec (z mod (2 * P)) P); lia.
Qed.

(** ** Reading and writing *)
Lemma firstn_app_exact {A} (a b : list A) n : n = length a -> firstn n (a ++ b) = a.
Proof. intros ->. rewrite firstn_app, Nat.sub_diag, firstn_all. cbn. apply app_nil_r. Qed.
Lemma skipn_app_exact {A} (a b : list A) n : n = length a -> skipn n (a ++ b) = b.
Proof. intros ->. rewrite skipn_app, Nat.sub_diag, skipn_all. reflexivity. Qed.

Lemma rd_app pre bs post o n :
  o = zlen pre -> n = zlen bs -> rd (pre ++ bs ++ post) o n = Ok bs.
Proof.
  intros -> ->. unfold rd.
  pose proof (zlen_nonneg pre). pose proof (zlen_nonneg bs). pose proof (zlen_nonneg post).
  rewrite !zlen_app.
  replace (0 <=? zlen pre) with true by lia.
  replace (0 <=? zlen bs) with true by lia.
  replace (zlen pre + zlen bs <=? zlen pre + (zlen bs + zlen post)) with true by lia.
  cbn [andb]. unfold zlen. rewrite !Nat2Z.id.
  rewrite skipn_app_exact by reflexivity. rewrite firstn_app_exact by reflexivity. reflexivity.
Qed.

Lemma wr_app pre mid post o bs :
  o = zlen pre -> zlen mid = zlen bs -> wr (pre ++ mid ++ post) o bs = Ok (pre ++ bs ++ post).
Proof.
  intros -> E. unfold wr.
  pose proof (zlen_nonneg pre). pose proof (zlen_nonneg bs). pose proof (zlen_nonneg post).
  rewrite !zlen_app.
  replace (0 <=? zlen pre) with true by lia.
  replace (zlen pre + zlen bs <=? zlen pre + (zlen mid + zlen post)) with true by lia.
  cbn [andb]. rewrite <- E. do 2 f_equal.
  - unfold zlen. rewrite Nat2Z.id. apply firstn_app_exact; reflexivity.
  - f_equal. rewrite app_assoc. apply skipn_app_exact.
    rewrite app_length. unfold zlen. lia.
Qed.

Lemma rd_Ok m o n bs :
  rd m o n = Ok bs ->
  0 <= o /\ 0 <= n /\ o + n <= zlen m /\ zlen bs = n /\
  exists pre post, m = pre ++ bs ++ post /\ zlen pre = o.
Proof.
  unfold rd. destruct (0 <=? o) eqn:E1; [|discriminate].
  destruct (0 <=? n) eqn:E2; [|discriminate].
  destruct (o + n <=? zlen m) eqn:E3; [|discriminate]. cbn [andb].
  intros E; injection E as <-.
  assert (L : zlen (firstn (Z.to_nat n) (skipn (Z.to_nat o) m)) = n).
  { unfold zlen in *. rewrite firstn_length, skipn_length. lia. }
  repeat split; try lia.
  exists (firstn (Z.to_nat o) m), (skipn (Z.to_nat n) (skipn (Z.to_nat o) m)).
  split.
  - rewrite firstn_skipn. symmetry. apply firstn_skipn.
  - unfold zlen in *. rewrite firstn_length. lia.
Qed.

Lemma rd_bounds m o n :
  (exists bs, rd m o n = Ok bs) <-> 0 <= o /\ 0 <= n /\ o + n <= zlen m.
Proof.
  split.
  - intros (bs & H). apply rd_Ok in H. intuition.
  - intros (A & B & C). unfold rd.
    replace (0 <=? o) with true by lia. replace (0 <=? n) with true by lia.
    replace (o + n <=? zlen m) with true by lia. cbn. eauto.
Qed.

Lemma wr_len m o bs m' : wr m o bs = Ok m' -> zlen m' = zlen m.
Proof.
  unfold wr. destruct (0 <=? o) eqn:E1; [|discriminate].
  destruct (o + zlen bs <=? zlen m) eqn:E3; [|discriminate]. cbn [andb].
  intros E; injection E as <-.
  rewrite !zlen_app. unfold zlen in *. rewrite firstn_length, skipn_length. lia.
Qed.

Lemma rd_le_app pre post n z o :
  o = zlen pre -> rd_le (pre ++ le_enc n z ++ post) o n = Ok (z mod 2 ^ (8 * Z.of_nat n)).
Proof.
  intros. unfold rd_le. rewrite rd_app; [|assumption|now rewrite zlen_le_enc].
  cbn. now rewrite le_dec_enc.
Qed.

Lemma rd_le_app_small pre post n z o :
  o = zlen pre -> 0 <= z < 2 ^ (8 * Z.of_nat n) ->
  rd_le (pre ++ le_enc n z ++ post) o n = Ok z.
Proof. intros. rewrite rd_le_app by assumption. now rewrite Z.mod_small. Qed.

(** Lengths are non-negative: add that fact for every length in sight. *)
Ltac zpos :=
  repeat match goal with
  | |- context [zlen ?l] =>
      lazymatch goal with H : 0 <= zlen l |- _ => fail | _ => pose proof (zlen_nonneg l) end
  | H : context [zlen ?l] |- _ =>
      lazymatch goal with H : 0 <= zlen l |- _ => fail | _ => pose proof (zlen_nonneg l) end
  end.
Ltac zlia := zpos; lia.

(** ** Alignment *)
Definition pow2_align (a : Z) : Prop := a = 1 \/ a = 2 \/ a = 4 \/ a = 8.

Lemma align_up_ge x a : 0 < a -> x <= align_up x a.
Proof. intros. unfold align_up. nia. Qed.
Lemma align_up_lt x a : 0 < a -> align_up x a < x + a.
Proof. intros. unfold align_up. nia. Qed.
Lemma align_up_mod x a : 0 < a -> align_up x a mod a = 0.
Proof. intros. unfold align_up. apply Z_mod_mult. Qed.
Lemma align_up_id x a : 0 < a -> x mod a = 0 -> align_up x a = x.
Proof.
  intros. unfold align_up. apply Z.div_exact in H0; [|lia].
  replace (x + (a - 1)) with ((a - 1) + (x / a) * a) by lia.
  rewrite Z.div_add by lia. rewrite (Z.div_small (a - 1)) by lia. lia.
Qed.
Lemma align_up_add x y a : 0 < a -> x mod a = 0 -> align_up (x + y) a = x + align_up y a.
Proof.
  intros. unfold align_up. apply Z.div_exact in H0; [|lia].
  rewrite H0 at 1. replace (a * (x / a) + y + (a - 1)) with ((y + (a - 1)) + (x / a) * a) by lia.
  rewrite Z.div_add by lia. lia.
Qed.
Lemma align_up_1 x : align_up x 1 = x.
Proof. unfold align_up. rewrite Z.mul_1_r, Z.div_1_r. lia. Qed.

(** The division form used in the model is the bit trick of the code. *)
Lemma align_up_bits x k :
  0 <= x -> 0 <= k ->
  align_up x (2 ^ k) = Z.land (x + (2 ^ k - 1)) (Z.lnot (2 ^ k - 1)).
Proof.
  intros. unfold align_up.
  replace (2 ^ k - 1) with (Z.ones k) by (rewrite Z.ones_equiv; lia).
  rewrite <- Z.ldiff_land, Z.ldiff_ones_r by lia.
  rewrite Z.shiftl_mul_pow2, Z.shiftr_div_pow2 by lia. reflexivity.
Qed.

Lemma pow2_align_pos a : pow2_align a -> 0 < a.
Proof. unfold pow2_align. lia. Qed.

Lemma mod8_mod a x : pow2_align a -> x mod 8 = 0 -> x mod a = 0.
Proof. unfold pow2_align. intros [-> | [-> | [-> | ->]]] H; lia. Qed.
