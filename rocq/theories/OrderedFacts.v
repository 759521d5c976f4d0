(** Byte swapping, stores and loads. *)

From Coq Require Import ZArith List Lia Bool.
From Coq Require Import ZifyBool ZifyNat ZifyN.
From Verif Require Import Base BaseFacts Ordered.
Import ListNotations.
Open Scope Z_scope.

Definition width_ok (w : nat) : Prop := w = 1%nat \/ w = 2%nat \/ w = 4%nat \/ w = 8%nat.

Lemma le_dec_app a b : le_dec (a ++ b) = le_dec a + 256 ^ zlen a * le_dec b.
Proof.
  induction a as [|x a IH]; cbn [le_dec app].
  - change (zlen (@nil byte)) with 0. rewrite Z.pow_0_r. lia.
  - rewrite IH, zlen_cons, Z.pow_add_r, Z.pow_1_r by (pose proof (zlen_nonneg a); lia). ring.
Qed.

(** A byte swap reverses the bytes. *)
Lemma bswap_rev w : forall z, bswap w z = le_dec (rev (le_enc w z)).
Proof.
  induction w as [|w IH]; intros z; [reflexivity|]. cbn [bswap le_enc rev]. rewrite le_dec_app, <- IH.
  cbn [le_dec]. rewrite b2z_z2b. unfold zlen. rewrite rev_length, le_enc_length. lia.
Qed.

Lemma le_enc_of_dec w bs : length bs = w -> le_enc w (le_dec bs) = bs.
Proof. intros <-. apply le_enc_dec. Qed.

Lemma enc_bswap w z : le_enc w (bswap w z) = rev (le_enc w z).
Proof. rewrite bswap_rev. apply le_enc_of_dec. rewrite rev_length. apply le_enc_length. Qed.

Lemma bswap_range w z : 0 <= bswap w z < 2 ^ (8 * Z.of_nat w).
Proof.
  rewrite bswap_rev. pose proof (le_dec_range (rev (le_enc w z))) as R. unfold zlen in R.
  rewrite rev_length, le_enc_length in R. exact R.
Qed.

Lemma bswap_twice w z : bswap w (bswap w z) = z mod 2 ^ (8 * Z.of_nat w).
Proof. rewrite (bswap_rev w (bswap w z)), enc_bswap, rev_involutive. apply le_dec_enc. Qed.

Lemma bswap_one z : bswap 1 z = z mod 256.
Proof. cbn [bswap]. change (256 ^ Z.of_nat 0) with 1. lia. Qed.

Lemma it_bits_nonneg t : 0 <= it_bits t. Proof. unfold it_bits. lia. Qed.

Section Facts.
  Variables (host order : endian) (t : ity).
  Hypothesis W : width_ok (it_bytes t).

  Lemma copy_in_mod val : copy_in t val mod 2 ^ it_bits t = copy_in t val.
  Proof. unfold copy_in. apply Z.mod_mod. apply Z.pow_nonzero; [lia|apply it_bits_nonneg]. Qed.

  Lemma swap_in_eq val : swap_in t val = bswap (it_bytes t) (copy_in t val).
  Proof.
    unfold swap_in. pose proof (copy_in_mod val) as M. unfold it_bits in M.
    destruct W as [E|[E|[E|E]]]; rewrite E in *; try reflexivity. rewrite bswap_one. symmetry. exact M.
  Qed.

  Lemma swap_out_eq m : swap_out t m = conv t (bswap (it_bytes t) m).
  Proof.
    unfold swap_out. destruct W as [E|[E|[E|E]]]; rewrite E; try reflexivity.
    rewrite bswap_one. unfold conv, it_bits. rewrite E. change (2 ^ (8 * Z.of_nat 1)) with 256. change (8 * Z.of_nat 1) with 8.
    change 256 with (2 ^ 8). rewrite to_signed_mod, Z.mod_mod by discriminate. reflexivity.
  Qed.

  Lemma set_range val : 0 <= set host order t val < 2 ^ it_bits t.
  Proof.
    unfold set. destruct (should_swap _ _).
    - rewrite swap_in_eq. apply bswap_range.
    - unfold copy_in. apply Z.mod_pos_bound. apply Z.pow_pos_nonneg; [lia|apply it_bits_nonneg].
  Qed.

  Lemma conv_mod z : conv t (z mod 2 ^ it_bits t) = conv t z.
  Proof.
    unfold conv. destruct (it_signed t); [apply to_signed_mod|]. apply Z.mod_mod.
    apply Z.pow_nonzero; [lia|apply it_bits_nonneg].
  Qed.

  Lemma it_bits_pos : 1 <= it_bits t.
  Proof. unfold it_bits. destruct W as [E|[E|[E|E]]]; rewrite E; lia. Qed.

  Lemma conv_in_range z : in_range t z -> conv t z = z.
  Proof.
    unfold in_range, conv. destruct (it_signed t); intros R.
    - apply to_signed_small; [pose proof it_bits_pos; lia|exact R].
    - apply Z.mod_small. exact R.
  Qed.

  Lemma conv_range z : in_range t (conv t z).
  Proof.
    unfold in_range, conv. pose proof it_bits_pos. destruct (it_signed t).
    - apply to_signed_range. lia.
    - apply Z.mod_pos_bound. apply Z.pow_pos_nonneg; lia.
  Qed.

  Lemma get_set val : get host order t (set host order t val) = conv t val.
  Proof.
    unfold get, set. destruct (should_swap _ _).
    - rewrite swap_out_eq, swap_in_eq, bswap_twice. fold (it_bits t). rewrite copy_in_mod. unfold copy_in. apply conv_mod.
    - unfold copy_out, copy_in. apply conv_mod.
  Qed.

  (** The bytes in memory depend on the chosen order only. *)
  Lemma store_eq val : store host order t val =
    match order with Little => le_enc (it_bytes t) val | Big => rev (le_enc (it_bytes t) val) end.
  Proof.
    unfold store, set, host_repr, should_swap.
    assert (C : le_enc (it_bytes t) (copy_in t val) = le_enc (it_bytes t) val) by apply le_enc_mod.
    destruct order, host; cbn [endian_eqb negb]; rewrite ?swap_in_eq, ?enc_bswap, ?C, ?rev_involutive; reflexivity.
  Qed.

  Lemma load_eq bs : length bs = it_bytes t ->
    load host order t bs = conv t (match order with Little => le_dec bs | Big => le_dec (rev bs) end).
  Proof.
    intros L. unfold load, get, host_load, should_swap.
    assert (L' : length (rev bs) = it_bytes t) by (rewrite rev_length; exact L).
    destruct order, host; cbn [endian_eqb negb]; try reflexivity; rewrite swap_out_eq, bswap_rev, le_enc_of_dec by assumption;
      rewrite ?rev_involutive; reflexivity.
  Qed.
End Facts.

(** Byte [i] of the little-endian form. *)
Lemma le_enc_nth w : forall z i, (i < w)%nat -> nth_error (le_enc w z) i = Some (z2b (z / 256 ^ Z.of_nat i)).
Proof.
  induction w as [|w IH]; intros z i H; [lia|]. destruct i as [|i]; cbn [le_enc nth_error].
  - rewrite Z.pow_0_r, Z.div_1_r. reflexivity.
  - rewrite IH by lia. rewrite Z.div_div by (try apply Z.pow_pos_nonneg; lia).
    replace (Z.of_nat (S i)) with (1 + Z.of_nat i) by lia. rewrite Z.pow_add_r by lia. reflexivity.
Qed.

Lemma nth_error_rev {A} (l : list A) i : (i < length l)%nat -> nth_error (rev l) i = nth_error l (length l - 1 - i).
Proof.
  intros H. destruct (nth_error l (length l - 1 - i)) as [x|] eqn:E.
  - apply nth_error_split in E. destruct E as (a & c & E & L). rewrite E in *. rewrite rev_app_distr. cbn [rev].
    rewrite <- app_assoc. cbn [app]. rewrite app_length in *. cbn [length] in *.
    rewrite nth_error_app2; rewrite rev_length; [|lia]. replace (i - length c)%nat with 0%nat by lia. reflexivity.
  - apply nth_error_None in E. lia.
Qed.
