(** Properties of how values are kept in memory: C21 (mutable strings) and C32
    (byte order). *)

From Coq Require Import ZArith List Lia Bool String.
From Coq Require Import ZifyBool ZifyNat ZifyN.
From Verif Require Import Base BaseFacts Keys Wire HeapStr HeapStrFacts Ordered OrderedFacts Demo.
Import ListNotations.
Open Scope string_scope.
Open Scope list_scope.
Open Scope Z_scope.

(** ** C21 *)

(** Whatever the memory held before, a string made from two parts reports the
    bytes of both, and its C string ends inside its block, at its first NUL. *)
Theorem c21_bytes_kept junk junk' base ext : zlen junk = 24 -> zlen junk' = zlen base + zlen ext + 1 ->
  exists h, make_string junk junk' base ext = Ok h /\
    h_strv h = Ok (base ++ ext) /\ h_str h = Ok (cstr (base ++ ext)) /\
    (exists m tail, (h = Inline m \/ h = Dynamic m (zlen base + zlen ext)) /\ m = (base ++ ext) ++ x00 :: tail).
Proof.
  intros LJ LJ'. destruct (make_string_held junk junk' base ext LJ LJ') as (h & E & H).
  exists h. split; [exact E|]. split; [apply held_strv; exact H|]. split; [apply held_str; exact H|].
  destruct h as [m|m len].
  - destruct H as (_ & tail & -> & _). eexists. exists tail. split; [left; reflexivity|reflexivity].
  - destruct H as (_ & -> & tail & ->). rewrite zlen_app. eexists. exists tail. split; [right; reflexivity|reflexivity].
Qed.
Print Assumptions c21_bytes_kept.

(** Without NUL bytes the C string is the whole string. *)
Theorem c21_c_string junk junk' s : zlen junk = 24 -> zlen junk' = zlen s + 1 -> ~ In x00 s ->
  exists h, make_string junk junk' s [] = Ok h /\ h_str h = Ok s.
Proof.
  intros LJ LJ' N. destruct (c21_bytes_kept junk junk' s [] LJ) as (h & E & _ & S & _); [change (zlen (@nil byte)) with 0; lia|].
  exists h. split; [exact E|]. rewrite S, app_nil_r. f_equal. clear - N. induction s as [|c s IH]; [reflexivity|].
  cbn [cstr]. destruct (byte_eqb_spec c x00) as [->|_]; [exfalso; apply N; left; reflexivity|].
  f_equal. apply IH. intros I. apply N. right. exact I.
Qed.
Print Assumptions c21_c_string.

(** Up to 23 bytes are kept inline; the one-byte counter behind them holds the
    bytes left exactly, 0 to 23. *)
Theorem c21_inline junk junk' base ext : zlen junk = 24 -> zlen junk' = zlen base + zlen ext + 1 ->
  let len := zlen base + zlen ext in
  (len <= 23 <-> exists m, make_string junk junk' base ext = Ok (Inline m)) /\
  (len <= 23 -> exists m, make_string junk junk' base ext = Ok (Inline m) /\ zlen m = 24 /\
     rd m 23 1 = Ok [z2b (23 - len)] /\ b2z (z2b (23 - len)) = 23 - len).
Proof.
  intros LJ LJ' len. destruct (make_string_held junk junk' base ext LJ LJ') as (h & E & H). split.
  - split.
    + intros L. destruct h as [m|m l]; [eauto|]. destruct H as (L' & _). rewrite zlen_app in L'. unfold len in L. lia.
    + intros (m & E'). rewrite E in E'. apply Ok_inj in E'. subst h. destruct H as (L & _). rewrite zlen_app in L. exact L.
  - intros L. destruct h as [m|m l]; [|destruct H as (L' & _); rewrite zlen_app in L'; unfold len in L; lia].
    exists m. split; [exact E|]. destruct H as (_ & tail & _ & LM & R). rewrite zlen_app in R. fold len in R.
    split; [exact LM|]. split; [exact R|]. rewrite b2z_z2b. apply Z.mod_small.
    pose proof (zlen_nonneg base). pose proof (zlen_nonneg ext). unfold len in *. lia.
Qed.
Print Assumptions c21_inline.

Definition junk24 : mem := repeat xff 24.
Example c21_cases :
  make_string junk24 [] (b "abcdefghijklmnopqrstuvw") [] = Ok (Inline (b "abcdefghijklmnopqrstuvw" ++ [x00])) /\
  make_string junk24 (repeat xff 25) (b "abcdefghijklmnopqrstuvw") (b "x") =
    Ok (Dynamic (b "abcdefghijklmnopqrstuvwx" ++ [x00]) 24) /\
  (h <- make_string junk24 [] (b "ab") (b "c") ;; h_strv h) = Ok (b "abc").
Proof. vm_compute. repeat split. Qed.

(** ** C32 *)

(** On every host, byte [i] of a stored integer is digit [i] (digit [w-1-i]) of
    its two's complement base-256 form. *)
Theorem c32_bytes host order t z i : width_ok (it_bytes t) -> (i < it_bytes t)%nat ->
  List.length (store host order t z) = it_bytes t /\
  nth_error (store host order t z) i =
    Some (z2b (z / 256 ^ Z.of_nat (match order with Little => i | Big => (it_bytes t - 1 - i)%nat end))).
Proof.
  intros W Hi. rewrite store_eq by assumption. split.
  - destruct order; rewrite ?rev_length; apply le_enc_length.
  - destruct order; [apply le_enc_nth; exact Hi|].
    rewrite nth_error_rev by (rewrite le_enc_length; exact Hi). rewrite le_enc_length. apply le_enc_nth. lia.
Qed.
Print Assumptions c32_bytes.

(** Reading back on any host what any host wrote. *)
Theorem c32_round_trip host host' order t z : width_ok (it_bytes t) -> in_range t z ->
  load host' order t (store host order t z) = z.
Proof.
  intros W R. rewrite store_eq by assumption.
  assert (L : forall h, h = Little \/ h = Big -> List.length (match h with Little => le_enc (it_bytes t) z | Big => rev (le_enc (it_bytes t) z) end)
    = it_bytes t) by (intros h _; destruct h; rewrite ?rev_length; apply le_enc_length).
  rewrite load_eq by (try assumption; apply L; destruct order; auto).
  destruct order; rewrite ?rev_involutive, le_dec_enc; fold (it_bits t); rewrite conv_mod; apply conv_in_range; assumption.
Qed.
Print Assumptions c32_round_trip.

(** The rest of the model writes and reads wire integers with le_enc and le_dec:
    that is what little_order does on either host. *)
Theorem c32_model host t z bs : width_ok (it_bytes t) -> it_signed t = false -> List.length bs = it_bytes t ->
  store host Little t z = le_enc (it_bytes t) z /\ load host Little t bs = le_dec bs.
Proof.
  intros W S L. rewrite store_eq, load_eq by assumption. split; [reflexivity|]. unfold conv. rewrite S. apply Z.mod_small.
  pose proof (le_dec_range bs) as R. unfold zlen in R. rewrite L in R. exact R.
Qed.
Print Assumptions c32_model.

Theorem c32_model_signed host t bs : width_ok (it_bytes t) -> it_signed t = true -> List.length bs = it_bytes t ->
  load host Little t bs = to_signed (it_bits t) (le_dec bs).
Proof. intros W S L. rewrite load_eq by assumption. unfold conv. rewrite S. reflexivity. Qed.
Print Assumptions c32_model_signed.

(** Updating in place computes in the ring of integers modulo 2^bits and leaves
    the byte order alone: for unsigned types of int size and more. *)
Definition uint_t (w : nat) := mk_ity w false.

Theorem c32_arithmetic host order w u x y : (w = 4 \/ w = 8)%nat -> in_range (uint_t w) x ->
  let t := uint_t w in let m := 2 ^ it_bits t in
  plus_assign host order t u y (set host order t x) = Ok (set host order t ((x + y) mod m)) /\
  times_assign host order t u y (set host order t x) = Ok (set host order t ((x * y) mod m)) /\
  pre_inc host order t (set host order t x) = Ok (set host order t ((x + 1) mod m)) /\
  pre_dec host order t (set host order t x) = Ok (set host order t ((x - 1) mod m)).
Proof.
  intros Hw R t m. assert (W : width_ok (it_bytes t)) by (unfold width_ok; destruct Hw; subst; cbn; auto).
  assert (P : promote t = t) by (unfold promote, t; destruct Hw; subst; reflexivity).
  assert (M : 0 < m) by (apply Z.pow_pos_nonneg; [lia|apply it_bits_nonneg]).
  assert (C : forall z, conv t z = z mod m) by reflexivity.
  assert (A : forall z, arith t z = Ok (z mod m)) by reflexivity.
  unfold plus_assign, times_assign, pre_inc, pre_dec, increment, scale, mutate. rewrite P, !get_set, !conv_in_range with (z := x) by assumption.
  rewrite !A. cbn [bind]. rewrite !C, !Z.mod_mod by lia.
  rewrite !Zplus_mod_idemp_r, Zmult_mod_idemp_r. replace (x + -1) with (x - 1) by lia. auto.
Qed.
Print Assumptions c32_arithmetic.

(** Subtraction negates the operand in the operand's own type first.  That is
    harmless when the operand is signed or at least as wide... *)
Theorem c32_subtract host order w u x y : (w = 4 \/ w = 8)%nat -> in_range (uint_t w) x -> width_ok (it_bytes u) ->
  in_range u y -> it_signed (promote u) = true \/ (w <= it_bytes u)%nat ->
  (it_signed (promote u) = true -> y <> - 2 ^ (it_bits (promote u) - 1)) ->
  let t := uint_t w in
  minus_assign host order t u y (set host order t x) = Ok (set host order t ((x - y) mod 2 ^ it_bits t)).
Proof.
  intros Hw R Wu Ry D NM t. assert (W : width_ok (it_bytes t)) by (unfold width_ok; destruct Hw; subst; cbn; auto).
  assert (P : promote t = t) by (unfold promote, t; destruct Hw; subst; reflexivity).
  assert (M : 0 < 2 ^ it_bits t) by (apply Z.pow_pos_nonneg; [lia|apply it_bits_nonneg]).
  assert (N : exists n, arith (promote u) (- y) = Ok n /\ n mod 2 ^ it_bits t = (- y) mod 2 ^ it_bits t).
  { unfold arith. destruct (it_signed (promote u)) eqn:S.
    - exists (- y). split; [|reflexivity]. specialize (NM eq_refl). unfold in_rangeb. rewrite S.
      set (p := 2 ^ (it_bits (promote u) - 1)) in *.
      assert (- p <= y < p).
      { unfold p, promote in *. destruct (Nat.ltb_spec (it_bytes u) 4) as [L|L].
        - change (it_bits int_t - 1) with 31 in *. unfold in_range, it_bits in Ry.
          assert (BB : (it_bytes u = 1 \/ it_bytes u = 2)%nat) by (destruct Wu as [E|[E|[E|E]]]; rewrite E in *; auto; lia).
          destruct (it_signed u), BB as [E|E]; rewrite E in Ry; cbn in Ry; lia.
        - unfold in_range in Ry. rewrite S in Ry. exact Ry. }
      replace (- p <=? - y) with true by lia. replace (- y <? p) with true by lia. reflexivity.
    - exists ((- y) mod 2 ^ it_bits (promote u)). split; [reflexivity|].
      destruct D as [D|D]; [discriminate|]. assert (promote u = u) as PU.
      { unfold promote. destruct (Nat.ltb_spec (it_bytes u) 4) as [L|L]; [|reflexivity]. destruct Hw; subst; lia. }
      rewrite PU. symmetry. apply Znumtheory.Zmod_div_mod; [assumption|apply Z.pow_pos_nonneg; [lia|apply it_bits_nonneg]|].
      exists (2 ^ (it_bits u - it_bits t)). rewrite <- Z.pow_add_r; [f_equal; lia| |apply it_bits_nonneg].
      unfold it_bits, t. cbn [it_bytes uint_t]. lia. }
  destruct N as (n & E & NM'). unfold minus_assign. rewrite E. cbn [bind]. unfold increment, mutate.
  assert (C : forall z, conv t z = z mod 2 ^ it_bits t) by reflexivity.
  assert (A : forall z, arith t z = Ok (z mod 2 ^ it_bits t)) by reflexivity.
  rewrite P, get_set, conv_in_range by assumption. rewrite A. cbn [bind].
  rewrite !C, NM', Z.mod_mod by lia. rewrite Zplus_mod_idemp_r.
  replace (x + - y) with (x - y) by lia. reflexivity.
Qed.
Print Assumptions c32_subtract.

(** ...and wrong for every nonzero operand that is unsigned and narrower: taking
    1u from a 64-bit counter adds 2^32 - 1. *)
Theorem c32_subtract_refuted host order x y : in_range (uint_t 8) x -> 0 < y < 2 ^ 32 ->
  minus_assign host order (uint_t 8) (uint_t 4) y (set host order (uint_t 8) x) =
    Ok (set host order (uint_t 8) ((x + 2 ^ 32 - y) mod 2 ^ 64)) /\
  (x + 2 ^ 32 - y) mod 2 ^ 64 <> (x - y) mod 2 ^ 64.
Proof.
  intros R Hy. assert (W : width_ok (it_bytes (uint_t 8))) by (unfold width_ok; cbn; auto). split.
  - unfold minus_assign, increment, mutate. change (promote (uint_t 4)) with (uint_t 4). change (promote (uint_t 8)) with (uint_t 8).
    change (arith (uint_t 4) (- y)) with (@Ok Z ((- y) mod 2 ^ 32)). cbn [bind].
    assert ((- y) mod 2 ^ 32 = 2 ^ 32 - y) as ->.
    { symmetry. apply Z.mod_unique_pos with (q := -1); lia. }
    assert (C : forall z, conv (uint_t 8) z = z mod 2 ^ 64) by reflexivity.
    assert (A : forall z, arith (uint_t 8) z = Ok (z mod 2 ^ 64)) by reflexivity.
    rewrite get_set, conv_in_range by assumption. rewrite A. cbn [bind]. rewrite !C, Z.mod_mod by discriminate.
    rewrite Zplus_mod_idemp_r. replace (x + (2 ^ 32 - y)) with (x + 2 ^ 32 - y) by lia. reflexivity.
  - intros E. pose proof (Z.div_mod (x + 2 ^ 32 - y) (2 ^ 64) ltac:(discriminate)).
    pose proof (Z.div_mod (x - y) (2 ^ 64) ltac:(discriminate)). lia.
Qed.
Print Assumptions c32_subtract_refuted.

(** Narrow types are multiplied as int: squaring a 16-bit value can overflow it. *)
Theorem c32_scale_refuted host order :
  times_assign host order (uint_t 2) (uint_t 2) 65535 (set host order (uint_t 2) 65535) = Undef.
Proof. destruct host, order; vm_compute; reflexivity. Qed.
Print Assumptions c32_scale_refuted.

(** Masks and the like act on the value too. *)
Theorem c32_bits host order w u x y : width_ok w -> in_range (uint_t w) x -> in_range (uint_t w) y ->
  let t := uint_t w in
  and_assign host order t u y (set host order t x) = Ok (set host order t (Z.land x y)) /\
  or_assign host order t u y (set host order t x) = Ok (set host order t (Z.lor x y)) /\
  xor_assign host order t u y (set host order t x) = Ok (set host order t (Z.lxor x y)) /\
  in_range t (Z.land x y) /\ in_range t (Z.lor x y) /\ in_range t (Z.lxor x y).
Proof.
  intros W Rx Ry t. assert (W' : width_ok (it_bytes t)) by exact W.
  assert (RB : forall z, (exists f : bool -> bool -> bool, f false false = false /\
            forall i, Z.testbit z i = f (Z.testbit x i) (Z.testbit y i)) -> in_range t z).
  { intros z (f & F0 & F). unfold in_range. change (it_signed t) with false. cbv iota.
    assert (E : z = z mod 2 ^ it_bits t).
    { apply Z.bits_inj'. intros i Hi. destruct (Z.ltb_spec i (it_bits t)) as [L|L].
      - rewrite Z.mod_pow2_bits_low by lia. reflexivity.
      - rewrite Z.mod_pow2_bits_high by (split; [apply it_bits_nonneg|lia]). rewrite F.
        rewrite <- (Z.mod_small x (2 ^ it_bits t)) by exact Rx. rewrite <- (Z.mod_small y (2 ^ it_bits t)) by exact Ry.
        rewrite !Z.mod_pow2_bits_high by (split; [apply it_bits_nonneg|lia]). exact F0. }
    rewrite E. apply Z.mod_pos_bound. apply Z.pow_pos_nonneg; [lia|apply it_bits_nonneg]. }
  assert (RA : in_range t (Z.land x y)) by (apply RB; exists andb; split; [reflexivity|intros; apply Z.land_spec]).
  assert (RO : in_range t (Z.lor x y)) by (apply RB; exists orb; split; [reflexivity|intros; apply Z.lor_spec]).
  assert (RX : in_range t (Z.lxor x y)) by (apply RB; exists xorb; split; [reflexivity|intros; apply Z.lxor_spec]).
  unfold and_assign, or_assign, xor_assign, mask, fill_bits, flip, mutate.
  rewrite !get_set, !(conv_in_range t W' x Rx), !(conv_in_range t W' y Ry) by assumption. cbn [bind].
  rewrite !conv_in_range by assumption. auto 7.
Qed.
Print Assumptions c32_bits.

Example c32_cases :
  store Little Little (uint_t 4) 258 = [x02; x01; x00; x00] /\ store Big Little (uint_t 4) 258 = [x02; x01; x00; x00] /\
  store Big Big (uint_t 2) 258 = [x01; x02] /\ store Little Big (mk_ity 2 true) (-2) = [xff; xfe] /\
  load Big Little (mk_ity 2 true) [xfe; xff] = -2 /\
  in_range (mk_ity 8 true) (- 2 ^ 63) /\ ~ in_range (mk_ity 8 true) (2 ^ 63).
Proof. repeat split; vm_compute; congruence || (intros [_ H]; revert H; vm_compute; congruence) || reflexivity. Qed.
