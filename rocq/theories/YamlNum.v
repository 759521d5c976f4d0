(** Facts: the C library's readers of numbers accept exactly the literals of SpecYaml,
    with their values. *)

From Coq Require Import ZArith List Bool String Lia Floats.SpecFloat ZifyBool.
From Verif Require Import Base BaseFacts KeysFacts Keys Wire Float Spec SpecArith ArithFacts FloatFacts Round RoundOps SpecJson SpecYaml Yaml.
Import Init.Byte.
Import ListNotations.
Open Scope Z_scope.

Lemma pair_inv {A B} (a c : A) (b d : B) : (a, b) = (c, d) -> a = c /\ b = d.
Proof. intros E. injection E. auto. Qed.
Lemma triple_inv {A B C} (a c : A) (b d : B) (x y : C) : (a, b, x) = (c, d, y) -> a = c /\ b = d /\ x = y.
Proof. intros E. injection E. auto. Qed.
Lemma quad_eq {A B C D} (a a' : A) (b b' : B) (c c' : C) (d d' : D) : a = a' -> b = b' -> c = c' -> d = d' -> (a, b, c, d) = (a', b', c', d').
Proof. congruence. Qed.
Lemma some3_eq {A B C} (a a' : A) (b b' : B) (c c' : C) : a = a' -> b = b' -> c = c' -> Some (a, b, c) = Some (a', b', c').
Proof. congruence. Qed.
Lemma some_inv {A} (a b : A) : Some a = Some b -> a = b.
Proof. intros E. injection E. auto. Qed.

(** ** Rounding a quotient *)

Lemma correct_scale prec emax N D c s x : 0 < c -> correct prec emax (N * c) (D * c) s x -> correct prec emax N D s x.
Proof.
  intros C. unfold correct.
  assert (A : forall n, Z.abs (N * c - n * (D * c)) = Z.abs (N - n * D) * c).
  { intros n. replace (N * c - n * (D * c)) with ((N - n * D) * c) by ring. rewrite Z.abs_mul. f_equal. lia. }
  assert (B : (Z.abs (N * c) <? limit prec emax * (D * c)) = (Z.abs N <? limit prec emax * D)).
  { rewrite Z.abs_mul. replace (Z.abs c) with c by lia. replace (limit prec emax * (D * c)) with (limit prec emax * D * c) by ring.
    destruct (Z.ltb_spec (Z.abs N * c) (limit prec emax * D * c)), (Z.ltb_spec (Z.abs N) (limit prec emax * D)); auto; exfalso; nia. }
  rewrite B. destruct (Z.abs N <? limit prec emax * D); [|trivial]. intros (S & V & n & E & H). split; [assumption|]. split; [assumption|].
  exists n. split; [assumption|]. intros y n' Vy Ey. destruct (H y n' Vy Ey) as [H1 H2]. rewrite !A in H1, H2. split; [nia|].
  intros Q. apply H2. now rewrite Q.
Qed.

Lemma to_double_correct neg p q :
  correct 53 1024 (signed neg (Zpos p) * 2 ^ 1074) (Zpos q) neg (to_double neg (Zpos p) (Zpos q)).
Proof.
  pose proof (div_core 53 1024 ltac:(lia) ltac:(lia) neg p 0 q 0) as H.
  assert (E : SpecFloat.emin 53 1024 = - 1074) by reflexivity. rewrite E in H.
  specialize (H ltac:(lia) ltac:(lia)). change (0 - - 1074) with 1074 in H. change (- - 1074) with 1074 in H.
  assert (0 < 2 ^ 1074) by (apply Z.pow_pos_nonneg; lia).
  apply (correct_scale _ _ _ _ (2 ^ 1074)); [assumption|]. unfold to_double.
  replace (signed neg (Z.pos p) * 2 ^ 1074 * 2 ^ 1074) with (cond_Zopp neg (Z.pos p * 2 ^ 1074 * 2 ^ 1074)); [exact H|].
  set (k := 2 ^ 1074). destruct neg; unfold signed, cond_Zopp; ring.
Qed.
Lemma limit64_pos : 0 < limit64.
Proof. unfold limit64. apply Z.mul_pos_pos; [reflexivity|]. apply Z.pow_pos_nonneg; lia. Qed.

Theorem to_double_rounded neg num den : 0 <= num -> 0 < den ->
  rounded (signed neg num * 2 ^ 1074) den neg (bits_of_sf (to_double neg num den)).
Proof.
  intros A B. destruct num as [|p|p]; [| |lia]; destruct den as [|q|q]; try lia.
  - replace (signed neg 0 * 2 ^ 1074) with 0 by (destruct neg; reflexivity). apply zero_rounded. lia.
  - apply correct_rounded. apply to_double_correct.
Qed.
Theorem to_double_infinite neg num den : 0 <= num -> 0 < den -> (sf_infinite (to_double neg num den) = true <-> too_large num den).
Proof.
  intros A B. unfold too_large. pose proof limit64_pos as L. assert (P : 0 < 2 ^ 1074) by (apply Z.pow_pos_nonneg; lia).
  destruct num as [|p|p]; [| |lia]; destruct den as [|q|q]; try lia.
  - cbn [to_double sf_infinite]. split; [discriminate|]. nia.
  - pose proof (to_double_correct neg p q) as H. unfold correct in H. rewrite limit64_eq in H.
    assert (E : Z.abs (signed neg (Z.pos p) * 2 ^ 1074) = Z.pos p * 2 ^ 1074).
    { rewrite Z.abs_mul. replace (Z.abs (2 ^ 1074)) with (2 ^ 1074) by lia. f_equal. destruct neg; reflexivity. }
    rewrite E in H. destruct (Z.ltb_spec (Z.pos p * 2 ^ 1074) (limit64 * Z.pos q)) as [G|G].
    + destruct H as (_ & _ & n & D & _). destruct (to_double neg (Z.pos p) (Z.pos q)); cbn [den] in D; try discriminate; cbn [sf_infinite]; split; try discriminate; lia.
    + rewrite H. cbn [sf_infinite]. split; [intros _; exact G|reflexivity].
Qed.

(** ** Digits *)

Definition all_digits (base : Z) (t : str) : Prop := Forall (fun c => is_digit base c = true) t.
Definition value_of (base acc : Z) (t : str) : Z := fold_left (fun a c => a * base + digit_value c) t acc.

Lemma hex_digit c d : hex c = Some d <-> digit_value c = d /\ d < 16.
Proof.
  assert (0 <= b2z c < 256) by (destruct c; unfold b2z; cbn; lia).
  unfold hex, digit_value. destruct (_ && _) eqn:A; [split; [intros E; injection E as <-; lia|intros [<- ?]; reflexivity]|].
  destruct ((65 <=? b2z c) && (b2z c <=? 70)) eqn:B.
  - replace ((97 <=? b2z c) && (b2z c <=? 122)) with false by lia. replace ((65 <=? b2z c) && (b2z c <=? 90)) with true by lia.
    split; [intros E; injection E as <-; lia|intros [<- ?]; reflexivity].
  - destruct ((97 <=? b2z c) && (b2z c <=? 102)) eqn:C.
    + replace ((97 <=? b2z c) && (b2z c <=? 122)) with true by lia. split; [intros E; injection E as <-; lia|intros [<- ?]; reflexivity].
    + split; [discriminate|]. intros [<- ?]. exfalso.
      destruct ((97 <=? b2z c) && (b2z c <=? 122)) eqn:D; [lia|]. destruct ((65 <=? b2z c) && (b2z c <=? 90)) eqn:F; lia.
Qed.
Lemma digit_value_nonneg c : 0 <= digit_value c.
Proof.
  unfold digit_value. destruct (_ && _) eqn:A; [lia|]. destruct ((97 <=? b2z c) && (b2z c <=? 122)) eqn:D; [lia|].
  destruct ((65 <=? b2z c) && (b2z c <=? 90)) eqn:F; lia.
Qed.

Lemma numeral_iff base t z : base <= 16 -> (numeral base t z <-> t <> [] /\ all_digits base t /\ z = value_of base 0 t).
Proof.
  intros B. split.
  - induction 1 as [c d H L|t z c d N IH H L].
    + apply hex_digit in H. destruct H as [<- H]. split; [discriminate|]. split; [|reflexivity]. constructor; [unfold is_digit; lia|constructor].
    + apply hex_digit in H. destruct H as [<- H]. destruct IH as (IH1 & IH2 & ->). split; [destruct t; discriminate|].
      split; [apply Forall_app; split; [assumption|]; constructor; [unfold is_digit; lia|constructor]|].
      unfold value_of. rewrite fold_left_app. reflexivity.
  - intros (N & A & ->). revert N A. induction t as [|c t IH] using rev_ind; intros N A; [congruence|].
    apply Forall_app in A. destruct A as [A1 A2]. inversion A2 as [|? ? A3 _]; subst. unfold is_digit in A3.
    destruct t as [|c0 t].
    + cbn [app value_of fold_left]. replace (0 * base + digit_value c) with (digit_value c) by ring.
      constructor; [apply hex_digit; lia|lia].
    + unfold value_of. rewrite fold_left_app. cbn [fold_left]. apply numeral_more; [apply IH; [discriminate|assumption]|apply hex_digit; lia|lia].
Qed.
Lemma value_nonneg base t : 0 <= base -> forall acc, 0 <= acc -> 0 <= value_of base acc t.
Proof.
  intros B. induction t as [|c t IH]; intros acc H; [exact H|]. cbn [value_of fold_left]. apply IH. pose proof (digit_value_nonneg c). nia.
Qed.
Lemma value_app base acc t u : value_of base acc (t ++ u) = value_of base (value_of base acc t) u.
Proof. unfold value_of. apply fold_left_app. Qed.

Definition ends (base : Z) (r : str) : Prop := is_digit base (first r) = false.
Lemma ends_nil base : base <= 16 -> ends base [].
Proof. intros. unfold ends, is_digit. cbn [first]. change (digit_value x00) with 99. lia. Qed.
Lemma scan_app base t r : all_digits base t -> base <= 16 -> ends base r -> forall acc n,
  scan base acc n (t ++ r) = (value_of base acc t, n + zlen t).
Proof.
  intros A B E. induction A as [|c t H A IH]; intros acc n.
  - cbn [app value_of fold_left]. rewrite zlen_nil. replace (n + 0) with n by lia. destruct r as [|c r]; [reflexivity|]. unfold ends, is_digit in E. cbn [first] in E.
    cbn [scan]. now rewrite E.
  - cbn [app scan]. unfold is_digit in H. rewrite H, IH. rewrite zlen_cons. cbn [value_of fold_left]. f_equal. lia.
Qed.
Lemma scan_split base s : exists t r, s = t ++ r /\ all_digits base t /\ (ends base r \/ r = []).
Proof.
  induction s as [|c s IH]; [exists [], []; split; [reflexivity|]; split; [constructor|right; reflexivity]|].
  destruct (is_digit base c) eqn:D.
  - destruct IH as (t & r & -> & A & E). exists (c :: t), r. split; [reflexivity|]. split; [constructor; assumption|assumption].
  - exists [], (c :: s). split; [reflexivity|]. split; [constructor|]. left. exact D.
Qed.
Lemma scan_spec base s : base <= 16 -> exists t r, s = t ++ r /\ all_digits base t /\ ends base r /\
  forall acc n, scan base acc n s = (value_of base acc t, n + zlen t).
Proof.
  intros B. destruct (scan_split base s) as (t & r & -> & A & E). exists t, r.
  assert (ends base r) by (destruct E as [E| ->]; [assumption|now apply ends_nil]).
  split; [reflexivity|]. split; [assumption|]. split; [assumption|]. intros. now apply scan_app.
Qed.

(** ** Pieces of text *)

Lemma skip_app t r : skip (zlen t) (t ++ r) = r.
Proof. unfold skip, zlen. rewrite Nat2Z.id. rewrite skipn_app, skipn_all, Nat.sub_diag. reflexivity. Qed.
Lemma skip_0 t : skip 0 t = t.
Proof. reflexivity. Qed.
Lemma skip_all t : skip (zlen t) t = [].
Proof. unfold skip, zlen. rewrite Nat2Z.id. apply skipn_all. Qed.
Lemma is_byte_cons c d r : is_byte c (d :: r) = byte_eqb d c.
Proof. reflexivity. Qed.
Lemma zlen_zero {A} (t : list A) : zlen t = 0 -> t = [].
Proof. destruct t; [reflexivity|]. rewrite zlen_cons. pose proof (zlen_nonneg t). lia. Qed.
Lemma full {A} (t r : list A) k : k = zlen t -> k = zlen (t ++ r) -> r = [].
Proof. rewrite zlen_app. intros -> E. apply zlen_zero. lia. Qed.

Lemma c_sign_app g neg t : sign_text g neg -> is_byte x2d t = false -> is_byte x2b t = false -> c_sign (g ++ t) = (neg, zlen g).
Proof. intros [| |] A B; unfold c_sign; cbn [app]; [rewrite A, B; reflexivity|reflexivity|reflexivity]. Qed.
Lemma c_sign_spec s : exists g t neg, s = g ++ t /\ sign_text g neg /\ c_sign s = (neg, zlen g) /\ skip (zlen g) s = t /\
  (g = [] -> is_byte x2d t = false /\ is_byte x2b t = false).
Proof.
  unfold c_sign. destruct (is_byte x2d s) eqn:A.
  - destruct s as [|c s]; [discriminate|]. rewrite is_byte_cons in A. destruct (byte_eqb_spec c x2d) as [->|]; [|discriminate].
    exists [x2d], s, true. repeat split; try constructor; discriminate.
  - destruct (is_byte x2b s) eqn:B.
    + destruct s as [|c s]; [discriminate|]. rewrite is_byte_cons in B. destruct (byte_eqb_spec c x2b) as [->|]; [|discriminate].
      exists [x2b], s, false. repeat split; try constructor; discriminate.
    + exists [], s, false. repeat split; try constructor; assumption.
Qed.

(** ** Integers *)

Lemma digits_first base t : base <= 16 -> all_digits base t -> t <> [] -> forall r, is_digit base (first (t ++ r)) = true.
Proof. intros B A N r. destruct A; [congruence|]. assumption. Qed.
Lemma digit_not_sign base c : base <= 16 -> is_digit base c = true -> byte_eqb c x2d = false /\ byte_eqb c x2b = false /\ byte_eqb c x2e = false /\ byte_eqb c x78 = false /\ byte_eqb c x58 = false.
Proof.
  intros B D. unfold is_digit in D.
  repeat split; match goal with |- byte_eqb c ?k = false => destruct (byte_eqb_spec c k) as [->|]; [|reflexivity] end;
    [change (digit_value x2d) with 99 in D|change (digit_value x2b) with 99 in D|change (digit_value x2e) with 99 in D
    |change (digit_value x78) with 33 in D|change (digit_value x58) with 33 in D]; lia.
Qed.

Lemma marked_hex_app p t : hex_mark p -> marked_hex (p ++ t) = true /\ skip 2 (p ++ t) = t /\ zlen p = 2.
Proof. intros [-> | ->]; repeat split. Qed.
Lemma marked_hex_spec t : marked_hex t = true -> exists p r, t = p ++ r /\ hex_mark p.
Proof.
  unfold marked_hex. destruct t as [|a [|b t]]; cbn [first].
  - discriminate.
  - unfold is_byte, skip. cbn. rewrite andb_false_r. discriminate.
  - change (skip 1 (a :: b :: t)) with (b :: t). rewrite !is_byte_cons. intros E.
    destruct (byte_eqb_spec a x30) as [->|]; [|discriminate]. destruct (byte_eqb_spec b x78) as [->|]; [exists [x30; x78], t; split; [reflexivity|now left]|].
    destruct (byte_eqb_spec b x58) as [->|]; [exists [x30; x58], t; split; [reflexivity|now right]|discriminate].
Qed.
Lemma leading_zero_iff t : leading_zero t <-> is_byte x30 t = true.
Proof.
  unfold leading_zero. destruct t as [|c t].
  - split; [intros [r E]; discriminate|discriminate].
  - rewrite is_byte_cons. destruct (byte_eqb_spec c x30) as [->|N].
    + split; [reflexivity|eexists; reflexivity].
    + split; [intros [r E]; congruence|discriminate].
Qed.
(** digits are no mark of a hexadecimal number *)
Lemma digits_unmarked base t r : base <= 16 -> all_digits base t -> t <> [] ->
  byte_eqb (first r) x78 = false -> byte_eqb (first r) x58 = false -> marked_hex (t ++ r) = false.
Proof.
  intros B A N R1 R2. unfold marked_hex. destruct A as [|c t D A]; [congruence|]. change (skip 1 ((c :: t) ++ r)) with (t ++ r).
  apply andb_false_iff. right. unfold is_byte. destruct A as [|d t D' A]; [cbn [app]; rewrite R1, R2; reflexivity|].
  cbn [app first]. destruct (digit_not_sign base d B D') as (_ & _ & _ & -> & ->). reflexivity.
Qed.

Theorem whole_complete t m : whole_number t m -> whole t = (m, zlen t) /\ 0 < zlen t /\ is_byte x2d t = false /\ is_byte x2b t = false.
Proof.
  intros [p u z P N|u z L N|u z L N].
  - apply numeral_iff in N; [|lia]. destruct N as (N & A & ->). destruct (marked_hex_app p u P) as (M & S & Z).
    unfold whole. rewrite M, S.
    pose proof (digits_first 16 u ltac:(lia) A N []) as F. rewrite app_nil_r in F. rewrite F. cbn [andb].
    pose proof (scan_app 16 u [] A ltac:(lia) (ends_nil 16 ltac:(lia)) 0 0) as E. rewrite app_nil_r in E. rewrite E.
    rewrite zlen_app, Z. pose proof (zlen_nonneg u). split; [reflexivity|]. split; [lia|]. destruct P as [-> | ->]; split; reflexivity.
  - apply numeral_iff in N; [|lia]. destruct N as (N & A & ->). apply leading_zero_iff in L. unfold whole.
    pose proof (digits_unmarked 8 u [] ltac:(lia) A N eq_refl eq_refl) as M. rewrite app_nil_r in M. rewrite M, L. cbn [andb].
    pose proof (scan_app 8 u [] A ltac:(lia) (ends_nil 8 ltac:(lia)) 0 0) as E. rewrite app_nil_r in E. rewrite E.
    split; [reflexivity|]. destruct A as [|c u D A]; [congruence|]. rewrite zlen_cons. pose proof (zlen_nonneg u). split; [lia|].
    rewrite !is_byte_cons. destruct (digit_not_sign 8 c ltac:(lia) D) as (-> & -> & _). split; reflexivity.
  - apply numeral_iff in N; [|lia]. destruct N as (N & A & ->). rewrite leading_zero_iff in L. apply not_true_is_false in L. unfold whole.
    pose proof (digits_unmarked 10 u [] ltac:(lia) A N eq_refl eq_refl) as M. rewrite app_nil_r in M. rewrite M, L. cbn [andb].
    pose proof (scan_app 10 u [] A ltac:(lia) (ends_nil 10 ltac:(lia)) 0 0) as E. rewrite app_nil_r in E. rewrite E.
    split; [reflexivity|]. destruct A as [|c u D A]; [congruence|]. rewrite zlen_cons. pose proof (zlen_nonneg u). split; [lia|].
    rewrite !is_byte_cons. destruct (digit_not_sign 10 c ltac:(lia) D) as (-> & -> & _). split; reflexivity.
Qed.

Theorem whole_sound t m : whole t = (m, zlen t) -> t <> [] -> whole_number t m.
Proof.
  intros W N. unfold whole in W. destruct (marked_hex t && is_digit 16 (first (skip 2 t))) eqn:M.
  - apply andb_true_iff in M. destruct M as [M D]. apply marked_hex_spec in M. destruct M as (p & r & -> & P).
    destruct (marked_hex_app p r P) as (_ & S & Z). rewrite S in *.
    destruct (scan_spec 16 r ltac:(lia)) as (u & r' & -> & A & E & SC). rewrite SC in W. apply pair_inv in W; destruct W as [<- W].
    rewrite !zlen_app, Z in W. assert (r' = []) as -> by (apply zlen_zero; lia). rewrite app_nil_r in *.
    apply whole_hex; [assumption|]. apply numeral_iff; [lia|]. split; [|split; [assumption|reflexivity]].
    intros ->. discriminate.
  - clear M. destruct (is_byte x30 t) eqn:Z.
    + destruct (scan_spec 8 t ltac:(lia)) as (u & r' & -> & A & E & SC). rewrite SC in W. apply pair_inv in W; destruct W as [<- W].
      rewrite zlen_app in W. assert (r' = []) as -> by (apply zlen_zero; lia). rewrite app_nil_r in *.
      apply whole_octal; [now apply leading_zero_iff|]. apply numeral_iff; [lia|]. repeat split; assumption.
    + destruct (scan_spec 10 t ltac:(lia)) as (u & r' & -> & A & E & SC). rewrite SC in W. apply pair_inv in W; destruct W as [<- W].
      rewrite zlen_app in W. assert (r' = []) as -> by (apply zlen_zero; lia). rewrite app_nil_r in *.
      apply whole_decimal; [rewrite leading_zero_iff; congruence|]. apply numeral_iff; [lia|]. repeat split; assumption.
Qed.
Lemma whole_bound t : 0 <= snd (whole t).
Proof.
  unfold whole. destruct (_ && _).
  - destruct (scan_spec 16 (skip 2 t) ltac:(lia)) as (u & r' & _ & _ & _ & SC). rewrite SC. cbn [snd]. pose proof (zlen_nonneg u). lia.
  - destruct (is_byte x30 t).
    + destruct (scan_spec 8 t ltac:(lia)) as (u & r' & _ & _ & _ & SC). rewrite SC. cbn [snd]. pose proof (zlen_nonneg u). lia.
    + destruct (scan_spec 10 t ltac:(lia)) as (u & r' & _ & _ & _ & SC). rewrite SC. cbn [snd]. pose proof (zlen_nonneg u). lia.
Qed.

(** strtoll consumes a text to the end, in range, exactly when it is an integer literal *)
Theorem strtoll_complete s z : int_literal s z ->
  strtoll s = (if z <? - 2 ^ 63 then - 2 ^ 63 else if 2 ^ 63 <=? z then 2 ^ 63 - 1 else z, zlen s, (z <? - 2 ^ 63) || (2 ^ 63 <=? z)).
Proof.
  intros (g & t & neg & m & -> & G & W & ->). destruct (whole_complete t m W) as (E & P & S1 & S2).
  unfold strtoll. rewrite (c_sign_app g neg t G S1 S2), skip_app, E. replace (zlen t =? 0) with false by lia.
  rewrite zlen_app. fold (signed neg m).
  destruct (signed neg m <? - 2 ^ 63); [reflexivity|]. destruct (2 ^ 63 <=? signed neg m); reflexivity.
Qed.
Theorem strtoll_sound s z : strtoll s = (z, zlen s, false) -> s <> [] -> int_literal s z /\ - 2 ^ 63 <= z < 2 ^ 63.
Proof.
  intros E N. unfold strtoll in E. destruct (c_sign_spec s) as (g & t & neg & -> & G & C & S & _). rewrite C, S in E.
  destruct (whole t) as [m n] eqn:W. destruct (n =? 0) eqn:Z.
  - injection E as _ E. exfalso. apply N. apply zlen_zero. lia.
  - fold (signed neg m) in E. destruct (signed neg m <? - 2 ^ 63) eqn:L; [discriminate|]. destruct (2 ^ 63 <=? signed neg m) eqn:H; [discriminate|].
    apply triple_inv in E; destruct E as (<- & E & _). rewrite zlen_app in E. assert (n = zlen t) as -> by lia. split; [|lia]. exists g, t, neg, m.
    split; [reflexivity|]. split; [assumption|]. split; [|reflexivity]. apply whole_sound; [assumption|]. intros ->. discriminate Z.
Qed.

(** ** Numbers with a point or an exponent *)

Lemma exponent_complete c1 c2 u x : exponent_text [c1; c2] u x -> exponent_at c1 c2 u = (x, zlen u) \/ (u = [] /\ x = 0).
Proof.
  intros [|c g t neg m I G N]; [right; split; reflexivity|left]. apply numeral_iff in N; [|lia]. destruct N as (N & A & ->).
  assert (D : is_digit 10 (first t) = true) by (pose proof (digits_first 10 t ltac:(lia) A N []) as D; now rewrite app_nil_r in D).
  unfold exponent_at. change (skip 1 (c :: g ++ t)) with (g ++ t). rewrite !is_byte_cons.
  assert (byte_eqb c c1 || byte_eqb c c2 = true) as ->.
  { destruct I as [-> | [-> | []]]; [|apply orb_true_iff; right]; destruct (byte_eqb_spec c c); try reflexivity; congruence. }
  destruct (digit_not_sign 10 (first t) ltac:(lia) D) as (S1 & S2 & _).
  rewrite (c_sign_app g neg t G S1 S2), skip_app.
  pose proof (scan_app 10 t [] A ltac:(lia) (ends_nil 10 ltac:(lia)) 0 0) as E. rewrite app_nil_r in E. rewrite E.
  assert (0 < zlen t) by (destruct t; [congruence|]; rewrite zlen_cons; pose proof (zlen_nonneg t); lia).
  replace (0 + zlen t =? 0) with false by lia. unfold signed. rewrite zlen_cons, zlen_app. f_equal; lia.
Qed.
Lemma exponent_sound c1 c2 u x : exponent_at c1 c2 u = (x, zlen u) -> exponent_text [c1; c2] u x.
Proof.
  unfold exponent_at. intros E. destruct (is_byte c1 u || is_byte c2 u) eqn:M.
  - destruct u as [|c u]; [unfold exponent_at in E|].
    + cbn in E. injection E as <-. constructor.
    + change (skip 1 (c :: u)) with u in E. destruct (c_sign_spec u) as (g & t & neg & -> & G & C & S & _). rewrite C, S in E.
      destruct (scan_spec 10 t ltac:(lia)) as (d & r & -> & A & EN & SC). rewrite SC in E.
      destruct (0 + zlen d =? 0) eqn:Z; [apply pair_inv in E; destruct E as [_ E]; rewrite zlen_cons in E; pose proof (zlen_nonneg (g ++ d ++ r)); lia|].
      apply pair_inv in E; destruct E as [<- E]. rewrite zlen_cons, !zlen_app in E. assert (r = []) as -> by (apply zlen_zero; lia). rewrite app_nil_r in *.
      fold (signed neg (value_of 10 0 d)). constructor; [|assumption|].
      * rewrite !is_byte_cons in M. destruct (byte_eqb_spec c c1) as [->|]; [left; reflexivity|]. destruct (byte_eqb_spec c c2) as [->|]; [right; left; reflexivity|discriminate].
      * apply numeral_iff; [lia|]. split; [|split; [assumption|reflexivity]]. intros ->. discriminate Z.
  - apply pair_inv in E; destruct E as [<- E]. symmetry in E. apply zlen_zero in E. subst. constructor.
Qed.
Lemma exponent_nil c1 c2 : c1 <> x00 -> c2 <> x00 -> exponent_at c1 c2 [] = (0, 0).
Proof.
  intros A B. unfold exponent_at, is_byte. cbn [first]. destruct (byte_eqb_spec x00 c1); [congruence|]. destruct (byte_eqb_spec x00 c2); [congruence|]. reflexivity.
Qed.
Lemma exponent_bound c1 c2 u : 0 <= snd (exponent_at c1 c2 u).
Proof.
  unfold exponent_at. destruct (_ || _); [|cbn; lia]. destruct (c_sign_spec (skip 1 u)) as (g & t & neg & _ & _ & C & S & _). rewrite C, S.
  destruct (scan_spec 10 t ltac:(lia)) as (d & r & _ & _ & _ & SC). rewrite SC. destruct (_ =? 0); cbn [snd]; [lia|].
  pose proof (zlen_nonneg g); pose proof (zlen_nonneg d); lia.
Qed.

(** digits, a fraction, and what follows *)
Lemma digits_complete base i f fd r : base <= 16 -> all_digits base (i ++ fd) -> fraction_text f fd -> ends base r -> byte_eqb (first r) x2e = false ->
  digits_at base (i ++ f ++ r) = (value_of base 0 (i ++ fd), zlen i + zlen f, zlen i + zlen fd, zlen fd).
Proof.
  intros B A F E P. apply Forall_app in A. destruct A as [A1 A2]. unfold digits_at. destruct F as [|t].
  - cbn [app]. rewrite (scan_app base i r A1 B E). rewrite app_nil_r. replace (0 + zlen i) with (zlen i) by lia. rewrite skip_app.
    unfold is_byte. rewrite P. change (@zlen byte []) with 0. apply quad_eq; lia.
  - cbn [app]. rewrite (scan_app base i (x2e :: t ++ r) A1 B); [|unfold ends, is_digit; cbn [first]; change (digit_value x2e) with 99; lia].
    replace (0 + zlen i) with (zlen i) by lia. rewrite skip_app. rewrite is_byte_cons. cbn [byte_eqb]. change (byte_eqb x2e x2e) with true. cbv iota.
    change (skip 1 (x2e :: t ++ r)) with (t ++ r). rewrite (scan_app base t r A2 B E). rewrite value_app, zlen_cons. apply quad_eq; lia.
Qed.
Lemma digits_sound base u m n d k : base <= 16 -> digits_at base u = (m, n, d, k) ->
  exists i f fd r, u = i ++ f ++ r /\ all_digits base (i ++ fd) /\ fraction_text f fd /\ ends base r /\
    (f = [] -> byte_eqb (first r) x2e = false) /\
    m = value_of base 0 (i ++ fd) /\ n = zlen i + zlen f /\ d = zlen i + zlen fd /\ k = zlen fd.
Proof.
  intros B E. unfold digits_at in E. destruct (scan_spec base u B) as (i & r & -> & A & EN & SC). rewrite SC in E.
  replace (0 + zlen i) with (zlen i) in E by lia. rewrite skip_app in E. destruct (is_byte x2e r) eqn:P.
  - destruct r as [|c r]; [discriminate|]. rewrite is_byte_cons in P. destruct (byte_eqb_spec c x2e) as [->|]; [|discriminate].
    change (skip 1 (x2e :: r)) with r in E. destruct (scan_spec base r B) as (fd & r' & -> & A' & EN' & SC'). rewrite SC' in E.
    exists i, (x2e :: fd), fd, r'. rewrite zlen_cons, value_app. injection E as <- <- <- <-.
    split; [reflexivity|]. split; [apply Forall_app; split; assumption|]. split; [constructor|]. split; [assumption|].
    split; [discriminate|]. repeat split; lia.
  - injection E as <- <- <- <-. exists i, [], [], r. rewrite app_nil_r. change (@zlen byte []) with 0. split; [reflexivity|]. split; [assumption|]. split; [constructor|].
    split; [assumption|]. split; [intros _; exact P|]. repeat split; lia.
Qed.

(** where strtoll stops in a number with a point or an exponent *)
Definition stop (c : byte) : bool := byte_eqb c x2e || byte_eqb c x65 || byte_eqb c x45.
Lemma stop_cases c : stop c = true -> c = x2e \/ c = x65 \/ c = x45.
Proof.
  unfold stop. destruct (byte_eqb_spec c x2e); [tauto|]. destruct (byte_eqb_spec c x65); [tauto|]. destruct (byte_eqb_spec c x45); [tauto|discriminate].
Qed.
Lemma stop_ends base r : base <= 10 -> stop (first r) = true -> ends base r.
Proof.
  intros B S. unfold ends, is_digit.
  apply stop_cases in S. destruct S as [-> | [-> | ->]]; [change (digit_value x2e) with 99|change (digit_value x65) with 14|change (digit_value x45) with 14]; lia.
Qed.
Lemma stop_unmarked r : stop (first r) = true -> byte_eqb (first r) x78 = false /\ byte_eqb (first r) x58 = false.
Proof. intros S. apply stop_cases in S. destruct S as [-> | [-> | ->]]; split; reflexivity. Qed.
Lemma whole_stop10 i r : stop (first r) = true -> all_digits 10 i -> i <> [] -> (leading_zero i -> all_digits 8 i) ->
  snd (whole (i ++ r)) = zlen i.
Proof.
  intros S A N L. destruct (stop_unmarked r S) as [X1 X2]. unfold whole.
  rewrite (digits_unmarked 10 i r ltac:(lia) A N X1 X2). cbn [andb].
  destruct (is_byte x30 (i ++ r)) eqn:Z.
  - assert (L' : leading_zero i).
    { destruct i as [|c i]; [congruence|]. cbn [app] in Z. rewrite is_byte_cons in Z. apply leading_zero_iff. exact Z. }
    rewrite (scan_app 8 i r (L L') ltac:(lia) (stop_ends 8 r ltac:(lia) S)). cbn [snd]. lia.
  - rewrite (scan_app 10 i r A ltac:(lia) (stop_ends 10 r ltac:(lia) S)). cbn [snd]. lia.
Qed.

Lemma tail_stop f fd e x : fraction_text f fd -> exponent_text [x65; x45] e x -> f ++ e <> [] -> stop (first (f ++ e)) = true.
Proof.
  intros [|t] E N; [|reflexivity]. cbn [app] in *. destruct E as [|c g t neg m I]; [congruence|]. cbn [first].
  destruct I as [<- | [<- | []]]; reflexivity.
Qed.
Lemma exponent_ends base marks e x : base <= 16 -> (forall c, In c marks -> is_digit base c = false) -> exponent_text marks e x -> ends base e.
Proof. intros B M [|c g t neg m I]; [now apply ends_nil|]. apply M in I. exact I. Qed.
Lemma exponent_no_point marks e x : ~ In x2e marks -> exponent_text marks e x -> byte_eqb (first e) x2e = false.
Proof. intros M [|c g t neg m I]; [reflexivity|]. cbn [first]. destruct (byte_eqb_spec c x2e) as [->|]; [contradiction|reflexivity]. Qed.

Theorem real_complete t num den : float_body t num den ->
  real t = Some (num, den, zlen t) /\ snd (whole t) < zlen t /\ stop (first (skip (snd (whole t)) t)) = true /\
  0 < snd (whole t) /\ is_byte x2d t = false /\ is_byte x2b t = false /\ 0 <= num /\ 0 < den.
Proof.
  intros [i f fd e x m num0 den0 LZ [z I] F E NE N [-> ->]|p i fd e x m num0 den0 P [z I] E N [-> ->]].
  - apply numeral_iff in I; [|lia]. destruct I as (NI & AI & _). apply numeral_iff in N; [|lia]. destruct N as (N & A & ->).
    pose proof (tail_stop f fd e x F E NE) as ST. destruct (stop_unmarked _ ST) as [X1 X2].
    assert (W : snd (whole (i ++ f ++ e)) = zlen i).
    { apply whole_stop10; auto. intros L. destruct (LZ L) as [z' L']. apply numeral_iff in L'; [|lia]. tauto. }
    assert (PI : 0 < zlen i) by (destruct i; [congruence|]; rewrite zlen_cons; pose proof (zlen_nonneg i); lia).
    split; [|rewrite W, skip_app; split; [|split; [assumption|split; [assumption|]]]].
    + unfold real. rewrite (digits_unmarked 10 i (f ++ e) ltac:(lia) AI NI X1 X2). cbn [andb].
      rewrite (digits_complete 10 i f fd e ltac:(lia) A F).
      * pose proof (zlen_nonneg fd). replace (zlen i + zlen fd =? 0) with false by lia.
        replace (skip (zlen i + zlen f) (i ++ f ++ e)) with e.
        2: { rewrite <- zlen_app, app_assoc, skip_app. reflexivity. }
        destruct (exponent_complete x65 x45 e x E) as [-> | [-> ->]].
        -- rewrite !zlen_app. apply some3_eq; lia.
        -- rewrite exponent_nil by discriminate. rewrite !zlen_app. change (@zlen byte []) with 0. apply some3_eq; lia.
      * apply (exponent_ends 10 _ e x ltac:(lia)) in E; auto. intros c [<- | [<- | []]]; reflexivity.
      * apply (exponent_no_point _ e x) in E; auto. intros [C | [C | []]]; discriminate.
    + rewrite !zlen_app. assert (0 < zlen (f ++ e)); [|rewrite zlen_app in *; lia].
      destruct (f ++ e); [congruence|]. rewrite zlen_cons. pose proof (zlen_nonneg l). lia.
    + destruct AI as [|c i D AI]; [congruence|]. cbn [app]. rewrite !is_byte_cons. destruct (digit_not_sign 10 c ltac:(lia) D) as (-> & -> & _).
      split; [reflexivity|]. split; [reflexivity|]. pose proof (value_nonneg 10 (((c :: i) ++ fd)) ltac:(lia) 0 ltac:(lia)).
      pose proof (Z.pow_nonneg 10 (Z.max 0 (x - zlen fd))). split; [apply Z.mul_nonneg_nonneg; [assumption|apply Z.pow_nonneg; lia]|apply Z.pow_pos_nonneg; lia].
  - apply numeral_iff in I; [|lia]. destruct I as (NI & AI & _). apply numeral_iff in N; [|lia]. destruct N as (N & A & ->).
    destruct (marked_hex_app p (i ++ x2e :: fd ++ e) P) as (M & S & Z). 
    pose proof (digits_first 16 i ltac:(lia) AI NI (x2e :: fd ++ e)) as D.
    assert (W : snd (whole (p ++ i ++ x2e :: fd ++ e)) = zlen p + zlen i).
    { unfold whole. rewrite M, S, D. cbn [andb].
      rewrite (scan_app 16 i (x2e :: fd ++ e) AI ltac:(lia)); [|reflexivity]. cbn [snd]. lia. }
    assert (PI : 0 < zlen i) by (destruct i; [congruence|]; rewrite zlen_cons; pose proof (zlen_nonneg i); lia).
    pose proof (zlen_nonneg fd) as Zfd. pose proof (zlen_nonneg e) as Ze.
    split; [|rewrite W; split; [rewrite !zlen_app, zlen_cons, zlen_app; lia|split; [|split; [lia|]]]].
    + unfold real. rewrite M, S, D. cbn [andb orb].
      pose proof (digits_complete 16 i (x2e :: fd) fd e ltac:(lia) A (fraction_some fd)) as DC. cbn [app] in DC. rewrite DC; clear DC.
      * replace (skip (zlen i + zlen (x2e :: fd)) (i ++ x2e :: fd ++ e)) with e.
        2: { rewrite <- zlen_app. replace (i ++ x2e :: fd ++ e) with ((i ++ x2e :: fd) ++ e) by (rewrite <- app_assoc; reflexivity). rewrite skip_app. reflexivity. }
        destruct (exponent_complete x70 x50 e x E) as [-> | [-> ->]].
        -- repeat (rewrite zlen_app || rewrite zlen_cons). apply some3_eq; lia.
        -- rewrite exponent_nil by discriminate. repeat (rewrite zlen_app || rewrite zlen_cons). change (@zlen byte []) with 0. apply some3_eq; lia.
      * apply (exponent_ends 16 _ e x ltac:(lia)) in E; auto. intros c [<- | [<- | []]]; reflexivity.
      * apply (exponent_no_point _ e x) in E; auto. intros [C | [C | []]]; discriminate.
    + rewrite <- zlen_app. rewrite app_assoc, skip_app. reflexivity.
    + split; [destruct P as [-> | ->]; reflexivity|]. split; [destruct P as [-> | ->]; reflexivity|].
      pose proof (value_nonneg 16 (i ++ fd) ltac:(lia) 0 ltac:(lia)).
      pose proof (Z.pow_nonneg 2 (Z.max 0 (x - 4 * zlen fd))). split; [apply Z.mul_nonneg_nonneg; [assumption|apply Z.pow_nonneg; lia]|apply Z.pow_pos_nonneg; lia].
Qed.

Theorem real_sound t num den : real t = Some (num, den, zlen t) -> 0 < snd (whole t) -> stop (first (skip (snd (whole t)) t)) = true ->
  float_body t num den.
Proof.
  intros R W0 ST. unfold real in R.
  destruct (marked_hex t && (is_digit 16 (first (skip 2 t)) || (is_byte x2e (skip 2 t) && is_digit 16 (first (skip 3 t))))) eqn:H.
  - apply andb_true_iff in H. destruct H as [M H]. destruct (marked_hex_spec t M) as (p & u & -> & P).
    destruct (marked_hex_app p u P) as (_ & S & Z). rewrite S in *.
    destruct (is_digit 16 (first u)) eqn:D.
    + clear H. destruct (digits_at 16 u) as [[[m n] d] k] eqn:DA. destruct (exponent_at x70 x50 (skip n u)) as [x ek] eqn:EA.
      destruct (digits_sound 16 u m n d k ltac:(lia) DA) as (i & f & fd & r & -> & A & F & EN & NP & -> & -> & -> & ->).
      apply some_inv, triple_inv in R; destruct R as (<- & <- & R). rewrite <- zlen_app in EA. rewrite app_assoc, skip_app in EA.
      rewrite !zlen_app in R. assert (ek = zlen r) as -> by lia. apply exponent_sound in EA.
      pose proof A as A'. apply Forall_app in A'. destruct A' as [A1 A2].
      assert (NI : i <> []).
      { intros ->. cbn [app] in D. destruct F as [|fd0]; cbn [app] in D; [unfold ends in EN; congruence|discriminate]. }
      (* strtoll stopped behind the digits *)
      unfold whole in ST. rewrite M, S, D in ST. cbn [andb] in ST.
      destruct F as [|fd]; cbn [app] in *.
      * exfalso. rewrite (scan_app 16 i r A1 ltac:(lia) EN) in ST. cbn [snd] in ST. replace (2 + (0 + zlen i)) with (zlen (p ++ i)) in ST by (rewrite zlen_app; lia).
        rewrite app_assoc, skip_app in ST. apply stop_cases in ST. specialize (NP eq_refl).
        unfold ends in EN. destruct ST as [Q | [Q | Q]]; rewrite Q in *; discriminate.
      * apply (float_hex p i fd r x); auto.
        -- exists (value_of 16 0 i). apply numeral_iff; [lia|]. repeat split; assumption.
        -- apply numeral_iff; [lia|]. split; [destruct i; [congruence|discriminate]|]. split; [assumption|reflexivity].
        -- split; reflexivity.
    + (* 0x. : strtoll stops at the x *)
      exfalso. unfold whole in ST. rewrite M, S, D in ST. cbn [andb] in ST.
      assert (E0 : is_byte x30 (p ++ u) = true) by (destruct P as [-> | ->]; reflexivity). rewrite E0 in ST.
      destruct P as [-> | ->]; cbn [app] in ST.
      * change (x30 :: x78 :: u) with ([x30] ++ x78 :: u) in ST. rewrite (scan_app 8 [x30] (x78 :: u)) in ST; [discriminate|constructor; [reflexivity|constructor]|lia|reflexivity].
      * change (x30 :: x58 :: u) with ([x30] ++ x58 :: u) in ST. rewrite (scan_app 8 [x30] (x58 :: u)) in ST; [discriminate|constructor; [reflexivity|constructor]|lia|reflexivity].
  - destruct (digits_at 10 t) as [[[m n] d] k] eqn:DA. destruct (d =? 0) eqn:D0; [discriminate|]. destruct (exponent_at x65 x45 (skip n t)) as [x ek] eqn:EA.
    destruct (digits_sound 10 t m n d k ltac:(lia) DA) as (i & f & fd & r & -> & A & F & EN & NP & -> & -> & -> & ->).
    apply some_inv, triple_inv in R; destruct R as (<- & <- & R). rewrite <- zlen_app in EA. rewrite app_assoc, skip_app in EA.
    rewrite !zlen_app in R. assert (ek = zlen r) as -> by lia. apply exponent_sound in EA.
    pose proof A as A'. apply Forall_app in A'. destruct A' as [A1 A2].
    assert (NH : marked_hex (i ++ f ++ r) && is_digit 16 (first (skip 2 (i ++ f ++ r))) = false).
    { destruct (marked_hex _); [|reflexivity]. cbn [andb] in *. destruct (is_digit 16 _); [discriminate|reflexivity]. }
    (* what strtoll read ends before the point or the exponent *)
    assert (K : exists j q, i ++ f ++ r = j ++ q /\ j <> [] /\ all_digits 10 j /\ stop (first q) = true /\
      (leading_zero j -> all_digits 8 j)).
    { unfold whole in W0, ST. rewrite NH in W0, ST. destruct (is_byte x30 (i ++ f ++ r)) eqn:Z.
      - destruct (scan_spec 8 (i ++ f ++ r) ltac:(lia)) as (j & q & E & AJ & EQ & SC). rewrite SC in W0, ST. cbn [snd] in W0, ST.
        exists j, q. split; [assumption|]. rewrite E in ST. replace (0 + zlen j) with (zlen j) in ST by lia. rewrite skip_app in ST.
        split; [intros ->; change (@zlen byte []) with 0 in W0; lia|]. split; [|split; [assumption|intros _; assumption]].
        eapply Forall_impl; [|exact AJ]. unfold is_digit. intros c ?. lia.
      - destruct (scan_spec 10 (i ++ f ++ r) ltac:(lia)) as (j & q & E & AJ & EQ & SC). rewrite SC in W0, ST. cbn [snd] in W0, ST.
        exists j, q. split; [assumption|]. rewrite E in ST, Z. replace (0 + zlen j) with (zlen j) in ST by lia. rewrite skip_app in ST.
        split; [intros ->; change (@zlen byte []) with 0 in W0; lia|]. split; [assumption|]. split; [assumption|]. intros L. exfalso.
        destruct L as [j' ->]. discriminate. }
    destruct K as (j & q & E & NJ & AJ & SQ & LZ).
    (* and there is only one such place *)
    assert (J : j = i /\ q = f ++ r).
    { assert (ER : ends 10 (f ++ r)) by (destruct F; [exact EN|reflexivity]). pose proof (stop_ends 10 q ltac:(lia) SQ) as EQ.
      pose proof (scan_app 10 i (f ++ r) A1 ltac:(lia) ER 0 0) as C1. pose proof (scan_app 10 j q AJ ltac:(lia) EQ 0 0) as C2.
      rewrite E in C1. rewrite C1 in C2. apply pair_inv in C2. destruct C2 as [_ C2]. clear - E C2.
      assert (L : List.length i = List.length j) by (unfold zlen in C2; lia). clear C2. revert j L E. induction i as [|c i IH]; intros [|d j] L E; try discriminate; [split; [reflexivity|symmetry; exact E]|].
      injection E as <- E. injection L as L. destruct (IH j L E) as [-> ->]. split; reflexivity. }
    destruct J as [-> ->].
    apply (float_decimal i f fd r x); auto.
    + intros L. exists (value_of 8 0 i). apply numeral_iff; [lia|]. split; [assumption|]. split; [now apply LZ|reflexivity].
    + exists (value_of 10 0 i). apply numeral_iff; [lia|]. repeat split; assumption.
    + intros Q. rewrite Q in SQ. discriminate.
    + apply numeral_iff; [lia|]. split; [destruct i; [congruence|discriminate]|]. split; [assumption|reflexivity].
    + split; reflexivity.
Qed.
