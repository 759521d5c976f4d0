(** Dates as texts: what snprintf writes, sscanf reads. *)

From Coq Require Import ZArith List Bool Lia.
From Coq Require Import ZifyBool ZifyNat ZifyN.
From Verif Require Import Base BaseFacts Keys KeysFacts SpecJson Text TextRead TextWrite SpecTime Time TimeFacts.
Import ListNotations.
Open Scope Z_scope.

Lemma pad_two z : 0 <= z < 100 -> pad 2 z = two z.
Proof.
  intros B. unfold pad. replace (z <? 0) with false by lia. rewrite Z.abs_eq by lia. cbn [write_nat]. destruct (z <? 10) eqn:E.
  - cbn [length Nat.sub repeat app]. unfold two, figure. replace (z / 10) with 0 by divs. replace (z mod 10) with z by divs. reflexivity.
  - replace (z / 10 <? 10) with true by divs. reflexivity.
Qed.
Lemma pad_four z : 0 <= z < 10000 -> pad 4 z = four z.
Proof.
  intros B. unfold pad. replace (z <? 0) with false by lia. rewrite Z.abs_eq by lia. cbn [write_nat]. unfold four, two, figure.
  replace (z mod 100 / 10) with (z / 10 mod 10) by divs. replace (z mod 100 mod 10) with (z mod 10) by divs.
  replace (z / 100 / 10) with (z / 1000) by divs. replace (z / 100 mod 10) with (z / 10 / 10 mod 10) by divs.
  destruct (z <? 10) eqn:E1.
  { replace (z / 1000) with 0 by divs. replace (z / 10 / 10 mod 10) with 0 by divs. replace (z / 10 mod 10) with 0 by divs. replace (z mod 10) with z by divs. reflexivity. }
  destruct (z / 10 <? 10) eqn:E2.
  { replace (z / 1000) with 0 by divs. replace (z / 10 / 10 mod 10) with 0 by divs. replace (z / 10 mod 10) with (z / 10) by divs. reflexivity. }
  destruct (z / 10 / 10 <? 10) eqn:E3.
  { replace (z / 1000) with 0 by divs. replace (z / 10 / 10 mod 10) with (z / 10 / 10) by divs. reflexivity. }
  replace (z / 10 / 10 / 10 <? 10) with true by divs. replace (z / 1000) with (z / 10 / 10 / 10) by divs. reflexivity.
Qed.

(** ** Reading numbers *)
Lemma number_of_zeros k t : number_of 0 (repeat x30 k ++ t) = number_of 0 t.
Proof. induction k as [|k IH]; [reflexivity|]. cbn [repeat app number_of]. change (0 * 10 + (b2z x30 - 48)) with 0. exact IH. Qed.
Lemma digits_zeros k : Forall digit (repeat x30 k).
Proof. induction k as [|k IH]; cbn [repeat]; constructor; [unfold digit; change (b2z x30) with 48; lia|exact IH]. Qed.
Lemma span_digits ds c r : Forall digit ds -> digitb c = false -> span digitb (ds ++ c :: r) = (ds, c :: r).
Proof.
  intros F N. induction F as [|x ds D _ IH]; cbn [app span]; [rewrite N; reflexivity|].
  rewrite (proj2 (digitb_spec x) D), IH. reflexivity.
Qed.
Lemma digit_no_space c : digit c -> c_space c = false.
Proof. unfold digit, c_space. lia. Qed.

Lemma scan_d_digits neg ds c r : digits ds -> digitb c = false ->
  scan_d ((if neg : bool then [x2d] else []) ++ ds ++ c :: r) =
  (z <- int_of (if neg then - number_of 0 ds else number_of 0 ds) ;; Ok (Some (z, c :: r))).
Proof.
  intros [N F] C. unfold scan_d. assert (S : span c_space ((if neg then [x2d] else []) ++ ds ++ c :: r) = ([], (if neg then [x2d] else []) ++ ds ++ c :: r)).
  { destruct neg; [reflexivity|]. destruct ds as [|x ds]; [congruence|]. cbn [app span]. inversion F as [|? ? D _]; subst. rewrite (digit_no_space x D). reflexivity. }
  rewrite S. destruct neg.
  - cbn [app]. change (byte_eqb x2d x2d) with true. cbv iota. rewrite span_digits by assumption. destruct ds; [congruence|reflexivity].
  - destruct ds as [|x ds]; [congruence|]. inversion F as [|? ? D _]; subst. cbn [app].
    destruct (byte_eqb_spec x x2d) as [->|_]; [exfalso; cbv in D; destruct D as [D _]; apply D; reflexivity|].
    destruct (byte_eqb_spec x x2b) as [->|_]; [exfalso; cbv in D; destruct D as [D _]; apply D; reflexivity|].
    change (x :: ds ++ c :: r) with ((x :: ds) ++ c :: r). rewrite span_digits by assumption. reflexivity.
Qed.
Lemma scan_d_pad w z c r : in_int z = true -> digitb c = false -> scan_d (pad w z ++ c :: r) = Ok (Some (z, c :: r)).
Proof.
  intros I C. assert (B : 0 <= Z.abs z < 10 ^ Z.of_nat 20) by (change (10 ^ Z.of_nat 20) with (10 ^ 20); unfold in_int in I; assert (2147483648 < 10 ^ 20) by reflexivity; lia).
  destruct (write_nat_spec 20 (Z.abs z) B ltac:(lia)) as ((N & F) & V & _).
  unfold pad. cbv zeta. destruct (z <? 0) eqn:E.
  - set (zs := repeat x30 (w - 1 - length (write_nat 20 (Z.abs z)))).
    pose proof (scan_d_digits true (zs ++ write_nat 20 (Z.abs z)) c r) as S. cbn [app] in S. rewrite <- ?app_assoc in S. cbn [app]. rewrite <- ?app_assoc. rewrite S; [| |exact C].
    + unfold zs. rewrite number_of_zeros, V. replace (- Z.abs z) with z by lia. unfold int_of. rewrite I. reflexivity.
    + split; [destruct zs; [exact N|discriminate]|]. apply Forall_app. split; [apply digits_zeros|exact F].
  - set (zs := repeat x30 (w - length (write_nat 20 (Z.abs z)))).
    pose proof (scan_d_digits false (zs ++ write_nat 20 (Z.abs z)) c r) as S. cbn [app] in S. rewrite <- ?app_assoc in S. rewrite <- ?app_assoc. rewrite S; [| |exact C].
    + unfold zs. rewrite number_of_zeros, V. replace (Z.abs z) with z by lia. unfold int_of. rewrite I. reflexivity.
    + split; [destruct zs; [exact N|discriminate]|]. apply Forall_app. split; [apply digits_zeros|exact F].
Qed.
Lemma scan_field_pad w z c r : in_int z = true -> digitb c = false -> scan_field c (pad w z ++ c :: r) = Ok (Some (z, r)).
Proof.
  intros I C. unfold scan_field. rewrite scan_d_pad by assumption. cbn [bind scan_c].
  destruct (byte_eqb_spec c c); [reflexivity|congruence].
Qed.

(** A float that starts with a whole number of seconds, as the texts here have them: at
    the end, before a zone, before a fraction of zeros. *)
Definition closes (r : str) : Prop :=
  r = [] \/ exists q, r = x5a :: q \/ r = x2b :: q \/ r = x2d :: q \/ r = [x2e; x30; x30; x30; x5a] ++ q.
Definition reads_seconds (strtof : str -> option float) : Prop :=
  forall ds r, digits ds -> (length ds <= 4)%nat -> closes r -> strtof (ds ++ r) = Some (F_whole (number_of 0 ds)).
Definition reads_nan (strtof : str -> option float) : Prop := forall r, strtof ([x6e; x61; x6e] ++ r) = Some F_nan.

Lemma two_digits z : 0 <= z < 100 -> digits (two z) /\ number_of 0 (two z) = z.
Proof.
  intros B. unfold two, figure. destruct (digit_of (z / 10)) as [D1 V1]; [divs|]. destruct (digit_of (z mod 10)) as [D2 V2]; [divs|].
  split; [split; [discriminate|repeat (constructor; [assumption|]); constructor]|]. cbn [number_of]. rewrite V1, V2. divs.
Qed.
Lemma no_space_digits ds r : digits ds -> span c_space (ds ++ r) = ([], ds ++ r).
Proof. intros [N F]. destruct ds as [|x ds]; [congruence|]. inversion F; subst. cbn [app span]. rewrite digit_no_space by assumption. reflexivity. Qed.

Definition any_date (w : nat) (y mo d h mi : Z) (rest : str) : str :=
  pad w y ++ [x2d] ++ pad 2 mo ++ [x2d] ++ pad 2 d ++ [x54] ++ pad 2 h ++ [x3a] ++ pad 2 mi ++ [x3a] ++ rest.
Lemma scan_any_date strtof w y mo d h mi rest : in_int y = true -> in_int mo = true -> in_int d = true -> in_int h = true -> in_int mi = true ->
  scan_date strtof (any_date w y mo d h mi rest) =
  Ok (match strtof (snd (span c_space rest)) with Some s => Some (y, mo, d, h, mi, s) | None => None end).
Proof.
  intros. unfold scan_date, any_date. cbn [app]. unfold field_or_none.
  rewrite scan_field_pad by (assumption || reflexivity). cbn [bind]. rewrite scan_field_pad by (assumption || reflexivity). cbn [bind].
  rewrite scan_field_pad by (assumption || reflexivity). cbn [bind]. rewrite scan_field_pad by (assumption || reflexivity). cbn [bind].
  rewrite scan_field_pad by (assumption || reflexivity). cbn [bind]. destruct (strtof _); reflexivity.
Qed.
