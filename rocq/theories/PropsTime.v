(** C63: moments as dart strings. *)

From Coq Require Import ZArith List Bool Lia String.
From Coq Require Import ZifyBool ZifyNat ZifyN.
From Verif Require Import Base BaseFacts Keys KeysFacts Spec Wire HeapOps Packet MakeFacts SpecJson Text TextRead TextWrite SpecTime Time TimeFacts TimeText.
Import ListNotations.
Open Scope string_scope.
Open Scope list_scope.
Open Scope Z_scope.

(** A reading of floats that meets what is asked of one. *)
Definition plain_float (t : str) : option float :=
  let '(ds, _) := span digitb t in
  match ds with
  | [] => match t with x6e :: x61 :: x6e :: _ => Some F_nan | x69 :: x6e :: x66 :: _ => Some F_inf | _ => None end
  | _ => Some (F_whole (number_of 0 ds))
  end.
Lemma plain_seconds : reads_seconds plain_float.
Proof.
  intros ds r [N F] _ C. unfold plain_float. assert (S : span digitb (ds ++ r) = (ds, r)).
  { destruct r as [|c r].
    - clear N C. rewrite app_nil_r. induction F as [|x ds D _ IH]; [reflexivity|]. cbn [span]. rewrite (proj2 (digitb_spec x) D), IH. reflexivity.
    - apply span_digits; [exact F|]. destruct C as [C|(q & [C|[C|[C|C]]])]; try discriminate C; injection C as -> _; reflexivity. }
  rewrite S. destruct ds; [congruence|reflexivity].
Qed.
Lemma plain_nan : reads_nan plain_float.
Proof. intros r. reflexivity. Qed.

(** ** The calendar *)

(** Every second has one date and clock, no two seconds have the same, and the library's
    conversions between the two are those. *)
Theorem c63_calendar t : exists y m d h mi s, moment t (y, m, d) (h, mi, s) /\
  (forall d' c', moment t d' c' -> d' = (y, m, d) /\ c' = (h, mi, s)) /\
  (forall t', moment t' (y, m, d) (h, mi, s) -> t' = t) /\
  (in_int (y - 1900) = true ->
     gmtime t = Ok (TM (y - 1900) (m - 1) d h mi s) /\ timegm (TM (y - 1900) (m - 1) d h mi s) = t).
Proof.
  destruct (civil_from_days (t / 86400)) as [[y m] d] eqn:E.
  exists y, m, d, (t mod 86400 / 3600), (t mod 86400 / 60 mod 60), (t mod 86400 mod 60).
  assert (M : moment t (y, m, d) (t mod 86400 / 3600, t mod 86400 / 60 mod 60, t mod 86400 mod 60)).
  { split; [cbn; divs|]. exists (t / 86400). split; [rewrite <- E; apply civil_on_day|]. divs. }
  split; [exact M|]. split; [intros d' c' M'; destruct (moment_unique _ _ _ _ _ M' M); auto|].
  split; [intros t' M'; exact (moment_seconds _ _ _ _ M' M)|]. intros I.
  pose proof (gmtime_spec t) as G. rewrite E in G. destruct (G I) as [G1 _]. split; [exact G1|].
  destruct M as (PC & n & O & V). apply on_day_days in O. destruct O as [P D]. rewrite timegm_proper by assumption. lia.
Qed.
Print Assumptions c63_calendar.

(** ** Writing *)
Lemma quot_whole k n t : 0 < k -> (whole_seconds k n t <-> Z.quot n k = t).
Proof.
  intros K. unfold whole_seconds. pose proof (Z.quot_rem' n k) as Q. split.
  - intros [A B]. destruct (Z_le_dec 0 n) as [L|L].
    + pose proof (Z.rem_bound_pos n k L K). specialize (A L). nia.
    + pose proof (Z.rem_bound_pos_neg n k ltac:(lia) ltac:(lia)) as R. specialize (B ltac:(lia)). nia.
  - intros <-. split; intros L.
    + pose proof (Z.rem_bound_pos n k L K). lia.
    + pose proof (Z.rem_bound_pos_neg n k ltac:(lia) ltac:(lia)). lia.
Qed.

Lemma two_length z : List.length (two z) = 2%nat.
Proof. reflexivity. Qed.
Lemma date_text_iso t y m d h mi s : moment t (y, m, d) (h, mi, s) -> 0 <= y <= 9999 ->
  gmtime t = Ok (TM (y - 1900) (m - 1) d h mi s) /\ date_text (TM (y - 1900) (m - 1) d h mi s) = iso (y, m, d) (h, mi, s).
Proof.
  intros M Y. destruct (c63_calendar t) as (y' & m' & d' & h' & mi' & s' & _ & U & _ & G). destruct (U _ _ M) as [E1 E2].
  injection E1 as <- <- <-. injection E2 as <- <- <-. destruct G as [G _]; [unfold in_int; lia|]. split; [exact G|].
  destruct M as (PC & n & O & V). apply on_day_days in O. destruct O as [[P1 P2] _]. cbn in PC.
  assert (D : d <= 31) by (revert P2; unfold month_days; repeat match goal with |- context [if ?b then _ else _] => destruct b end; lia).
  unfold date_text, iso. cbn [tm_year tm_mon tm_mday tm_hour tm_min tm_sec].
  replace (y - 1900 + 1900) with y by ring. replace (m - 1 + 1) with m by ring.
  rewrite pad_four, !pad_two by lia. reflexivity.
Qed.

(** The text is the ISO 8601 form of the moment, without what is less than a second. *)
Theorem c63_text tick unit_ c t d k : 0 < tick -> - 2 ^ 63 <= c * unit_ < 2 ^ 63 -> whole_seconds tick (c * unit_) t -> moment t d k ->
  (let '(y, _, _) := d in 0 <= y <= 9999) ->
  time_to tick unit_ c = Ok (PHeap (VStr (iso d k))) /\ List.length (iso d k) = 24%nat.
Proof.
  intros K R W M Y. destruct d as [[y m] d], k as [[h mi] s]. destruct (date_text_iso _ _ _ _ _ _ _ M Y) as [G T].
  split; [|reflexivity]. unfold time_to, time_text. apply quot_whole in W; [|exact K].
  unfold long_of, in_long. change (2 ^ 63) with 9223372036854775808 in R. replace ((_ <=? _) && _) with true by lia. cbn [bind]. rewrite W, G. cbn [bind]. rewrite T. reflexivity.
Qed.
Print Assumptions c63_text.

(** With ticks of a nanosecond every moment has such a text. *)
Theorem c63_nanoseconds unit_ c : - 2 ^ 63 <= c * unit_ < 2 ^ 63 ->
  exists t y m d k, whole_seconds 1000000000 (c * unit_) t /\ moment t (y, m, d) k /\ 1677 <= y <= 2262 /\
    time_to 1000000000 unit_ c = Ok (PHeap (VStr (iso (y, m, d) k))).
Proof.
  intros R. set (t := Z.quot (c * unit_) 1000000000). assert (W : whole_seconds 1000000000 (c * unit_) t) by (apply quot_whole; [lia|reflexivity]).
  destruct (c63_calendar t) as (y & m & d & h & mi & s & M & _). exists t, y, m, d, (h, mi, s). split; [exact W|]. split; [exact M|].
  assert (Y : 1677 <= y <= 2262).
  { destruct M as (C & n & O & V). cbn in C. change (2 ^ 63) with 9223372036854775808 in R. destruct W as [W1 W2].
    assert (T : -9223372037 <= t <= 9223372036) by lia. clearbody t.
    assert (N : -106752 <= n <= 106751) by lia. apply on_day_civil in O.
    assert (L : n = -106752 \/ -106752 < n) by lia. assert (U : n = 106751 \/ n < 106751) by lia.
    assert (LY : 1677 <= y).
    { destruct L as [->|L]; [vm_compute in O; injection O; lia|]. apply civil_lt in L. rewrite <- O in L. vm_compute (civil_from_days (-106752)) in L. cbn in L. lia. }
    destruct U as [->|U]; [vm_compute in O; injection O; lia|]. apply civil_lt in U. rewrite <- O in U. vm_compute (civil_from_days 106751) in U. cbn in U. lia. }
  split; [exact Y|]. apply (c63_text 1000000000 unit_ c t (y, m, d) (h, mi, s)); [lia|exact R|exact W|exact M|cbn; lia].
Qed.
Print Assumptions c63_nanoseconds.

(** ** There and back *)
Definition no_zero (s : str) : Prop := Forall (fun c => c <> x00) s.
Lemma digit_no_zero c : digit c -> c <> x00.
Proof. intros D ->. cbv in D. destruct D as [D _]. apply D. reflexivity. Qed.
Lemma cstr_no_zero s : no_zero s -> cstr s = s.
Proof. intros F. induction F as [|c s N _ IH]; [reflexivity|]. cbn [cstr]. destruct (byte_eqb_spec c x00); [congruence|]. rewrite IH. reflexivity. Qed.
Lemma pad_no_zero w z : Z.abs z < 10 ^ 20 -> no_zero (pad w z).
Proof.
  intros B. destruct (write_nat_spec 20 (Z.abs z)) as ((_ & F) & _); [change (10 ^ Z.of_nat 20) with (10 ^ 20); lia|lia|].
  assert (G : no_zero (write_nat 20 (Z.abs z))) by (eapply Forall_impl; [exact digit_no_zero|exact F]).
  assert (Q : forall k, no_zero (repeat x30 k)) by (intros k; eapply Forall_impl; [exact digit_no_zero|apply digits_zeros]).
  unfold pad. cbv zeta. destruct (z <? 0); [constructor; [discriminate|]|]; (apply Forall_app; split; [apply Q|exact G]).
Qed.
Lemma date_text_no_zero t : in_int (tm_year t + 1900) = true -> in_int (tm_mon t + 1) = true -> in_int (tm_mday t) = true -> in_int (tm_hour t) = true ->
  in_int (tm_min t) = true -> in_int (tm_sec t) = true -> no_zero (date_text t).
Proof.
  intros. assert (B : forall w z, in_int z = true -> no_zero (pad w z)).
  { intros w z I. apply pad_no_zero. unfold in_int in I. assert (2147483648 < 10 ^ 20) by reflexivity. lia. }
  unfold date_text. repeat (apply Forall_app; split); try (apply B; assumption); repeat constructor; discriminate.
Qed.

Lemma seconds_there strtof y m d h mi s : reads_seconds strtof -> in_int y = true -> in_int (y - 1900) = true -> proper (y, m, d) -> proper_clock (h, mi, s) ->
  scan_date strtof (date_text (TM (y - 1900) (m - 1) d h mi s)) = Ok (Some (y, m, d, h, mi, F_whole s)) /\
  cstr (date_text (TM (y - 1900) (m - 1) d h mi s)) = date_text (TM (y - 1900) (m - 1) d h mi s).
Proof.
  intros R I1 I2 [P1 P2] C. cbn in C.
  assert (D : d <= 31) by (revert P2; unfold month_days; repeat match goal with |- context [if ?b then _ else _] => destruct b end; lia).
  split.
  - unfold date_text. cbn [tm_year tm_mon tm_mday tm_hour tm_min tm_sec].
    replace (y - 1900 + 1900) with y by ring. replace (m - 1 + 1) with m by ring. rewrite (pad_two s) by lia.
    destruct (two_digits s) as [DS V]; [lia|].
    change (pad 4 y ++ _) with (any_date 4 y m d h mi (two s ++ [x2e; x30; x30; x30; x5a])).
    rewrite scan_any_date by (assumption || (unfold in_int; lia)). rewrite no_space_digits by exact DS. cbn [snd].
    rewrite R; [rewrite V; reflexivity|exact DS|cbn; lia|]. right. exists []. right. right. right. reflexivity.
  - apply cstr_no_zero, date_text_no_zero; cbn [tm_year tm_mon tm_mday tm_hour tm_min tm_sec]; try (unfold in_int; lia).
    replace (y - 1900 + 1900) with y by ring. exact I1.
Qed.

(** The seconds the text is of, and what it is read as. *)
Lemma there_and_back strtof tick unit_ c : reads_seconds strtof -> 1000000 <= tick -> - 2 ^ 63 <= c * unit_ < 2 ^ 63 ->
  exists s, time_text tick unit_ c = Ok s /\ cstr s = s /\
    read_time strtof tick unit_ s = Ok (Z.quot (Z.quot (c * unit_) tick * tick) unit_).
Proof.
  intros R K B. change (2 ^ 63) with 9223372036854775808 in B. set (n := c * unit_) in *. set (t := Z.quot n tick).
  assert (W : whole_seconds tick n t) by (apply quot_whole; [lia|reflexivity]). destruct W as [W1 W2].
  assert (T1 : Z.abs t * 1000000 <= 9223372036854775808) by nia.
  assert (T2 : -9223372036854775808 <= t * tick <= 9223372036854775807).
  { destruct (Z_le_dec 0 n) as [L|L].
    - specialize (W1 L). assert (0 <= t) by (destruct (Z_le_dec 0 t); [assumption|nia]). nia.
    - specialize (W2 ltac:(lia)). assert (t <= 0) by (destruct (Z_le_dec t 0); [assumption|nia]). nia. }
  destruct (c63_calendar t) as (y & m & d & h & mi & s & M & _ & _ & G).
  assert (Y : -300000 <= y <= 300000).
  { destruct M as (C & k & O & V). cbn in C. assert (N : -106751992 <= k <= 106751991) by lia. pose proof (year_bounds k) as YB. apply on_day_civil in O.
    rewrite <- O in YB. cbv beta iota in YB. lia. }
  destruct G as [G1 G2]; [unfold in_int; lia|]. destruct M as (C & k & O & V). apply on_day_days in O. destruct O as [P _].
  destruct (seconds_there strtof y m d h mi s R) as [S1 S2]; [unfold in_int; lia|unfold in_int; lia|exact P|exact C|].
  exists (date_text (TM (y - 1900) (m - 1) d h mi s)). unfold time_text. fold n. unfold long_of at 1. replace (in_long n) with true by (unfold in_long; lia). cbn [bind].
  fold t. rewrite G1. split; [reflexivity|]. split; [exact S2|]. unfold read_time. rewrite S1. cbn [bind].
  unfold int_of at 1. replace (in_int (y - 1900)) with true by (unfold in_int; lia). cbn [bind].
  unfold int_of at 1. destruct P as [P1 P2]. replace (in_int (m - 1)) with true by (unfold in_int; lia). cbn [bind float_to_int].
  unfold int_of. replace (in_int s) with true by (cbn in C; unfold in_int; lia). cbn [bind]. rewrite G2.
  unfold long_of. replace (in_long (t * tick)) with true by (unfold in_long; lia). reflexivity.
Qed.

(** A moment written and read again is the same without what is less than a second; it is
    the same exactly when it was whole seconds. *)
Theorem c63_round strtof tick unit_ c : reads_seconds strtof -> 1000000 <= tick -> 0 < unit_ -> - 2 ^ 63 <= c * unit_ < 2 ^ 63 ->
  exists p c' t, time_to tick unit_ c = Ok p /\ time_from strtof tick unit_ p = Ok c' /\
    whole_seconds tick (c * unit_) t /\ c' = Z.quot (t * tick) unit_ /\ (c' = c <-> (tick | c * unit_)).
Proof.
  intros R K U B. destruct (there_and_back strtof tick unit_ c R K B) as (s & E1 & E2 & E3).
  exists (PHeap (VStr s)), (Z.quot (Z.quot (c * unit_) tick * tick) unit_), (Z.quot (c * unit_) tick).
  split; [unfold time_to; rewrite E1; reflexivity|]. split; [unfold time_from; cbn [p_scalar h_scalar bind]; cbn; rewrite E2; exact E3|].
  assert (W : whole_seconds tick (c * unit_) (Z.quot (c * unit_) tick)) by (apply quot_whole; [lia|reflexivity]).
  split; [exact W|]. split; [reflexivity|]. set (t := Z.quot (c * unit_) tick) in *.
  assert (Q : Z.quot (c * unit_) unit_ = c) by (apply Z.quot_mul; lia).
  split.
  - intros E. exists t. destruct W as [W1 W2]. apply (quot_whole unit_) in E; [|exact U]. destruct E as [F1 F2].
    replace ((t + 1) * tick) with (t * tick + tick) in W1 by ring. replace ((t - 1) * tick) with (t * tick - tick) in W2 by ring.
    assert (TP : 0 < t * tick -> 0 < t) by (intros X; destruct (Z_le_dec t 0) as [L|L]; [assert (t * tick <= 0) by (apply Z.mul_nonpos_nonneg; lia); lia|lia]).
    assert (TN : t < 0 -> t * tick <= - tick) by (intros X; assert ((t + 1) * tick <= 0) by (apply Z.mul_nonpos_nonneg; lia); replace ((t + 1) * tick) with (t * tick + tick) in * by ring; lia).
    assert (TQ : 0 < t -> tick <= t * tick) by (intros X; assert (0 <= (t - 1) * tick) by (apply Z.mul_nonneg_nonneg; lia); replace ((t - 1) * tick) with (t * tick - tick) in * by ring; lia).
    assert (T0 : t = 0 -> t * tick = 0) by (intros ->; reflexivity).
    clearbody t. clear Q. remember (t * tick) as T. remember (c * unit_) as n. clear HeqT Heqn.
    destruct (Z_le_dec 0 n) as [L|L]; [specialize (W1 L)|specialize (W2 ltac:(lia))]; lia.
  - intros [q E]. assert (t = q) as -> by (unfold t; rewrite E; apply Z.quot_mul; lia). rewrite <- E. exact Q.
Qed.
Print Assumptions c63_round.

(** Texts order moments as time does. *)
Lemma figure_lt a b : 0 <= a < 10 -> 0 <= b < 10 -> (b2z (figure a) < b2z (figure b) <-> a < b).
Proof. intros A B. unfold figure. rewrite !b2z_z2b, !Z.mod_small by lia. lia. Qed.
Lemma two_lex a b r r' : 0 <= a < 100 -> 0 <= b < 100 -> a < b \/ (a = b /\ lex_lt r r') -> lex_lt (two a ++ r) (two b ++ r').
Proof.
  intros A B [L|[<- L]]; [|cbn [two app]; apply lex_next, lex_next; exact L]. unfold two. cbn [app].
  assert (C : a / 10 < b / 10 \/ a / 10 = b / 10 /\ a mod 10 < b mod 10) by divs.
  destruct C as [C|[C D]]; [apply lex_here, figure_lt; [divs|divs|exact C]|]. rewrite C. apply lex_next, lex_here, figure_lt; [divs|divs|exact D].
Qed.
Lemma four_lex a b r r' : 0 <= a < 10000 -> 0 <= b < 10000 -> a < b \/ (a = b /\ lex_lt r r') -> lex_lt (four a ++ r) (four b ++ r').
Proof.
  intros A B L. unfold four. rewrite <- !app_assoc. apply two_lex; [divs|divs|].
  destruct L as [L|[<- L]].
  - assert (C : a / 100 < b / 100 \/ a / 100 = b / 100 /\ a mod 100 < b mod 100) by divs. destruct C as [C|[C D]]; [left; exact C|].
    right. split; [exact C|]. apply two_lex; [divs|divs|left; exact D].
  - right. split; [reflexivity|]. apply two_lex; [divs|divs|right; auto].
Qed.
Lemma iso_lt t t' y m d k y' m' d' k' : moment t (y, m, d) k -> moment t' (y', m', d') k' -> 0 <= y <= 9999 -> 0 <= y' <= 9999 ->
  t < t' -> lex_lt (iso (y, m, d) k) (iso (y', m', d') k').
Proof.
  destruct k as [[h mi] s], k' as [[h' mi'] s']. intros (C & n & O & V) (C' & n' & O' & V') Y Y' L. cbn in C, C'.
  pose proof (on_day_days _ _ O) as [[P1 P2] _]. pose proof (on_day_days _ _ O') as [[P1' P2'] _].
  assert (MD : forall y m, month_days y m <= 31) by (intros; unfold month_days; repeat match goal with |- context [if ?b then _ else _] => destruct b end; lia).
  pose proof (MD y m). pose proof (MD y' m'). clear MD.
  assert (D : date_lt (y, m, d) (y', m', d') \/ (y, m, d) = (y', m', d') /\ (h < h' \/ h = h' /\ (mi < mi' \/ mi = mi' /\ s < s'))).
  { apply on_day_civil in O, O'. assert (N : n < n' \/ n = n') by lia. destruct N as [N|<-].
    - left. rewrite O, O'. apply civil_lt, N.
    - right. split; [congruence|]. lia. }
  unfold iso. apply four_lex; [lia|lia|]. destruct D as [D|[E D]].
  - cbn in D. destruct D as [D|[-> D]]; [left; exact D|]. right. split; [reflexivity|]. cbn [app]. apply lex_next, two_lex; [lia|lia|].
    destruct D as [D|[-> D]]; [left; exact D|]. right. split; [reflexivity|]. apply lex_next, two_lex; [lia|lia|]. left. exact D.
  - injection E as <- <- <-. right. split; [reflexivity|]. cbn [app]. apply lex_next, two_lex; [lia|lia|]. right. split; [reflexivity|].
    apply lex_next, two_lex; [lia|lia|]. right. split; [reflexivity|]. apply lex_next, two_lex; [lia|lia|].
    destruct D as [D|[<- D]]; [left; exact D|]. right. split; [reflexivity|]. apply lex_next, two_lex; [lia|lia|].
    destruct D as [D|[<- D]]; [left; exact D|]. right. split; [reflexivity|]. apply lex_next, two_lex; [lia|lia|]. left. exact D.
Qed.
Theorem c63_order t t' y m d k y' m' d' k' : moment t (y, m, d) k -> moment t' (y', m', d') k' -> 0 <= y <= 9999 -> 0 <= y' <= 9999 ->
  (t < t' <-> sv_ltb (iso (y, m, d) k) (iso (y', m', d') k') = true) /\
  (t = t' <-> iso (y, m, d) k = iso (y', m', d') k').
Proof.
  intros M M' Y Y'. destruct k as [[h mi] s], k' as [[h' mi'] s'].
  assert (L : t < t' <-> lex_lt (iso (y, m, d) (h, mi, s)) (iso (y', m', d') (h', mi', s'))).
  { split; [apply iso_lt; assumption|]. intros X. destruct (Z.lt_trichotomy t t') as [G|[G|G]]; [exact G| |].
    - subst t'. destruct (moment_unique _ _ _ _ _ M M') as [E1 E2]. rewrite E1, E2 in X. destruct (lex_irrefl _ X).
    - pose proof (iso_lt _ _ _ _ _ _ _ _ _ _ M' M Y' Y G) as Z. destruct (lex_irrefl _ (lex_trans _ _ _ X Z)). }
  split.
  - rewrite L. unfold sv_ltb. rewrite sv_compare_same by reflexivity. rewrite Z.ltb_lt. symmetry. apply traits_lt. reflexivity.
  - split; [intros <-; destruct (moment_unique _ _ _ _ _ M M') as [E1 E2]; rewrite E1, E2; reflexivity|]. intros E.
    destruct (Z.lt_trichotomy t t') as [G|[G|G]]; [|exact G|].
    + apply L in G. rewrite E in G. destruct (lex_irrefl _ G).
    + pose proof (iso_lt _ _ _ _ _ _ _ _ _ _ M' M Y' Y G) as X. rewrite E in X. destruct (lex_irrefl _ X).
Qed.
Print Assumptions c63_order.

(** ** What does not hold *)

(** Two moments are equal to each other's packets when they share their whole seconds. *)
Theorem c63_equal tick unit_ c c' : 1000000 <= tick -> - 2 ^ 63 <= c * unit_ < 2 ^ 63 -> - 2 ^ 63 <= c' * unit_ < 2 ^ 63 ->
  exists p b, time_to tick unit_ c = Ok p /\ time_equal tick unit_ p c' = Ok b /\
    (b = true <-> exists t, whole_seconds tick (c * unit_) t /\ whole_seconds tick (c' * unit_) t).
Proof.
  intros K B B'.
  (* read in ticks, so that nothing is lost *)
  assert (X : forall c, - 2 ^ 63 <= c * unit_ < 2 ^ 63 -> exists s, time_text tick unit_ c = Ok s /\
    read_time plain_float tick 1 s = Ok (Z.quot (c * unit_) tick * tick)).
  { intros x Bx. destruct (there_and_back plain_float tick 1 (x * unit_) plain_seconds K) as (s & E1 & _ & E3); [rewrite Z.mul_1_r; exact Bx|].
    exists s. unfold time_text in *. rewrite Z.mul_1_r in *. rewrite Z.quot_1_r in E3. auto. }
  destruct (X c B) as (s & E1 & R1). destruct (X c' B') as (s' & E2 & R2). clear X.
  exists (PHeap (VStr s)), (sv_eqb s s'). unfold time_to, time_equal. rewrite E1, E2. cbn [bind]. split; [reflexivity|]. split; [reflexivity|].
  assert (Q : s = s' <-> Z.quot (c * unit_) tick = Z.quot (c' * unit_) tick).
  { split; [intros <-; rewrite R1 in R2; injection R2; nia|]. intros Q.
    assert (T : forall x s, - 2 ^ 63 <= x * unit_ < 2 ^ 63 -> time_text tick unit_ x = Ok s -> (g <- gmtime (Z.quot (x * unit_) tick) ;; Ok (date_text g)) = Ok s).
    { intros x q Bx. unfold time_text, long_of, in_long. change (2 ^ 63) with 9223372036854775808 in Bx. replace ((_ <=? _) && _) with true by lia. auto. }
    apply T in E1, E2; try assumption. rewrite Q, E2 in E1. congruence. }
  rewrite sv_eqb_eq, Q. split.
  - intros E. exists (Z.quot (c * unit_) tick). split; apply quot_whole; congruence || lia.
  - intros (t & W1 & W2). apply quot_whole in W1; [|lia]. apply quot_whole in W2; [|lia]. congruence.
Qed.
Print Assumptions c63_equal.
(** What is no string equals no time point. *)
Theorem c63_equal_other tick unit_ v c : 1000000 <= tick -> - 2 ^ 63 <= c * unit_ < 2 ^ 63 -> h_type v <> T_string ->
  time_equal tick unit_ (PHeap v) c = Ok false.
Proof.
  intros K B N. destruct (c63_equal tick unit_ c c K B B) as (p & b & E & _). unfold time_to in E.
  destruct (time_text tick unit_ c) as [s| | | |] eqn:T; try discriminate. unfold time_equal. rewrite T. cbn [bind].
  destruct v; try reflexivity. cbn in N. congruence.
Qed.
Print Assumptions c63_equal_other.
Example c63_equal_other_case : time_equal 1000000000 1 (PHeap (VInt 0)) 0 = Ok false.
Proof. vm_compute. reflexivity. Qed.

(** So the first moment of 1970 equals every other less than a second away, on both sides. *)
Theorem c63_equal_refuted tick unit_ c : 1000000 <= tick -> - tick < c * unit_ < tick -> tick <= 2 ^ 62 ->
  exists p, time_to tick unit_ 0 = Ok p /\ time_equal tick unit_ p c = Ok true.
Proof.
  intros K B L. change (2 ^ 62) with 4611686018427387904 in L.
  destruct (c63_equal tick unit_ 0 c K) as (p & b & E1 & E2 & E3); [lia|change (2 ^ 63) with 9223372036854775808; lia|].
  exists p. split; [exact E1|]. rewrite E2. f_equal. apply E3. exists 0. split; split; intros; lia.
Qed.
Print Assumptions c63_equal_refuted.

(** Reading looks neither at the ranges of the fields nor at the zone: any numbers are
    read, the months counted on from January of the year, the days from the first of that
    month and the seconds from the start of that day, whatever ends the text. *)
Theorem c63_fields_refuted strtof tick unit_ y mo d h mi s r n : reads_seconds strtof -> 0 < unit_ ->
  0 <= y <= 9999 -> 0 <= mo <= 99 -> 0 <= d <= 99 -> 0 <= h <= 99 -> 0 <= mi <= 99 -> 0 <= s <= 99 -> closes r ->
  on_day n (y + (mo - 1) / 12, (mo - 1) mod 12 + 1, 1) ->
  let t := (n + d - 1) * 86400 + h * 3600 + mi * 60 + s in
  read_time strtof tick unit_ (four y ++ [x2d] ++ two mo ++ [x2d] ++ two d ++ [x54] ++ two h ++ [x3a] ++ two mi ++ [x3a] ++ two s ++ r) =
  if (- 2 ^ 63 <=? t * tick) && (t * tick <? 2 ^ 63) then Ok (Z.quot (t * tick) unit_) else Undef.
Proof.
  intros R U Y MO D H MI S C O t. destruct (two_digits s) as [DS V]; [lia|].
  rewrite <- pad_four by lia. rewrite <- (pad_two mo), <- (pad_two d), <- (pad_two h), <- (pad_two mi) by lia.
  change (pad 4 y ++ _) with (any_date 4 y mo d h mi (two s ++ r)). unfold read_time.
  rewrite scan_any_date by (unfold in_int; lia). rewrite no_space_digits by exact DS. cbn [snd bind].
  rewrite R; [|exact DS|cbn; lia|exact C]. rewrite V. unfold int_of at 1. replace (in_int (y - 1900)) with true by (unfold in_int; lia). cbn [bind].
  unfold int_of at 1. replace (in_int (mo - 1)) with true by (unfold in_int; lia). cbn [bind float_to_int].
  unfold int_of. replace (in_int s) with true by (unfold in_int; lia). cbn [bind].
  assert (T : timegm (TM (y - 1900) (mo - 1) d h mi s) = t).
  { unfold timegm. cbn [tm_year tm_mon tm_mday tm_hour tm_min tm_sec]. pose proof (on_day_days _ _ O) as [_ E].
    replace (1900 + (y - 1900) + (mo - 1) / 12) with (y + (mo - 1) / 12) by ring. rewrite E. replace (n + (d - 1)) with (n + d - 1) by ring. fold t.
    assert (NB : -800000 <= n <= 4000000).
    { pose proof (year_bounds n) as YB. apply on_day_civil in O. rewrite <- O in YB. cbv beta iota in YB.
      assert (-1 <= (mo - 1) / 12 <= 9) by divs. lia. }
    pose proof (year_bounds (t / 86400)) as YB. assert (TB : -900000 <= t / 86400 <= 4100000) by (unfold t; divs).
    destruct (civil_from_days (t / 86400)) as [[yy mm] dd]. replace (in_int (yy - 1900)) with true by (unfold in_int; lia). reflexivity. }
  rewrite T. unfold long_of, in_long. change (2 ^ 63) with 9223372036854775808.
  replace ((-9223372036854775808 <=? t * tick) && (t * tick <=? 9223372036854775807)) with ((- (9223372036854775808) <=? t * tick) && (t * tick <? 9223372036854775808)) by lia.
  destruct (_ && _); reflexivity.
Qed.
Print Assumptions c63_fields_refuted.

(** With ticks of a nanosecond every date from 2263 on overflows. *)
Theorem c63_overflow_refuted strtof unit_ t y m d k : reads_seconds strtof -> 0 < unit_ -> 2263 <= y <= 9999 -> moment t (y, m, d) k ->
  time_from strtof 1000000000 unit_ (PHeap (VStr (iso (y, m, d) k))) = Undef.
Proof.
  intros R U Y M. destruct (date_text_iso t y m d (fst (fst k)) (snd (fst k)) (snd k)) as [_ E].
  { destruct k as [[h mi] s]. exact M. } { lia. }
  destruct k as [[h mi] s]. cbn [fst snd] in E. destruct M as (C & n & O & V). pose proof (on_day_days _ _ O) as [P DN].
  destruct (seconds_there strtof y m d h mi s R) as [S1 S2]; [unfold in_int; lia|unfold in_int; lia|exact P|exact C|].
  unfold time_from. rewrite <- E. change (p_scalar _ _) with (Ok (VStr (date_text (TM (y - 1900) (m - 1) d h mi s)))). cbn [bind]. rewrite S2. unfold read_time. rewrite S1. cbn [bind].
  unfold int_of at 1. replace (in_int (y - 1900)) with true by (unfold in_int; lia). cbn [bind].
  unfold int_of at 1. destruct P as [P1 P2]. replace (in_int (m - 1)) with true by (unfold in_int; lia). cbn [bind float_to_int].
  unfold int_of. replace (in_int s) with true by (cbn in C; unfold in_int; lia). cbn [bind].
  rewrite timegm_proper; [|split; assumption|unfold in_int; lia|exact C]. rewrite DN. cbn in C.
  assert (L : 106751 < n).
  { apply on_day_civil in O. assert (C0 : civil_from_days 106751 = (2262, 4, 11)) by (vm_compute; reflexivity).
    destruct (Z.lt_trichotomy 106751 n) as [L|[L|L]]; [exact L| |].
    - rewrite <- L, C0 in O. injection O. lia.
    - apply civil_lt in L. rewrite <- O, C0 in L. cbn in L. lia. }
  unfold long_of, in_long. replace (_ <=? 9223372036854775807) with false by lia. rewrite andb_false_r. reflexivity.
Qed.
Print Assumptions c63_overflow_refuted.

(** Seconds that are not a number become undefined behaviour. *)
Theorem c63_nan_refuted strtof tick unit_ y mo d h mi r : reads_nan strtof ->
  0 <= y <= 9999 -> 0 <= mo <= 99 -> 0 <= d <= 99 -> 0 <= h <= 99 -> 0 <= mi <= 99 ->
  read_time strtof tick unit_ (four y ++ [x2d] ++ two mo ++ [x2d] ++ two d ++ [x54] ++ two h ++ [x3a] ++ two mi ++ [x3a] ++ lit "nan" ++ r) = Undef.
Proof.
  intros R Y MO D H MI. rewrite <- pad_four by lia. rewrite <- (pad_two mo), <- (pad_two d), <- (pad_two h), <- (pad_two mi) by lia.
  change (pad 4 y ++ _) with (any_date 4 y mo d h mi ([x6e; x61; x6e] ++ r)). unfold read_time.
  rewrite scan_any_date by (unfold in_int; lia). change (snd (span c_space ([x6e; x61; x6e] ++ r))) with ([x6e; x61; x6e] ++ r). rewrite R. cbn [bind].
  unfold int_of at 1. replace (in_int (y - 1900)) with true by (unfold in_int; lia). cbn [bind].
  unfold int_of at 1. replace (in_int (mo - 1)) with true by (unfold in_int; lia). reflexivity.
Qed.
Print Assumptions c63_nan_refuted.
(** So does a year of too many digits. *)
Theorem c63_digits_refuted strtof tick unit_ ds r : digits ds -> 2147483647 < number_of 0 ds ->
  read_time strtof tick unit_ (ds ++ x2d :: r) = Undef.
Proof.
  intros D B. unfold read_time, scan_date, field_or_none, scan_field. pose proof (scan_d_digits false ds x2d r D eq_refl) as S. cbn [app] in S.
  rewrite S. unfold int_of, in_int. replace (number_of 0 ds <=? 2147483647) with false by lia. rewrite andb_false_r. reflexivity.
Qed.
Print Assumptions c63_digits_refuted.

(** ** Errors *)

(** What is not a string, and text that does not start with a number, is a type error. *)
Theorem c63_not_date strtof tick unit_ : (forall v, h_type v <> T_string -> time_from strtof tick unit_ (PHeap v) = Throw type_error) /\
  (forall c s, c_space c = false -> digitb c = false -> c <> x2d -> c <> x2b -> read_time strtof tick unit_ (c :: s) = Throw type_error) /\
  read_time strtof tick unit_ [] = Throw type_error.
Proof.
  split; [|split; [|reflexivity]].
  - intros v N. unfold time_from. cbn [p_scalar]. destruct v; try reflexivity. cbn in N. congruence.
  - intros c s W D N1 N2. unfold read_time, scan_date, field_or_none, scan_field, scan_d. cbn [span]. rewrite W.
    destruct (byte_eqb_spec c x2d); [congruence|]. destruct (byte_eqb_spec c x2b); [congruence|]. cbn [span]. rewrite D. reflexivity.
Qed.
Print Assumptions c63_not_date.

(** ** Cases *)

Definition c63_read (s : string) : res Z := time_from plain_float 1000000000 1000000000 (PHeap (VStr (lit s))).
Definition c63_write (c : Z) : res packet := time_to 1000000000 1000000000 c.
(** A leap day, in seconds. *)
Example c63_leap_day : c63_write 1582934400 = Ok (PHeap (VStr (lit "2020-02-29T00:00:00.000Z"))) /\
  c63_read "2020-02-29T00:00:00.000Z" = Ok 1582934400.
Proof. split; vm_compute; reflexivity. Qed.
(** The moment is there, with its date. *)
Example c63_moment_case : moment 951868799 (2000, 2, 29) (23, 59, 59) /\ moment (-1) (1969, 12, 31) (23, 59, 59).
Proof.
  split; (split; [cbn; lia|]).
  - exists 11016. split; [apply on_day_civil; vm_compute; reflexivity|lia].
  - exists (-1). split; [apply on_day_civil; vm_compute; reflexivity|lia].
Qed.
(** A month, a day and a time that are none; a zone; a date too late; not a number. *)
Example c63_wrong_case : c63_read "2020-13-45T99:99:99Z" = c63_read "2021-02-18T04:40:39Z" /\
  c63_read "2020-01-01T00:00:00+05:00" = Ok 1577836800 /\ c63_read "2020-01-01T00:00:00Z" = Ok 1577836800 /\
  c63_read "2300-01-01T00:00:00.000Z" = Undef /\ c63_read "2020-01-01T00:00:nan" = Undef /\
  c63_read "20200101T000000Z" = Throw type_error /\ c63_read "today" = Throw type_error.
Proof. repeat (split; [vm_compute; reflexivity|]). vm_compute. reflexivity. Qed.
(** Half a second before and after the epoch, in milliseconds. *)
Example c63_half_case : time_to 1000000000 1000000 (-500) = time_to 1000000000 1000000 500 /\
  (p <- time_to 1000000000 1000000 (-500) ;; time_from plain_float 1000000000 1000000 p) = Ok 0.
Proof. split; vm_compute; reflexivity. Qed.
