(** The calendar of the model is the one counted day by day. *)

From Coq Require Import ZArith List Bool Lia.
From Coq Require Import ZifyBool ZifyNat ZifyN.
From Verif Require Import Base BaseFacts Keys SpecTime Time.
Import ListNotations.
Open Scope Z_scope.

Ltac divs := Z.div_mod_to_equations; lia.

Lemma start_bounds y : 146097 * y - 699 <= 400 * year_start y <= 146097 * y + 396.
Proof. unfold year_start. divs. Qed.
Lemma start_step y : year_start (y + 1) = year_start y + 365 + (if leap (y + 1) then 1 else 0).
Proof.
  unfold year_start, leap. destruct ((y + 1) mod 4 =? 0) eqn:A; cbn [andb].
  - destruct ((y + 1) mod 100 =? 0) eqn:B; cbn [negb orb].
    + destruct ((y + 1) mod 400 =? 0) eqn:C; divs.
    + assert ((y + 1) mod 400 <> 0) by divs. divs.
  - assert ((y + 1) mod 100 <> 0) by divs. assert ((y + 1) mod 400 <> 0) by divs. divs.
Qed.
Lemma start_mono_nat y (k : nat) : year_start y + 365 * Z.of_nat k <= year_start (y + Z.of_nat k).
Proof.
  induction k as [|k IH]; [replace (y + Z.of_nat 0) with y by lia; lia|].
  replace (y + Z.of_nat (S k)) with (y + Z.of_nat k + 1) by lia. rewrite start_step. destruct (leap _); lia.
Qed.
Lemma start_mono y y' : y < y' -> year_start (y + 1) <= year_start y'.
Proof. intros L. pose proof (start_mono_nat (y + 1) (Z.to_nat (y' - y - 1))). replace (y + 1 + Z.of_nat (Z.to_nat (y' - y - 1))) with y' in H by lia. lia. Qed.

(** The year, counted from March, a day is in. *)
Definition march_year (z : Z) : Z := let y0 := 400 * z / 146097 in if year_start (y0 + 1) <=? z then y0 + 1 else y0.
Lemma march_year_spec z : year_start (march_year z) <= z < year_start (march_year z + 1).
Proof.
  unfold march_year. set (y0 := 400 * z / 146097). assert (B : 146097 * y0 <= 400 * z < 146097 * (y0 + 1)) by (subst y0; divs).
  pose proof (start_bounds y0). pose proof (start_bounds (y0 + 1)). pose proof (start_bounds (y0 + 1 + 1)).
  destruct (year_start (y0 + 1) <=? z) eqn:E; lia.
Qed.
Lemma march_year_unique z y : year_start y <= z < year_start (y + 1) -> march_year z = y.
Proof.
  intros B. pose proof (march_year_spec z) as C. destruct (Z.lt_trichotomy (march_year z) y) as [L|[E|L]]; [|exact E|].
  - apply start_mono in L. lia.
  - apply start_mono in L. lia.
Qed.

(** Decides the conditions that are closed. *)
Ltac ifs :=
  repeat match goal with
  | |- context [if ?b then _ else _] => let v := eval vm_compute in b in match v with true => idtac | false => idtac end; change b with v; cbv iota
  | H : context [if ?b then _ else _] |- _ => let v := eval vm_compute in b in match v with true => idtac | false => idtac end; change b with v in H; cbv iota in H
  end.

(** Days of the months from March, as in the table. *)
Lemma months_spec doy : 0 <= doy < 366 -> let mp := (5 * doy + 2) / 153 in
  0 <= mp <= 11 /\ month_start mp <= doy /\ doy < (if mp =? 11 then 366 else month_start (mp + 1)).
Proof. intros B. unfold month_start. cbv zeta. destruct (_ =? 11) eqn:E; divs. Qed.
Lemma months_unique doy mp : 0 <= mp <= 11 -> month_start mp <= doy -> doy < (if mp =? 11 then 366 else month_start (mp + 1)) ->
  (5 * doy + 2) / 153 = mp.
Proof. unfold month_start. intros B L U. destruct (mp =? 11) eqn:E; divs. Qed.

Ltac months m :=
  let H := fresh in
  assert (H : m = 1 \/ m = 2 \/ m = 3 \/ m = 4 \/ m = 5 \/ m = 6 \/ m = 7 \/ m = 8 \/ m = 9 \/ m = 10 \/ m = 11 \/ m = 12) by lia;
  repeat (destruct H as [H|H]; [subst m|]); [..|subst m].

Lemma date_is_good y m d : proper (y, m, d) -> civil_from_days (days_from_civil y m d) = (y, m, d).
Proof.
  intros [M D]. set (yy := if m <=? 2 then y - 1 else y). set (mp := if m <=? 2 then m + 9 else m - 3).
  assert (E : days_from_civil y m d + 719468 = year_start yy + (month_start mp + d - 1)).
  { unfold days_from_civil, yy, mp. destruct (m <=? 2); lia. }
  assert (B : 0 <= month_start mp + d - 1 < year_start (yy + 1) - year_start yy /\ 0 <= mp <= 11 /\
    month_start mp + d - 1 < (if mp =? 11 then 366 else month_start (mp + 1))).
  { rewrite start_step. unfold month_days in D. subst yy mp. clear E. unfold month_start. months m; ifs; (split; [|split; [lia|]]);
      try (replace (y - 1 + 1) with y by lia); try divs; destruct (leap _); divs. }
  destruct B as (B1 & B2 & B3). unfold civil_from_days. rewrite E. set (z := year_start yy + (month_start mp + d - 1)).
  fold (march_year z). replace (march_year z) with yy by (symmetry; apply march_year_unique; unfold z; lia).
  replace (z - year_start yy) with (month_start mp + d - 1) by (unfold z; lia).
  rewrite (months_unique _ mp B2) by lia. replace (month_start mp + d - 1 - month_start mp + 1) with d by lia.
  unfold mp, yy. destruct (m <=? 2) eqn:L.
  - replace (m + 9 <? 10) with false by lia. repeat f_equal; lia.
  - replace (m - 3 <? 10) with true by lia. repeat f_equal; lia.
Qed.
Lemma day_is_good n : proper (civil_from_days n) /\ let '(y, m, d) := civil_from_days n in days_from_civil y m d = n.
Proof.
  unfold civil_from_days. set (z := n + 719468). fold (march_year z). pose proof (march_year_spec z) as Y. rewrite start_step in Y.
  set (y := march_year z) in *. set (doy := z - year_start y).
  assert (D : 0 <= doy < 366) by (unfold doy; destruct (leap _); lia).
  assert (DL : doy = 365 -> leap (y + 1) = true) by (unfold doy; intros; destruct (leap _); [reflexivity|lia]).
  pose proof (months_spec doy D) as (M1 & M2 & M3). set (mp := (5 * doy + 2) / 153) in *. clearbody mp.
  assert (EZ : n = year_start y + doy - 719468) by (unfold doy, z; lia). clearbody doy. clear Y. clearbody y. clear z. subst n.
  assert (H : mp = 0 \/ mp = 1 \/ mp = 2 \/ mp = 3 \/ mp = 4 \/ mp = 5 \/ mp = 6 \/ mp = 7 \/ mp = 8 \/ mp = 9 \/ mp = 10 \/ mp = 11) by lia.
  repeat (destruct H as [H|H]; [subst mp|]); [..|subst mp]; unfold days_from_civil, proper, month_days, month_start in *; ifs; cbn in M2, M3;
    try (replace (y + 1 - 1) with y by ring); (split; [split; [lia|]|divs]);
    try divs; destruct (leap (y + 1)); try divs; destruct (Z.eq_dec doy 365) as [X|X]; try (specialize (DL X); discriminate DL); divs.
Qed.
Lemma days_next y m d : proper (y, m, d) -> let '(y', m', d') := next_day (y, m, d) in days_from_civil y' m' d' = days_from_civil y m d + 1.
Proof.
  intros [M D]. unfold next_day. destruct (d <? month_days y m) eqn:L; [unfold days_from_civil; destruct (m <=? 2); lia|].
  assert (E : d = month_days y m) by lia. clear L D. unfold month_days in E. unfold days_from_civil, month_start.
  months m; ifs; try divs.
  - pose proof (start_step (y - 1)) as S. replace (y - 1 + 1) with y in S by ring. rewrite S, E. destruct (leap y); divs.
  - replace (y + 1 - 1) with y by ring. rewrite E. divs.
Qed.
Lemma next_proper t : proper t -> proper (next_day t).
Proof.
  destruct t as [[y m] d]. intros [M D]. unfold next_day, proper. destruct (d <? month_days y m) eqn:L; [lia|]. destruct (m <? 12) eqn:L2.
  - split; [lia|]. unfold month_days. repeat match goal with |- context [if ?b then _ else _] => destruct b end; lia.
  - split; [lia|]. change (month_days (y + 1) 1) with 31. lia.
Qed.
Lemma civil_next n : civil_from_days (n + 1) = next_day (civil_from_days n).
Proof.
  destruct (day_is_good n) as [P E]. destruct (civil_from_days n) as [[y m] d]. pose proof (days_next _ _ _ P) as N. pose proof (next_proper _ P) as Q.
  destruct (next_day (y, m, d)) as [[y' m'] d']. rewrite <- E, <- N. apply date_is_good. exact Q.
Qed.

(** ** The calendar *)
Lemma civil_on_day n : on_day n (civil_from_days n).
Proof.
  assert (Z0 : civil_from_days 0 = (1970, 1, 1)) by reflexivity.
  assert (U : forall k : nat, on_day (Z.of_nat k) (civil_from_days (Z.of_nat k))).
  { induction k as [|k IH]; [cbn [Z.of_nat]; rewrite Z0; constructor|]. rewrite Nat2Z.inj_succ.
    unfold Z.succ. rewrite civil_next. apply day_after. exact IH. }
  assert (D : forall k : nat, on_day (- Z.of_nat k) (civil_from_days (- Z.of_nat k))).
  { induction k as [|k IH]; [cbn [Z.of_nat Z.opp]; rewrite Z0; constructor|]. apply day_before; [apply day_is_good|].
    rewrite <- civil_next. replace (- Z.of_nat (S k) + 1) with (- Z.of_nat k) by lia. exact IH. }
  destruct (Z_le_dec 0 n); [replace n with (Z.of_nat (Z.to_nat n)) by lia; apply U|replace n with (- Z.of_nat (Z.to_nat (- n))) by lia; apply D].
Qed.
Lemma on_day_days n t : on_day n t -> proper t /\ let '(y, m, d) := t in days_from_civil y m d = n.
Proof.
  intros H. induction H as [|n t _ IH|n t P _ IH].
  - split; [cbn; lia|reflexivity].
  - destruct t as [[y m] d]. destruct IH as [P D]. split; [apply next_proper; exact P|]. pose proof (days_next _ _ _ P) as N.
    destruct (next_day (y, m, d)) as [[y' m'] d']. lia.
  - destruct t as [[y m] d]. destruct IH as [_ D]. split; [exact P|]. pose proof (days_next _ _ _ P) as N.
    destruct (next_day (y, m, d)) as [[y' m'] d']. lia.
Qed.
Lemma on_day_civil n t : on_day n t <-> t = civil_from_days n.
Proof.
  split; [|intros ->; apply civil_on_day]. intros H. apply on_day_days in H. destruct t as [[y m] d]. destruct H as [P <-].
  symmetry. apply date_is_good. exact P.
Qed.

(** Later days have later dates. *)
Definition date_lt (a b : date) : Prop :=
  let '(y, m, d) := a in let '(y', m', d') := b in y < y' \/ (y = y' /\ (m < m' \/ (m = m' /\ d < d'))).
Lemma date_lt_trans a b c : date_lt a b -> date_lt b c -> date_lt a c.
Proof. destruct a as [[? ?] ?], b as [[? ?] ?], c as [[? ?] ?]. unfold date_lt. lia. Qed.
Lemma next_lt t : date_lt t (next_day t).
Proof. destruct t as [[y m] d]. unfold next_day. destruct (d <? _); [cbn; lia|]. destruct (m <? 12); cbn; lia. Qed.
Lemma civil_lt n n' : n < n' -> date_lt (civil_from_days n) (civil_from_days n').
Proof.
  intros L. replace n' with (n + 1 + Z.of_nat (Z.to_nat (n' - n - 1))) by lia. generalize (Z.to_nat (n' - n - 1)). intros k.
  induction k as [|k IH].
  - replace (n + 1 + Z.of_nat 0) with (n + 1) by lia. rewrite civil_next. apply next_lt.
  - replace (n + 1 + Z.of_nat (S k)) with (n + 1 + Z.of_nat k + 1) by lia. rewrite civil_next. eapply date_lt_trans; [exact IH|apply next_lt].
Qed.

(** ** Seconds *)
Lemma gmtime_spec t : let '(y, m, d) := civil_from_days (t / 86400) in in_int (y - 1900) = true ->
  gmtime t = Ok (TM (y - 1900) (m - 1) d (t mod 86400 / 3600) (t mod 86400 / 60 mod 60) (t mod 86400 mod 60)) /\
  moment t (y, m, d) (t mod 86400 / 3600, t mod 86400 / 60 mod 60, t mod 86400 mod 60).
Proof.
  pose proof (civil_on_day (t / 86400)) as O. destruct (civil_from_days (t / 86400)) as [[y m] d] eqn:E. intros I.
  unfold gmtime. rewrite E, I. split; [reflexivity|]. split; [cbn; divs|]. exists (t / 86400). split; [exact O|]. divs.
Qed.
Lemma moment_unique t d c d' c' : moment t d c -> moment t d' c' -> d = d' /\ c = c'.
Proof.
  destruct c as [[h m] s], c' as [[h' m'] s']. intros (P & n & O & E) (P' & n' & O' & E'). cbn in P, P'.
  assert (n = n') by lia. subst n'. apply on_day_civil in O, O'. split; [congruence|]. assert (h = h' /\ m = m' /\ s = s') by lia. intuition congruence.
Qed.
Lemma moment_seconds t t' d c : moment t d c -> moment t' d c -> t = t'.
Proof.
  destruct c as [[h m] s]. intros (P & n & O & E) (P' & n' & O' & E'). apply on_day_days in O, O'. destruct d as [[y mo] d].
  destruct O as [_ O], O' as [_ O']. lia.
Qed.
(** The year of a moment lies near its share of days. *)
Lemma year_bounds n : let '(y, _, _) := civil_from_days n in 146097 * y <= 400 * (n + 719468) + 147000 /\ 400 * (n + 719468) <= 146097 * y + 147000.
Proof.
  unfold civil_from_days. set (z := n + 719468). fold (march_year z). pose proof (march_year_spec z) as Y.
  pose proof (start_bounds (march_year z)). pose proof (start_bounds (march_year z + 1)). destruct (_ <? 10); lia.
Qed.
Lemma timegm_proper y m d h mi s : proper (y, m, d) -> in_int (y - 1900) = true -> proper_clock (h, mi, s) ->
  timegm (TM (y - 1900) (m - 1) d h mi s) = days_from_civil y m d * 86400 + h * 3600 + mi * 60 + s.
Proof.
  intros P I C. unfold timegm. cbn [tm_year tm_mon tm_mday tm_hour tm_min tm_sec].
  assert (M : 1 <= m <= 12) by apply P. replace ((m - 1) / 12) with 0 by divs. replace ((m - 1) mod 12 + 1) with m by divs.
  replace (1900 + (y - 1900) + 0) with y by ring.
  replace (days_from_civil y m 1 + (d - 1)) with (days_from_civil y m d) by (unfold days_from_civil; destruct (m <=? 2); lia).
  replace ((days_from_civil y m d * 86400 + h * 3600 + mi * 60 + s) / 86400) with (days_from_civil y m d) by (cbn in C; divs).
  rewrite (date_is_good _ _ _ P), I. reflexivity.
Qed.
