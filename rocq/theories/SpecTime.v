(** The calendar and the texts of moments.  Specification: days are counted one by one
    from 1 January 1970; nothing here knows how a date is computed. *)

From Coq Require Import ZArith List Bool.
From Verif Require Import Base Keys.
Import ListNotations.
Open Scope Z_scope.

(** A year, a month from 1, a day from 1. *)
Definition date : Type := (Z * Z * Z)%type.
Definition leap (y : Z) : bool := (y mod 4 =? 0) && (negb (y mod 100 =? 0) || (y mod 400 =? 0)).
Definition month_days (y m : Z) : Z :=
  if m =? 2 then (if leap y then 29 else 28)
  else if (m =? 4) || (m =? 6) || (m =? 9) || (m =? 11) then 30 else 31.
Definition proper (t : date) : Prop := let '(y, m, d) := t in 1 <= m <= 12 /\ 1 <= d <= month_days y m.
Definition next_day (t : date) : date :=
  let '(y, m, d) := t in
  if d <? month_days y m then (y, m, d + 1) else if m <? 12 then (y, m + 1, 1) else (y + 1, 1, 1).

(** The date [n] days after 1 January 1970, or before. *)
Inductive on_day : Z -> date -> Prop :=
| day_epoch : on_day 0 (1970, 1, 1)
| day_after n t : on_day n t -> on_day (n + 1) (next_day t)
| day_before n t : proper t -> on_day (n + 1) (next_day t) -> on_day n t.

(** The time of day, in hours, minutes and seconds. *)
Definition clock : Type := (Z * Z * Z)%type.
Definition proper_clock (c : clock) : Prop := let '(h, m, s) := c in 0 <= h <= 23 /\ 0 <= m <= 59 /\ 0 <= s <= 59.
(** [t] seconds after the start of 1970, by date and clock. *)
Definition moment (t : Z) (d : date) (c : clock) : Prop :=
  proper_clock c /\ exists n, on_day n d /\ let '(h, m, s) := c in t = n * 86400 + h * 3600 + m * 60 + s.

(** ISO 8601, for the years it gives four digits. *)
Definition figure (z : Z) : byte := z2b (48 + z).
Definition two (z : Z) : str := [figure (z / 10); figure (z mod 10)].
Definition four (z : Z) : str := two (z / 100) ++ two (z mod 100).
Definition iso (d : date) (c : clock) : str :=
  let '(y, m, d) := d in let '(h, mi, s) := c in
  four y ++ [x2d] ++ two m ++ [x2d] ++ two d ++ [x54] ++ two h ++ [x3a] ++ two mi ++ [x3a] ++ two s ++ [x2e; x30; x30; x30; x5a].

(** The whole seconds of [n] ticks of [k] each, towards the epoch. *)
Definition whole_seconds (k n t : Z) : Prop :=
  (0 <= n -> t * k <= n < (t + 1) * k) /\ (n <= 0 -> (t - 1) * k < n <= t * k).
