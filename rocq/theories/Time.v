(** std::chrono::time_point to and from dart strings: conversions.h:1494-1563, with
    shim.h:161-167.  Model only.

    The C library is modelled by its documentation: gmtime_r and timegm use the
    proleptic Gregorian calendar without leap seconds, timegm takes fields outside
    their ranges; snprintf and sscanf as in C11 7.21.6, where an integer %d cannot
    represent is undefined.  Of %f only what follows from the result is kept; strtof is a
    parameter.  system_clock counts [tick] ticks a second in 64 bits (10^9 in
    libstdc++, 10^6 in libc++); one tick of Duration is [unit] of those. *)

From Coq Require Import ZArith List Bool.
From Verif Require Import Base Keys Wire HeapOps Packet SpecCmp SpecJson Text.
Import ListNotations.
Open Scope Z_scope.

(** ** gmtime_r, timegm *)

(** Days before 1 March of a year, from a 1 March. *)
Definition year_start (y : Z) : Z := 365 * y + y / 4 - y / 100 + y / 400.
(** Days from 1 March to the first of a month, the months counted from March. *)
Definition month_start (mp : Z) : Z := (153 * mp + 2) / 5.
Definition days_from_civil (y m d : Z) : Z :=
  (if m <=? 2 then year_start (y - 1) + month_start (m + 9) else year_start y + month_start (m - 3)) + d - 1 - 719468.
Definition civil_from_days (n : Z) : Z * Z * Z :=
  let z := n + 719468 in
  let y0 := 400 * z / 146097 in
  let y := if year_start (y0 + 1) <=? z then y0 + 1 else y0 in
  let doy := z - year_start y in
  let mp := (5 * doy + 2) / 153 in
  let d := doy - month_start mp + 1 in
  if mp <? 10 then (y, mp + 3, d) else (y + 1, mp - 9, d).

(** std::tm *)
Record tm : Type := TM { tm_year : Z; tm_mon : Z; tm_mday : Z; tm_hour : Z; tm_min : Z; tm_sec : Z }.

Definition in_int (z : Z) : bool := (-2147483648 <=? z) && (z <=? 2147483647).
Definition in_long (z : Z) : bool := (-9223372036854775808 <=? z) && (z <=? 9223372036854775807).
(** Signed arithmetic, with its undefined overflow. *)
Definition int_of (z : Z) : res Z := if in_int z then Ok z else Undef.
Definition long_of (z : Z) : res Z := if in_long z then Ok z else Undef.

(** shim.h:161-163 (gmtime): the result of gmtime_r is dropped, so for years that do not
    fit an int the fields stay uninitialised. *)
Definition gmtime (t : Z) : res tm :=
  let '(y, m, d) := civil_from_days (t / 86400) in
  let s := t mod 86400 in
  if in_int (y - 1900) then Ok (TM (y - 1900) (m - 1) d (s / 3600) (s / 60 mod 60) (s mod 60)) else Undef.
(** shim.h:165-167 (timegm): -1 when the year of the result does not fit an int. *)
Definition timegm (t : tm) : Z :=
  let day := days_from_civil (1900 + tm_year t + tm_mon t / 12) (tm_mon t mod 12 + 1) 1 + (tm_mday t - 1) in
  let s := day * 86400 + tm_hour t * 3600 + tm_min t * 60 + tm_sec t in
  let '(y, _, _) := civil_from_days (s / 86400) in
  if in_int (y - 1900) then s else -1.

(** ** snprintf, sscanf *)

(** %0wd *)
Definition pad (w : nat) (z : Z) : str :=
  let ds := write_nat 20 (Z.abs z) in
  if z <? 0 then x2d :: repeat x30 (w - 1 - length ds) ++ ds else repeat x30 (w - length ds) ++ ds.

(** isspace, in the C locale *)
Definition c_space (c : byte) : bool := (b2z c =? 32) || ((9 <=? b2z c) && (b2z c <=? 13)).
(** %d: the number and the rest of the text, or a matching failure. *)
Definition scan_d (t : str) : res (option (Z * str)) :=
  let '(_, t) := span c_space t in
  let '(neg, t) := match t with c :: r => if byte_eqb c x2d then (true, r) else if byte_eqb c x2b then (false, r) else (false, t) | [] => (false, t) end in
  let '(ds, t) := span digitb t in
  match ds with
  | [] => Ok None
  | _ => z <- int_of (if neg : bool then - number_of 0 ds else number_of 0 ds) ;; Ok (Some (z, t))
  end.
(** A character that has to be there. *)
Definition scan_c (c : byte) (t : str) : option str :=
  match t with x :: r => if byte_eqb x c then Some r else None | [] => None end.

(** What is left of a float by static_cast<int>: its whole part. *)
Inductive float : Type := F_whole (z : Z) | F_inf | F_nan.
Definition float_to_int (x : float) : res Z := match x with F_whole z => int_of z | F_inf | F_nan => Undef end.

Section Time.
  (** The float at the start of a text, if there is one. *)
  Variable strtof : str -> option float.
  Variables tick unit_ : Z.

  (** conversions.h:1498-1519 (convert): text of the seconds that are left after
      to_time_t rounds towards zero. *)
  Definition date_text (t : tm) : str :=
    pad 4 (tm_year t + 1900) ++ [x2d] ++ pad 2 (tm_mon t + 1) ++ [x2d] ++ pad 2 (tm_mday t) ++ [x54] ++
    pad 2 (tm_hour t) ++ [x3a] ++ pad 2 (tm_min t) ++ [x3a] ++ pad 2 (tm_sec t) ++ [x2e; x30; x30; x30; x5a].
  Definition time_text (c : Z) : res str :=
    n <- long_of (c * unit_) ;;
    t <- gmtime (Z.quot n tick) ;;
    Ok (date_text t).

  (** conversions.h:1525: "%d-%d-%dT%d:%d:%fZ"; the Z comes after the last conversion, so
      whether it matches does not show.  None: fewer than six conversions. *)
  Definition scan_field (c : byte) (t : str) : res (option (Z * str)) :=
    r <- scan_d t ;;
    match r with
    | Some (z, t) => match scan_c c t with Some t => Ok (Some (z, t)) | None => Ok None end
    | None => Ok None
    end.
  Definition field_or_none {A} (r : res (option (Z * str))) (k : Z -> str -> res (option A)) : res (option A) :=
    x <- r ;; match x with Some (z, t) => k z t | None => Ok None end.
  Definition scan_date (t : str) : res (option (Z * Z * Z * Z * Z * float)) :=
    field_or_none (scan_field x2d t) (fun y t =>
    field_or_none (scan_field x2d t) (fun mo t =>
    field_or_none (scan_field x54 t) (fun d t =>
    field_or_none (scan_field x3a t) (fun h t =>
    field_or_none (scan_field x3a t) (fun mi t =>
    match strtof (snd (span c_space t)) with
    | Some s => Ok (Some (y, mo, d, h, mi, s))
    | None => Ok None
    end))))).

  (** conversions.h:1521-1544 (convert) *)
  Definition read_time (t : str) : res Z :=
    r <- scan_date t ;;
    match r with
    | None => Throw type_error
    | Some (y, mo, d, h, mi, s) =>
        yr <- int_of (y - 1900) ;; mn <- int_of (mo - 1) ;; sc <- float_to_int s ;;
        n <- long_of (timegm (TM yr mn d h mi sc) * tick) ;;
        Ok (Z.quot n unit_)
    end.

  (** conversions.h:1546-1550 (to_dart) *)
  Definition time_to (c : Z) : res packet := s <- time_text c ;; Ok (PHeap (VStr s)).
  (** conversions.h:1551-1557 (from_dart) *)
  Definition time_from (p : packet) : res Z :=
    v <- p_scalar T_string p ;;
    match v with VStr s => read_time (cstr s) | _ => Undef end.
  (** conversions.h:1559-1563 (compare): with the text of the other *)
  Definition time_equal (p : packet) (c : Z) : res bool :=
    s <- time_text c ;;
    match p_scalar T_string p with
    | Ok (VStr s') => Ok (sv_eqb s' s)
    | Ok _ | Throw _ => Ok false
    | Oob => Oob | Undef => Undef | Fuel => Fuel
    end.
End Time.
