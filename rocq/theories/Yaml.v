(** Parsing YAML: connector/yaml.tcc.  Model only. *)

From Coq Require Import ZArith List Bool String Floats.SpecFloat.
From Verif Require Import Base Keys Wire Read HeapOps Float SpecJson SpecYaml.
Import Init.Byte.
Import ListNotations.
Open Scope Z_scope.

(** ** The C library

    strtoll and strtod in the C locale, on texts that do not start with space.  A text
    is followed by a zero byte, which is no digit: the end of the list. *)

Definition digit_value (c : byte) : Z :=
  let z := b2z c in
  if (48 <=? z) && (z <=? 57) then z - 48
  else if (97 <=? z) && (z <=? 122) then z - 87
  else if (65 <=? z) && (z <=? 90) then z - 55
  else 99.
(** The digits in front: their value, after [acc], and their number, after [n]. *)
Fixpoint scan (base acc n : Z) (s : str) : Z * Z :=
  match s with
  | c :: r => let d := digit_value c in if d <? base then scan base (acc * base + d) (n + 1) r else (acc, n)
  | [] => (acc, n)
  end.
Definition first (s : str) : byte := match s with c :: _ => c | [] => x00 end.
Definition is_byte (c : byte) (s : str) : bool := byte_eqb (first s) c.
Definition skip (n : Z) (s : str) : str := skipn (Z.to_nat n) s.
Definition c_sign (s : str) : bool * Z :=
  if is_byte x2d s then (true, 1) else if is_byte x2b s then (false, 1) else (false, 0).
Definition is_digit (base : Z) (c : byte) : bool := digit_value c <? base.
Definition marked_hex (s : str) : bool := is_byte x30 s && (is_byte x78 (skip 1 s) || is_byte x58 (skip 1 s)).

(** The digits of an integer in base 0 (C17): value and number of bytes *)
Definition whole (t : str) : Z * Z :=
  if marked_hex t && is_digit 16 (first (skip 2 t)) then let '(m, n) := scan 16 0 0 (skip 2 t) in (m, 2 + n)
  else if is_byte x30 t then scan 8 0 0 t
  else scan 10 0 0 t.
(** strtoll with base 0: value, bytes consumed, whether errno was set *)
Definition strtoll (s : str) : Z * Z * bool :=
  let '(neg, k) := c_sign s in
  let '(m, n) := whole (skip k s) in
  if n =? 0 then (0, 0, false)
  else
    let z := if neg then - m else m in
    if z <? - 2 ^ 63 then (- 2 ^ 63, k + n, true)
    else if 2 ^ 63 <=? z then (2 ^ 63 - 1, k + n, true)
    else (z, k + n, false).

(** An exponent, when there is one: value and number of bytes *)
Definition exponent_at (c1 c2 : byte) (u : str) : Z * Z :=
  if is_byte c1 u || is_byte c2 u then
    let '(neg, k) := c_sign (skip 1 u) in
    let '(x, n) := scan 10 0 0 (skip k (skip 1 u)) in
    if n =? 0 then (0, 0) else (if neg then - x else x, 1 + (k + n))
  else (0, 0).
(** Digits, perhaps with a point among them: value, bytes, digits, digits after the point *)
Definition digits_at (base : Z) (u : str) : Z * Z * Z * Z :=
  let '(m1, n1) := scan base 0 0 u in
  if is_byte x2e (skip n1 u) then
    let '(m2, n2) := scan base m1 0 (skip 1 (skip n1 u)) in (m2, n1 + (1 + n2), n1 + n2, n2)
  else (m1, n1, n1, 0).
(** A number without its sign: numerator, denominator, bytes *)
Definition real (t : str) : option (Z * Z * Z) :=
  if marked_hex t && (is_digit 16 (first (skip 2 t)) || (is_byte x2e (skip 2 t) && is_digit 16 (first (skip 3 t)))) then
    let '(m, n, _, f) := digits_at 16 (skip 2 t) in
    let '(x, k) := exponent_at x70 x50 (skip n (skip 2 t)) in
    Some (m * 2 ^ Z.max 0 (x - 4 * f), 2 ^ Z.max 0 (- (x - 4 * f)), 2 + (n + k))
  else
    let '(m, n, d, f) := digits_at 10 t in
    if d =? 0 then None
    else
      let '(x, k) := exponent_at x65 x45 (skip n t) in
      Some (m * 10 ^ Z.max 0 (x - f), 10 ^ Z.max 0 (- (x - f)), n + k).

(** num/den rounded to nearest *)
Definition to_double (neg : bool) (num den : Z) : spec_float :=
  match num, den with
  | Zpos p, Zpos q =>
      let '(m, e, l) := SFdiv_core_binary 53 1024 (Zpos p) 0 (Zpos q) 0 in
      binary_round_aux 53 1024 neg m e l
  | _, _ => S754_zero neg
  end.
Definition sf_infinite (x : spec_float) : bool := match x with S754_infinity _ => true | _ => false end.

Section Parser.
  (** Whether strtod sets errno for a result below the smallest normal double:
      implementation-defined (C17 7.22.1.3). *)
  Variable reports_tiny : Z -> Z -> bool.

  (** strtod without infinities and NaNs: bits, bytes consumed, whether errno was set *)
  Definition strtod (s : str) : Z * Z * bool :=
    let '(neg, k) := c_sign s in
    match real (skip k s) with
    | None => (0, 0, false)
    | Some (num, den, n) =>
        let d := to_double neg num den in
        (bits_of_sf d, k + n, sf_infinite d || ((0 <? num) && (num * 2 ^ 1022 <? den) && reports_tiny num den))
    end.

  (** ** Scalars *)

  Inductive number := An_integer (z : Z) | A_decimal (d : Z) | No_number.
  (** yaml.tcc:164-183 (parse_maybe_number) *)
  Definition parse_maybe_number (s : str) : number :=
    let '(z, n, e) := strtoll s in
    if negb e && (n =? zlen s) then An_integer z
    else
      let c := first (skip n s) in
      if byte_eqb c x2e || byte_eqb c x65 || byte_eqb c x45 then
        let '(d, n2, e2) := strtod s in
        if negb e2 && (n2 =? zlen s) then A_decimal d else No_number
      else No_number.

  (** strcmp looks at what comes before the first zero byte. *)
  Fixpoint c_text (s : str) : str :=
    match s with
    | [] => []
    | c :: r => if byte_eqb c x00 then [] else c :: c_text r
    end.
  Definition strcmp_is (s : str) (w : str) : bool := if list_eq_dec Byte.byte_eq_dec (c_text s) w then true else false.
  Definition starts_number (c : byte) : bool := is_digit 10 c || byte_eqb c x2b || byte_eqb c x2d.

  (** yaml.tcc:185-228 (parse_scalar) *)
  Definition parse_scalar (s : str) : value :=
    let c := first s in
    if byte_eqb c x6e then if strcmp_is s (lit "null") then VNull else VStr s
    else if byte_eqb c x74 || byte_eqb c x66 then
      if strcmp_is s (lit "true") || strcmp_is s (lit "false") then VBool (strcmp_is s (lit "true")) else VStr s
    else if starts_number c then
      match parse_maybe_number s with
      | An_integer z => VInt z
      | A_decimal d => VDec d
      | No_number => VStr s
      end
    else VStr s.

  (** ** The state machine: yaml.tcc:54-162 (parse_yaml) *)

  (** yaml.tcc:15-20 *)
  Inductive parse_state := P_scalar | P_mapping_key | P_mapping_value | P_sequence_value.
  Definition after_value (s : parse_state) : parse_state := match s with P_mapping_value => P_mapping_key | _ => s end.
  (** yaml.tcc:65-71 *)
  Record yparser := mk_yparser {
    y_key : value; y_obj : value; y_state : parse_state;
    y_states : list parse_state; y_keys : list value; y_objs : list value }.
  Definition y_initial : yparser := mk_yparser VNull VNull P_scalar [] [] [].

  (** conversion_traits.h:951-960: a heap as a condition; neither the key nor the
      aggregate is ever a boolean. *)
  Definition is_set (v : value) : bool := match v with VNull => false | _ => true end.
  Definition push (v : value) (l : list value) : list value := if is_set v then v :: l else l.

  (** yaml.tcc:87-102: an aggregate begins.  Moving out of a heap leaves null. *)
  Definition y_begin (o : value) (s : parse_state) (p : yparser) : yparser :=
    mk_yparser VNull o s (y_state p :: y_states p) (push (y_key p) (y_keys p)) (push (y_obj p) (y_objs p)).
  (** yaml.tcc:103-124: an aggregate ends.  std::vector::back on an empty vector is
      undefined. *)
  Definition y_end (p : yparser) : res yparser :=
    ' r <- match y_objs p with
           | parent :: os =>
               match parent with
               | VObj _ =>
                   match y_keys p with
                   | k :: ks => ' q <- h_insert parent k (y_obj p) ;; Ok (fst q, ks, os)
                   | [] => Undef
                   end
               | _ => q <- h_push_back parent (y_obj p) ;; Ok (q, y_keys p, os)
               end
           | [] => Ok (y_obj p, y_keys p, [])
           end ;;
    let '(o, ks, os) := r in
    match y_states p with
    | s :: ss => Ok (mk_yparser (y_key p) o (after_value s) ss ks os)
    | [] => Undef
    end.
  (** yaml.tcc:125-139: a scalar.  std::runtime_error stands as [parse_error]. *)
  Definition y_scalar (s : str) (p : yparser) : res yparser :=
    match y_state p with
    | P_scalar => Throw parse_error
    | P_mapping_key => Ok (mk_yparser (VStr s) (y_obj p) P_mapping_value (y_states p) (y_keys p) (y_objs p))
    | P_mapping_value =>
        ' q <- h_insert (y_obj p) (y_key p) (parse_scalar s) ;;
        Ok (mk_yparser VNull (fst q) P_mapping_key (y_states p) (y_keys p) (y_objs p))
    | P_sequence_value =>
        q <- h_push_back (y_obj p) (parse_scalar s) ;;
        Ok (mk_yparser (y_key p) q (y_state p) (y_states p) (y_keys p) (y_objs p))
    end.
  (** yaml.tcc:80-145: one event *)
  Definition y_event (e : yevent) (p : yparser) : res yparser :=
    match e with
    | Stream_start | Stream_end | Document_start | Document_end => Ok p
    | Mapping_start => Ok (y_begin (VObj []) P_mapping_key p)
    | Sequence_start => Ok (y_begin (VArr []) P_sequence_value p)
    | Mapping_end | Sequence_end => y_end p
    | Scalar _ s => y_scalar s p
    | Alias | Other_event => Throw parse_error
    end.

  (** yaml.tcc:69-160: the loop.  libyaml fails where the list ends. *)
  Fixpoint y_loop (es : list yevent) (p : yparser) : res value :=
    match es with
    | [] => Throw parse_error
    | e :: r =>
        p' <- y_event e p ;;
        match e with
        | Stream_end | Document_end => Ok (if is_set (y_obj p') then y_obj p' else VObj [])
        | _ => y_loop r p'
        end
    end.
  (** yaml.tcc:32-36 (heap::from_yaml) *)
  Definition from_yaml (es : list yevent) : res value := y_loop es y_initial.
  (** yaml.tcc:38-42 (buffer::from_yaml) and 44-50 (packet::from_yaml, finalized) *)
  Definition buffer_from_yaml (es : list yevent) : res mem := v <- from_yaml es ;; finalize v.
End Parser.
