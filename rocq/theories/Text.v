(** JSON as text: connector/json.tcc:75-293 down to the characters, and the functions
    of the C interface that take and return texts.  Model only.

    RapidJSON's Writer and Reader are not part of /repo; here they are written out,
    except for the conversions between doubles and text, which are parameters
    ([dt] prints one, [rd] reads one). *)

From Coq Require Import ZArith List Bool String.
From Verif Require Import Base Keys Dec Wire Read Buf HeapOps Packet Compare SpecJson Json SpecAbi Abi.
Import ListNotations.
Open Scope list_scope.
Open Scope Z_scope.

(** ** Writing *)

Definition hex_digit (z : Z) : byte := z2b (if z <? 10 then 48 + z else 55 + z).
(** rapidjson::Writer::WriteString: the short escapes, \u00XX for other control
    characters, everything else as it is. *)
Definition write_char (c : byte) : str :=
  if byte_eqb c quote then [backslash; quote]
  else if byte_eqb c backslash then [backslash; backslash]
  else if 32 <=? b2z c then [c]
  else if byte_eqb c x08 then [backslash; x62]
  else if byte_eqb c x09 then [backslash; x74]
  else if byte_eqb c x0a then [backslash; x6e]
  else if byte_eqb c x0c then [backslash; x66]
  else if byte_eqb c x0d then [backslash; x72]
  else [backslash; x75; x30; x30; hex_digit (b2z c / 16); hex_digit (b2z c mod 16)].
Definition write_string (s : str) : str := quote :: flat_map write_char s ++ [quote].

(** rapidjson::Writer::WriteInt64: no more than 20 digits. *)
Fixpoint write_nat (n : nat) (z : Z) : str :=
  match n with
  | O => []
  | S n' => if z <? 10 then [z2b (48 + z)] else write_nat n' (z / 10) ++ [z2b (48 + z mod 10)]
  end.
Definition write_int (z : Z) : str := if z <? 0 then x2d :: write_nat 20 (- z) else write_nat 20 z.

(** rapidjson::Writer::Level and Prefix: whether it is an array, and how many names
    and values were written. *)
Definition level : Type := bool * nat.
Definition separator (st : list level) : str * list level :=
  match st with
  | [] => ([], [])
  | (a, n) :: r =>
      ((match n with O => [] | _ => if a then [x2c] else if Nat.even n then [x2c] else [x3a] end), (a, S n) :: r)
  end.

Section Writer.
  Variable dt : Z -> str.

  (** The calls json.tcc:420-455 makes.  Double gives up on infinities and NaN after
      the separator; its result is not looked at. *)
  Definition write_event (e : event) (st : list level) : str * list level :=
    match e with
    | EEndObject => ([x7d], tl st)
    | EEndArray => ([x5d], tl st)
    | _ =>
        let '(s, st) := separator st in
        match e with
        | EStartObject => (s ++ [x7b], (false, O) :: st)
        | EStartArray => (s ++ [x5b], (true, O) :: st)
        | EKey k | EString k => (s ++ write_string k, st)
        | EInt z | EUint z | EInt64 z | EUint64 z => (s ++ write_int z, st)
        | EDouble d => (s ++ (if d_exp d =? 2047 then [] else dt d), st)
        | EBool b => (s ++ lit (if b then "true" else "false")%string, st)
        | _ => (s ++ lit "null"%string, st)
        end
    end.
  Fixpoint write_events (es : list event) (st : list level) : str :=
    match es with
    | [] => []
    | e :: r => let '(s, st) := write_event e st in s ++ write_events r st
    end.

  (** json.tcc:256-292 (heap::to_json, buffer::to_json, packet::to_json): GetString
      appends a zero byte; the std::string is made from a char const*. *)
  Definition to_json (n : nat) (p : packet) : res str :=
    es <- json_serialize n p ;; Ok (cstr (write_events es [] ++ [x00])).
End Writer.

(** ** Reading *)

Fixpoint span (p : byte -> bool) (t : str) : str * str :=
  match t with
  | [] => ([], [])
  | c :: r => if p c then let '(a, b) := span p r in (c :: a, b) else ([], t)
  end.
Definition spaceb (c : byte) : bool := byte_eqb c x20 || byte_eqb c x09 || byte_eqb c x0a || byte_eqb c x0d.
Definition skip (t : str) : str := snd (span spaceb t).

Definition digitb (c : byte) : bool := (48 <=? b2z c) && (b2z c <=? 57).
Definition numberb (c : byte) : bool :=
  digitb c || byte_eqb c x2b || byte_eqb c x2d || byte_eqb c x2e || byte_eqb c x65 || byte_eqb c x45.

(** Four hexadecimal digits. *)
Definition read_hex4 (a b c d : byte) : option Z :=
  match hex a, hex b, hex c, hex d with
  | Some x, Some y, Some u, Some v => Some (((x * 16 + y) * 16 + u) * 16 + v)
  | _, _, _, _ => None
  end.

(** What follows an opening quote: the string, and what follows the closing one. *)
Fixpoint read_chars (t : str) : option (str * str) :=
  match t with
  | [] => None
  | c :: r =>
      if byte_eqb c quote then Some ([], r)
      else if byte_eqb c backslash then
        match r with
        | [] => None
        | e :: r1 =>
            if byte_eqb e x75 then
              match r1 with
              | h1 :: h2 :: h3 :: h4 :: r2 =>
                  match read_hex4 h1 h2 h3 h4 with
                  | None => None
                  | Some y =>
                      if (55296 <=? y) && (y <? 57344) then
                        match r2 with
                        | b :: u :: l1 :: l2 :: l3 :: l4 :: r3 =>
                            match read_hex4 l1 l2 l3 l4 with
                            | None => None
                            | Some z =>
                                if byte_eqb b backslash && byte_eqb u x75 && (y <? 56320) && (56320 <=? z) && (z <? 57344) then
                                  match read_chars r3 with
                                  | Some (s, rest) => Some (utf8 (65536 + (y - 55296) * 1024 + (z - 56320)) ++ s, rest)
                                  | None => None
                                  end
                                else None
                            end
                        | _ => None
                        end
                      else match read_chars r2 with Some (s, rest) => Some (utf8 y ++ s, rest) | None => None end
                  end
              | _ => None
              end
            else
              match escape e with
              | None => None
              | Some x => match read_chars r1 with Some (s, rest) => Some (x :: s, rest) | None => None end
              end
        end
      else if 32 <=? b2z c then
        match read_chars r with Some (s, rest) => Some (c :: s, rest) | None => None end
      else None
  end.

(** Digits without a superfluous zero. *)
Definition whole (i : str) : bool :=
  match i with [] => false | [_] => true | c :: _ => negb (byte_eqb c x30) end.
Definition read_exponent (t : str) : bool :=
  match t with
  | [] => true
  | c :: r =>
      (byte_eqb c x65 || byte_eqb c x45) &&
      let r := match r with g :: r' => if byte_eqb g x2b || byte_eqb g x2d then r' else r | [] => r end in
      match span digitb r with (_ :: _, []) => true | _ => false end
  end.
Definition read_fraction (t : str) : bool :=
  match t with
  | c :: r => if byte_eqb c x2e then match span digitb r with (_ :: _, e) => read_exponent e | _ => false end else read_exponent t
  | [] => true
  end.

Section Reader.
  Variable rd : str -> Z.

  (** A number: all characters that numbers are made of, up to another one. *)
  Definition read_number (t : str) : option jdoc :=
    let '(neg, r) := match t with c :: r => if byte_eqb c x2d then (true, r) else (false, t) | [] => (false, t) end in
    let '(i, r) := span digitb r in
    if whole i then
      match r with
      | [] =>
          let z := if neg then - number_of 0 i else number_of 0 i in
          if (- 2 ^ 63 <=? z) && (z <? 2 ^ 63) then Some (JInt z)
          else if (2 ^ 63 <=? z) && (z <? 2 ^ 64) then Some (JUint z)
          else Some (JDec (rd t))
      | _ => if read_fraction r then Some (JDec (rd t)) else None
      end
    else None.

  Fixpoint literal (w t : str) : option str :=
    match w, t with
    | [], _ => Some t
    | c :: w', x :: t' => if byte_eqb c x then literal w' t' else None
    | _, [] => None
    end.

  (** Members and elements, up to and including the closing bracket; [rv] reads a value. *)
  Fixpoint read_members (rv : str -> option (jdoc * str)) (n : nat) (t : str) : option (list (str * jdoc) * str) :=
    match n with
    | O => None
    | S n =>
        match skip t with
        | q :: r =>
            if byte_eqb q quote then
              match read_chars r with
              | Some (k, r) =>
                  match skip r with
                  | c :: r =>
                      if byte_eqb c x3a then
                        match rv (skip r) with
                        | Some (d, r) =>
                            match skip r with
                            | e :: r =>
                                if byte_eqb e x7d then Some ([(k, d)], r)
                                else if byte_eqb e x2c then
                                  match read_members rv n r with Some (ms, r) => Some ((k, d) :: ms, r) | None => None end
                                else None
                            | [] => None
                            end
                        | None => None
                        end
                      else None
                  | [] => None
                  end
              | None => None
              end
            else None
        | [] => None
        end
    end.
  Fixpoint read_elements (rv : str -> option (jdoc * str)) (n : nat) (t : str) : option (list jdoc * str) :=
    match n with
    | O => None
    | S n =>
        match rv (skip t) with
        | Some (d, r) =>
            match skip r with
            | e :: r =>
                if byte_eqb e x5d then Some ([d], r)
                else if byte_eqb e x2c then match read_elements rv n r with Some (ds, r) => Some (d :: ds, r) | None => None end
                else None
            | [] => None
            end
        | None => None
        end
    end.

  Fixpoint read_value (n : nat) (t : str) : option (jdoc * str) :=
    match n with
    | O => None
    | S n =>
        match t with
        | [] => None
        | c :: r =>
            if byte_eqb c x7b then
              match skip r with
              | x :: r' => if byte_eqb x x7d then Some (JObj [], r')
                           else match read_members (read_value n) n r with Some (ms, r') => Some (JObj ms, r') | None => None end
              | [] => None
              end
            else if byte_eqb c x5b then
              match skip r with
              | x :: r' => if byte_eqb x x5d then Some (JArr [], r')
                           else match read_elements (read_value n) n r with Some (ds, r') => Some (JArr ds, r') | None => None end
              | [] => None
              end
            else if byte_eqb c quote then
              match read_chars r with Some (s, r') => Some (JStr s, r') | None => None end
            else if byte_eqb c x74 then match literal (lit "true"%string) t with Some r' => Some (JBool true, r') | None => None end
            else if byte_eqb c x66 then match literal (lit "false"%string) t with Some r' => Some (JBool false, r') | None => None end
            else if byte_eqb c x6e then match literal (lit "null"%string) t with Some r' => Some (JNull, r') | None => None end
            else
              let '(a, r') := span numberb t in
              match read_number a with Some d => Some (d, r') | None => None end
        end
    end.

  (** rapidjson::GenericReader::Parse with the default flags: after the value only
      white space may come, up to the end or a zero byte. *)
  Definition read_text (t : str) : option jdoc :=
    match read_value (S (List.length t)) (skip t) with
    | Some (d, r) => match skip r with [] => Some d | c :: _ => if byte_eqb c x00 then Some d else None end
    | None => None
    end.

  (** json.tcc:135-160 (heap::from_json): the stream has the length given. *)
  Definition heap_of_text (t : str) : res value :=
    match read_text t with Some d => heap_from_json d | None => Throw parse_error end.

  (** json.tcc:162-192 (buffer::from_json): the text is copied, ended with a zero byte,
      and parsed up to it.  [block] is the allocation for the result. *)
  Definition buffer_of_text (sorter : forall A, list (str * A) -> list (str * A)) (block : mem) (t : str) : res mem :=
    match read_text (cstr (t ++ [x00])) with Some d => buffer_from_json sorter block d | None => Throw parse_error end.

  (** json.tcc:194-199 (packet::from_json) *)
  Definition packet_of_text (sorter : forall A, list (str * A) -> list (str * A)) (block : mem) (addr : Z)
      (finalized : bool) (t : str) : res packet :=
    if finalized then m <- buffer_of_text sorter block t ;; Ok (PBuf addr m root)
    else v <- heap_of_text t ;; Ok (PHeap v).
End Reader.

(** ** The C interface *)

(** strlen, then the bytes before the zero: reading on past the end of the memory is
    out of bounds. *)
Fixpoint c_strlen (m : str) : res Z :=
  match m with
  | [] => Oob
  | c :: r => if byte_eqb c x00 then Ok 0 else n <- c_strlen r ;; Ok (n + 1)
  end.
Definition c_view (m : str) (len : Z) : res str :=
  if len <=? zlen m then Ok (firstn (Z.to_nat len) m) else Oob.

Section C.
  Variable dt : Z -> str.
  Variable rd : str -> Z.
  Variable sorter : forall A, list (str * A) -> list (str * A).

  (** generic.cc:431-446 (dart_to_json_impl), heap.cc:509-531, buffer.cc:117-138: a block
      of one byte more than the text, and the text's length.  No block on failure. *)
  Definition c_to_json (n : nat) (f : family) (s : cstate) (i : nat) : got (str * Z) :=
    look f s i (fun p =>
      t <- to_json dt n p ;;
      let inlen := zlen t in
      Ok (firstn (Z.to_nat (inlen + 1)) (t ++ [x00]), inlen)).

  (** generic.cc:1454-1468, heap.cc:1358-1372 (dart_from_json_len_rc_err,
      dart_heap_from_json_len_rc_err) through helpers.h:626-646, and buffer.cc:465-480:
      a null packet is constructed, then the parsed one is assigned to it. *)
  Definition c_from_json_len (block : mem) (addr : Z) (s : cstate) (i : nat) (d : form) (rc : Z) (m : str) (len : Z) : cstate * out :=
    let '(s1, o) := init s i d rc in
    match o with
    | Code 0 =>
        let '(s2, o') := unwrap_as d s1 i (fun _ =>
          match c_view m len with
          | Ok t =>
              match packet_of_text rd sorter block addr (match d with FBuffer => true | _ => false end) t with
              | Ok p => (store s1 i p, Code no_error)
              | Throw e => (s1, Thrown e)
              | _ => (s1, Bad)
              end
          | _ => (s1, Bad)
          end) in
        (s2, err_handler o')
    | _ => (s1, o)
    end.

  (** generic.cc:1425-1438, heap.cc:1329-1342, buffer.cc:436-449 *)
  Definition c_from_json (block : mem) (addr : Z) (s : cstate) (i : nat) (d : form) (rc : Z) (m : str) : cstate * out :=
    match c_strlen m with
    | Ok len => c_from_json_len block addr s i d rc m len
    | _ => (s, Bad)
    end.

  (** generic.cc:1418-1423, 1429-1434, 1440-1452, heap.cc:1322-1356, buffer.cc:429-463: the forms
      that return the packet.  [None] for the length means strlen.  On failure what
      dart_init(), dart_heap_init() or dart_buffer_init() makes is returned. *)
  Definition c_parsed (block : mem) (addr : Z) (s : cstate) (d : form) (rc : Z) (m : str) (len : option Z) : cstate * out :=
    let i := List.length s in
    let s0 := s ++ [mkvar d None None] in
    let '(s1, o) := match len with
                    | Some len => c_from_json_len block addr s0 i d rc m len
                    | None => c_from_json block addr s0 i d rc m
                    end in
    match o with
    | Code 0 => (s1, o)
    | Code _ => init s0 i d 1
    | _ => (s1, Bad)
    end.
End C.
