(** Building finalized objects out of finalized pieces: buffer::inject, project
    and make_object.  Model only; proofs are in MergeFacts.v, MakeFacts.v.

    Source blocks and the new block are separate allocations, so the callbacks
    that write the new block cannot disturb the walk over the old ones: the model
    first collects the pairs the walk visits, then writes them. *)

From Coq Require Import ZArith List Bool.
From Verif Require Import Base Keys Dec Wire Read Buf.
Import ListNotations.
Open Scope Z_scope.

(** One finalized key/value pair: the block it lives in, the address of its key
    and the raw element of its value. *)
Record piece : Type := mk_piece { p_mem : mem; p_key : Z; p_type : Z; p_val : Z }.

(** A finalized object: address of the block, the block, where the object starts. *)
Record source : Type := mk_source { s_bs : Z; s_mem : mem; s_off : Z }.

(** The [idx]-th key of an object as the walks see it
    ([unwrap(it)->get_strv()], common.tcc:319). *)
Definition src_key (s : source) (idx : Z) : res str :=
  '(_, kp) <- load_key (s_mem s) (s_off s) idx ;; rd_strv (s_mem s) 2 kp.

(** [*keys, *vals] at position [idx]: the arguments of the callback. *)
Definition src_piece (s : source) (idx : Z) : res piece :=
  '(_, kp) <- load_key (s_mem s) (s_off s) idx ;;
  '(t, vp) <- load_value (s_bs s) (s_mem s) (s_off s) idx ;;
  Ok (mk_piece (s_mem s) kp t vp).

(** common.tcc:325-346: the first inner loop; [n] base pairs are left, starting
    at [bi].  Returns the pairs passed through and the position reached. *)
Fixpoint merge_base (base : source) (in_key : str) (n : nat) (bi : Z) : res (list piece * Z) :=
  match n with
  | O => Ok ([], bi)
  | S n' =>
      base_key <- src_key base bi ;;
      if dart_ltb base_key in_key then
        p <- src_piece base bi ;;
        '(ps, bi') <- merge_base base in_key n' (bi + 1) ;;
        Ok (p :: ps, bi')
      else if negb (dart_ltb in_key base_key) then Ok ([], bi + 1)
      else Ok ([], bi)
  end.

(** common.tcc:350-367: the second inner loop; [n] incoming pairs are left. *)
Fixpoint merge_in (base incoming : source) (bn : Z) (n : nat) (bi ii : Z)
  : res (list piece * Z * Z) :=
  match n with
  | O => Ok ([], bi, ii)
  | S n' =>
      in_key <- src_key incoming ii ;;
      if bi =? bn then
        p <- src_piece incoming ii ;;
        '(ps, bi', ii') <- merge_in base incoming bn n' bi (ii + 1) ;;
        Ok (p :: ps, bi', ii')
      else
        base_key <- src_key base bi ;;
        if negb (dart_ltb base_key in_key) then
          p <- src_piece incoming ii ;;
          let bi := if negb (dart_ltb in_key base_key) then bi + 1 else bi in
          '(ps, bi', ii') <- merge_in base incoming bn n' bi (ii + 1) ;;
          Ok (p :: ps, bi', ii')
        else Ok ([], bi, ii)
  end.

(** common.tcc:371-373: what is left of the base. *)
Definition merge_rest (base : source) (bn bi : Z) : res (list piece) :=
  for_each (src_piece base) bi (Z.to_nat (bn - bi)).

(** common.tcc:306-374 (each_unique_pair); [fuel] bounds the outer loop. *)
Fixpoint merge_loop (fuel : nat) (base incoming : source) (bn inn bi ii : Z) : res (list piece) :=
  if ii =? inn then merge_rest base bn bi
  else match fuel with
  | O => Fuel
  | S fuel' =>
      in_key <- src_key incoming ii ;;
      '(ps1, bi) <- merge_base base in_key (Z.to_nat (bn - bi)) bi ;;
      '(ps2, bi, ii) <- merge_in base incoming bn (Z.to_nat (inn - ii)) bi ii ;;
      ps3 <- merge_loop fuel' base incoming bn inn bi ii ;;
      Ok (ps1 ++ ps2 ++ ps3)
  end.

Definition each_unique_pair (base incoming : source) : res (list piece) :=
  bn <- agg_count (s_mem base) (s_off base) ;;
  inn <- agg_count (s_mem incoming) (s_off incoming) ;;
  merge_loop (Z.to_nat inn) base incoming bn inn 0 0.

(** common.tcc:389-412: the inner loop of project_each_pair for one requested
    key; note that it does not stop after a match. *)
Fixpoint project_one (base : source) (in_key : str) (n : nat) (bi : Z) : res (list piece * Z) :=
  match n with
  | O => Ok ([], bi)
  | S n' =>
      base_key <- src_key base bi ;;
      if dart_ltb base_key in_key then project_one base in_key n' (bi + 1)
      else if negb (dart_ltb in_key base_key) then
        p <- src_piece base bi ;;
        '(ps, bi') <- project_one base in_key n' (bi + 1) ;;
        Ok (p :: ps, bi')
      else Ok ([], bi)
  end.

(** common.tcc:376-414 (project_each_pair) *)
Fixpoint project_loop (base : source) (bn : Z) (keys : list str) (bi : Z) : res (list piece) :=
  match keys with
  | [] => Ok []
  | k :: r =>
      '(ps, bi') <- project_one base k (Z.to_nat (bn - bi)) bi ;;
      ps' <- project_loop base bn r bi' ;;
      Ok (ps ++ ps')
  end.

Definition project_each_pair (base : source) (keys : list str) : res (list piece) :=
  bn <- agg_count (s_mem base) (s_off base) ;;
  project_loop base bn keys 0.

(** object.tcc:404-429 and 453-478: the callback of the merging and of the
    projecting constructor (the same text twice), over the collected pairs.  The
    entry takes the key as a C string; the key's terminator makes that [cstr] of
    the key.  The new object starts the block. *)
Fixpoint emit_pairs (ps : list piece) (m : mem) (offset i : Z) : res (mem * Z) :=
  match ps with
  | [] => Ok (m, offset)
  | p :: r =>
      let offset := align_up offset (alignment_of R_string) in
      key <- rd_strv (p_mem p) 2 (p_key p) ;;
      m <- wr m (8 + 8 * i) (obj_entry (p_type p) offset key) ;;
      key_len <- find_sizeof (p_mem p) R_string (p_key p) ;;
      key_bytes <- rd (p_mem p) (p_key p) key_len ;;
      m <- wr m offset key_bytes ;;
      let offset := align_up (offset + key_len) (alignment_of (p_type p)) in
      val_len <- find_sizeof (p_mem p) (p_type p) (p_val p) ;;
      val_bytes <- rd (p_mem p) (p_val p) val_len ;;
      m <- wr m offset val_bytes ;;
      m <- wr_le m 4 4 (i + 1) ;;
      emit_pairs r m (offset + val_len) (i + 1)
  end.

(** object.tcc:743: vtable()[idx].adjust_offset(-diff) for every entry; the
    offset is a uint32_t (common.tcc:168-171). *)
Fixpoint adjust_offsets (m : mem) (diff idx : Z) (n : nat) : res mem :=
  match n with
  | O => Ok m
  | S n' =>
      off <- entry_offset m 0 idx ;;
      m <- wr_le m (8 + 8 * idx) 4 (off - diff) ;;
      adjust_offsets m diff (idx + 1) n'
  end.

(** object.tcc:727-749 (realign).  More pairs than guessed (the assertion at 730)
    would make the distances negative. *)
Definition realign (m : mem) (guess elems offset : Z) : res (mem * Z) :=
  if guess <? elems then Undef
  else
    t <- entry_rawtype m 0 0 ;;
    let src := 8 + 8 * guess in
    let dst := align_up (8 + 8 * elems) (alignment_of t) in
    let diff := src - dst in
    bytes <- rd m src (offset - src) ;;
    m <- wr m dst bytes ;;
    let offset := offset - diff in
    m <- adjust_offsets m diff 0 (Z.to_nat elems) ;;
    m <- wr m offset (zeros diff) ;;
    Ok (m, offset).

(** object.tcc:384-442 and 444-491: the two constructors, given the number of
    pairs guessed beforehand and the pairs visited; [total] bytes were allocated
    and zero-filled (common.tcc:257-258, 272-273). *)
Definition build_object (total guess : Z) (ps : list piece) : res mem :=
  m <- wr_le (zeros total) 4 4 0 ;;
  '(m, offset) <- emit_pairs ps m (8 + 8 * guess) 0 ;;
  '(m, offset) <- (if zlen ps =? guess then Ok (m, offset) else realign m guess (zlen ps) offset) ;;
  wr_le m 0 4 (align_up offset (alignment_of R_object)).

(** common.tcc:246-262 (merge_buffers) *)
Definition merge_buffers (base incoming : source) : res mem :=
  bb <- rd_le (s_mem base) (s_off base) 4 ;;
  ib <- rd_le (s_mem incoming) (s_off incoming) 4 ;;
  bn <- agg_count (s_mem base) (s_off base) ;;
  inn <- agg_count (s_mem incoming) (s_off incoming) ;;
  ps <- each_unique_pair base incoming ;;
  build_object (bb + ib) (bn + inn) ps.

(** std::sort with dart_comparator.  The order is strict and total on keys
    (C13), so any sorting algorithm gives the same list of keys. *)
Fixpoint sort_insert {A} (key : A -> str) (x : A) (l : list A) : list A :=
  match l with
  | [] => [x]
  | y :: r => if dart_ltb (key y) (key x) then y :: sort_insert key x r else x :: l
  end.
Fixpoint sort_by {A} (key : A -> str) (l : list A) : list A :=
  match l with
  | [] => []
  | x :: r => sort_insert key x (sort_by key r)
  end.

(** common.tcc:264-279 (project_keys), with sort_spannable (common.h:1385-1422). *)
Definition project_keys (base : source) (keys : list str) : res mem :=
  let keys := sort_by (fun k => k) keys in
  total <- rd_le (s_mem base) (s_off base) 4 ;;
  ps <- project_each_pair base keys ;;
  build_object total (zlen keys) ps.

(** buffer/object.tcc:78-93 (project) and the type check of get_object. *)
Definition b_project (bs : Z) (m : mem) (e : elem) (keys : list str) : res mem :=
  b_object e (fun o => project_keys (mk_source bs m o) keys).

(** ** make_object *)

(** An argument of make_object: a dart::packet, holding a heap or a buffer. *)
Inductive arg : Type :=
| ArgHeap (v : value)
| ArgBuf (bs : Z) (m : mem) (e : elem).

(** packet/detail.tcc:41-53 (get_raw_type) *)
Definition arg_type (a : arg) : Z :=
  match a with ArgHeap v => raw_type_of v | ArgBuf _ _ e => fst e end.

(** packet/detail.tcc:13-21 (upper_bound).  It is noexcept: where the heap's
    upper_bound throws length_error the program terminates, which the model
    shows as the exception. *)
Definition arg_upper_bound (a : arg) : res Z :=
  match a with
  | ArgHeap v => upper_bound v
  | ArgBuf _ m (t, Some o) => find_sizeof m t o
  | ArgBuf _ m (t, None) => if t =? R_null then Ok 0 else Oob
  end.

(** packet/detail.tcc:24-38 (layout) *)
Definition arg_layout (m : mem) (o : Z) (a : arg) : res (mem * Z) :=
  match a with
  | ArgHeap v => layout m o v
  | ArgBuf _ src (t, Some p) =>
      n <- find_sizeof src t p ;;
      bytes <- rd src p n ;;
      m <- wr m o bytes ;;
      Ok (m, n)
  | ArgBuf _ _ (t, None) => if t =? R_null then Ok (m, 0) else Oob
  end.

(** strv() of a key; what is not a string throws type_error. *)
Definition arg_strv (a : arg) : res str :=
  match a with
  | ArgHeap (VStr s) => Ok s
  | ArgHeap _ => Throw type_error
  | ArgBuf _ m e =>
      v <- b_scalar T_string m e ;;
      match v with VStr s => Ok s | _ => Throw type_error end
  end.

(** A pair with its key read once. *)
Record mpair : Type := mk_mpair { mp_str : str; mp_key : arg; mp_val : arg }.

(** buffer/detail.tcc:53-78 (dynamic_make_object, the span overloads): an odd
    number of arguments or a key that is not a string is refused. *)
Fixpoint pair_up (args : list arg) : res (list mpair) :=
  match args with
  | [] => Ok []
  | [_] => Throw invalid_argument
  | k :: v :: r =>
      s <- (match arg_strv k with Throw _ => Throw invalid_argument | x => x end) ;;
      ps <- pair_up r ;;
      Ok (mk_mpair s k v :: ps)
  end.

(** common.tcc:281-303 (max_bytes).  pad_bytes returns the padded total, so the
    result is about twice what is needed; the sum is not checked against 2^32. *)
Fixpoint max_bytes_loop (prev : option str) (ps : list mpair) (bytes : Z) : res Z :=
  match ps with
  | [] => Ok bytes
  | p :: r =>
      if match prev with Some q => sv_eqb (mp_str p) q | None => false end then Throw invalid_argument
      else if 65535 <? zlen (mp_str p) then Throw invalid_argument
      else
        kb <- arg_upper_bound (mp_key p) ;;
        vb <- arg_upper_bound (mp_val p) ;;
        max_bytes_loop (Some (mp_str p)) r
          (bytes + (kb + alignment_of (arg_type (mp_key p)) - 1)
                 + (vb + alignment_of (arg_type (mp_val p)) - 1))
  end.
Definition max_bytes (ps : list mpair) : res Z :=
  bytes <- max_bytes_loop None ps 0 ;;
  let bytes := bytes + (8 + 8 * (zlen ps + 1)) in
  Ok (bytes + align_up bytes (alignment_of R_object)).

(** object.tcc:312-331: the loop of the constructor from pairs. *)
Fixpoint layout_pairs (ps : list mpair) (m : mem) (offset i : Z) : res (mem * Z) :=
  match ps with
  | [] => Ok (m, offset)
  | p :: r =>
      let offset := align_up offset (alignment_of R_string) in
      m <- wr m (8 + 8 * i) (obj_entry (arg_type (mp_val p)) offset (mp_str p)) ;;
      '(m, n) <- arg_layout m offset (mp_key p) ;;
      let offset := align_up (offset + n) (alignment_of (arg_type (mp_val p))) in
      '(m, n) <- arg_layout m offset (mp_val p) ;;
      layout_pairs r m (offset + n) (i + 1)
  end.

(** common.tcc:226-244 (build_buffer) and object.tcc:307-343. *)
Definition build_buffer (ps : list mpair) : res mem :=
  let ps := sort_by mp_str ps in
  bytes <- max_bytes ps ;;
  m <- wr_le (zeros bytes) 4 4 (zlen ps) ;;
  '(m, offset) <- layout_pairs ps m (8 + 8 * zlen ps) 0 ;;
  wr_le m 0 4 (align_up offset (alignment_of R_object)).

(** buffer/object.tcc:14-48 (make_object) *)
Definition make_object (args : list arg) : res mem :=
  ps <- pair_up args ;; build_buffer ps.

(** buffer/object.tcc:49-76 (inject): the new pairs become a temporary object,
    then the two are merged.  A fresh block is aligned. *)
Definition b_inject (bs : Z) (m : mem) (e : elem) (args : list arg) : res mem :=
  tmp <- make_object args ;;
  b_object e (fun o => merge_buffers (mk_source bs m o) (mk_source 0 tmp 0)).
