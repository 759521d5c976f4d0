(** Validation never leaves its span, and what it accepts can be read safely. *)

From Coq Require Import ZArith List Lia Bool.
From Coq Require Import ZifyBool ZifyNat ZifyN.
From Verif Require Import Base BaseFacts Keys Dec Wire Read Buf HeapOps.
Import ListNotations.
Open Scope Z_scope.

(** ** Reading inside the block *)
Lemma rd_le_in m o n : 0 <= o -> o + Z.of_nat n <= zlen m -> exists z, rd_le m o n = Ok z.
Proof.
  intros A B. destruct (proj2 (rd_bounds m o (Z.of_nat n))) as [x E]; [lia|].
  exists (le_dec x). unfold rd_le. rewrite E. reflexivity.
Qed.
Lemma rd_le_range m o n z : rd_le m o n = Ok z ->
  0 <= z < 2 ^ (8 * Z.of_nat n) /\ 0 <= o /\ o + Z.of_nat n <= zlen m.
Proof.
  unfold rd_le. destruct (rd m o (Z.of_nat n)) eqn:E; cbn [bind]; try discriminate.
  intros H. apply Ok_inj in H. subst z. apply rd_Ok in E. destruct E as (A & B & C & D & _).
  pose proof (le_dec_range a). rewrite D in H. lia.
Qed.

Lemma align_ptr_ge bs p t : p <= align_ptr bs p t.
Proof.
  unfold align_ptr. pose proof (align_up_ge (bs + p) (alignment_of t)) as H.
  assert (0 < alignment_of t).
  { unfold alignment_of. repeat match goal with |- context [if ?b then _ else _] => destruct b end; lia. }
  specialize (H H0). lia.
Qed.

(** ** The two modes of validation agree *)

(** The silent run returns, the loud one throws exactly when the silent one says
    no. *)
Inductive vrel : res bool -> res bool -> Prop :=
| vrel_yes : vrel (Ok true) (Ok true)
| vrel_no : vrel (Ok false) (Throw validation_error).

Lemma vrel_fail : vrel (vfail true) (vfail false).
Proof. constructor. Qed.

Lemma vrel_seq x y k k' :
  vrel x y -> (x = Ok true -> vrel k k') ->
  vrel (ok <- x ;; if negb ok then Ok false else k) (ok <- y ;; if negb ok then Ok false else k').
Proof. intros [|] H; cbn [bind negb]; [auto|constructor]. Qed.

Lemma valid_child_rel bs t p o total prev :
  vrel (valid_child true bs t p o total prev) (valid_child false bs t p o total prev).
Proof. unfold valid_child. destruct (_ <? _); [constructor|]. destruct (_ <=? _); [constructor|]. destruct (negb _); constructor. Qed.

Lemma valid_child_true s bs t p o total prev : valid_child s bs t p o total prev = Ok true ->
  p - o <= total /\ prev < p /\ align_ptr bs p t = p.
Proof.
  unfold valid_child. assert (vfail s <> Ok true) by (destruct s; discriminate).
  destruct (total <? p - o) eqn:A; [congruence|]. destruct (p <=? prev) eqn:B; [congruence|].
  destruct (align_ptr bs p t =? p) eqn:C; cbn [negb]; [|congruence]. lia.
Qed.

Lemma valid_string_rel m w o bytes : 0 <= o -> o + bytes <= zlen m ->
  vrel (valid_string true m w o bytes) (valid_string false m w o bytes).
Proof.
  intros A B. unfold valid_string. destruct (bytes <? Z.of_nat w) eqn:C; [constructor|].
  destruct (rd_le_in m o w) as [len E]; [lia..|]. rewrite E. cbn [bind].
  apply rd_le_range in E. destruct (bytes <? Z.of_nat w + len + 1) eqn:D; [constructor|].
  destruct (proj2 (rd_bounds m (o + Z.of_nat w + len) 1)) as [c Ec]; [lia|]. rewrite Ec. cbn [bind].
  destruct c as [|[] [|]]; constructor.
Qed.

Lemma valid_string_true s m w o bytes : valid_string s m w o bytes = Ok true ->
  exists len, rd_le m o w = Ok len /\ Z.of_nat w + len + 1 <= bytes.
Proof.
  unfold valid_string. assert (vfail s <> Ok true) by (destruct s; discriminate).
  destruct (bytes <? Z.of_nat w); [congruence|]. intros E. apply bind_Ok in E. destruct E as (len & E & F).
  destruct (bytes <? Z.of_nat w + len + 1) eqn:D; [congruence|]. exists len. split; [assumption|lia].
Qed.

Lemma valid_primitive_rel w bytes : vrel (valid_primitive true w bytes) (valid_primitive false w bytes).
Proof. unfold valid_primitive. destruct (_ <? _); constructor. Qed.
Lemma valid_primitive_true s w bytes : valid_primitive s w bytes = Ok true -> w <= bytes.
Proof. unfold valid_primitive. destruct (bytes <? w) eqn:E; [destruct s; discriminate|lia]. Qed.

Lemma valid_types_rel m o : forall n i, 0 <= o -> 0 <= i -> o + 8 + 8 * (i + Z.of_nat n) <= zlen m ->
  vrel (valid_types true m o i n) (valid_types false m o i n).
Proof.
  induction n as [|n IH]; intros i A B C; cbn [valid_types]; [constructor|].
  destruct (rd_le_in m (o + 8 + 8 * i + 4) 1) as [ty E]; [lia..|]. unfold entry_rawtype. rewrite E. cbn [bind].
  destruct (valid_type ty); [|constructor]. apply IH; lia.
Qed.
Lemma valid_types_true s m o : forall n i, valid_types s m o i n = Ok true ->
  forall j, i <= j < i + Z.of_nat n -> exists ty, entry_rawtype m o j = Ok ty /\ valid_type ty = true.
Proof.
  induction n as [|n IH]; intros i E j J; [lia|]. cbn [valid_types] in E.
  apply bind_Ok in E. destruct E as (ty & E & F).
  destruct (valid_type ty) eqn:V; [|destruct s; discriminate].
  destruct (Z.eq_dec i j) as [<- | N]; [eauto|]. apply (IH _ F). lia.
Qed.

(** ** Accepted strings and keys *)
Lemma vb_string_true f s bs m o bytes : valid_buffer f s bs m R_string o bytes = Ok true ->
  exists len, rd_le m o 2 = Ok len /\ 2 + len + 1 <= bytes.
Proof.
  destruct f as [|f]; [discriminate|].
  change (valid_buffer (S f) s bs m R_string o bytes) with (valid_string s m 2 o bytes).
  intros E. apply valid_string_true in E. exact E.
Qed.

(** What the loop over the pairs of an accepted object establishes. *)
Definition pair_ok (vb : Z -> Z -> Z -> res bool) bs m o total i : Prop :=
  exists kp len vt vp,
    load_key m o i = Ok (R_string, kp) /\ o < kp /\ align_ptr bs kp R_string = kp /\ align_ptr bs vp vt = vp /\
    rd_le m kp 2 = Ok len /\ kp - o + 2 + len + 1 <= total /\
    vb R_string kp (total - (kp - o)) = Ok true /\
    load_value bs m o i = Ok (vt, vp) /\ kp < vp /\ vp - o <= total /\
    vb vt vp (total - (vp - o)) = Ok true.

Lemma valid_pairs_true vb s bs m o total :
  (forall p n, vb R_string p n = Ok true -> exists len, rd_le m p 2 = Ok len /\ 2 + len + 1 <= n) ->
  forall n i prev, o <= prev -> valid_pairs vb s bs m o total prev i n = Ok true ->
  forall j, i <= j < i + Z.of_nat n -> pair_ok vb bs m o total j.
Proof.
  intros HS. induction n as [|n IH]; intros i prev P E j J; [lia|]. cbn [valid_pairs] in E.
  apply bind_Ok in E. destruct E as ([kt kp] & K & E).
  apply bind_Ok in E. destruct E as ([] & C1 & E); cbn [negb] in E; [|discriminate].
  apply bind_Ok in E. destruct E as ([] & V1 & E); cbn [negb] in E; [|discriminate].
  apply bind_Ok in E. destruct E as ([vt vp] & L & E).
  apply bind_Ok in E. destruct E as ([] & C2 & E); cbn [negb] in E; [|discriminate].
  apply bind_Ok in E. destruct E as ([] & V2 & E); cbn [negb] in E; [|discriminate].
  apply valid_child_true in C1, C2.
  destruct (Z.eq_dec i j) as [<- | N]; [|apply (IH _ vp ltac:(lia) E); lia].
  assert (kt = R_string).
  { unfold load_key in K. apply bind_Ok in K. destruct K as (off & _ & K). apply Ok_inj in K. congruence. }
  subst kt. destruct (HS _ _ V1) as (len & R & S). exists kp, len, vt, vp.
  split; [exact K|]. split; [lia|]. split; [apply C1|]. split; [apply C2|]. split; [exact R|]. split; [lia|]. split; [exact V1|]. split; [exact L|]. split; [lia|]. split; [lia|]. exact V2.
Qed.

Definition elem_ok (vb : Z -> Z -> Z -> res bool) bs m o total i : Prop :=
  exists vt vp, get_elem m o i = Ok (vt, Some vp) /\ o < vp /\ vp - o <= total /\ align_ptr bs vp vt = vp /\
    vb vt vp (total - (vp - o)) = Ok true.

Lemma valid_elems_true vb s bs m o total :
  forall n i prev, o <= prev -> valid_elems vb s bs m o total prev i n = Ok true ->
  forall j, i <= j < i + Z.of_nat n -> elem_ok vb bs m o total j.
Proof.
  induction n as [|n IH]; intros i prev P E j J; [lia|]. cbn [valid_elems] in E.
  apply bind_Ok in E. destruct E as ([vt [vp|]] & K & E); [|destruct s; discriminate].
  apply bind_Ok in E. destruct E as ([] & C1 & E); cbn [negb] in E; [|discriminate].
  apply bind_Ok in E. destruct E as ([] & V1 & E); cbn [negb] in E; [|discriminate].
  apply valid_child_true in C1.
  destruct (Z.eq_dec i j) as [<- | N]; [|apply (IH _ vp ltac:(lia) E); lia].
  exists vt, vp. split; [exact K|]. split; [lia|]. split; [lia|]. split; [apply C1|]. exact V1.
Qed.

(** ** Both loops stay inside the block *)
Section Loops.
  Variables (bs : Z) (m : mem) (o total n : Z) (f : nat).
  Hypothesis Ho : 0 <= o.
  Hypothesis Ht : o + total <= zlen m.
  Hypothesis Hn : 8 + 8 * n <= total.
  Hypothesis Hc : agg_count m o = Ok n.
  Hypothesis Hty : forall j, 0 <= j < n -> exists ty, entry_rawtype m o j = Ok ty /\ valid_type ty = true.
  Hypothesis IH : forall t p bytes, valid_type t = true -> o < p -> 0 <= bytes -> p + bytes <= zlen m ->
    vrel (valid_buffer f true bs m t p bytes) (valid_buffer f false bs m t p bytes).

  Lemma entry_offset_in i : 0 <= i < n -> exists off, entry_offset m o i = Ok off.
  Proof. intros I. apply rd_le_in; lia. Qed.

  Lemma valid_pairs_rel : forall k i prev, o <= prev -> 0 <= i -> i + Z.of_nat k <= n ->
    vrel (valid_pairs (fun t o b => valid_buffer f true bs m t o b) true bs m o total prev i k)
         (valid_pairs (fun t o b => valid_buffer f false bs m t o b) false bs m o total prev i k).
  Proof.
    induction k as [|k IHk]; intros i prev P I K; cbn [valid_pairs]; [constructor|].
    destruct (entry_offset_in i) as (off & E); [lia|].
    unfold load_key, load_value. rewrite E. cbn [bind].
    apply vrel_seq; [apply valid_child_rel|]. intros C1. apply valid_child_true in C1.
    apply vrel_seq; [apply IH; [reflexivity|lia..]|]. intros V1. apply vb_string_true in V1.
    destruct V1 as (len & R & S).
    destruct (Hty i) as (ty & T & TV); [lia|]. rewrite T. cbn [bind].
    change (find_sizeof m R_string (o + off)) with (len <- rd_le m (o + off) 2 ;; Ok (2 + len + 1)).
    rewrite R. cbn [bind].
    apply vrel_seq; [apply valid_child_rel|]. intros C2. apply valid_child_true in C2.
    apply vrel_seq; [apply IH; [assumption|lia..]|]. intros _. apply IHk; lia.
  Qed.

  Lemma valid_elems_rel : forall k i prev, o <= prev -> 0 <= i -> i + Z.of_nat k <= n ->
    vrel (valid_elems (fun t o b => valid_buffer f true bs m t o b) true bs m o total prev i k)
         (valid_elems (fun t o b => valid_buffer f false bs m t o b) false bs m o total prev i k).
  Proof.
    induction k as [|k IHk]; intros i prev P I K; cbn [valid_elems]; [constructor|].
    destruct (entry_offset_in i) as (off & E); [lia|].
    destruct (Hty i) as (ty & T & TV); [lia|].
    unfold get_elem. rewrite Hc. cbn [bind]. replace (i <? n) with true by lia. rewrite T. cbn [bind].
    rewrite E. cbn [bind].
    apply vrel_seq; [apply valid_child_rel|]. intros C1. apply valid_child_true in C1.
    apply vrel_seq; [apply IH; [assumption|lia..]|]. intros _. apply IHk; lia.
  Qed.
End Loops.

Lemma valid_aggregate_rel m o bytes c c' :
  0 <= o -> o + bytes <= zlen m ->
  (forall total n, 0 <= n -> total <= bytes -> 8 + 8 * n <= total -> agg_count m o = Ok n ->
     (forall j, 0 <= j < n -> exists ty, entry_rawtype m o j = Ok ty /\ valid_type ty = true) ->
     vrel (c total (Z.to_nat n)) (c' total (Z.to_nat n))) ->
  vrel (valid_aggregate true m o bytes c) (valid_aggregate false m o bytes c').
Proof.
  intros A B H. unfold valid_aggregate. destruct (bytes <? 8) eqn:C; [constructor|].
  destruct (rd_le_in m o 4) as [total E]; [lia..|]. rewrite E. cbn [bind].
  destruct (bytes <? total) eqn:D; [constructor|].
  destruct (rd_le_in m (o + 4) 4) as [n E']; [lia..|]. unfold agg_count in *. rewrite E'. cbn [bind].
  destruct (rd_le_range _ _ _ _ E') as (R & _).
  destruct (total <? 8 + 8 * n) eqn:F; [constructor|].
  apply vrel_seq; [apply valid_types_rel; lia|]. intros T.
  apply H; [lia..|exact E'|]. intros j J. apply (valid_types_true _ _ _ _ _ T). lia.
Qed.

Theorem valid_buffer_rel bs m : forall f t o bytes,
  valid_type t = true -> 0 <= o -> 0 <= bytes -> o + bytes <= zlen m -> zlen m - o < Z.of_nat f ->
  vrel (valid_buffer f true bs m t o bytes) (valid_buffer f false bs m t o bytes).
Proof.
  induction f as [|f IH]; intros t o bytes T O B I F; [lia|].
  cbn [valid_buffer]. rewrite T. cbn [negb].
  destruct (t =? R_null); [constructor|].
  destruct (t =? R_object).
  { apply valid_aggregate_rel; [assumption..|]. intros total n N1 N2 N3 N4 N5.
    apply (valid_pairs_rel bs m o total n f); [lia..|assumption|assumption|idtac|lia|lia|lia].
    intros t' p b' H1 H2 H3 H4. apply IH; [assumption|lia..]. }
  destruct (t =? R_array).
  { apply valid_aggregate_rel; [assumption..|]. intros total n N1 N2 N3 N4 N5.
    apply (valid_elems_rel bs m o total n f); [lia..|assumption|assumption|idtac|lia|lia|lia].
    intros t' p b' H1 H2 H3 H4. apply IH; [assumption|lia..]. }
  repeat match goal with
  | |- vrel (if ?c then _ else _) (if ?c then _ else _) => destruct c
  end; first [apply valid_string_rel; assumption | apply valid_primitive_rel].
Qed.

Corollary is_valid_rel bs m :
  (is_valid bs m = Ok true /\ validate bs m = Ok tt) \/
  (is_valid bs m = Ok false /\ validate bs m = Throw validation_error).
Proof.
  assert (H : vrel (is_valid bs m) (valid_buffer (S (length m)) false bs m R_object 0 (zlen m))).
  { apply valid_buffer_rel; [reflexivity|zlia..|lia|]. unfold zlen. lia. }
  unfold validate. revert H. generalize (is_valid bs m), (valid_buffer (S (length m)) false bs m R_object 0 (zlen m)).
  intros x y []; [left|right]; split; reflexivity.
Qed.

(** ** Accepted elements *)
Definition accepted (bs : Z) (m : mem) (t o bytes : Z) : Prop :=
  exists f s, valid_buffer f s bs m t o bytes = Ok true.

(** An element whose contents were validated, inside the block. *)
Definition sound (bs : Z) (m : mem) (e : elem) : Prop :=
  match snd e with
  | Some o => valid_type (fst e) = true /\ 0 <= o <= zlen m /\
      (bs mod 8 = 0 -> align_ptr bs o (fst e) = o) /\
      exists bytes, o + bytes <= zlen m /\ accepted bs m (fst e) o bytes
  | None => fst e = R_null
  end.

Lemma is_valid_sound bs m : is_valid bs m = Ok true -> sound bs m root.
Proof.
  intros H. split; [reflexivity|]. split; [zlia|].
  split; [intros B; unfold align_ptr; change (alignment_of (fst root)) with 8; rewrite align_up_id; lia|]. exists (zlen m). split; [lia|]. exists (S (length m)), true. exact H.
Qed.

Lemma accepted_types s m o bytes c : valid_aggregate s m o bytes c = Ok true ->
  exists total n, rd_le m o 4 = Ok total /\ agg_count m o = Ok n /\ 0 <= n /\ 8 + 8 * n <= total <= bytes /\
    (forall j, 0 <= j < n -> exists ty, entry_rawtype m o j = Ok ty /\ valid_type ty = true) /\
    c total (Z.to_nat n) = Ok true.
Proof.
  unfold valid_aggregate. assert (vfail s <> Ok true) by (destruct s; discriminate).
  destruct (bytes <? 8); [congruence|]. intros E. apply bind_Ok in E. destruct E as (total & T & E).
  destruct (bytes <? total) eqn:C; [congruence|]. apply bind_Ok in E. destruct E as (n & N & E).
  destruct (total <? 8 + 8 * n) eqn:D; [congruence|]. apply bind_Ok in E. destruct E as ([] & V & E); [|discriminate].
  cbn [negb] in E. exists total, n. destruct (rd_le_range _ _ _ _ N) as (R & _).
  split; [exact T|]. split; [exact N|]. split; [lia|]. split; [lia|]. split; [|exact E].
  intros j J. apply (valid_types_true _ _ _ _ _ V). lia.
Qed.

Lemma sound_object bs m o : sound bs m (R_object, Some o) ->
  exists total n, rd_le m o 4 = Ok total /\ agg_count m o = Ok n /\ 0 <= n < 2 ^ 29 /\
    8 + 8 * n <= total /\ o + total <= zlen m /\
    forall i, 0 <= i < n -> exists kp len vt vp,
      load_key m o i = Ok (R_string, kp) /\ o < kp /\ rd_le m kp 2 = Ok len /\ kp + 2 + len + 1 <= zlen m /\
      sound bs m (R_string, Some kp) /\
      load_value bs m o i = Ok (vt, vp) /\ o < vp /\ sound bs m (vt, Some vp).
Proof.
  intros (_ & O & _ & bytes & B & f & s & A). destruct f as [|f]; [discriminate|].
  cbn [fst] in A. cbn [valid_buffer] in A.
  change (R_object =? R_null) with false in A. change (negb (valid_type R_object)) with false in A.
  change (R_object =? R_object) with true in A. cbn iota in A.
  apply accepted_types in A. destruct A as (total & n & T & N & NN & TB & TY & P).
  exists total, n. destruct (rd_le_range _ _ _ _ T) as (R & _). change (2 ^ (8 * Z.of_nat 4)) with 4294967296 in R.
  change (2 ^ 29) with 536870912.
  split; [exact T|]. split; [exact N|]. split; [lia|]. split; [lia|]. split; [lia|].
  intros i I. apply valid_pairs_true with (j := i) in P; [|intros; eapply vb_string_true; eassumption|lia|lia].
  destruct P as (kp & len & vt & vp & K1 & K2 & KA & VA & K3 & K4 & K5 & V1 & V2 & V3 & V4).
  exists kp, len, vt, vp. split; [exact K1|]. split; [exact K2|]. split; [exact K3|]. split; [lia|].
  destruct (rd_le_range _ _ _ _ K3) as (KR & _).
  split; [split; [reflexivity|]; split; [lia|]; split; [intros _; exact KA|]; exists (total - (kp - o)); split; [lia|]; exists f, s; exact K5|].
  split; [exact V1|]. split; [lia|]. split.
  - destruct (TY i I) as (ty & E1 & E2). unfold load_value in V1. apply bind_Ok in V1. destruct V1 as (off & _ & V1).
    rewrite E1 in V1. cbn [bind] in V1. apply bind_Ok in V1. destruct V1 as (kl & _ & V1). apply Ok_inj in V1.
    cbn [fst]. congruence.
  - split; [lia|]. split; [intros _; exact VA|]. exists (total - (vp - o)). split; [lia|]. exists f, s. exact V4.
Qed.

Lemma sound_array bs m o : sound bs m (R_array, Some o) ->
  exists total n, rd_le m o 4 = Ok total /\ agg_count m o = Ok n /\ 0 <= n < 2 ^ 29 /\
    8 + 8 * n <= total /\ o + total <= zlen m /\
    forall i, 0 <= i < n -> exists vt vp,
      get_elem m o i = Ok (vt, Some vp) /\ o < vp /\ sound bs m (vt, Some vp).
Proof.
  intros (_ & O & _ & bytes & B & f & s & A). destruct f as [|f]; [discriminate|].
  cbn [fst] in A. cbn [valid_buffer] in A.
  change (R_array =? R_null) with false in A. change (negb (valid_type R_array)) with false in A.
  change (R_array =? R_object) with false in A. change (R_array =? R_array) with true in A. cbn iota in A.
  apply accepted_types in A. destruct A as (total & n & T & N & NN & TB & TY & P).
  exists total, n. destruct (rd_le_range _ _ _ _ T) as (R & _). change (2 ^ (8 * Z.of_nat 4)) with 4294967296 in R.
  change (2 ^ 29) with 536870912.
  split; [exact T|]. split; [exact N|]. split; [lia|]. split; [lia|]. split; [lia|].
  intros i I. apply valid_elems_true with (j := i) in P; [|lia|lia].
  destruct P as (vt & vp & K1 & K2 & K3 & VA & K4).
  exists vt, vp. split; [exact K1|]. split; [exact K2|]. split.
  - destruct (TY i I) as (ty & E1 & E2). unfold get_elem in K1. rewrite N in K1. cbn [bind] in K1.
    replace (i <? n) with true in K1 by lia. rewrite E1 in K1. cbn [bind] in K1.
    apply bind_Ok in K1. destruct K1 as (off & _ & K1). apply Ok_inj in K1. cbn [fst]. congruence.
  - split; [lia|]. split; [intros _; exact VA|]. exists (total - (vp - o)). split; [lia|]. exists f, s. exact K4.
Qed.

(** An accepted string is followed by a NUL byte inside the block. *)
Lemma valid_string_nul s m w o bytes : valid_string s m w o bytes = Ok true ->
  exists len, rd_le m o w = Ok len /\ rd m (o + Z.of_nat w + len) 1 = Ok [x00].
Proof.
  unfold valid_string. assert (vfail s <> Ok true) by (destruct s; discriminate).
  destruct (bytes <? Z.of_nat w); [congruence|]. intros E. apply bind_Ok in E. destruct E as (len & E & F).
  destruct (bytes <? Z.of_nat w + len + 1); [congruence|]. apply bind_Ok in F. destruct F as (c & C & F).
  exists len. split; [exact E|]. rewrite C. destruct c as [|[] [|]]; congruence.
Qed.
Lemma sound_string bs m t o : sound bs m (t, Some o) -> simplify_type t = T_string ->
  exists len, let w := if t =? R_big_string then 4%nat else 2%nat in
    rd_le m o w = Ok len /\ rd m (o + Z.of_nat w + len) 1 = Ok [x00].
Proof.
  intros (V & O & _ & bytes & B & f & s & A) T. destruct f as [|f]; [discriminate|].
  cbn [fst] in *. cbn [valid_buffer] in A. rewrite V in A. cbn [negb] in A.
  unfold simplify_type, R_object, R_array, R_string, R_small_string, R_big_string, R_null in *.
  destruct (t =? 0); [discriminate|]. destruct (t =? 1); [discriminate|].
  destruct (t =? 11) eqn:N; [apply Z.eqb_eq in N; subst t; discriminate|].
  destruct ((t =? 3) || (t =? 2)) eqn:S.
  - replace (t =? 4) with false by lia. apply valid_string_nul in A. exact A.
  - destruct (t =? 4) eqn:S4.
    + apply valid_string_nul in A. exact A.
    + exfalso. cbn [orb] in T. repeat match type of T with (if ?b then _ else _) = _ => destruct b end; discriminate.
Qed.

(** A scalar read of an accepted element succeeds, unless it is a boolean whose
    byte is neither 0 nor 1. *)
Definition odd_bool (m : mem) (e : elem) : Prop :=
  exists o c, e = (R_boolean, Some o) /\ rd m o 1 = Ok [c] /\ c <> x00 /\ c <> x01.

Lemma rd_strv_in m w o len bytes : rd_le m o w = Ok len -> Z.of_nat w + len + 1 <= bytes -> o + bytes <= zlen m ->
  exists s, rd_strv m w o = Ok s /\ zlen s = len.
Proof.
  intros E B I. destruct (rd_le_range _ _ _ _ E) as (R & R2 & _).
  destruct (proj2 (rd_bounds m (o + Z.of_nat w) len)) as [x X]; [lia|].
  exists x. unfold rd_strv. rewrite E. cbn [bind]. split; [exact X|]. apply rd_Ok in X. apply X.
Qed.

Lemma sound_scalar bs m t o : sound bs m (t, Some o) -> t <> R_object -> t <> R_array ->
  (exists v, rd_scalar m t o = Ok v) \/ (rd_scalar m t o = Undef /\ odd_bool m (t, Some o)).
Proof.
  intros (V & O & _ & bytes & B & f & s & A) N1 N2. destruct f as [|f]; [discriminate|].
  cbn [fst] in *. cbn [valid_buffer] in A. rewrite V in A. cbn [negb] in A. unfold rd_scalar.
  destruct (t =? R_null) eqn:E0.
  { apply Z.eqb_eq in E0. subst t. left. eexists. reflexivity. }
  destruct (t =? R_object) eqn:E1; [lia|]. destruct (t =? R_array) eqn:E2; [lia|].
  destruct ((t =? R_small_string) || (t =? R_string)).
  { apply valid_string_true in A. destruct A as (len & R & S). destruct (rd_strv_in _ _ _ _ _ R S B) as (x & X & _).
    rewrite X. left. eexists. reflexivity. }
  destruct (t =? R_big_string).
  { apply valid_string_true in A. destruct A as (len & R & S). destruct (rd_strv_in _ _ _ _ _ R S B) as (x & X & _).
    rewrite X. left. eexists. reflexivity. }
  destruct (t =? R_short_integer).
  { apply valid_primitive_true in A. destruct (rd_le_in m o 2) as [z Z]; [lia..|]. rewrite Z. left. eexists. reflexivity. }
  destruct (t =? R_integer).
  { apply valid_primitive_true in A. destruct (rd_le_in m o 4) as [z Z]; [lia..|]. rewrite Z. left. eexists. reflexivity. }
  destruct (t =? R_long_integer).
  { apply valid_primitive_true in A. destruct (rd_le_in m o 8) as [z Z]; [lia..|]. rewrite Z. left. eexists. reflexivity. }
  destruct (t =? R_decimal).
  { apply valid_primitive_true in A. destruct (rd_le_in m o 4) as [z Z]; [lia..|]. rewrite Z. left. eexists. reflexivity. }
  destruct (t =? R_long_decimal).
  { apply valid_primitive_true in A. destruct (rd_le_in m o 8) as [z Z]; [lia..|]. rewrite Z. left. eexists. reflexivity. }
  destruct (t =? R_boolean) eqn:E3; [|left; eexists; reflexivity].
  apply valid_primitive_true in A. destruct (proj2 (rd_bounds m o 1)) as [c C]; [lia|].
  destruct (rd_Ok _ _ _ _ C) as (_ & _ & _ & L & _). destruct c as [|c [|c' r]]; [discriminate L| |].
  2: { rewrite !zlen_cons in L. pose proof (zlen_nonneg r). lia. }
  unfold rd_le. change (Z.of_nat 1) with 1. rewrite C. cbn [bind le_dec]. rewrite Z.mul_0_r, Z.add_0_r.
  destruct (b2z c =? 0) eqn:Z0; [left; eexists; reflexivity|].
  destruct (b2z c =? 1) eqn:Z1; [left; eexists; reflexivity|].
  right. split; [reflexivity|]. exists o, c. apply Z.eqb_eq in E3. subst t. split; [reflexivity|].
  split; [exact C|]. split; intros ->; discriminate.
Qed.

(** ** Complete reads *)

(** [x] either returns, or trips over a boolean below [e]. *)
Definition outcome {A} (bs : Z) (m : mem) (e : elem) (x : res A) : Prop :=
  (exists a, x = Ok a) \/
  (x = Undef /\ exists path e', nav bs m e path = Ok e' /\ odd_bool m e').

Lemma outcome_bind {A B} bs m e (x : res A) (k : A -> res B) :
  outcome bs m e x -> (forall a, x = Ok a -> outcome bs m e (k a)) -> outcome bs m e (a <- x ;; k a).
Proof. intros [[a ->] | [-> H]] K; [apply K; reflexivity|]. right. split; [reflexivity|exact H]. Qed.

Lemma outcome_child {A} bs m e i e' (x : res A) : 0 <= i -> b_deref bs m e i = Ok e' ->
  outcome bs m e' x -> outcome bs m e x.
Proof.
  intros I D [H | [-> (path & e2 & N & OB)]]; [left; exact H|]. right. split; [reflexivity|].
  exists (Z.to_nat i :: path), e2. split; [|exact OB]. cbn [nav]. rewrite Z2Nat.id by lia. rewrite D. exact N.
Qed.

Lemma for_each_outcome {A} bs m e (g : Z -> res A) : forall n i, 0 <= i ->
  (forall j, i <= j < i + Z.of_nat n -> outcome bs m e (g j)) -> outcome bs m e (for_each g i n).
Proof.
  induction n as [|n IH]; intros i I H; cbn [for_each]; [left; eauto|].
  apply outcome_bind; [apply H; lia|]. intros a _. apply outcome_bind; [apply IH; [lia|]; intros; apply H; lia|].
  intros r _. left. eauto.
Qed.

Lemma deref_object bs m o i vt vp : load_value bs m o i = Ok (vt, vp) ->
  b_deref bs m (R_object, Some o) i = Ok (vt, Some vp).
Proof. intros E. unfold b_deref. cbn. rewrite E. reflexivity. Qed.
Lemma deref_array bs m o i e : get_elem m o i = Ok e -> b_deref bs m (R_array, Some o) i = Ok e.
Proof. intros E. unfold b_deref. cbn. exact E. Qed.

Theorem sound_read bs m : forall f t o, sound bs m (t, Some o) -> zlen m - o < Z.of_nat f ->
  outcome bs m (t, Some o) (read_value f bs m t o).
Proof.
  induction f as [|f IH]; intros t o S F.
  { destruct S as (_ & O & _). lia. }
  cbn [read_value]. destruct (t =? R_object) eqn:E1; [|destruct (t =? R_array) eqn:E2].
  - apply Z.eqb_eq in E1. subst t. destruct (sound_object bs m o S) as (total & n & _ & N & NR & _ & _ & P).
    rewrite N. cbn [bind]. apply outcome_bind; [|intros; left; eauto].
    apply for_each_outcome; [lia|]. intros j J. destruct (P j ltac:(lia)) as (kp & len & vt & vp & K1 & K2 & K3 & K4 & K5 & V1 & V2 & V3).
    rewrite K1. cbn [bind]. destruct (rd_strv_in m 2 kp len (2 + len + 1) K3 ltac:(lia) ltac:(lia)) as (k & -> & _).
    cbn [bind]. rewrite V1. cbn [bind]. apply outcome_child with (i := j) (e' := (vt, Some vp)); [lia|apply deref_object; exact V1|].
    apply outcome_bind; [apply IH; [exact V3|lia]|]. intros; left; eauto.
  - apply Z.eqb_eq in E2. subst t. destruct (sound_array bs m o S) as (total & n & _ & N & NR & _ & _ & P).
    rewrite N. cbn [bind]. apply outcome_bind; [|intros; left; eauto].
    apply for_each_outcome; [lia|]. intros j J. destruct (P j ltac:(lia)) as (vt & vp & K1 & V2 & V3).
    rewrite K1. cbn [bind]. apply outcome_child with (i := j) (e' := (vt, Some vp)); [lia|apply deref_array; exact K1|].
    apply IH; [exact V3|lia].
  - destruct (sound_scalar bs m t o S) as [H | [H OB]]; [lia|lia|left; exact H|].
    right. split; [exact H|]. exists [], (t, Some o). split; [reflexivity|exact OB].
Qed.

(** ** definalize *)
Lemma fold_range_outcome {A} bs m e (I : A -> Prop) (g : Z -> A -> res A) : forall n i acc, I acc ->
  (forall j a, i <= j < i + Z.of_nat n -> I a ->
     outcome bs m e (g j a) /\ forall a', g j a = Ok a' -> I a') ->
  outcome bs m e (fold_range g i n acc) /\ forall a', fold_range g i n acc = Ok a' -> I a'.
Proof.
  induction n as [|n IH]; intros i acc IA H; cbn [fold_range].
  - split; [left; eauto|]. intros a' E. apply Ok_inj in E. congruence.
  - destruct (H i acc) as [H1 H2]; [lia|assumption|].
    assert (IH' : forall a', g i acc = Ok a' -> outcome bs m e (fold_range g (i + 1) n a') /\
      forall a2, fold_range g (i + 1) n a' = Ok a2 -> I a2).
    { intros a' E. apply IH; [apply H2; exact E|]. intros j a J. apply H. lia. }
    split.
    + apply outcome_bind; [exact H1|]. intros a E. apply (IH' a E).
    + intros a' E. apply bind_Ok in E. destruct E as (a & E1 & E2). exact (proj2 (IH' a E1) _ E2).
Qed.

Lemma insert_obj fs k x : zlen k <= 65535 -> exists gs i, h_insert (VObj fs) (VStr k) x = Ok (VObj gs, i).
Proof.
  intros K. cbn [h_insert h_fields]. replace (65535 <? zlen k) with false by lia.
  destruct (map_find k fs); eauto.
Qed.

Definition is_obj (v : value) : Prop := exists fs, v = VObj fs.

Lemma scalar_type t : valid_type t = true -> t <> R_object -> t <> R_array ->
  match simplify_type t with T_object | T_array => False | T_null => t = R_null | _ => True end.
Proof.
  unfold valid_type, simplify_type, R_object, R_array, R_null, R_small_string, R_string, R_big_string,
    R_short_integer, R_integer, R_long_integer, R_decimal, R_long_decimal, R_boolean.
  intros V A B. replace (t =? 0) with false by lia. replace (t =? 1) with false by lia.
  repeat match goal with |- context [if ?b then _ else _] => destruct b eqn:?; [exact I|] end. lia.
Qed.

Lemma b_scalar_sound bs m t o : sound bs m (t, Some o) -> t <> R_object -> t <> R_array ->
  (exists v, b_scalar (simplify_type t) m (t, Some o) = Ok v) \/
  (b_scalar (simplify_type t) m (t, Some o) = Undef /\ odd_bool m (t, Some o)).
Proof.
  intros S A B. unfold b_scalar, b_type. cbn [fst snd].
  replace (utype_eqb (simplify_type t) (simplify_type t)) with true by (destruct (simplify_type t); reflexivity).
  apply (sound_scalar bs m t o S A B).
Qed.

Lemma push_arr vs x : zlen vs < 2 ^ 64 -> h_push_back (VArr vs) x = Ok (VArr (list_insert (Z.to_nat (zlen vs)) x vs)).
Proof.
  intros B. unfold h_push_back. cbn [h_size bind h_insert h_elements].
  rewrite Z.mod_small by zlia. rewrite Z.ltb_irrefl. reflexivity.
Qed.
Lemma zlen_list_insert {A} (x : A) : forall i l, zlen (list_insert i x l) = zlen l + 1.
Proof.
  induction i as [|i IH]; intros [|y l]; cbn [list_insert]; rewrite ?zlen_cons; try reflexivity; try lia.
Qed.

Theorem sound_from_buffer bs m : forall f t o, sound bs m (t, Some o) -> zlen m - o < Z.of_nat f ->
  outcome bs m (t, Some o) (from_buffer f bs m (t, Some o)).
Proof.
  induction f as [|f IH]; intros t o S F.
  { destruct S as (_ & O & _). lia. }
  cbn [from_buffer]. unfold b_type. cbn [fst].
  destruct (Z.eq_dec t R_object) as [-> | N1]; [|destruct (Z.eq_dec t R_array) as [-> | N2]].
  - change (simplify_type R_object) with T_object. cbn iota.
    destruct (sound_object bs m o S) as (total & n & _ & N & NR & _ & _ & P).
    change (b_size m (R_object, Some o)) with (agg_count m o). rewrite N. cbn [bind].
    apply (fold_range_outcome bs m _ is_obj); [exists []; reflexivity|].
    intros j a J [gs ->]. destruct (P j ltac:(lia)) as (kp & len & vt & vp & K1 & K2 & K3 & K4 & K5 & V1 & V2 & V3).
    change (b_deref_key m (R_object, Some o) j) with ('(t, p) <- load_key m o j ;; Ok (t, Some p)).
    rewrite K1. cbn [bind].
    destruct (rd_strv_in m 2 kp len (2 + len + 1) K3 ltac:(lia) ltac:(lia)) as (k & KS & KL).
    assert (FK : from_buffer f bs m (R_string, Some kp) = Ok (VStr k)).
    { destruct f as [|f']; [destruct (rd_le_range _ _ _ _ K3) as (R1 & R2 & R3); lia|].
      change (from_buffer (Datatypes.S f') bs m (R_string, Some kp)) with (s <- rd_strv m 2 kp ;; Ok (VStr s)). rewrite KS. reflexivity. }
    rewrite FK. cbn [bind]. rewrite (deref_object _ _ _ _ _ _ V1). cbn [bind].
    assert (KB : zlen k <= 65535).
    { apply rd_le_range in K3. change (2 ^ (8 * Z.of_nat 2)) with 65536 in K3. lia. }
    split.
    + apply outcome_child with (i := j) (e' := (vt, Some vp)); [lia|apply deref_object; exact V1|].
      apply outcome_bind; [apply IH; [exact V3|lia]|]. intros x _.
      destruct (insert_obj gs k x KB) as (hs & i & ->). left. eexists. reflexivity.
    + intros a' E. apply bind_Ok in E. destruct E as (x & _ & E).
      destruct (insert_obj gs k x KB) as (hs & i & E'). rewrite E' in E. cbn [bind] in E. apply Ok_inj in E. exists hs. congruence.
  - change (simplify_type R_array) with T_array. cbn iota.
    destruct (sound_array bs m o S) as (total & n & _ & N & NR & _ & _ & P).
    change (b_size m (R_array, Some o)) with (agg_count m o). rewrite N. cbn [bind].
    assert (G : forall k i vs, 0 <= i -> i + Z.of_nat k <= n -> zlen vs = i ->
      outcome bs m (R_array, Some o) (fold_range (fun i acc => ve <- b_deref bs m (R_array, Some o) i ;;
        x <- from_buffer f bs m ve ;; h_push_back acc x) i k (VArr vs))).
    { induction k as [|k IHk]; intros i vs I B L; cbn [fold_range]; [left; eauto|].
      destruct (P i ltac:(lia)) as (vt & vp & K1 & V2 & V3).
      rewrite (deref_array _ _ _ _ _ K1). cbn [bind].
      assert (B64 : zlen vs < 2 ^ 64) by (change (2 ^ 29) with 536870912 in NR; change (2 ^ 64) with 18446744073709551616; lia).
      apply outcome_bind.
      - apply outcome_child with (i := i) (e' := (vt, Some vp)); [lia|apply deref_array; exact K1|].
        apply outcome_bind; [apply IH; [exact V3|lia]|]. intros x _. rewrite (push_arr vs x B64). left. eauto.
      - intros a E. apply bind_Ok in E. destruct E as (x & _ & E). rewrite (push_arr vs x B64) in E.
        apply Ok_inj in E. subst a. apply IHk; [lia|lia|]. rewrite zlen_list_insert. lia. }
    apply G; [lia|lia|reflexivity].
  - assert (V : valid_type t = true) by apply S. pose proof (scalar_type t V N1 N2) as ST.
    pose proof (b_scalar_sound bs m t o S N1 N2) as BS.
    destruct (simplify_type t) eqn:Y; try contradiction; try (left; eauto; fail);
      destruct BS as [H | [H OB]]; try (left; exact H);
      right; (split; [exact H|]); exists [], (t, Some o); (split; [reflexivity|exact OB]).
Qed.
