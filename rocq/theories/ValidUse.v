(** Every read operation on accepted bytes stays inside them. *)

From Coq Require Import ZArith List Lia Bool.
From Coq Require Import ZifyBool ZifyNat ZifyN.
From Verif Require Import Base BaseFacts Keys Dec Wire Read Buf HeapOps ValidFacts.
Import ListNotations.
Open Scope Z_scope.

(** ** Binary search *)

(** Probes stay among the entries whatever the entries say. *)
Lemma get_key_loop_sound bs m o key n :
  0 <= o -> n < 2 ^ 29 ->
  (forall i, 0 <= i < n -> exists kp len vt vp,
      load_key m o i = Ok (R_string, kp) /\ o < kp /\ rd_le m kp 2 = Ok len /\ kp + 2 + len + 1 <= zlen m /\
      sound bs m (R_string, Some kp) /\
      load_value bs m o i = Ok (vt, vp) /\ o < vp /\ sound bs m (vt, Some vp)) ->
  o + 8 + 8 * n <= zlen m ->
  forall f low high, 0 <= low -> high < n -> high - low + 1 <= Z.of_nat f ->
  exists r, get_key_loop f m o key low high = Ok r /\
    forall i t p, r = Some (i, t, p) -> 0 <= i < n /\
      load_key m o i = Ok (R_string, p) /\ entry_rawtype m o i = Ok t.
Proof.
  intros O N29 P B. induction f as [|f IH]; intros low high L H F; cbn [get_key_loop].
  { replace (high <? low) with true by lia. exists None. split; [reflexivity|discriminate]. }
  destruct (high <? low) eqn:E; [exists None; split; [reflexivity|discriminate]|].
  set (mid := Z.quot (low + high) 2).
  assert (M : low <= mid <= high) by (unfold mid; Z.to_euclidean_division_equations; lia).
  assert (MN : 0 <= mid < n) by lia.
  destruct (P mid MN) as (kp & len & vt & vp & K1 & K2 & K3 & K4 & _ & V1 & _).
  unfold load_key in K1. apply bind_Ok in K1. destruct K1 as (off & K1 & K1'). apply Ok_inj in K1'.
  assert (KP : kp = o + off) by congruence. clear K1'. subst kp.
  unfold load_value in V1. rewrite K1 in V1. cbn [bind] in V1. apply bind_Ok in V1. destruct V1 as (ty & T & _).
  destruct (rd_le_in m (o + 8 + 8 * mid + 5) 1) as [pl PL]; [lia..|].
  destruct (proj2 (rd_bounds m (o + 8 + 8 * mid + 6) 2)) as [pb PB]; [lia|].
  unfold rd_entry. rewrite K1. cbn [bind]. rewrite T. cbn [bind]. rewrite PL. cbn [bind]. rewrite PB. cbn [bind].
  cbn [e_off e_type].
  destruct (rd_strv_in m 2 (o + off) len (2 + len + 1) K3 ltac:(lia) ltac:(lia)) as (k & KS & _).
  assert (G : forall c, exists r,
    (if c =? 0 then Ok (Some (mid, ty, o + off))
     else if 0 <? c then get_key_loop f m o key (mid + 1) high else get_key_loop f m o key low (mid - 1)) = Ok r /\
    forall i t p, r = Some (i, t, p) -> 0 <= i < n /\ load_key m o i = Ok (R_string, p) /\ entry_rawtype m o i = Ok t).
  { intros c. destruct (c =? 0).
    - eexists. split; [reflexivity|]. intros i t p EQ.
      assert (EI : i = mid /\ t = ty /\ p = o + off) by (split; [|split]; congruence).
      destruct EI as (-> & -> & ->). split; [exact MN|]. split; [|exact T]. unfold load_key. rewrite K1. reflexivity.
    - destruct (0 <? c); apply IH; lia. }
  match goal with |- context [bind (if negb (?c =? 0) then _ else _) _] => destruct (negb (c =? 0)) end.
  - cbn [bind]. apply G.
  - rewrite KS. cbn [bind]. apply G.
Qed.

Theorem sound_get_key bs m o key : sound bs m (R_object, Some o) ->
  exists r, get_key m o key = Ok r /\
    forall i t p, r = Some (i, t, p) -> exists n, agg_count m o = Ok n /\ 0 <= i < n /\
      load_key m o i = Ok (R_string, p) /\ entry_rawtype m o i = Ok t.
Proof.
  intros S. destruct (sound_object bs m o S) as (total & n & _ & N & NR & NT & TB & P).
  unfold get_key. rewrite N. cbn [bind]. destruct S as (_ & O & _).
  rewrite to_signed_small; [|lia|change (2 ^ (32 - 1)) with 2147483648; change (2 ^ 29) with 536870912 in NR; lia].
  destruct (get_key_loop_sound bs m o key n ltac:(lia) ltac:(lia) P ltac:(lia) (Z.to_nat n) 0 (n - 1)
    ltac:(lia) ltac:(lia) ltac:(lia)) as (r & E & H).
  exists r. split; [exact E|]. intros i t p EQ. exists n. split; [reflexivity|]. apply (H i t p EQ).
Qed.

(** ** Calls *)

(** A call that returns or throws one of the library's exceptions. *)
Definition calm {A} (x : res A) : Prop := (exists a, x = Ok a) \/ (exists e, x = Throw e).
(** ... and what it returns is again fine to use. *)
Definition gives (bs : Z) (m : mem) (x : res elem) : Prop :=
  (exists e, x = Ok e /\ sound bs m e) \/ (exists e, x = Throw e).

Lemma gives_calm bs m x : gives bs m x -> calm x.
Proof. intros [(e & E & _) | H]; [left; eauto|right; exact H]. Qed.

Lemma null_sound bs m : sound bs m (R_null, None).
Proof. reflexivity. Qed.

Lemma sound_get_value bs m o key absent : sound bs m (R_object, Some o) -> gives bs m absent ->
  gives bs m (get_value_impl bs m o key absent).
Proof.
  intros S A. unfold get_value_impl. destruct (sound_get_key bs m o key S) as (r & E & H). rewrite E. cbn [bind].
  destruct r as [[[i t] p]|]; [|exact A]. destruct (H i t p eq_refl) as (n' & N' & I & LK & T).
  destruct (sound_object bs m o S) as (total & n & _ & N & NR & NT & TB & P).
  assert (n' = n) by congruence. subst n'.
  destruct (t =? R_null); [left; exists (R_null, None); split; [reflexivity|apply null_sound]|].
  destruct (P i I) as (kp & len & vt & vp & K1 & K2 & K3 & K4 & _ & V1 & _ & V3).
  assert (kp = p) by congruence. subst kp.
  unfold load_key in K1. apply bind_Ok in K1. destruct K1 as (off & K1 & K1'). apply Ok_inj in K1'.
  assert (KP : p = o + off) by congruence. clear K1'.
  unfold load_value in V1. rewrite K1 in V1. cbn [bind] in V1. rewrite T in V1. cbn [bind] in V1.
  rewrite <- KP in V1. apply bind_Ok in V1. destruct V1 as (kl & KL & V1). rewrite KL. cbn [bind].
  apply Ok_inj in V1. left. exists (t, Some (align_ptr bs (p + kl) t)). split; [reflexivity|].
  assert (VE : t = vt /\ align_ptr bs (p + kl) t = vp) by (split; congruence).
  destruct VE as [-> ->]. exact V3.
Qed.

(** Types and pointers of sound elements. *)
Lemma sound_kind bs m e : sound bs m e ->
  (exists o, e = (R_object, Some o)) \/ (exists o, e = (R_array, Some o)) \/
  (b_type e <> T_object /\ b_type e <> T_array).
Proof.
  destruct e as [t [o|]]; intros S.
  - destruct S as (V & _). cbn [fst] in V. destruct (Z.eq_dec t R_object) as [-> | N1]; [left; eauto|].
    destruct (Z.eq_dec t R_array) as [-> | N2]; [right; left; eauto|]. right. right.
    pose proof (scalar_type t V N1 N2) as H. unfold b_type. cbn [fst]. destruct (simplify_type t); try contradiction; split; discriminate.
  - unfold sound in S. cbn [fst snd] in S. subst t. right. right. split; discriminate.
Qed.

Lemma b_object_sound {A} (C : res A -> Prop) bs m e k : sound bs m e ->
  (forall o, e = (R_object, Some o) -> C (k o)) -> C (Throw type_error) -> C (b_object e k).
Proof.
  intros S H T. destruct (sound_kind bs m e S) as [[o ->] | [[o ->] | [N1 N2]]].
  - apply (H o eq_refl).
  - exact T.
  - unfold b_object. destruct (b_type e); try exact T. congruence.
Qed.
Lemma b_array_sound {A} (C : res A -> Prop) bs m e k : sound bs m e ->
  (forall o, e = (R_array, Some o) -> C (k o)) -> C (Throw type_error) -> C (b_array e k).
Proof.
  intros S H T. destruct (sound_kind bs m e S) as [[o ->] | [[o ->] | [N1 N2]]].
  - exact T.
  - apply (H o eq_refl).
  - unfold b_array. destruct (b_type e); try exact T. congruence.
Qed.
Lemma throw_gives bs m x : gives bs m (Throw x).
Proof. right. eauto. Qed.
Lemma throw_calm {A} x : @calm A (Throw x).
Proof. right. eauto. Qed.
Lemma ok_calm {A} (a : A) : calm (Ok a).
Proof. left. eauto. Qed.

Theorem sound_b_get bs m e key : sound bs m e -> gives bs m (b_get bs m e key).
Proof.
  intros S. apply (b_object_sound (gives bs m) bs m); [exact S| |apply throw_gives]. intros o ->.
  apply sound_get_value; [exact S|]. left. exists (R_null, None). split; [reflexivity|apply null_sound].
Qed.
Theorem sound_b_at bs m e key : sound bs m e -> gives bs m (b_at bs m e key).
Proof.
  intros S. apply (b_object_sound (gives bs m) bs m); [exact S| |apply throw_gives]. intros o ->.
  apply sound_get_value; [exact S|apply throw_gives].
Qed.
Theorem sound_b_has_key bs m e key : sound bs m e -> calm (b_has_key m e key).
Proof.
  intros S. apply (b_object_sound calm bs m); [exact S| |apply throw_calm]. intros o ->.
  unfold has_key. destruct (sound_get_key bs m o key S) as (r & E & _). rewrite E. apply ok_calm.
Qed.

Lemma sound_get_elem bs m o i : sound bs m (R_array, Some o) -> 0 <= i -> gives bs m (get_elem m o i).
Proof.
  intros S I. destruct (sound_array bs m o S) as (total & n & _ & N & NR & NT & TB & P).
  destruct (Z_lt_le_dec i n) as [L | L].
  - destruct (P i ltac:(lia)) as (vt & vp & E & _ & SE). rewrite E. left. eauto.
  - unfold get_elem. rewrite N. cbn [bind]. replace (i <? n) with false by lia.
    left. exists (R_null, None). split; [reflexivity|apply null_sound].
Qed.
Theorem sound_b_get_idx bs m e i : sound bs m e -> 0 <= i -> gives bs m (b_get_idx m e i).
Proof.
  intros S I. apply (b_array_sound (gives bs m) bs m); [exact S| |apply throw_gives]. intros o ->.
  apply sound_get_elem; assumption.
Qed.
Theorem sound_b_at_idx bs m e i : sound bs m e -> 0 <= i -> gives bs m (b_at_idx m e i).
Proof.
  intros S I. apply (b_array_sound (gives bs m) bs m); [exact S| |apply throw_gives]. intros o ->.
  pose proof (sound_get_elem bs m o i S I) as G. destruct (sound_array bs m o S) as (total & n & _ & N & _).
  unfold get_elem in G. unfold at_elem. rewrite N in *. cbn [bind] in *.
  destruct (i <? n); [exact G|apply throw_gives].
Qed.

Theorem sound_b_size bs m e : sound bs m e ->
  calm (b_size m e) /\ forall n, b_size m e = Ok n -> 0 <= n.
Proof.
  intros S. destruct (sound_kind bs m e S) as [[o ->] | [[o ->] | [N1 N2]]].
  - destruct (sound_object bs m o S) as (total & n & _ & N & NR & _).
    change (b_size m (R_object, Some o)) with (agg_count m o). rewrite N. split; [apply ok_calm|]. intros x E. apply Ok_inj in E. lia.
  - destruct (sound_array bs m o S) as (total & n & _ & N & NR & _).
    change (b_size m (R_array, Some o)) with (agg_count m o). rewrite N. split; [apply ok_calm|]. intros x E. apply Ok_inj in E. lia.
  - unfold b_size. destruct (b_type e) eqn:T; try congruence; try (split; [apply throw_calm|discriminate]).
    destruct e as [t [o|]]; cbn [fst snd]; [|unfold sound in S; cbn in S; subst t; discriminate].
    assert (Q : rd_scalar m t o = (s <- (if t =? R_big_string then rd_strv m 4 o else rd_strv m 2 o) ;; Ok (VStr s))).
    { unfold b_type, simplify_type in T. cbn [fst] in T. unfold rd_scalar.
      unfold R_object, R_array, R_small_string, R_string, R_big_string in *.
      repeat match type of T with (if ?b then _ else _) = _ => destruct b eqn:?; try discriminate end.
      destruct (t =? 4) eqn:T4; [replace ((t =? 3) || (t =? 2)) with false by lia; reflexivity|].
      replace ((t =? 3) || (t =? 2)) with true by lia. reflexivity. }
    assert (D : (exists v, rd_scalar m t o = Ok v) \/ (rd_scalar m t o = Undef /\ odd_bool m (t, Some o))).
    { apply (sound_scalar bs m t o S); intros ->; discriminate. }
    destruct D as [[v V] | [_ (o' & c & Q2 & _)]].
    + rewrite Q in V. apply bind_Ok in V. destruct V as (s & V & _).
      destruct (t =? R_big_string); unfold rd_strv in V; apply bind_Ok in V; destruct V as (len & L & _);
        rewrite L; (split; [apply ok_calm|]); intros x E; apply Ok_inj in E; apply rd_le_range in L; lia.
    + assert (t = R_boolean) by congruence. subst t. discriminate.
Qed.

Theorem sound_b_front bs m e : sound bs m e -> gives bs m (b_front m e) /\ gives bs m (b_at_front m e).
Proof.
  intros S. destruct (sound_b_size bs m e S) as [C NN].
  assert (F : gives bs m (b_front m e)).
  { apply (b_array_sound (gives bs m) bs m); [exact S| |apply throw_gives]. intros o ->.
    destruct C as [[n E] | [x E]]; rewrite E; cbn [bind]; [|apply throw_gives].
    destruct (n =? 0); [left; exists (R_null, None); split; [reflexivity|apply null_sound]|].
    apply sound_get_elem; [exact S|lia]. }
  split; [exact F|]. unfold b_at_front. destruct C as [[n E] | [x E]]; rewrite E; cbn [bind]; [|apply throw_gives].
  destruct (n =? 0); [apply throw_gives|exact F].
Qed.
Theorem sound_b_back bs m e : sound bs m e -> gives bs m (b_back m e) /\ gives bs m (b_at_back m e).
Proof.
  intros S. destruct (sound_b_size bs m e S) as [C NN].
  assert (F : gives bs m (b_back m e)).
  { apply (b_array_sound (gives bs m) bs m); [exact S| |apply throw_gives]. intros o ->.
    destruct C as [[n E] | [x E]]; rewrite E; cbn [bind]; [|apply throw_gives].
    destruct (n =? 0) eqn:Z; [left; exists (R_null, None); split; [reflexivity|apply null_sound]|].
    apply sound_get_elem; [exact S|]. specialize (NN n E). lia. }
  split; [exact F|]. unfold b_at_back. destruct C as [[n E] | [x E]]; rewrite E; cbn [bind]; [|apply throw_gives].
  destruct (n =? 0); [apply throw_gives|exact F].
Qed.

(** Iterators between begin() and end(). *)
Theorem sound_b_deref bs m e i n : sound bs m e -> b_size m e = Ok n -> 0 <= i < n -> gives bs m (b_deref bs m e i).
Proof.
  intros S N I. destruct (sound_kind bs m e S) as [[o ->] | [[o ->] | [N1 N2]]].
  - destruct (sound_object bs m o S) as (total & n' & _ & N' & NR & NT & TB & P).
    change (b_size m (R_object, Some o)) with (agg_count m o) in N. assert (n' = n) by congruence. subst n'.
    destruct (P i I) as (kp & len & vt & vp & _ & _ & _ & _ & _ & V1 & _ & V3).
    rewrite (deref_object _ _ _ _ _ _ V1). left. eauto.
  - change (b_deref bs m (R_array, Some o) i) with (get_elem m o i). apply sound_get_elem; [exact S|lia].
  - unfold b_deref. destruct (b_type e); try congruence; apply throw_gives.
Qed.
Theorem sound_b_deref_key bs m e i n : sound bs m e -> b_size m e = Ok n -> 0 <= i < n -> gives bs m (b_deref_key m e i).
Proof.
  intros S N I. apply (b_object_sound (gives bs m) bs m); [exact S| |apply throw_gives]. intros o ->.
  destruct (sound_object bs m o S) as (total & n' & _ & N' & NR & NT & TB & P).
  change (b_size m (R_object, Some o)) with (agg_count m o) in N. assert (n' = n) by congruence. subst n'.
  destruct (P i I) as (kp & len & vt & vp & K1 & _ & _ & _ & K5 & _).
  rewrite K1. left. exists (R_string, Some kp). split; [reflexivity|exact K5].
Qed.

Theorem sound_bytes bs m e : sound bs m root -> sound bs m e -> calm (b_get_bytes m e) /\ calm (b_share_bytes m e).
Proof.
  assert (Q : forall o, sound bs m (R_object, Some o) -> calm (n <- rd_le m o 4 ;; rd m o n)).
  { intros o S. destruct (sound_object bs m o S) as (total & n & T & N & NR & NT & TB & P). rewrite T. cbn [bind].
    destruct S as (_ & O & _). destruct (proj2 (rd_bounds m o total)) as [x X]; [lia|]. rewrite X. apply ok_calm. }
  intros R S. split.
  - apply (b_object_sound calm bs m); [exact S| |apply throw_calm]. intros o ->. apply Q. exact S.
  - unfold b_share_bytes. destruct (b_type e); try apply throw_calm; apply Q; exact R.
Qed.

(** Scalars: [want] is the type asked for. *)
Theorem sound_b_scalar bs m e want : sound bs m e -> want <> T_object -> want <> T_array -> want <> T_null ->
  calm (b_scalar want m e) \/ (b_scalar want m e = Undef /\ odd_bool m e).
Proof.
  intros S W1 W2 W3. unfold b_scalar. destruct (utype_eqb (b_type e) want) eqn:E; [|left; apply throw_calm].
  assert (b_type e = want) by (destruct (b_type e), want; congruence || discriminate E).
  destruct e as [t [o|]]; cbn [fst snd].
  - destruct (sound_scalar bs m t o S) as [H1 | H1]; [intros ->; apply W1; symmetry; assumption|intros ->; apply W2; symmetry; assumption| |].
    + left. left. exact H1.
    + right. exact H1.
  - unfold sound in S. cbn in S. subst t. exfalso. apply W3. symmetry. exact H.
Qed.

(** ** Everything a user can hold *)

(** An element obtained from the root by any sequence of calls: lookups by key or
    index, front/back, dereferencing iterators between begin() and end(). *)
Inductive reach (bs : Z) (m : mem) : elem -> Prop :=
| reach_root : reach bs m root
| reach_get e key e' : reach bs m e -> b_get bs m e key = Ok e' -> reach bs m e'
| reach_at e key e' : reach bs m e -> b_at bs m e key = Ok e' -> reach bs m e'
| reach_get_idx e i e' : reach bs m e -> 0 <= i -> b_get_idx m e i = Ok e' -> reach bs m e'
| reach_at_idx e i e' : reach bs m e -> 0 <= i -> b_at_idx m e i = Ok e' -> reach bs m e'
| reach_front e e' : reach bs m e -> b_front m e = Ok e' -> reach bs m e'
| reach_back e e' : reach bs m e -> b_back m e = Ok e' -> reach bs m e'
| reach_iter e n i e' : reach bs m e -> b_size m e = Ok n -> 0 <= i < n -> b_deref bs m e i = Ok e' -> reach bs m e'
| reach_key e n i e' : reach bs m e -> b_size m e = Ok n -> 0 <= i < n -> b_deref_key m e i = Ok e' -> reach bs m e'.

Lemma gives_sound bs m x e : gives bs m x -> x = Ok e -> sound bs m e.
Proof. intros [(e' & -> & S) | [er ->]] E; [apply Ok_inj in E; congruence|discriminate]. Qed.

Theorem reach_sound bs m e : is_valid bs m = Ok true -> reach bs m e -> sound bs m e.
Proof.
  intros V R. induction R.
  - apply is_valid_sound. exact V.
  - exact (gives_sound _ _ _ _ (sound_b_get bs m e key IHR) H).
  - exact (gives_sound _ _ _ _ (sound_b_at bs m e key IHR) H).
  - exact (gives_sound _ _ _ _ (sound_b_get_idx bs m e i IHR H) H0).
  - exact (gives_sound _ _ _ _ (sound_b_at_idx bs m e i IHR H) H0).
  - exact (gives_sound _ _ _ _ (proj1 (sound_b_front bs m e IHR)) H).
  - exact (gives_sound _ _ _ _ (proj1 (sound_b_back bs m e IHR)) H).
  - exact (gives_sound _ _ _ _ (sound_b_deref bs m e i n IHR H H0) H1).
  - exact (gives_sound _ _ _ _ (sound_b_deref_key bs m e i n IHR H H0) H1).
Qed.

Theorem sound_value bs m e : sound bs m e -> outcome bs m e (b_value bs m e).
Proof.
  intros S. unfold b_value. destruct e as [t [o|]]; cbn [fst snd]; [|left; eauto].
  apply sound_read; [exact S|]. destruct S as (_ & O & _). unfold zlen in *. lia.
Qed.
Theorem sound_definalize bs m : is_valid bs m = Ok true -> outcome bs m root (definalize bs m).
Proof.
  intros V. apply sound_from_buffer; [apply is_valid_sound; exact V|]. unfold zlen. lia.
Qed.

(** ** Only the residue of the address matters *)
Lemma align_ptr_mod8 bs p t : align_ptr (bs mod 8) p t = align_ptr bs p t.
Proof.
  unfold align_ptr.
  assert (D : (8 * (bs / 8)) mod alignment_of t = 0).
  { unfold alignment_of. repeat match goal with |- context [if ?b then _ else _] => destruct b end;
      Z.to_euclidean_division_equations; lia. }
  assert (P : 0 < alignment_of t).
  { unfold alignment_of. repeat match goal with |- context [if ?b then _ else _] => destruct b end; lia. }
  replace (bs + p) with (8 * (bs / 8) + (bs mod 8 + p)) by (pose proof (Z.div_mod bs 8); lia).
  rewrite (align_up_add _ _ _ P D). pose proof (Z.div_mod bs 8). lia.
Qed.

Lemma valid_child_mod8 s bs t p o total prev :
  valid_child s (bs mod 8) t p o total prev = valid_child s bs t p o total prev.
Proof. unfold valid_child. rewrite align_ptr_mod8. reflexivity. Qed.
Lemma load_value_mod8 bs m o i : load_value (bs mod 8) m o i = load_value bs m o i.
Proof.
  unfold load_value. destruct (entry_offset m o i); cbn [bind]; try reflexivity.
  destruct (entry_rawtype m o i); cbn [bind]; try reflexivity.
  destruct (find_sizeof m R_string (o + a)); cbn [bind]; try reflexivity. rewrite align_ptr_mod8. reflexivity.
Qed.
Lemma bind_ext {A B} (x y : res A) (f g : A -> res B) : x = y -> (forall a, f a = g a) -> bind x f = bind y g.
Proof. intros -> H. destruct y; cbn; auto. Qed.

Lemma valid_buffer_mod8 s bs m : forall f t o bytes,
  valid_buffer f s (bs mod 8) m t o bytes = valid_buffer f s bs m t o bytes.
Proof.
  induction f as [|f IH]; intros t o bytes; [reflexivity|]. cbn [valid_buffer].
  assert (P : forall total n prev i,
    valid_pairs (fun t o b => valid_buffer f s (bs mod 8) m t o b) s (bs mod 8) m o total prev i n =
    valid_pairs (fun t o b => valid_buffer f s bs m t o b) s bs m o total prev i n).
  { induction n as [|n IHn]; intros prev i; cbn [valid_pairs]; [reflexivity|].
    apply bind_ext; [reflexivity|]. intros [kt kp]. apply bind_ext; [apply valid_child_mod8|]. intros []; cbn [negb]; [|reflexivity].
    apply bind_ext; [apply IH|]. intros []; cbn [negb]; [|reflexivity].
    apply bind_ext; [apply load_value_mod8|]. intros [vt vp]. apply bind_ext; [apply valid_child_mod8|]. intros []; cbn [negb]; [|reflexivity].
    apply bind_ext; [apply IH|]. intros []; cbn [negb]; [|reflexivity]. apply IHn. }
  assert (E : forall total n prev i,
    valid_elems (fun t o b => valid_buffer f s (bs mod 8) m t o b) s (bs mod 8) m o total prev i n =
    valid_elems (fun t o b => valid_buffer f s bs m t o b) s bs m o total prev i n).
  { induction n as [|n IHn]; intros prev i; cbn [valid_elems]; [reflexivity|].
    apply bind_ext; [reflexivity|]. intros [vt [vp|]]; [|reflexivity].
    apply bind_ext; [apply valid_child_mod8|]. intros []; cbn [negb]; [|reflexivity].
    apply bind_ext; [apply IH|]. intros []; cbn [negb]; [|reflexivity]. apply IHn. }
  assert (G : forall c c' : Z -> nat -> res bool, (forall total n, c total n = c' total n) ->
    valid_aggregate s m o bytes c = valid_aggregate s m o bytes c').
  { intros c c' H. unfold valid_aggregate. destruct (bytes <? 8); [reflexivity|].
    apply bind_ext; [reflexivity|]. intros total. destruct (bytes <? total); [reflexivity|].
    apply bind_ext; [reflexivity|]. intros n. destruct (_ <? _); [reflexivity|].
    apply bind_ext; [reflexivity|]. intros []; cbn [negb]; [apply H|reflexivity]. }
  destruct (t =? R_null); [reflexivity|]. destruct (negb (valid_type t)); [reflexivity|].
  destruct (t =? R_object); [apply G; intros; apply P|]. destruct (t =? R_array); [apply G; intros; apply E|].
  reflexivity.
Qed.

Theorem is_valid_mod8 bs bs' m : bs mod 8 = bs' mod 8 -> is_valid bs m = is_valid bs' m.
Proof.
  intros E. unfold is_valid.
  transitivity (valid_buffer (S (length m)) true (bs mod 8) m R_object 0 (zlen m)); [symmetry; apply valid_buffer_mod8|].
  rewrite E. apply valid_buffer_mod8.
Qed.
