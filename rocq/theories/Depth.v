(** How many nested calls validating and reading a buffer take.  In Read.v, fuel is spent by
    one for each call of valid_buffer and each aggregate entered, and given back on return: a run
    with fuel [f] is one with stack for [f] nested calls, [Fuel] one that needed more. *)

From Coq Require Import ZArith List Lia Bool.
From Coq Require Import ZifyBool ZifyNat ZifyN.
From Verif Require Import Base BaseFacts Keys Dec Wire Read Buf HeapOps ReadFacts BufFacts ValidFacts SpecCost.
Import ListNotations.
Open Scope Z_scope.

(** ** More stack never changes an answer *)
Definition upto {A} (x y : res A) : Prop := x = Fuel \/ x = y.
Lemma upto_refl {A} (x : res A) : upto x x. Proof. now right. Qed.
Lemma upto_bind {A B} (x y : res A) (k k' : A -> res B) : upto x y -> (forall a, upto (k a) (k' a)) -> upto (bind x k) (bind y k').
Proof. intros [-> | ->] H; [now left|]. destruct y; cbn [bind]; try apply upto_refl. apply H. Qed.

Lemma pairs_upto vb vb' s bs m o total : (forall t p n, upto (vb t p n) (vb' t p n)) -> forall n prev i,
  upto (valid_pairs vb s bs m o total prev i n) (valid_pairs vb' s bs m o total prev i n).
Proof.
  intros H. induction n as [|n IH]; intros prev i; cbn [valid_pairs]; [apply upto_refl|].
  apply upto_bind; [apply upto_refl|]. intros [kt kp]. apply upto_bind; [apply upto_refl|]. intros []; cbn [negb]; [|apply upto_refl].
  apply upto_bind; [apply H|]. intros []; cbn [negb]; [|apply upto_refl].
  apply upto_bind; [apply upto_refl|]. intros [vt vp]. apply upto_bind; [apply upto_refl|]. intros []; cbn [negb]; [|apply upto_refl].
  apply upto_bind; [apply H|]. intros []; cbn [negb]; [|apply upto_refl]. apply IH.
Qed.
Lemma elems_upto vb vb' s bs m o total : (forall t p n, upto (vb t p n) (vb' t p n)) -> forall n prev i,
  upto (valid_elems vb s bs m o total prev i n) (valid_elems vb' s bs m o total prev i n).
Proof.
  intros H. induction n as [|n IH]; intros prev i; cbn [valid_elems]; [apply upto_refl|].
  apply upto_bind; [apply upto_refl|]. intros [vt [vp|]]; [|apply upto_refl].
  apply upto_bind; [apply upto_refl|]. intros []; cbn [negb]; [|apply upto_refl].
  apply upto_bind; [apply H|]. intros []; cbn [negb]; [|apply upto_refl]. apply IH.
Qed.
Lemma aggregate_upto s m o bytes ch ch' : (forall t n, upto (ch t n) (ch' t n)) -> upto (valid_aggregate s m o bytes ch) (valid_aggregate s m o bytes ch').
Proof.
  intros H. unfold valid_aggregate. destruct (bytes <? 8); [apply upto_refl|]. apply upto_bind; [apply upto_refl|]. intros total.
  destruct (bytes <? total); [apply upto_refl|]. apply upto_bind; [apply upto_refl|]. intros n. destruct (total <? 8 + 8 * n); [apply upto_refl|].
  apply upto_bind; [apply upto_refl|]. intros []; cbn [negb]; [apply H|apply upto_refl].
Qed.
Theorem valid_upto s bs m : forall f g t o bytes, (f <= g)%nat -> upto (valid_buffer f s bs m t o bytes) (valid_buffer g s bs m t o bytes).
Proof.
  induction f as [|f IH]; intros g t o bytes L; [now left|]. destruct g as [|g]; [lia|]. cbn [valid_buffer].
  destruct (t =? R_null); [apply upto_refl|]. destruct (negb (valid_type t)); [apply upto_refl|].
  destruct (t =? R_object). { apply aggregate_upto. intros. apply pairs_upto. intros. apply IH. lia. }
  destruct (t =? R_array). { apply aggregate_upto. intros. apply elems_upto. intros. apply IH. lia. }
  apply upto_refl.
Qed.

Lemma for_each_upto {A} (f g : Z -> res A) : (forall i, upto (f i) (g i)) -> forall n i, upto (for_each f i n) (for_each g i n).
Proof.
  intros H. induction n as [|n IH]; intros i; cbn [for_each]; [apply upto_refl|]. apply upto_bind; [apply H|]. intros a.
  apply upto_bind; [apply IH|]. intros; apply upto_refl.
Qed.
Theorem read_upto bs m : forall f g t o, (f <= g)%nat -> upto (read_value f bs m t o) (read_value g bs m t o).
Proof.
  induction f as [|f IH]; intros g t o L; [now left|]. destruct g as [|g]; [lia|]. cbn [read_value].
  destruct (t =? R_object).
  { apply upto_bind; [apply upto_refl|]. intros n. apply upto_bind; [|intros; apply upto_refl]. apply for_each_upto. intros i.
    apply upto_bind; [apply upto_refl|]. intros [? kp]. apply upto_bind; [apply upto_refl|]. intros k.
    apply upto_bind; [apply upto_refl|]. intros [ty vp]. apply upto_bind; [apply IH; lia|]. intros; apply upto_refl. }
  destruct (t =? R_array); [|apply upto_refl].
  apply upto_bind; [apply upto_refl|]. intros n. apply upto_bind; [|intros; apply upto_refl]. apply for_each_upto. intros i.
  apply upto_bind; [apply upto_refl|]. intros [ty [vp|]]; [apply IH; lia|apply upto_refl].
Qed.

(** ** How much is enough, whatever the bytes *)
Definition ends {A} (x : res A) : Prop := x <> Fuel.
Lemma ends_bind {A B} (x : res A) (k : A -> res B) : ends x -> (forall a, x = Ok a -> ends (k a)) -> ends (bind x k).
Proof. intros E H. destruct x; cbn [bind]; try discriminate; [now apply H|contradiction]. Qed.
Lemma ends_rd m o n : ends (rd m o n). Proof. unfold rd. destruct (_ && _); discriminate. Qed.
Lemma ends_rd_le m o n : ends (rd_le m o n). Proof. apply ends_bind; [apply ends_rd|]. discriminate. Qed.
Lemma ends_load_key m o i : ends (load_key m o i). Proof. apply ends_bind; [apply ends_rd_le|]. discriminate. Qed.
Lemma ends_load_value bs m o i : ends (load_value bs m o i).
Proof.
  unfold load_value. apply ends_bind; [apply ends_rd_le|]. intros off _. apply ends_bind; [apply ends_rd_le|]. intros ty _.
  apply ends_bind; [|discriminate]. apply ends_bind; [apply ends_rd_le|]. discriminate.
Qed.
Lemma ends_get_elem m o i : ends (get_elem m o i).
Proof.
  unfold get_elem. apply ends_bind; [apply ends_rd_le|]. intros n _. destruct (i <? n); [|discriminate].
  apply ends_bind; [apply ends_rd_le|]. intros ty _. apply ends_bind; [apply ends_rd_le|]. discriminate.
Qed.
Lemma ends_vfail s : ends (vfail s). Proof. destruct s; discriminate. Qed.
Lemma ends_child s bs t p o total prev : ends (valid_child s bs t p o total prev).
Proof. unfold valid_child. repeat match goal with |- context [if ?b then _ else _] => destruct b end; try apply ends_vfail; discriminate. Qed.
Lemma ends_types s m o : forall n i, ends (valid_types s m o i n).
Proof.
  induction n as [|n IH]; intros i; cbn [valid_types]; [discriminate|]. apply ends_bind; [apply ends_rd_le|]. intros ty _.
  destruct (valid_type ty); [apply IH|apply ends_vfail].
Qed.
Lemma ends_string s m w o bytes : ends (valid_string s m w o bytes).
Proof.
  unfold valid_string. destruct (_ <? _); [apply ends_vfail|]. apply ends_bind; [apply ends_rd_le|]. intros len _. destruct (_ <? _); [apply ends_vfail|].
  apply ends_bind; [apply ends_rd|]. intros [|[] [|]] _; try apply ends_vfail; discriminate.
Qed.
Lemma ends_primitive s w bytes : ends (valid_primitive s w bytes).
Proof. unfold valid_primitive. destruct (_ <? _); [apply ends_vfail|discriminate]. Qed.

Definition agg (t : Z) : Prop := t = R_object \/ t = R_array.
Lemma agg_dec t : {agg t} + {~ agg t}.
Proof.
  unfold agg. destruct (Z.eq_dec t R_object); [now left; left|]. destruct (Z.eq_dec t R_array); [now left; right|right; tauto].
Qed.
Lemma agg_aligned bs p t : agg t -> align_ptr bs p t = p -> (bs + p) mod 8 = 0.
Proof.
  intros A E. assert (alignment_of t = 8) by (destruct A as [-> | ->]; reflexivity). unfold align_ptr in E. rewrite H in E.
  replace (bs + p) with (align_up (bs + p) 8) by lia. apply align_up_mod. lia.
Qed.
Lemma ends_leaf s bs m t o bytes f : ~ agg t -> ends (valid_buffer (S f) s bs m t o bytes).
Proof.
  intros N. cbn [valid_buffer]. destruct (t =? R_null); [discriminate|]. destruct (negb (valid_type t)); [discriminate|].
  destruct (t =? R_object) eqn:TO; [elim N; left; lia|]. destruct (t =? R_array) eqn:TA; [elim N; right; lia|].
  repeat match goal with |- context [if ?b then _ else _] => destruct b end; apply ends_string || apply ends_primitive.
Qed.

(* what a child is given: it lies beyond its parent's start, and aggregates are aligned *)
Definition child_ends (vb : Z -> Z -> Z -> res bool) (bs o total : Z) : Prop :=
  forall t p, o < p -> p - o <= total -> (agg t -> (bs + p) mod 8 = 0) -> ends (vb t p (total - (p - o))).
Lemma ends_pairs vb s bs m o total : child_ends vb bs o total -> forall n prev i, o <= prev -> ends (valid_pairs vb s bs m o total prev i n).
Proof.
  intros H. induction n as [|n IH]; intros prev i P; cbn [valid_pairs]; [discriminate|].
  apply ends_bind; [apply ends_load_key|]. intros [kt kp] _. apply ends_bind; [apply ends_child|]. intros [] C1; cbn [negb]; [|discriminate].
  apply valid_child_true in C1. apply ends_bind; [apply H; try lia; intros A; apply (agg_aligned bs kp kt A); lia|]. intros [] _; cbn [negb]; [|discriminate].
  apply ends_bind; [apply ends_load_value|]. intros [vt vp] _. apply ends_bind; [apply ends_child|]. intros [] C2; cbn [negb]; [|discriminate].
  apply valid_child_true in C2. apply ends_bind; [apply H; try lia; intros A; apply (agg_aligned bs vp vt A); lia|]. intros [] _; cbn [negb]; [|discriminate].
  apply IH. lia.
Qed.
Lemma ends_elems vb s bs m o total : child_ends vb bs o total -> forall n prev i, o <= prev -> ends (valid_elems vb s bs m o total prev i n).
Proof.
  intros H. induction n as [|n IH]; intros prev i P; cbn [valid_elems]; [discriminate|].
  apply ends_bind; [apply ends_get_elem|]. intros [vt [vp|]] _; [|apply ends_vfail]. apply ends_bind; [apply ends_child|]. intros [] C2; cbn [negb]; [|discriminate].
  apply valid_child_true in C2. apply ends_bind; [apply H; try lia; intros A; apply (agg_aligned bs vp vt A); lia|]. intros [] _; cbn [negb]; [|discriminate].
  apply IH. lia.
Qed.
Lemma ends_aggregate s m o bytes ch : (forall total n, 0 <= total <= bytes -> 8 <= bytes -> ends (ch total n)) -> ends (valid_aggregate s m o bytes ch).
Proof.
  intros H. unfold valid_aggregate. destruct (bytes <? 8) eqn:B; [apply ends_vfail|]. apply ends_bind; [apply ends_rd_le|]. intros total R.
  apply rd_le_range in R. destruct (bytes <? total) eqn:T; [apply ends_vfail|]. apply ends_bind; [apply ends_rd_le|]. intros n _.
  destruct (total <? 8 + 8 * n); [apply ends_vfail|]. apply ends_bind; [apply ends_types|]. intros [] _; cbn [negb]; [apply H; lia|discriminate].
Qed.
Lemma valid_step s bs m f t o bytes : (forall total, 0 <= total <= bytes -> 8 <= bytes -> child_ends (valid_buffer f s bs m) bs o total) ->
  ends (valid_buffer (S f) s bs m t o bytes).
Proof.
  intros H. destruct (agg_dec t) as [A|N]; [|now apply ends_leaf]. cbn [valid_buffer].
  destruct (t =? R_null); [discriminate|]. destruct (negb (valid_type t)); [discriminate|].
  destruct (t =? R_object) eqn:TO. { apply ends_aggregate. intros. apply ends_pairs; [now apply H|lia]. }
  destruct (t =? R_array) eqn:TA. { apply ends_aggregate. intros. apply ends_elems; [now apply H|lia]. }
  destruct A; lia.
Qed.
Lemma valid_ends_aligned s bs m : forall f t o bytes, 0 <= bytes -> (agg t -> (bs + o) mod 8 = 0 /\ 2 + bytes / 8 <= Z.of_nat f) -> (0 < f)%nat ->
  ends (valid_buffer f s bs m t o bytes).
Proof.
  induction f as [|f IH]; intros t o bytes B A L; [lia|]. destruct (agg_dec t) as [At|N]; [|now apply ends_leaf].
  destruct (A At) as [AL E]. apply valid_step. intros total T B8 t' p P1 P2 P3.
  assert (0 <= bytes / 8) by (apply Z.div_pos; lia). apply IH; [lia| |lia]. intros A'. specialize (P3 A'). split; [exact P3|].
  assert (8 <= p - o).
  { destruct (Z_lt_le_dec (p - o) 8) as [L8|]; [|lia]. exfalso. replace (bs + p) with ((p - o) + (bs + o)) in P3 by lia.
    rewrite Z.add_mod, AL, Z.add_0_r, Z.mod_mod in P3 by lia. rewrite Z.mod_small in P3; lia. }
  assert (total - (p - o) <= bytes + (-1) * 8) by lia. pose proof (Z.div_le_mono _ _ 8 ltac:(lia) H1). rewrite Z.div_add in H2 by lia. lia.
Qed.
Theorem valid_ends s bs m t o bytes f : 0 <= bytes -> 3 + bytes / 8 <= Z.of_nat f -> ends (valid_buffer f s bs m t o bytes).
Proof.
  intros B E. assert (0 <= bytes / 8) by (apply Z.div_pos; lia). destruct f as [|f]; [lia|]. apply valid_step. intros total T B8 t' p P1 P2 P3.
  apply valid_ends_aligned; [lia| |lia]. intros A. split; [exact (P3 A)|].
  assert (total - (p - o) <= bytes) by lia. pose proof (Z.div_le_mono _ _ 8 ltac:(lia) H0). lia.
Qed.

(** ** How much is needed for an accepted buffer: as many as the value in it has levels *)
Lemma levels_obj fs : levels (VObj fs) = S (pair_levels fs). Proof. reflexivity. Qed.
Lemma levels_arr vs : levels (VArr vs) = S (elem_levels vs). Proof. reflexivity. Qed.
Lemma levels_pos v : (1 <= levels v)%nat. Proof. destruct v; cbn [levels]; lia. Qed.

Lemma pairs_levels vb s bs m o total rv f :
  (forall t p n v, vb t p n = Ok true -> rv t p = Ok v -> (levels v <= f)%nat) ->
  forall n prev i fs, valid_pairs vb s bs m o total prev i n = Ok true ->
    for_each (fun i => '(_, kp) <- load_key m o i ;; k <- rd_strv m 2 kp ;;
                       '(ty, vp) <- load_value bs m o i ;; v <- rv ty vp ;; Ok (k, v)) i n = Ok fs ->
    (pair_levels fs <= f)%nat.
Proof.
  intros HV. induction n as [|n IH]; intros prev i fs E R; cbn [valid_pairs for_each] in *.
  { injection R as <-. cbn [pair_levels]. lia. }
  apply bind_Ok in E. destruct E as ([kt kp] & K & E). rewrite K in R. cbn [bind] in R.
  apply bind_Ok in E. destruct E as ([] & C1 & E); cbn [negb] in E; [|discriminate].
  apply bind_Ok in E. destruct E as ([] & V1 & E); cbn [negb] in E; [|discriminate].
  apply bind_Ok in E. destruct E as ([vt vp] & L & E).
  apply bind_Ok in E. destruct E as ([] & C2 & E); cbn [negb] in E; [|discriminate].
  apply bind_Ok in E. destruct E as ([] & V2 & E); cbn [negb] in E; [|discriminate].
  apply bind_Ok in R. destruct R as (kv & R1 & R). apply bind_Ok in R1. destruct R1 as (k & _ & R1). rewrite L in R1. cbn [bind] in R1.
  apply bind_Ok in R1. destruct R1 as (v & R1 & RK). injection RK as <-. apply bind_Ok in R. destruct R as (r & R2 & R). injection R as <-.
  cbn [pair_levels]. pose proof (HV _ _ _ _ V2 R1). pose proof (IH _ _ _ E R2). lia.
Qed.
Lemma elems_levels vb s bs m o total rv f :
  (forall t p n v, vb t p n = Ok true -> rv t p = Ok v -> (levels v <= f)%nat) ->
  forall n prev i vs, valid_elems vb s bs m o total prev i n = Ok true ->
    for_each (fun i => '(ty, p) <- get_elem m o i ;; match p with Some vp => rv ty vp | None => Ok VNull end) i n = Ok vs ->
    (elem_levels vs <= f)%nat.
Proof.
  intros HV. induction n as [|n IH]; intros prev i vs E R; cbn [valid_elems for_each] in *.
  { injection R as <-. cbn [elem_levels]. lia. }
  apply bind_Ok in E. destruct E as ([vt [vp|]] & K & E); [|destruct s; discriminate]. rewrite K in R. cbn [bind] in R.
  apply bind_Ok in E. destruct E as ([] & C1 & E); cbn [negb] in E; [|discriminate].
  apply bind_Ok in E. destruct E as ([] & V2 & E); cbn [negb] in E; [|discriminate].
  apply bind_Ok in R. destruct R as (v & R1 & R). apply bind_Ok in R. destruct R as (r & R2 & R). injection R as <-.
  cbn [elem_levels]. pose proof (HV _ _ _ _ V2 R1). pose proof (IH _ _ _ E R2). lia.
Qed.
Lemma pairs_enough vb vb' s bs m o total rv f :
  (forall p n, vb R_string p n = Ok true -> (1 <= f)%nat -> vb' R_string p n = Ok true) ->
  (forall t p n v, vb t p n = Ok true -> rv t p = Ok v -> (levels v <= f)%nat -> vb' t p n = Ok true) ->
  forall n prev i fs, valid_pairs vb s bs m o total prev i n = Ok true ->
    for_each (fun i => '(_, kp) <- load_key m o i ;; k <- rd_strv m 2 kp ;;
                       '(ty, vp) <- load_value bs m o i ;; v <- rv ty vp ;; Ok (k, v)) i n = Ok fs ->
    (pair_levels fs <= f)%nat -> valid_pairs vb' s bs m o total prev i n = Ok true.
Proof.
  intros HK HV. induction n as [|n IH]; intros prev i fs E R Lf; cbn [valid_pairs for_each] in *; [reflexivity|].
  apply bind_Ok in E. destruct E as ([kt kp] & K & E). rewrite K in R |- *. cbn [bind] in R |- *.
  apply bind_Ok in E. destruct E as ([] & C1 & E); cbn [negb] in E; [|discriminate].
  apply bind_Ok in E. destruct E as ([] & V1 & E); cbn [negb] in E; [|discriminate].
  apply bind_Ok in E. destruct E as ([vt vp] & L & E).
  apply bind_Ok in E. destruct E as ([] & C2 & E); cbn [negb] in E; [|discriminate].
  apply bind_Ok in E. destruct E as ([] & V2 & E); cbn [negb] in E; [|discriminate].
  assert (kt = R_string).
  { unfold load_key in K. apply bind_Ok in K. destruct K as (off & _ & K). apply Ok_inj in K. congruence. }
  subst kt. apply bind_Ok in R. destruct R as (kv & R1 & R). apply bind_Ok in R1. destruct R1 as (k & _ & R1). rewrite L in R1. cbn [bind] in R1.
  apply bind_Ok in R1. destruct R1 as (v & R1 & RK). injection RK as <-. apply bind_Ok in R. destruct R as (r & R2 & R). injection R as <-.
  cbn [pair_levels] in Lf. pose proof (levels_pos v).
  rewrite C1. cbn [bind negb]. rewrite (HK _ _ V1 ltac:(lia)). cbn [bind negb]. rewrite L. cbn [bind]. rewrite C2. cbn [bind negb].
  rewrite (HV _ _ _ _ V2 R1 ltac:(lia)). cbn [bind negb]. exact (IH _ _ _ E R2 ltac:(lia)).
Qed.
Lemma elems_enough vb vb' s bs m o total rv f :
  (forall t p n v, vb t p n = Ok true -> rv t p = Ok v -> (levels v <= f)%nat -> vb' t p n = Ok true) ->
  forall n prev i vs, valid_elems vb s bs m o total prev i n = Ok true ->
    for_each (fun i => '(ty, p) <- get_elem m o i ;; match p with Some vp => rv ty vp | None => Ok VNull end) i n = Ok vs ->
    (elem_levels vs <= f)%nat -> valid_elems vb' s bs m o total prev i n = Ok true.
Proof.
  intros HV. induction n as [|n IH]; intros prev i vs E R Lf; cbn [valid_elems for_each] in *; [reflexivity|].
  apply bind_Ok in E. destruct E as ([vt [vp|]] & K & E); [|destruct s; discriminate]. rewrite K in R |- *. cbn [bind] in R |- *.
  apply bind_Ok in E. destruct E as ([] & C1 & E); cbn [negb] in E; [|discriminate].
  apply bind_Ok in E. destruct E as ([] & V2 & E); cbn [negb] in E; [|discriminate].
  apply bind_Ok in R. destruct R as (v & R1 & R). apply bind_Ok in R. destruct R as (r & R2 & R). injection R as <-.
  cbn [elem_levels] in Lf. rewrite C1. cbn [bind negb]. rewrite (HV _ _ _ _ V2 R1 ltac:(lia)). cbn [bind negb]. exact (IH _ _ _ E R2 ltac:(lia)).
Qed.

Lemma rd_scalar_levels m t o v : rd_scalar m t o = Ok v -> levels v = 1%nat.
Proof.
  unfold rd_scalar. repeat match goal with |- context [if ?b then _ else _] => destruct b end; intros E;
    try (injection E as <-; reflexivity); apply bind_Ok in E; destruct E as (z & _ & E);
    repeat match goal with H : context [if ?b then _ else _] |- _ => destruct b end; try discriminate; injection E as <-; reflexivity.
Qed.
Lemma aggregate_true s m o bytes ch : valid_aggregate s m o bytes ch = Ok true ->
  exists total n, agg_count m o = Ok n /\ ch total (Z.to_nat n) = Ok true /\
    forall ch' : Z -> nat -> res bool, ch' total (Z.to_nat n) = Ok true -> valid_aggregate s m o bytes ch' = Ok true.
Proof.
  unfold valid_aggregate. destruct (bytes <? 8); [destruct s; discriminate|]. intros E. apply bind_Ok in E. destruct E as (total & R & E).
  destruct (bytes <? total) eqn:B; [destruct s; discriminate|]. apply bind_Ok in E. destruct E as (n & A & E).
  destruct (total <? 8 + 8 * n) eqn:T; [destruct s; discriminate|]. apply bind_Ok in E. destruct E as ([] & Y & E); [|discriminate].
  exists total, n. split; [exact A|]. split; [exact E|]. intros ch' Q. rewrite R. cbn [bind]. rewrite B, A. cbn [bind]. rewrite T, Y. exact Q.
Qed.

Theorem valid_levels s bs m : forall f g t o bytes v, valid_buffer f s bs m t o bytes = Ok true -> read_value g bs m t o = Ok v ->
  (levels v <= f)%nat.
Proof.
  induction f as [|f IH]; intros g t o bytes v E R; [discriminate|]. cbn [valid_buffer] in E. destruct g as [|g]; [discriminate|]. cbn [read_value] in R.
  destruct (t =? R_object) eqn:TO.
  { assert (t = R_object) by lia. subst t. change (R_object =? R_null) with false in E. change (negb (valid_type R_object)) with false in E. cbn iota in E.
    apply aggregate_true in E. destruct E as (total & n & A & E & _). rewrite A in R. cbn [bind] in R.
    apply bind_Ok in R. destruct R as (fs & R & Q). injection Q as <-. rewrite levels_obj. apply le_n_S.
    eapply (pairs_levels _ s bs m o total (read_value g bs m)); [intros t p k v H1 H2; exact (IH g t p k v H1 H2)|exact E|exact R]. }
  destruct (t =? R_array) eqn:TA.
  { assert (t = R_array) by lia. subst t. change (R_array =? R_null) with false in E. change (negb (valid_type R_array)) with false in E. cbn iota in E.
    apply aggregate_true in E. destruct E as (total & n & A & E & _). rewrite A in R. cbn [bind] in R.
    apply bind_Ok in R. destruct R as (fs & R & Q). injection Q as <-. rewrite levels_arr. apply le_n_S.
    eapply (elems_levels _ s bs m o total (read_value g bs m)); [intros t p k v H1 H2; exact (IH g t p k v H1 H2)|exact E|exact R]. }
  rewrite (rd_scalar_levels _ _ _ _ R). lia.
Qed.
Theorem valid_enough s bs m : forall f f0 g t o bytes v, valid_buffer f0 s bs m t o bytes = Ok true -> read_value g bs m t o = Ok v ->
  (levels v <= f)%nat -> valid_buffer f s bs m t o bytes = Ok true.
Proof.
  induction f as [|f IH]; intros f0 g t o bytes v E R L; [pose proof (levels_pos v); lia|].
  destruct f0 as [|f0]; [discriminate|]. cbn [valid_buffer] in E |- *. destruct g as [|g]; [discriminate|]. cbn [read_value] in R.
  destruct (t =? R_object) eqn:TO.
  { assert (t = R_object) by lia. subst t. change (R_object =? R_null) with false in *. change (negb (valid_type R_object)) with false in *. cbn iota in *.
    apply aggregate_true in E. destruct E as (total & n & A & E & C). rewrite A in R. cbn [bind] in R.
    apply bind_Ok in R. destruct R as (fs & R & Q). injection Q as <-. rewrite levels_obj in L. apply C.
    eapply (pairs_enough _ _ s bs m o total (read_value g bs m) f); [|intros t p k v H1 H2 H3; exact (IH f0 g t p k v H1 H2 H3)|exact E|exact R|lia].
    intros p k H1 H2. destruct f0 as [|f0]; [discriminate|]. destruct f as [|f]; [lia|]. exact H1. }
  destruct (t =? R_array) eqn:TA.
  { assert (t = R_array) by lia. subst t. change (R_array =? R_null) with false in *. change (negb (valid_type R_array)) with false in *. cbn iota in *.
    apply aggregate_true in E. destruct E as (total & n & A & E & C). rewrite A in R. cbn [bind] in R.
    apply bind_Ok in R. destruct R as (fs & R & Q). injection Q as <-. rewrite levels_arr in L. apply C.
    eapply (elems_enough _ _ s bs m o total (read_value g bs m) f); [intros t p k v H1 H2 H3; exact (IH f0 g t p k v H1 H2 H3)|exact E|exact R|lia]. }
  exact E.
Qed.

Theorem read_levels bs m : forall g t o v, read_value g bs m t o = Ok v ->
  (levels v <= g)%nat /\ forall f, (levels v <= f)%nat -> read_value f bs m t o = Ok v.
Proof.
  induction g as [|g IH]; intros t o v R; [discriminate|]. cbn [read_value] in R. destruct (t =? R_object) eqn:TO; [|destruct (t =? R_array) eqn:TA].
  - apply bind_Ok in R. destruct R as (n & A & R). apply bind_Ok in R. destruct R as (fs & R & Q). injection Q as <-. rewrite levels_obj.
    enough (X : forall k i fs, for_each (fun i => '(_, kp) <- load_key m o i ;; k <- rd_strv m 2 kp ;;
                       '(ty, vp) <- load_value bs m o i ;; v <- read_value g bs m ty vp ;; Ok (k, v)) i k = Ok fs ->
              (pair_levels fs <= g)%nat /\ forall f, (pair_levels fs <= f)%nat -> for_each (fun i => '(_, kp) <- load_key m o i ;; k <- rd_strv m 2 kp ;;
                       '(ty, vp) <- load_value bs m o i ;; v <- read_value f bs m ty vp ;; Ok (k, v)) i k = Ok fs).
    { destruct (X _ _ _ R) as [X1 X2]. split; [lia|]. intros [|f] Lf; [lia|]. cbn [read_value]. rewrite TO, A. cbn [bind].
      rewrite (X2 f ltac:(lia)). reflexivity. }
    clear R fs A n. induction k as [|k IHk]; intros i fs R; cbn [for_each] in *.
    { injection R as <-. cbn [pair_levels]. split; [lia|reflexivity]. }
    apply bind_Ok in R. destruct R as (kv & R1 & R). apply bind_Ok in R1. destruct R1 as ([kt kp] & K & R1). rewrite K. cbn [bind].
    apply bind_Ok in R1. destruct R1 as (ks & RS & R1). rewrite RS. cbn [bind].
    apply bind_Ok in R1. destruct R1 as ([vt vp] & L & R1). rewrite L. cbn [bind].
    apply bind_Ok in R1. destruct R1 as (v & R1 & RK). injection RK as <-. apply bind_Ok in R. destruct R as (r & R2 & R). injection R as <-.
    destruct (IH _ _ _ R1) as [I1 I2]. destruct (IHk _ _ R2) as [J1 J2]. cbn [pair_levels]. split; [lia|]. intros f Lf.
    rewrite (I2 f ltac:(lia)). cbn [bind]. rewrite (J2 f ltac:(lia)). reflexivity.
  - apply bind_Ok in R. destruct R as (n & A & R). apply bind_Ok in R. destruct R as (vs & R & Q). injection Q as <-. rewrite levels_arr.
    assert (G : forall i, i < n -> get_elem m o i = (ty <- entry_rawtype m o i ;; off <- entry_offset m o i ;; Ok (ty, Some (o + off)))).
    { intros i Li. unfold get_elem. rewrite A. cbn [bind]. replace (i <? n) with true by lia. reflexivity. }
    enough (X : forall k i vs, i + Z.of_nat k <= n ->
              for_each (fun i => '(ty, p) <- get_elem m o i ;; match p with Some vp => read_value g bs m ty vp | None => Ok VNull end) i k = Ok vs ->
              (elem_levels vs <= g)%nat /\ forall f, (elem_levels vs <= f)%nat ->
                for_each (fun i => '(ty, p) <- get_elem m o i ;; match p with Some vp => read_value f bs m ty vp | None => Ok VNull end) i k = Ok vs).
    { assert (0 <= n) by (unfold agg_count in A; apply rd_le_range in A; lia).
      destruct (X (Z.to_nat n) 0 vs ltac:(lia) R) as [X1 X2]. split; [lia|]. intros [|f] Lf; [lia|]. cbn [read_value]. rewrite TO, TA, A. cbn [bind].
      rewrite (X2 f ltac:(lia)). reflexivity. }
    clear R vs. induction k as [|k IHk]; intros i vs Li R; cbn [for_each] in *.
    { injection R as <-. cbn [elem_levels]. split; [lia|reflexivity]. }
    rewrite G in R |- * by lia. apply bind_Ok in R. destruct R as (v & R1 & R). apply bind_Ok in R1. destruct R1 as ([vt q] & K & R1). rewrite K. cbn [bind].
    apply bind_Ok in K. destruct K as (ty & _ & K). apply bind_Ok in K. destruct K as (off & _ & K). injection K as <- <-.
    apply bind_Ok in R. destruct R as (r & R2 & R). injection R as <-.
    destruct (IH _ _ _ R1) as [I1 I2]. destruct (IHk (i + 1) r ltac:(lia) R2) as [J1 J2]. cbn [elem_levels]. split; [lia|]. intros f Lf.
    rewrite (I2 f ltac:(lia)). cbn [bind]. rewrite (J2 f ltac:(lia)). reflexivity.
  - rewrite (rd_scalar_levels _ _ _ _ R). split; [lia|]. intros [|f] Lf; [lia|]. cbn [read_value]. rewrite TO, TA. exact R.
Qed.
