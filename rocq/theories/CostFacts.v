(** The counters change nothing, and what they count. *)

From Coq Require Import ZArith List Lia Bool.
From Coq Require Import ZifyBool ZifyNat ZifyN.
From Verif Require Import Base BaseFacts Keys Dec Wire Read Buf HeapOps Enc EncSize Spec ReadFacts BufFacts ValidFacts ValidEnc SpecCost Cost.
Import ListNotations.
Open Scope Z_scope.

Definition erase {A} (x : res (A * Z)) : res A := p <- x ;; Ok (fst p).

Lemma erase_plain x : erase (plain_cost x) = x.
Proof. destruct x; reflexivity. Qed.
Lemma erase_bind {A B} (x : res (A * Z)) (k : A -> res B) (f : A * Z -> res (B * Z)) :
  (forall a c, erase (f (a, c)) = k a) -> erase (bind x f) = bind (erase x) k.
Proof. intros H. destruct x as [[a c]| | | |]; try reflexivity. cbn [bind erase fst]. apply H. Qed.
Lemma erase_pre {A B} (x : res A) (f : A -> res (B * Z)) (k : A -> res B) :
  (forall a, erase (f a) = k a) -> erase (bind x f) = bind x k.
Proof. intros H. destruct x; try reflexivity. cbn [bind]. apply H. Qed.

Lemma cost_pairs_erase cb vb s bs m o total : (forall t p n, erase (cb t p n) = vb t p n) -> forall n prev i,
  erase (cost_pairs cb s bs m o total prev i n) = valid_pairs vb s bs m o total prev i n.
Proof.
  intros H. induction n as [|n IH]; intros prev i; cbn [cost_pairs valid_pairs]; [reflexivity|].
  apply erase_pre. intros [kt kp]. apply erase_pre. intros []; [cbn [negb]|reflexivity].
  rewrite <- H. apply erase_bind. intros [] c; cbn [negb]; [|reflexivity].
  apply erase_pre. intros [vt vp]. apply erase_pre. intros []; [cbn [negb]|reflexivity].
  rewrite <- H. apply erase_bind. intros [] c1; cbn [negb]; [|reflexivity].
  rewrite <- IH. destruct (cost_pairs _ _ _ _ _ _ _ _ _) as [[]| | | |]; reflexivity.
Qed.
Lemma cost_elems_erase cb vb s bs m o total : (forall t p n, erase (cb t p n) = vb t p n) -> forall n prev i,
  erase (cost_elems cb s bs m o total prev i n) = valid_elems vb s bs m o total prev i n.
Proof.
  intros H. induction n as [|n IH]; intros prev i; cbn [cost_elems valid_elems]; [reflexivity|].
  apply erase_pre. intros [vt [vp|]]; [|destruct s; reflexivity]. apply erase_pre. intros []; [cbn [negb]|reflexivity].
  rewrite <- H. apply erase_bind. intros [] c1; cbn [negb]; [|reflexivity].
  rewrite <- IH. destruct (cost_elems _ _ _ _ _ _ _ _ _) as [[]| | | |]; reflexivity.
Qed.
Lemma cost_aggregate_erase s m o bytes ch ch' : (forall t n, erase (ch t n) = ch' t n) ->
  erase (cost_aggregate s m o bytes ch) = valid_aggregate s m o bytes ch'.
Proof.
  intros H. unfold cost_aggregate, valid_aggregate. destruct (bytes <? 8); [apply erase_plain|].
  apply erase_pre. intros total. destruct (bytes <? total); [apply erase_plain|]. apply erase_pre. intros n.
  destruct (total <? 8 + 8 * n); [apply erase_plain|]. apply erase_pre. intros []; [apply H|reflexivity].
Qed.

Theorem cost_erase s bs m : forall f t o bytes, erase (cost_buffer f s bs m t o bytes) = valid_buffer f s bs m t o bytes.
Proof.
  induction f as [|f IH]; intros t o bytes; [reflexivity|]. cbn [cost_buffer].
  rewrite (erase_bind _ (fun ok => Ok ok)) by reflexivity.
  assert (B : forall x : res bool, bind x (fun ok => Ok ok) = x) by (intros []; reflexivity). rewrite B. clear B.
  cbn [valid_buffer]. destruct (t =? R_null); [reflexivity|]. destruct (negb (valid_type t)) eqn:VT; [reflexivity|].
  destruct (t =? R_object) eqn:TO.
  { apply cost_aggregate_erase. intros total n. apply cost_pairs_erase. exact IH. }
  destruct (t =? R_array) eqn:TA.
  { apply cost_aggregate_erase. intros total n. apply cost_elems_erase. exact IH. }
  rewrite erase_plain. reflexivity.
Qed.

(** ** An accepted buffer costs as much as the value in it is large *)
Lemma nodes_obj fs : nodes (VObj fs) = 1 + pair_nodes fs.
Proof. reflexivity. Qed.
Lemma nodes_arr vs : nodes (VArr vs) = 1 + elem_nodes vs.
Proof. reflexivity. Qed.

Lemma cost_pairs_nodes cb s bs m o total rv :
  (forall p n c, cb R_string p n = Ok (true, c) -> c = 1) ->
  (forall t p n c v, cb t p n = Ok (true, c) -> rv t p = Ok v -> c = nodes v) ->
  forall n prev i c fs, cost_pairs cb s bs m o total prev i n = Ok (true, c) ->
    for_each (fun i => '(_, kp) <- load_key m o i ;; k <- rd_strv m 2 kp ;;
                       '(ty, vp) <- load_value bs m o i ;; v <- rv ty vp ;; Ok (k, v)) i n = Ok fs ->
    c = pair_nodes fs.
Proof.
  intros HK HV. induction n as [|n IH]; intros prev i c fs E R; cbn [cost_pairs for_each] in *.
  { injection E as <-. injection R as <-. reflexivity. }
  apply bind_Ok in E. destruct E as ([kt kp] & K & E). rewrite K in R. cbn [bind] in R.
  apply bind_Ok in E. destruct E as ([] & C1 & E); cbn [negb] in E; [|discriminate].
  apply bind_Ok in E. destruct E as ([[] c0] & V1 & E); cbn [negb] in E; [|discriminate].
  apply bind_Ok in E. destruct E as ([vt vp] & L & E).
  apply bind_Ok in E. destruct E as ([] & C2 & E); cbn [negb] in E; [|discriminate].
  apply bind_Ok in E. destruct E as ([[] c1] & V2 & E); cbn [negb] in E; [|discriminate].
  apply bind_Ok in E. destruct E as ([ok c2] & V3 & E). injection E as -> <-.
  assert (kt = R_string).
  { unfold load_key in K. apply bind_Ok in K. destruct K as (off & _ & K). apply Ok_inj in K. congruence. }
  subst kt. apply bind_Ok in R. destruct R as (kv & R1 & R). apply bind_Ok in R1. destruct R1 as (k & _ & R1). rewrite L in R1. cbn [bind] in R1.
  apply bind_Ok in R1. destruct R1 as (v & R1 & RK). injection RK as <-. apply bind_Ok in R. destruct R as (r & R2 & R). injection R as <-.
  cbn [pair_nodes]. rewrite (HK _ _ _ V1), (HV _ _ _ _ _ V2 R1), (IH _ _ _ _ V3 R2). lia.
Qed.
Lemma cost_elems_nodes cb s bs m o total rv :
  (forall t p n c v, cb t p n = Ok (true, c) -> rv t p = Ok v -> c = nodes v) ->
  forall n prev i c vs, cost_elems cb s bs m o total prev i n = Ok (true, c) ->
    for_each (fun i => '(ty, p) <- get_elem m o i ;; match p with Some vp => rv ty vp | None => Ok VNull end) i n = Ok vs ->
    c = elem_nodes vs.
Proof.
  intros HV. induction n as [|n IH]; intros prev i c vs E R; cbn [cost_elems for_each] in *.
  { injection E as <-. injection R as <-. reflexivity. }
  apply bind_Ok in E. destruct E as ([vt [vp|]] & K & E); [|destruct s; discriminate]. rewrite K in R. cbn [bind] in R.
  apply bind_Ok in E. destruct E as ([] & C1 & E); cbn [negb] in E; [|discriminate].
  apply bind_Ok in E. destruct E as ([[] c1] & V2 & E); cbn [negb] in E; [|discriminate].
  apply bind_Ok in E. destruct E as ([ok c2] & V3 & E). injection E as -> <-.
  apply bind_Ok in R. destruct R as (v & R1 & R). apply bind_Ok in R. destruct R as (r & R2 & R). injection R as <-.
  cbn [elem_nodes]. rewrite (HV _ _ _ _ _ V2 R1), (IH _ _ _ _ V3 R2). lia.
Qed.

Lemma rd_scalar_nodes m t o v : rd_scalar m t o = Ok v -> nodes v = 1.
Proof.
  unfold rd_scalar. repeat match goal with |- context [if ?b then _ else _] => destruct b end; intros E;
    try (injection E as <-; reflexivity); apply bind_Ok in E; destruct E as (z & _ & E);
    repeat match goal with H : context [if ?b then _ else _] |- _ => destruct b end; try discriminate; injection E as <-; reflexivity.
Qed.

Lemma cost_aggregate_true s m o bytes ch c : cost_aggregate s m o bytes ch = Ok (true, c) ->
  exists total n, agg_count m o = Ok n /\ ch total (Z.to_nat n) = Ok (true, c).
Proof.
  unfold cost_aggregate. destruct (bytes <? 8); [destruct s; discriminate|]. intros E. apply bind_Ok in E. destruct E as (total & _ & E).
  destruct (bytes <? total); [destruct s; discriminate|]. apply bind_Ok in E. destruct E as (n & A & E).
  destruct (total <? 8 + 8 * n); [destruct s; discriminate|]. apply bind_Ok in E. destruct E as ([] & _ & E); [|discriminate].
  exists total, n. auto.
Qed.

Lemma cost_string f s bs m p n c : cost_buffer f s bs m R_string p n = Ok (true, c) -> c = 1.
Proof.
  destruct f as [|f]; [discriminate|]. cbn [cost_buffer]. change (R_string =? R_null) with false. change (negb (valid_type R_string)) with false.
  change (R_string =? R_object) with false. change (R_string =? R_array) with false. cbn iota. unfold plain_cost.
  destruct (valid_buffer _ _ _ _ _ _ _); try discriminate. cbn [bind]. intros E. injection E as _ <-. reflexivity.
Qed.

Theorem cost_nodes s bs m : forall f g t o bytes c v, cost_buffer f s bs m t o bytes = Ok (true, c) ->
  read_value g bs m t o = Ok v -> c = nodes v.
Proof.
  induction f as [|f IH]; intros g t o bytes c v E R; [discriminate|]. cbn [cost_buffer] in E. apply bind_Ok in E.
  destruct E as ([ok c0] & E & Q). assert (P : ok = true /\ c = 1 + c0) by (split; congruence). destruct P as [-> ->]. clear Q. destruct g as [|g]; [discriminate|]. cbn [read_value] in R.
  destruct (t =? R_object) eqn:TO.
  { assert (t = R_object) by lia. subst t. change (R_object =? R_null) with false in E. change (negb (valid_type R_object)) with false in E. cbn iota in E.
    apply cost_aggregate_true in E. destruct E as (total & n & A & E). rewrite A in R. cbn [bind] in R.
    apply bind_Ok in R. destruct R as (fs & R & Q). injection Q as <-. rewrite nodes_obj. f_equal.
    eapply (cost_pairs_nodes _ s bs m o total (read_value g bs m)); [|intros t p k c1 v H1 H2; exact (IH g t p k c1 v H1 H2)|exact E|exact R].
    intros p k c1. apply cost_string. }
  destruct (t =? R_array) eqn:TA.
  { assert (t = R_array) by lia. subst t. change (R_array =? R_null) with false in E. change (negb (valid_type R_array)) with false in E. cbn iota in E.
    apply cost_aggregate_true in E. destruct E as (total & n & A & E). rewrite A in R. cbn [bind] in R.
    apply bind_Ok in R. destruct R as (fs & R & Q). injection Q as <-. rewrite nodes_arr. f_equal.
    eapply (cost_elems_nodes _ s bs m o total (read_value g bs m)); [intros t p k c1 v H1 H2; exact (IH g t p k c1 v H1 H2)|exact E|exact R]. }
  rewrite (rd_scalar_nodes _ _ _ _ R). destruct (t =? R_null); [injection E as <-; lia|].
  destruct (negb (valid_type t)); [discriminate|]. unfold plain_cost in E. apply bind_Ok in E. destruct E as (b & _ & E). injection E as _ <-. lia.
Qed.

(** ** A value is never larger than its bytes *)
Lemma body_nodes fs : Forall (fun kv => nodes (snd kv) <= esize (snd kv) + 1) fs ->
  forall pos, pair_nodes fs <= 8 * zlen fs + zlen (enc_body enc fs pos).
Proof.
  induction fs as [|[k x] r IH]; intros F pos; cbn [pair_nodes]; [zlia|]. apply Forall_cons_iff in F. destruct F as [F1 F2]. cbn [snd] in F1.
  change (enc_body enc ((k, x) :: r) pos) with (seg enc pos k x ++ enc_body enc r (pos + zlen (seg enc pos k x))).
  specialize (IH F2 (pos + zlen (seg enc pos k x))). rewrite zlen_cons, zlen_app.
  assert (esize x <= zlen (seg enc pos k x)) by (unfold seg; rewrite !zlen_app; unfold esize; zlia). lia.
Qed.
Lemma abody_nodes vs : Forall (fun x => nodes x <= esize x + 1) vs ->
  forall pos, elem_nodes vs <= 8 * zlen vs + zlen (enc_abody enc vs pos).
Proof.
  induction vs as [|x r IH]; intros F pos; cbn [elem_nodes]; [zlia|]. apply Forall_cons_iff in F. destruct F as [F1 F2].
  change (enc_abody enc (x :: r) pos) with (aseg enc pos x ++ enc_abody enc r (pos + zlen (aseg enc pos x))).
  specialize (IH F2 (pos + zlen (aseg enc pos x))). rewrite zlen_cons, zlen_app.
  assert (esize x <= zlen (aseg enc pos x)) by (unfold aseg; rewrite !zlen_app; unfold esize; zlia). lia.
Qed.
Lemma nodes_esize v : nodes v <= esize v + 1.
Proof.
  induction v using value_ind'; try (cbn [nodes]; match goal with |- _ <= ?e + 1 => assert (0 <= e) by apply esize_nonneg; lia end).
  - rewrite nodes_obj, esize_obj. pose proof (body_nodes fs H (8 + 8 * zlen fs)).
    pose proof (align_up_ge (8 + 8 * zlen fs + zlen (enc_body enc fs (8 + 8 * zlen fs))) 8 ltac:(lia)). lia.
  - rewrite nodes_arr, esize_arr. pose proof (abody_nodes vs H (8 + 8 * zlen vs)). lia.
Qed.
Lemma obj_nodes_esize fs : nodes (VObj fs) <= esize (VObj fs).
Proof.
  rewrite nodes_obj, esize_obj. pose proof (body_nodes fs) as B.
  specialize (B ltac:(apply Forall_forall; intros; apply nodes_esize) (8 + 8 * zlen fs)).
  pose proof (align_up_ge (8 + 8 * zlen fs + zlen (enc_body enc fs (8 + 8 * zlen fs))) 8 ltac:(lia)). lia.
Qed.

(** ** Whatever the bytes, the cost is bounded *)
Lemma pow_split a b : 0 <= a < b -> 2 ^ a + 2 ^ a <= 2 ^ b.
Proof. intros L. replace (2 ^ a + 2 ^ a) with (2 ^ (a + 1)) by (rewrite Z.pow_add_r by lia; lia). apply Z.pow_le_mono_r; lia. Qed.

Lemma valid_child_pos s bs t p o total prev : valid_child s bs t p o total prev = Ok true -> prev < p /\ p - o <= total.
Proof.
  unfold valid_child. destruct (total <? p - o) eqn:A; [destruct s; discriminate|]. destruct (p <=? prev) eqn:B; [destruct s; discriminate|]. lia.
Qed.

(* children at increasing positions leave 2^left for those that come *)
Lemma cost_pairs_bound cb s bs m o total : (forall t p n b c, 0 <= n < total -> cb t p n = Ok (b, c) -> 0 <= c <= 2 ^ n) ->
  forall n prev i b c, o <= prev -> prev - o <= total -> cost_pairs cb s bs m o total prev i n = Ok (b, c) -> 0 <= c < 2 ^ (total - (prev - o)).
Proof.
  intros H. induction n as [|n IH]; intros prev i b c P T E; cbn [cost_pairs] in E.
  { injection E as _ <-. split; [lia|]. apply Z.pow_pos_nonneg; lia. }
  assert (POS : 0 < 2 ^ (total - (prev - o))) by (apply Z.pow_pos_nonneg; lia).
  apply bind_Ok in E. destruct E as ([kt kp] & K & E).
  apply bind_Ok in E. destruct E as ([] & C1 & E); cbn [negb] in E; [|injection E as _ <-; lia]. apply valid_child_pos in C1.
  apply bind_Ok in E. destruct E as ([b0 c0] & V1 & E). apply H in V1; [|lia].
  pose proof (pow_split (total - (kp - o)) (total - (prev - o)) ltac:(lia)).
  destruct b0; cbn [negb] in E; [|injection E as _ <-; lia].
  apply bind_Ok in E. destruct E as ([vt vp] & L & E).
  apply bind_Ok in E. destruct E as ([] & C2 & E); cbn [negb] in E; [|injection E as _ <-; lia]. apply valid_child_pos in C2.
  apply bind_Ok in E. destruct E as ([b1 c1] & V2 & E). apply H in V2; [|lia].
  pose proof (pow_split (total - (vp - o)) (total - (kp - o)) ltac:(lia)).
  destruct b1; cbn [negb] in E; [|injection E as _ <-; lia].
  apply bind_Ok in E. destruct E as ([b2 c2] & V3 & E). injection E as _ <-. apply IH in V3; lia.
Qed.
Lemma cost_elems_bound cb s bs m o total : (forall t p n b c, 0 <= n < total -> cb t p n = Ok (b, c) -> 0 <= c <= 2 ^ n) ->
  forall n prev i b c, o <= prev -> prev - o <= total -> cost_elems cb s bs m o total prev i n = Ok (b, c) -> 0 <= c < 2 ^ (total - (prev - o)).
Proof.
  intros H. induction n as [|n IH]; intros prev i b c P T E; cbn [cost_elems] in E.
  { injection E as _ <-. split; [lia|]. apply Z.pow_pos_nonneg; lia. }
  assert (POS : 0 < 2 ^ (total - (prev - o))) by (apply Z.pow_pos_nonneg; lia).
  apply bind_Ok in E. destruct E as ([vt [vp|]] & L & E).
  2:{ destruct s; [|discriminate]. injection E as _ <-. lia. }
  apply bind_Ok in E. destruct E as ([] & C2 & E); cbn [negb] in E; [|injection E as _ <-; lia]. apply valid_child_pos in C2.
  apply bind_Ok in E. destruct E as ([b1 c1] & V2 & E). apply H in V2; [|lia].
  pose proof (pow_split (total - (vp - o)) (total - (prev - o)) ltac:(lia)).
  destruct b1; cbn [negb] in E; [|injection E as _ <-; lia].
  apply bind_Ok in E. destruct E as ([b2 c2] & V3 & E). injection E as _ <-. apply IH in V3; lia.
Qed.
Lemma cost_aggregate_bound s m o bytes ch : 0 <= bytes ->
  (forall total n b c, 8 <= total <= bytes -> ch total n = Ok (b, c) -> 0 <= c < 2 ^ total) ->
  forall b c, cost_aggregate s m o bytes ch = Ok (b, c) -> 0 <= c < 2 ^ bytes.
Proof.
  intros Hb H b c E. assert (POS : 0 < 2 ^ bytes) by (apply Z.pow_pos_nonneg; lia). unfold cost_aggregate in E.
  assert (F : forall b c, plain_cost (vfail s) = Ok (b, c) -> c = 0) by (destruct s; intros ? ? Q; [injection Q as _ <-; reflexivity|discriminate]).
  destruct (bytes <? 8); [rewrite (F _ _ E); lia|]. apply bind_Ok in E. destruct E as (total & _ & E).
  destruct (bytes <? total) eqn:B; [rewrite (F _ _ E); lia|]. apply bind_Ok in E. destruct E as (n & A & E).
  unfold agg_count in A. apply rd_le_range in A.
  destruct (total <? 8 + 8 * n) eqn:B1; [rewrite (F _ _ E); lia|]. apply bind_Ok in E. destruct E as ([] & _ & E); cbn [negb] in E.
  - apply H in E; [|lia]. pose proof (Z.pow_le_mono_r 2 total bytes ltac:(lia) ltac:(lia)). lia.
  - injection E as _ <-. lia.
Qed.
Theorem cost_bound s bs m : forall f t o bytes b c, 0 <= bytes -> cost_buffer f s bs m t o bytes = Ok (b, c) -> 1 <= c <= 2 ^ bytes.
Proof.
  induction f as [|f IH]; intros t o bytes b c Hb E; [discriminate|]. cbn [cost_buffer] in E. apply bind_Ok in E. destruct E as ([ok c0] & E & Q).
  assert (P : ok = b /\ c = 1 + c0) by (split; congruence). destruct P as [-> ->]. clear Q.
  assert (POS : 0 < 2 ^ bytes) by (apply Z.pow_pos_nonneg; lia).
  enough (0 <= c0 < 2 ^ bytes) by lia.
  assert (IH' : forall total, forall t p n b c, 0 <= n < total -> cost_buffer f s bs m t p n = Ok (b, c) -> 0 <= c <= 2 ^ n).
  { intros total t' p n b' c L E'. apply IH in E'; lia. }
  destruct (t =? R_null); [injection E as _ <-; lia|]. destruct (negb (valid_type t)); [injection E as _ <-; lia|].
  destruct (t =? R_object).
  { revert E. apply cost_aggregate_bound; [exact Hb|]. intros total n b' c L E. eapply cost_pairs_bound in E; [|apply IH'|lia|lia]. rewrite Z.sub_diag, Z.sub_0_r in E. exact E. }
  destruct (t =? R_array).
  { revert E. apply cost_aggregate_bound; [exact Hb|]. intros total n b' c L E. eapply cost_elems_bound in E; [|apply IH'|lia|lia]. rewrite Z.sub_diag, Z.sub_0_r in E. exact E. }
  unfold plain_cost in E. apply bind_Ok in E. destruct E as (x & _ & E). injection E as _ <-. lia.
Qed.

(** ** Search *)
Lemma probe_erase m o key : forall f low high, erase (probe_loop f m o key low high) = get_key_loop f m o key low high.
Proof.
  induction f as [|f IH]; intros low high; cbn [probe_loop get_key_loop]; destruct (high <? low); try reflexivity.
  apply erase_pre. intros e. apply erase_pre. intros cmp. destruct (cmp =? 0); [reflexivity|]. destruct (0 <? cmp); rewrite <- IH;
    match goal with |- erase (bind ?x _) = _ => destruct x as [[]| | | |]; reflexivity end.
Qed.
Lemma probe_bound m o key : forall f k low high r c, 0 <= low -> high - low + 1 < 2 ^ Z.of_nat k -> probe_loop f m o key low high = Ok (r, c) ->
  0 <= c <= Z.of_nat k.
Proof.
  induction f as [|f IH]; intros k low high r c L H E; cbn [probe_loop] in E; destruct (high <? low) eqn:HL;
    try discriminate; try (injection E as _ <-; lia).
  destruct k as [|k]; [change (2 ^ Z.of_nat 0) with 1 in H; lia|].
  rewrite Nat2Z.inj_succ, Z.pow_succ_r in H by lia.
  apply bind_Ok in E. destruct E as (e & _ & E). apply bind_Ok in E. destruct E as (cmp & _ & E).
  destruct (cmp =? 0); [injection E as _ <-; lia|]. apply bind_Ok in E. destruct E as ([r1 c1] & E & Q).
  assert (P : c = 1 + c1) by congruence. subst c. pose proof (Z.quot_div_nonneg (low + high) 2 ltac:(lia) ltac:(lia)) as QD. rewrite QD in E.
  destruct (0 <? cmp); apply (IH k) in E; lia.
Qed.
Lemma probe_found m o key : forall f low high r c, probe_loop f m o key low high = Ok (r, c) -> r <> None -> 1 <= c.
Proof.
  induction f as [|f IH]; intros low high r c E N; cbn [probe_loop] in E; destruct (high <? low) eqn:HL;
    try discriminate; try (injection E as <- _; congruence).
  apply bind_Ok in E. destruct E as (e & _ & E). apply bind_Ok in E. destruct E as (cmp & _ & E).
  destruct (cmp =? 0); [injection E as _ <-; lia|]. apply bind_Ok in E. destruct E as ([r1 c1] & E & Q).
  assert (P : c = 1 + c1 /\ r = r1) by (split; congruence). destruct P as [-> ->].
  destruct (0 <? cmp); apply IH in E; (assumption || lia).
Qed.
