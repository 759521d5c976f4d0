(** Small buffers that are valid and stand for exponentially large values: arrays whose
    elements overlap. *)

From Coq Require Import ZArith List Bool Lia.
From Coq Require Import ZifyBool ZifyNat.
From Verif Require Import Base BaseFacts Keys Dec Wire Read ReadFacts ValidFacts SpecCost Cost CostFacts.
Import ListNotations.
Open Scope Z_scope.
Import Init.Byte.

(** ** The bytes *)

(* an empty array, in 24 bytes *)
Definition leaf : mem := le_enc 4 24 ++ le_enc 4 0 ++ zeros 16.
(* an array of [total] bytes with two elements, the arrays 24 and 48 bytes further on *)
Definition fork (total : Z) : mem :=
  le_enc 4 total ++ le_enc 4 2 ++ le_enc 4 24 ++ le_enc 1 R_array ++ zeros 3 ++ le_enc 4 48 ++ le_enc 1 R_array ++ zeros 3.
Fixpoint forks (n : nat) : mem :=
  match n with
  | O => leaf
  | S n' => (match n' with O => leaf | S _ => fork (24 * Z.of_nat (S n)) end) ++ forks n'
  end.
(* the root: one field, with an empty name *)
Definition bomb (n : nat) : mem :=
  (le_enc 4 (24 * Z.of_nat (S (S n))) ++ le_enc 4 1 ++ le_enc 4 16 ++ le_enc 1 R_array ++ zeros 3 ++ zeros 8) ++ forks n.

(** ** What they mean *)
Fixpoint tree (n : nat) : value :=
  match n with
  | O => VArr []
  | S n' => match n' with O => VArr [] | S n'' => VArr [tree n'; tree n''] end
  end.

Lemma zlen_zeros n : 0 <= n -> zlen (zeros n) = n.
Proof. intros. unfold zlen, zeros. rewrite repeat_length. lia. Qed.
Lemma zlen_leaf : zlen leaf = 24. Proof. reflexivity. Qed.
Lemma zlen_fork t : zlen (fork t) = 24. Proof. reflexivity. Qed.
Lemma zlen_forks n : zlen (forks n) = 24 * Z.of_nat (S n).
Proof. induction n as [|n IH]; [reflexivity|]. cbn [forks]. rewrite zlen_app, IH. destruct n; rewrite ?zlen_leaf, ?zlen_fork; lia. Qed.

Lemma two_step (P : nat -> Prop) : P 0%nat -> P 1%nat -> (forall n, P n -> P (S n) -> P (S (S n))) -> forall n, P n.
Proof. intros A B C n. enough (P n /\ P (S n)) by tauto. induction n as [|n [H1 H2]]; split; auto. Qed.


Lemma rd_mid A B n z m o : m = A ++ le_enc n z ++ B -> o = zlen A -> 0 <= z < 2 ^ (8 * Z.of_nat n) -> rd_le m o n = Ok z.
Proof. intros -> E L. now apply rd_le_app_small. Qed.

Lemma fork_total pre post t : 0 <= t < 2 ^ 32 -> rd_le (pre ++ fork t ++ post) (zlen pre) 4 = Ok t.
Proof.
  intros Ht. apply (rd_mid pre
    (le_enc 4 2 ++ le_enc 4 24 ++ le_enc 1 R_array ++ zeros 3 ++ le_enc 4 48 ++ le_enc 1 R_array ++ zeros 3 ++ post)); [unfold fork; now rewrite <- !app_assoc|
    rewrite ?zlen_app, ?zlen_le_enc, ?zlen_zeros by lia; lia|exact Ht].
Qed.
Lemma fork_count pre post t : 0 <= t < 2 ^ 32 -> rd_le (pre ++ fork t ++ post) (zlen pre + 4) 4 = Ok 2.
Proof.
  intros Ht. apply (rd_mid (pre ++ le_enc 4 t)
    (le_enc 4 24 ++ le_enc 1 R_array ++ zeros 3 ++ le_enc 4 48 ++ le_enc 1 R_array ++ zeros 3 ++ post)); [unfold fork; now rewrite <- !app_assoc|
    rewrite ?zlen_app, ?zlen_le_enc, ?zlen_zeros by lia; lia|vm_compute; split; congruence].
Qed.
Lemma fork_off0 pre post t : 0 <= t < 2 ^ 32 -> rd_le (pre ++ fork t ++ post) (zlen pre + 8 + 8 * 0) 4 = Ok 24.
Proof.
  intros Ht. apply (rd_mid (pre ++ le_enc 4 t ++ le_enc 4 2)
    (le_enc 1 R_array ++ zeros 3 ++ le_enc 4 48 ++ le_enc 1 R_array ++ zeros 3 ++ post)); [unfold fork; now rewrite <- !app_assoc|
    rewrite ?zlen_app, ?zlen_le_enc, ?zlen_zeros by lia; lia|vm_compute; split; congruence].
Qed.
Lemma fork_type0 pre post t : 0 <= t < 2 ^ 32 -> rd_le (pre ++ fork t ++ post) (zlen pre + 8 + 8 * 0 + 4) 1 = Ok R_array.
Proof.
  intros Ht. apply (rd_mid (pre ++ le_enc 4 t ++ le_enc 4 2 ++ le_enc 4 24)
    (zeros 3 ++ le_enc 4 48 ++ le_enc 1 R_array ++ zeros 3 ++ post)); [unfold fork; now rewrite <- !app_assoc|
    rewrite ?zlen_app, ?zlen_le_enc, ?zlen_zeros by lia; lia|vm_compute; split; congruence].
Qed.
Lemma fork_off1 pre post t : 0 <= t < 2 ^ 32 -> rd_le (pre ++ fork t ++ post) (zlen pre + 8 + 8 * (0 + 1)) 4 = Ok 48.
Proof.
  intros Ht. apply (rd_mid (pre ++ le_enc 4 t ++ le_enc 4 2 ++ le_enc 4 24 ++ le_enc 1 R_array ++ zeros 3)
    (le_enc 1 R_array ++ zeros 3 ++ post)); [unfold fork; now rewrite <- !app_assoc|
    rewrite ?zlen_app, ?zlen_le_enc, ?zlen_zeros by lia; lia|vm_compute; split; congruence].
Qed.
Lemma fork_type1 pre post t : 0 <= t < 2 ^ 32 -> rd_le (pre ++ fork t ++ post) (zlen pre + 8 + 8 * (0 + 1) + 4) 1 = Ok R_array.
Proof.
  intros Ht. apply (rd_mid (pre ++ le_enc 4 t ++ le_enc 4 2 ++ le_enc 4 24 ++ le_enc 1 R_array ++ zeros 3 ++ le_enc 4 48)
    (zeros 3 ++ post)); [unfold fork; now rewrite <- !app_assoc|
    rewrite ?zlen_app, ?zlen_le_enc, ?zlen_zeros by lia; lia|vm_compute; split; congruence].
Qed.

Lemma leaf_total pre post : rd_le (pre ++ leaf ++ post) (zlen pre) 4 = Ok 24.
Proof. unfold leaf. rewrite <- !app_assoc. apply rd_le_app_small; [reflexivity|lia]. Qed.
Lemma leaf_count pre post : rd_le (pre ++ leaf ++ post) (zlen pre + 4) 4 = Ok 0.
Proof. unfold leaf. rewrite <- !app_assoc, (app_assoc pre). apply rd_le_app_small; [now rewrite zlen_app, zlen_le_enc|lia]. Qed.

(** ** They are valid, and mean that *)
Definition good (n : nat) : Prop := Z.of_nat n < 2 ^ 27 -> forall s pre f, zlen pre mod 8 = 0 -> (n < f)%nat ->
  let m := pre ++ forks n in
  cost_buffer f s 0 m R_array (zlen pre) (24 * Z.of_nat (S n)) = Ok (true, nodes (tree n)) /\
  read_value f 0 m R_array (zlen pre) = Ok (tree n).

Lemma good_leaf n post : forks n = leaf ++ post -> tree n = VArr [] -> good n.
Proof.
  intros F T L s pre f A Lf m. destruct f as [|f]; [lia|]. subst m. rewrite F, T. split.
  - cbn [cost_buffer]. change (R_array =? R_null) with false. change (negb (valid_type R_array)) with false. change (R_array =? R_object) with false.
    change (R_array =? R_array) with true. cbv iota. unfold cost_aggregate.
    replace (24 * Z.of_nat (S n) <? 8) with false by lia. rewrite leaf_total. cbn [bind].
    replace (24 * Z.of_nat (S n) <? 24) with false by lia. unfold agg_count. rewrite leaf_count. reflexivity.
  - cbn [read_value]. change (R_array =? R_object) with false. change (R_array =? R_array) with true. cbv iota.
    unfold agg_count. rewrite leaf_count. reflexivity.
Qed.

Lemma tree_fork n : tree (S (S n)) = VArr [tree (S n); tree n]. Proof. reflexivity. Qed.
Lemma nodes_fork n : nodes (tree (S (S n))) = 1 + nodes (tree (S n)) + nodes (tree n).
Proof. rewrite tree_fork, nodes_arr. cbn [elem_nodes]. lia. Qed.
Lemma align8 p : p mod 8 = 0 -> align_ptr 0 p R_array = p.
Proof. intros A. unfold align_ptr. change (alignment_of R_array) with 8. rewrite Z.add_0_l, align_up_id by (lia || exact A). lia. Qed.
Lemma mod8_24 p k : p mod 8 = 0 -> (p + 24 * k) mod 8 = 0.
Proof. intros A. replace (p + 24 * k) with (p + (3 * k) * 8) by lia. now rewrite Z.mod_add by lia. Qed.

Lemma good_fork n : good n -> good (S n) -> good (S (S n)).
Proof.
  intros G0 G1 L s pre f A Lf m. destruct f as [|f]; [lia|].
  set (t := 24 * Z.of_nat (S (S (S n)))) in *. assert (Ht : 0 <= t < 2 ^ 32) by (subst t; lia).
  assert (M : m = pre ++ fork t ++ forks (S n)) by reflexivity.
  destruct (G1 ltac:(lia) s (pre ++ fork t) f ltac:(rewrite zlen_app, zlen_fork; exact (mod8_24 _ 1 A)) ltac:(lia)) as [C1 R1].
  assert (M2 : m = ((pre ++ fork t) ++ (match n with O => leaf | S _ => fork (24 * Z.of_nat (S (S n))) end)) ++ forks n).
  { rewrite M. cbn [forks]. now rewrite <- !app_assoc. }
  set (p2 := (pre ++ fork t) ++ _) in M2.
  assert (Z2 : zlen p2 = zlen pre + 48). { subst p2. rewrite !zlen_app, zlen_fork. destruct n; rewrite ?zlen_leaf, ?zlen_fork; lia. }
  destruct (G0 ltac:(lia) s p2 f ltac:(rewrite Z2; exact (mod8_24 _ 2 A)) ltac:(lia)) as [C0 R0].
  rewrite <- app_assoc in C1, R1. cbv zeta in C1, R1, C0, R0. rewrite <- M in C1, R1. rewrite <- M2 in C0, R0.
  rewrite zlen_app, zlen_fork in C1, R1. rewrite Z2 in C0, R0.
  pose proof (fork_total pre (forks (S n)) t Ht) as H0. pose proof (fork_count pre (forks (S n)) t Ht) as H1.
  pose proof (fork_off0 pre (forks (S n)) t Ht) as H2. pose proof (fork_type0 pre (forks (S n)) t Ht) as H3.
  pose proof (fork_off1 pre (forks (S n)) t Ht) as H4. pose proof (fork_type1 pre (forks (S n)) t Ht) as H5.
  rewrite <- M in H0, H1, H2, H3, H4, H5.
  assert (E0 : get_elem m (zlen pre) 0 = Ok (R_array, Some (zlen pre + 24))).
  { unfold get_elem, agg_count, entry_rawtype, entry_offset. rewrite H1. cbn [bind]. change (0 <? 2) with true. cbv iota. rewrite H3, H2. reflexivity. }
  assert (E1 : get_elem m (zlen pre) (0 + 1) = Ok (R_array, Some (zlen pre + 48))).
  { unfold get_elem, agg_count, entry_rawtype, entry_offset. rewrite H1. cbn [bind]. change (0 + 1 <? 2) with true. cbv iota. rewrite H5, H4. reflexivity. }
  clearbody m. split.
  - cbn [cost_buffer]. change (R_array =? R_null) with false. change (negb (valid_type R_array)) with false. change (R_array =? R_object) with false.
    change (R_array =? R_array) with true. cbv iota. unfold cost_aggregate.
    replace (t <? 8) with false by lia. rewrite H0. cbn [bind]. rewrite Z.ltb_irrefl. unfold agg_count. rewrite H1. cbn [bind].
    replace (t <? 8 + 8 * 2) with false by lia. change (Z.to_nat 2) with 2%nat. cbn [valid_types]. unfold entry_rawtype. rewrite H3. cbn [bind].
    change (valid_type R_array) with true. cbv iota. rewrite H5. cbn [bind]. change (valid_type R_array) with true. cbv iota. cbn [negb].
    cbn [cost_elems]. rewrite E0. cbn [bind]. unfold valid_child.
    replace (t <? zlen pre + 24 - zlen pre) with false by (subst t; lia). replace (zlen pre + 24 <=? zlen pre) with false by lia.
    rewrite align8 by exact (mod8_24 _ 1 A). rewrite Z.eqb_refl. cbn [negb bind].
    replace (t - (zlen pre + 24 - zlen pre)) with (24 * Z.of_nat (S (S n))) by (subst t; lia). rewrite C1. cbn [bind negb].
    rewrite E1. cbn [bind].
    replace (t <? zlen pre + 48 - zlen pre) with false by (subst t; lia). replace (zlen pre + 48 <=? zlen pre + 24) with false by lia.
    rewrite align8 by exact (mod8_24 _ 2 A). rewrite Z.eqb_refl. cbn [negb bind].
    replace (t - (zlen pre + 48 - zlen pre)) with (24 * Z.of_nat (S n)) by (subst t; lia). rewrite C0. cbn [bind negb].
    rewrite nodes_fork. do 2 f_equal. lia.
  - cbn [read_value]. change (R_array =? R_object) with false. change (R_array =? R_array) with true. cbv iota.
    unfold agg_count. rewrite H1. cbn [bind]. change (Z.to_nat 2) with 2%nat. cbn [for_each]. rewrite E0. cbn [bind]. rewrite R1. cbn [bind].
    rewrite E1. cbn [bind]. rewrite R0. reflexivity.
Qed.
Lemma good_all : forall n, good n.
Proof. apply two_step; [apply (good_leaf 0 [])|apply (good_leaf 1 leaf)|intros; now apply good_fork]; try reflexivity. Qed.

Lemma tree_big n : 2 ^ (Z.of_nat n / 2) <= nodes (tree n).
Proof.
  revert n. apply (two_step (fun n => 2 ^ (Z.of_nat n / 2) <= nodes (tree n))); [vm_compute; congruence|vm_compute; congruence|].
  intros n H0 H1. rewrite nodes_fork. replace (Z.of_nat (S (S n))) with (Z.of_nat n + 1 * 2) by lia. rewrite Z.div_add by lia.
  rewrite Z.pow_add_r by lia.
  assert (2 ^ (Z.of_nat n / 2) <= 2 ^ (Z.of_nat (S n) / 2)) by (apply Z.pow_le_mono_r; lia). lia.
Qed.

(** ** The whole buffer *)
Definition root_total (n : nat) : Z := 24 * Z.of_nat (S (S n)).
Definition head (n : nat) : mem := le_enc 4 (root_total n) ++ le_enc 4 1 ++ le_enc 4 16 ++ le_enc 1 R_array ++ zeros 3 ++ zeros 8.
Lemma zlen_bomb n : zlen (bomb n) = root_total n.
Proof. change (bomb n) with (head n ++ forks n). rewrite zlen_app, zlen_forks. change (zlen (head n)) with 24. unfold root_total. lia. Qed.

Theorem bomb_goes_off n s : Z.of_nat n < 2 ^ 27 ->
  valid_cost s 0 (bomb n) = Ok (true, 2 + nodes (tree n) ) /\ walk 0 (bomb n) = Ok (VObj [([], tree n)]).
Proof.
  intros L. unfold valid_cost, walk. rewrite zlen_bomb. set (f := length (bomb n)).
  assert (Lf : (n < f)%nat). { subst f. pose proof (zlen_bomb n). unfold zlen, root_total in *. lia. }
  change (bomb n) with (head n ++ forks n). destruct (good_all n L s (head n) f eq_refl Lf) as [C R]. cbv zeta in C, R.
  change (zlen (head n)) with 24 in C, R. set (m := head n ++ forks n) in *. clearbody f.
  set (t := root_total n). assert (Ht : 0 <= t < 2 ^ 32) by (subst t; unfold root_total; lia).
  assert (H0 : rd_le m 0 4 = Ok t).
  { apply (rd_mid [] (le_enc 4 1 ++ le_enc 4 16 ++ le_enc 1 R_array ++ zeros 3 ++ zeros 8 ++ forks n)); [reflexivity|reflexivity|exact Ht]. }
  assert (H1 : rd_le m (0 + 4) 4 = Ok 1).
  { apply (rd_mid (le_enc 4 t) (le_enc 4 16 ++ le_enc 1 R_array ++ zeros 3 ++ zeros 8 ++ forks n)); [reflexivity|reflexivity|lia]. }
  assert (H2 : rd_le m (0 + 8 + 8 * 0) 4 = Ok 16).
  { apply (rd_mid (le_enc 4 t ++ le_enc 4 1) (le_enc 1 R_array ++ zeros 3 ++ zeros 8 ++ forks n)); [reflexivity|reflexivity|lia]. }
  assert (H3 : rd_le m (0 + 8 + 8 * 0 + 4) 1 = Ok R_array).
  { apply (rd_mid (le_enc 4 t ++ le_enc 4 1 ++ le_enc 4 16) (zeros 3 ++ zeros 8 ++ forks n)); [reflexivity|reflexivity|vm_compute; split; congruence]. }
  assert (H4 : rd_le m (0 + 16) 2 = Ok 0).
  { apply (rd_mid (le_enc 4 t ++ le_enc 4 1 ++ le_enc 4 16 ++ le_enc 1 R_array ++ zeros 3) (zeros 6 ++ forks n)); [reflexivity|reflexivity|lia]. }
  assert (H5 : rd m (0 + 16 + 2 + 0) 1 = Ok [x00]).
  { apply (rd_app (le_enc 4 t ++ le_enc 4 1 ++ le_enc 4 16 ++ le_enc 1 R_array ++ zeros 3 ++ zeros 2) [x00] (zeros 5 ++ forks n)); reflexivity. }
  assert (H6 : rd m (0 + 16 + 2) 0 = Ok []).
  { apply (rd_app (le_enc 4 t ++ le_enc 4 1 ++ le_enc 4 16 ++ le_enc 1 R_array ++ zeros 3 ++ zeros 2) [] (zeros 6 ++ forks n)); reflexivity. }
  assert (HK : load_key m 0 0 = Ok (R_string, 0 + 16)) by (unfold load_key, entry_offset; rewrite H2; reflexivity).
  assert (HV : load_value 0 m 0 0 = Ok (R_array, 24)).
  { unfold load_value, entry_offset, entry_rawtype. rewrite H2. cbn [bind]. rewrite H3. cbn [bind].
    unfold find_sizeof. change (R_string =? R_null) with false. change ((R_string =? R_object) || (R_string =? R_array)) with false.
    change ((R_string =? R_small_string) || (R_string =? R_string)) with true. cbv iota. rewrite H4. reflexivity. }
  assert (NZ : (1 <= f)%nat) by lia.
  clearbody m. split.
  - cbn [cost_buffer]. change (R_object =? R_null) with false. change (negb (valid_type R_object)) with false.
    change (R_object =? R_object) with true. cbv iota. unfold cost_aggregate. fold t.
    replace (t <? 8) with false by (subst t; unfold root_total; lia). rewrite H0. cbn [bind]. rewrite Z.ltb_irrefl.
    unfold agg_count. rewrite H1. cbn [bind]. replace (t <? 8 + 8 * 1) with false by (subst t; unfold root_total; lia).
    change (Z.to_nat 1) with 1%nat. cbn [valid_types]. unfold entry_rawtype. rewrite H3. cbn [bind].
    change (valid_type R_array) with true. cbv iota. cbn [bind negb].
    cbn [cost_pairs]. rewrite HK. cbn [bind]. unfold valid_child.
    replace (t <? 0 + 16 - 0) with false by (subst t; unfold root_total; lia). change (0 + 16 <=? 0) with false.
    change (negb (align_ptr 0 (0 + 16) R_string =? 0 + 16)) with false. cbn [bind negb].
    assert (K : cost_buffer f s 0 m R_string (0 + 16) (t - (0 + 16 - 0)) = Ok (true, 1)).
    { destruct f as [|f]; [lia|]. cbn [cost_buffer]. change (R_string =? R_null) with false. change (negb (valid_type R_string)) with false.
      change (R_string =? R_object) with false. change (R_string =? R_array) with false. cbv iota. unfold plain_cost. cbn [valid_buffer].
      change (R_string =? R_null) with false. change (negb (valid_type R_string)) with false.
      change (R_string =? R_object) with false. change (R_string =? R_array) with false.
      change ((R_string =? R_small_string) || (R_string =? R_string)) with true. cbv iota zeta. unfold valid_string.
      change (Z.of_nat 2) with 2. replace (t - (0 + 16 - 0) <? 2) with false by (subst t; unfold root_total; lia).
      rewrite H4. cbn [bind]. replace (t - (0 + 16 - 0) <? 2 + 0 + 1) with false by (subst t; unfold root_total; lia). rewrite H5. reflexivity. }
    rewrite K. cbn [bind negb]. rewrite HV. cbn [bind].
    replace (t <? 24 - 0) with false by (subst t; unfold root_total; lia). change (24 <=? 0 + 16) with false.
    change (negb (align_ptr 0 24 R_array =? 24)) with false. cbn [bind negb].
    replace (t - (24 - 0)) with (24 * Z.of_nat (S n)) by (subst t; unfold root_total; lia). rewrite C. cbn [bind negb]. do 2 f_equal. lia.
  - cbn [read_value]. change (R_object =? R_object) with true. cbv iota. unfold agg_count. rewrite H1. cbn [bind].
    change (Z.to_nat 1) with 1%nat. cbn [for_each]. rewrite HK. cbn [bind]. unfold rd_strv. rewrite H4. cbn [bind]. change (Z.of_nat 2) with 2.
    rewrite H6. cbn [bind]. rewrite HV. cbn [bind]. rewrite R. reflexivity.
Qed.
