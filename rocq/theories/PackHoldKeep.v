(** Values stay such that they can be finalized and found again, and nothing goes
    out of bounds, through the calls of SpecPackHold.v. *)

From Coq Require Import ZArith List Bool Lia Sorted ZifyBool ZifyNat ZifyN.
From Verif Require Import Base BaseFacts Keys Wire Spec BufFacts Lookup SpecOps HeapOps HeapFacts HeapRun SpecPacket PacketFacts NestedFacts
  SpecBufHold SpecPackHold.
Import ListNotations.
Open Scope Z_scope.

Definition sound (v : value) : Prop := heap_value v /\ good_all v.

Lemma scalar_good v : match v with VObj _ | VArr _ => False | _ => True end -> good_all v.
Proof. destruct v; intros H; try contradiction; constructor; exact I. Qed.
Lemma plain_sound v : plain v -> sound v.
Proof. intros [H S]. split; [exact H|apply scalar_good; exact S]. Qed.
Lemma null_sound : sound VNull.
Proof. split; constructor; exact I. Qed.
Lemma no_fields : sound (VObj []).
Proof. split; constructor; try constructor. Qed.
Lemma no_elems : sound (VArr []).
Proof. split; constructor; try constructor. Qed.

Lemma field_sound fs k x : sound (VObj fs) -> In (k, x) fs -> sound x.
Proof. intros [H G] N. split; [exact (proj2 (heap_field _ _ _ H N))|]. inversion G as [? ? F| | | | | |]; subst. rewrite Forall_forall in F. exact (proj2 (F _ N)). Qed.
Lemma elem_sound vs x : sound (VArr vs) -> In x vs -> sound x.
Proof. intros [H G] N. split; [exact (heap_elem _ _ H N)|]. inversion G as [|? ? F| | | | |]; subst. rewrite Forall_forall in F. exact (F _ N). Qed.

Lemma mutated_of v r v' i : r = Ok (v', i) -> fst (mutated v ('(w, j) <- r ;; Ok (w, iter_ans w j))) = v'.
Proof. intros ->. reflexivity. Qed.
Lemma keep_insert v k x v' i : sound v -> key_ok k -> sound x -> h_insert v k x = Ok (v', i) -> sound v'.
Proof.
  intros [H G] [P K] [HX GX] E. pose proof (plain_sound k P) as [HK GK].
  rewrite <- (mutated_of v _ v' i E). split.
  - apply (run_op_heap v (Insert k x) H). split; assumption.
  - apply (run_op_good v (Insert k x) H G); [split; assumption|]. destruct k; exact K.
Qed.
(** Positions count modulo 2^64, so any of them is one that fits. *)
Lemma keep_insert_at v z x v' i : sound v -> sound x -> h_insert v (VInt z) x = Ok (v', i) -> sound v'.
Proof.
  intros V X E. pose proof (Z.mod_pos_bound (z + 2 ^ 63) (2 ^ 64) ltac:(reflexivity)) as R.
  assert (Q : h_insert v (VInt z) x = h_insert v (VInt ((z + 2 ^ 63) mod 2 ^ 64 - 2 ^ 63)) x).
  { cbn [h_insert]. rewrite <- (Zminus_mod_idemp_l ((z + 2 ^ 63) mod 2 ^ 64)), Z.mod_mod by discriminate. rewrite Zminus_mod_idemp_l.
    replace (z + 2 ^ 63 - 2 ^ 63) with z by lia. reflexivity. }
  rewrite Q in E. eapply keep_insert; [exact V| |exact X|exact E]. split; [|exact I]. split; [|exact I]. constructor. cbn [heap_node]. lia.
Qed.
Lemma keep_set v k x v' i : sound v -> key_ok k -> sound x -> h_set v k x = Ok (v', i) -> sound v'.
Proof.
  intros [H G] [P K] [HX GX] E. pose proof (plain_sound k P) as [HK GK].
  rewrite <- (mutated_of v _ v' i E). split.
  - apply (run_op_heap v (Set_ k x) H). split; assumption.
  - apply (run_op_good v (Set_ k x) H G); [split; assumption|exact I].
Qed.
Lemma keep_erase v k v' i : sound v -> h_erase v k = Ok (v', i) -> sound v'.
Proof.
  intros [H G] E. rewrite <- (mutated_of v _ v' i E). split.
  - apply (run_op_heap v (Erase k) H). exact I.
  - apply (run_op_good v (Erase k) H G); exact I.
Qed.
Lemma keep_pop_front v v' : sound v -> h_pop_front v = Ok v' -> sound v'.
Proof.
  intros [H G] E.
  assert (Q : fst (run_op v Pop_front) = v') by (cbn [run_op]; rewrite E; reflexivity). rewrite <- Q. split.
  - apply (run_op_heap v Pop_front H). exact I.
  - apply (run_op_good v Pop_front H G); exact I.
Qed.
Lemma keep_pop_back v v' : sound v -> h_pop_back v = Ok v' -> sound v'.
Proof.
  intros [H G] E.
  assert (Q : fst (run_op v Pop_back) = v') by (cbn [run_op]; rewrite E; reflexivity). rewrite <- Q. split.
  - apply (run_op_heap v Pop_back H). exact I.
  - apply (run_op_good v Pop_back H G); exact I.
Qed.

Lemma fetch_sound v n w : sound v -> fetch v n = Ok w -> sound w.
Proof.
  intros V E. destruct n; cbn [fetch] in E; unfold h_get, h_at, h_get_idx, h_at_idx, h_front, h_back, h_fields, h_elements in E;
    destruct v as [fs|vs|t|z|d|f|]; cbn [h_size bind] in E; try discriminate E;
    repeat match goal with
    | E : match ?q with _ => _ end = Ok _ |- _ => destruct q eqn:?; cbn [bind] in E; try discriminate E
    | E : (if ?q then _ else _) = Ok _ |- _ => destruct q eqn:?; try discriminate E
    end; injection E as <-; try apply null_sound;
    match goal with
    | H : nth_error _ _ = Some (_, _) |- _ => eapply field_sound; [exact V|eapply nth_error_In; exact H]
    | H : nth_error _ _ = Some _ |- _ => eapply elem_sound; [exact V|eapply nth_error_In; exact H]
    | |- _ => eapply elem_sound; [exact V|left; reflexivity]
    end.
Qed.
Lemma last_in (vs : list value) : vs <> [] -> In (last vs VNull) vs.
Proof. intros N. destruct (exists_last N) as (l & z & ->). rewrite last_last. apply in_or_app. right. left. reflexivity. Qed.
Lemma lookup_in {A} k (fs : list (str * A)) x : lookup k fs = Some x -> In (k, x) fs.
Proof.
  induction fs as [|[k' y] r IH]; cbn [lookup]; [discriminate|].
  destruct (list_eq_dec Byte.byte_eq_dec k k') as [->|_]; intros E; [injection E as ->; left; reflexivity|right; exact (IH E)].
Qed.
Lemma reached_sound v n w : sound v -> reached (as_step n) v = inl w -> sound w.
Proof.
  intros V E. destruct n as [k|k|i|i| |]; cbn [as_step reached] in E; destruct v as [fs|vs|t|z|d|f|]; cbn [end_of] in E; try discriminate E.
  1-2: destruct (lookup k fs) as [x|] eqn:Q; try discriminate E; injection E as <-;
    first [apply null_sound | eapply field_sound; [exact V|exact (lookup_in _ _ _ Q)]].
  1-2: destruct (nth_error vs (Z.to_nat i)) as [x|] eqn:Q; try discriminate E; injection E as <-;
    first [apply null_sound | eapply elem_sound; [exact V|eapply nth_error_In; exact Q]].
  all: injection E as <-; destruct vs as [|x r]; [apply null_sound|]; eapply elem_sound; [exact V|].
  - left. reflexivity.
  - apply last_in. discriminate.
Qed.

(** ** Nothing but values and exceptions *)
Definition tame {A} (r : res A) : Prop := match r with Ok _ | Throw _ => True | _ => False end.

Lemma fetch_tame v n : way_ok n -> tame (fetch v n).
Proof.
  intros W. destruct n as [k|k|i|i| |]; cbn [fetch way_ok] in *; unfold h_get, h_at, h_get_idx, h_at_idx, h_front, h_back, h_fields, h_elements;
    destruct v as [fs|vs|t|z|d|f|]; cbn [h_size bind]; try exact I.
  1-2: destruct (map_find k fs) as [j|] eqn:Q; [|exact I]; destruct (nth_error fs j) as [[k' x]|] eqn:N; [exact I|];
    exfalso; revert Q; unfold map_find; destruct (nth_error fs (map_lower_bound k fs)) as [[k' x]|] eqn:M; [|discriminate];
    destruct (dart_ltb k k'); [discriminate|]; intros Q; injection Q as <-; congruence.
  all: try (destruct (i <? zlen fs)); try (destruct (i <? zlen t)); try exact I.
  1-2: destruct (i <? zlen vs) eqn:L; [|exact I]; destruct (nth_error vs (Z.to_nat i)) eqn:N; [exact I|]; apply nth_error_None in N; unfold zlen in L; lia.
  - destruct vs; exact I.
  - destruct vs as [|x r]; [exact I|]. destruct (nth_error (x :: r) (length (x :: r) - 1)) eqn:N; [exact I|]. apply nth_error_None in N. cbn [length] in N. lia.
Qed.
Lemma insert_tame v k x : tame (first (h_insert v k x)).
Proof.
  unfold first, h_insert, h_fields, h_elements. destruct k; try exact I; [destruct (_ <? _); [exact I|]|]; destruct v; try exact I; cbv zeta;
    [destruct (map_find _ _); exact I|destruct (_ <? _); exact I].
Qed.
Lemma set_tame v k x : tame (first (h_set v k x)).
Proof.
  unfold first, h_set, h_fields, h_elements. destruct k; try exact I; [destruct (_ <? _); [exact I|]|]; destruct v; try exact I; cbv zeta;
    [destruct (map_find _ _); exact I|destruct (_ <=? _); exact I].
Qed.
Lemma erase_idx_tame v i : tame (first (h_erase_idx v i)).
Proof. unfold first, h_erase_idx, h_elements. destruct v; try exact I. destruct (_ <=? _); exact I. Qed.
Lemma erase_tame v k : tame (first (h_erase v k)).
Proof.
  unfold h_erase. destruct k; try exact I; [|apply erase_idx_tame]. unfold first, h_erase_key, h_fields. destruct v; try exact I. destruct (map_find _ _); exact I.
Qed.
Lemma pop_tame v : tame (h_pop_front v) /\ tame (h_pop_back v).
Proof.
  split; [exact (erase_idx_tame v 0)|]. unfold h_pop_back. destruct v; cbn [h_size bind]; try exact I; apply erase_idx_tame.
Qed.
