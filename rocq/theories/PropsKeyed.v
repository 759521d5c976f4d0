(** C59: lookups with a dart value as key. *)

From Coq Require Import ZArith List Bool Lia String Sorted.
From Coq Require Import ZifyBool ZifyNat.
From Verif Require Import Base BaseFacts Keys Dec Wire Read Enc Spec Buf BufFacts HeapOps HeapFacts Nested NestedFacts KeysFacts IterFacts WireMore
SpecOps HeapRun SpecPacket Packet PacketRun Demo SpecKeyed Keyed.
Import ListNotations.
Open Scope string_scope.
Open Scope Z_scope.

(** ** What an identifier is *)

(** [q] can be asked for [k]: it has its type and, being a string or an integer, answers
    with it. Packets of either form do, and so do keys read off a finalized object. *)
Definition reads_as (q : packet) (k : value) : Prop :=
  p_type q = h_type k /\
  match k with
  | VStr _ => p_scalar T_string q = Ok k
  | VInt i => p_scalar T_integer q = Ok k /\ - 2 ^ 63 <= i < 2 ^ 63
  | _ => True
  end.

Theorem c59_packets_read q k f : stands q (k, f) -> reads_as q k.
Proof.
  intros (H & _ & P). cbn [fst snd] in *. destruct q as [w|bs m e].
  - injection P as -> ->. split; [reflexivity|]. destruct w as [| |s|i| | |]; try exact I; [reflexivity|].
    split; [reflexivity|]. inversion H; subst. assumption.
  - destruct P as [_ R]. split; [exact (T _ _ _ _ R)|]. destruct k as [| |s|i| | |]; try exact I.
    + apply (fin_scalar _ _ _ _ R T_string). reflexivity.
    + split; [apply (fin_scalar _ _ _ _ R T_integer); reflexivity|]. inversion H; subst. assumption.
Qed.
Print Assumptions c59_packets_read.

Lemma key_reads bs m a k : is_key m a k -> reads_as (PBuf bs m a) (VStr k).
Proof.
  intros K. split; [|exact K]. unfold is_key, b_scalar in K. cbn [p_type h_type].
  destruct (b_type a); try discriminate K; reflexivity.
Qed.

Lemma id_str_ok q s : reads_as q (VStr s) -> id_str q = Ok s.
Proof. intros [_ E]. unfold id_str. rewrite E. reflexivity. Qed.
Lemma id_index_ok q i : reads_as q (VInt i) -> id_index q = Ok (i mod 2 ^ 64) /\ - 2 ^ 63 <= i < 2 ^ 63.
Proof. intros [_ [E B]]. unfold id_index. rewrite E. split; [reflexivity|assumption]. Qed.
Lemma index_mod i : - 2 ^ 63 <= i < 2 ^ 63 -> i mod 2 ^ 64 = if 0 <=? i then i else i + 2 ^ 64.
Proof.
  intros B. destruct (0 <=? i) eqn:E; [apply Z.mod_small; lia|].
  rewrite <- (Z.mod_small (i + 2 ^ 64) (2 ^ 64)) by lia. rewrite <- Zplus_mod_idemp_r, Z.mod_same by lia.
  rewrite Z.add_0_r. reflexivity.
Qed.

(** ** Single lookups *)

Definition child (r : res packet) (f : bool) (x : value + err) : Prop :=
  match x with
  | inl v => exists p, r = Ok p /\ stands p (v, f) /\ in_memory v
  | inr e => r = Throw e
  end.

Lemma stands_type p v f : stands p (v, f) -> p_type p = h_type v.
Proof. intros (_ & _ & P). destruct p; [injection P as -> ->; reflexivity|exact (T _ _ _ _ (proj2 P))]. Qed.

Lemma every_member K L v x : every K L v ->
  match v with VObj fs => In x (map snd fs) | VArr vs => In x vs | _ => False end -> every K L x.
Proof.
  intros E. inversion E as [fs _ F|vs _ F| | | | |]; subst; try contradiction; intros N; rewrite Forall_forall in F.
  - apply in_map_iff in N. destruct N as ([k y] & <- & N). exact (proj2 (F _ N)).
  - exact (F _ N).
Qed.
Lemma lookup_in {A} k (fs : list (str * A)) x : lookup k fs = Some x -> In (k, x) fs.
Proof.
  induction fs as [|[k' y] r IH]; [discriminate|]. cbn [lookup]. destruct (list_eq_dec _ k k') as [->|N]; intros E.
  - injection E as ->. left. reflexivity.
  - right. auto.
Qed.
Lemma every_named K L v k x : every K L v -> named v k = Some x -> every K L x.
Proof.
  intros E N. apply (every_member K L v x E). destruct v as [fs|vs| | | | |]; try discriminate N; destruct k as [| |t|j| | |]; try discriminate N; cbn [named] in N.
  - apply lookup_in in N. apply in_map_iff. exists (t, x). auto.
  - destruct (0 <=? j); [|discriminate]. apply nth_error_In in N. assumption.
Qed.
Lemma null_every K (L : value -> Prop) : L VNull -> every K L VNull.
Proof. intros H. constructor. assumption. Qed.
Lemma every_or_null K (L : value -> Prop) v k : L VNull -> every K L v -> every K L (or_null (named v k)).
Proof.
  intros N E. destruct (named v k) as [x|] eqn:Q; [exact (every_named K L v k x E Q)|apply null_every; assumption].
Qed.

Lemma child_of p v f k : stands p (v, f) -> in_memory v -> heap_value (or_null (named v k)) /\ good_all (or_null (named v k)) /\ in_memory (or_null (named v k)).
Proof.
  intros (H & G & _) M. cbn [fst] in *. refine (conj _ (conj _ _)); apply every_or_null; try assumption; exact I.
Qed.

Theorem get_by_str p v f s : stands p (v, f) -> in_memory v -> child (p_get p s) f (picked v (VStr s)).
Proof.
  intros St M. pose proof (child_of p v f (VStr s) St M) as (H' & G' & M'). destruct St as (H & G & P). cbn [fst snd] in *.
  destruct p as [w|bs m e].
  - injection P as -> ->. destruct w as [fs| | | | | |]; try reflexivity. unfold picked. cbn [suits child]. unfold p_get, visit.
    rewrite h_get_spec by (apply heap_sorted; assumption). cbn [bind named or_null] in *.
    eexists. split; [reflexivity|]. destruct (lookup s fs); (split; [split; [assumption|split; [assumption|reflexivity]]|assumption]).
  - destruct P as [-> R]. unfold picked, p_get, visit. destruct v as [fs| | | | | |];
      try (cbn [suits child]; unfold b_get; rewrite (b_object_other _ _ _ _ R) by discriminate; reflexivity).
    cbn [suits child]. destruct (b_get_spec bs m e fs s R (good_all_keys _ G)) as (e' & -> & R'). cbn [bind named or_null] in *.
    eexists. split; [reflexivity|]. destruct (lookup s fs); (split; [split; [assumption|split; [assumption|split; [reflexivity|assumption]]]|assumption]).
Qed.

Lemma far {A} (l : list A) i : zlen l <= 2 ^ 59 -> i < 0 -> - 2 ^ 63 <= i -> nth_error l (Z.to_nat (i + 2 ^ 64)) = None.
Proof. intros L N B. apply nth_error_None. unfold zlen in L. lia. Qed.

Lemma memory_array vs : in_memory (VArr vs) -> zlen vs <= 2 ^ 59.
Proof. intros M. inversion M; subst. assumption. Qed.

Lemma named_at vs i : - 2 ^ 63 <= i < 2 ^ 63 -> zlen vs <= 2 ^ 59 ->
  nth_error vs (Z.to_nat (i mod 2 ^ 64)) = named (VArr vs) (VInt i).
Proof.
  intros B L. rewrite index_mod by assumption. cbn [named]. destruct (0 <=? i) eqn:E; [reflexivity|].
  apply far; lia.
Qed.

Theorem get_by_index p v f i : stands p (v, f) -> in_memory v -> - 2 ^ 63 <= i < 2 ^ 63 ->
  child (p_get_idx p (i mod 2 ^ 64)) f (picked v (VInt i)).
Proof.
  intros St M B. pose proof (child_of p v f (VInt i) St M) as (H' & G' & M'). destruct St as (H & G & P). cbn [fst snd] in *.
  pose proof (Z.mod_pos_bound i (2 ^ 64) ltac:(lia)) as B'.
  destruct p as [w|bs m e].
  - injection P as -> ->. destruct w as [|vs| | | | |]; try reflexivity. unfold picked. cbn [suits child]. unfold p_get_idx, visit.
    pose proof (memory_array _ M) as L. cbn [h_get_idx h_elements h_size bind].
    pose proof (named_at vs i B L) as N. set (j := i mod 2 ^ 64) in *.
    destruct (j <? zlen vs) eqn:E.
    + destruct (nth_error vs (Z.to_nat j)) as [x|] eqn:Q.
      * cbn [bind]. rewrite <- N in *. cbn [or_null] in *. eexists. split; [reflexivity|].
        split; [split; [assumption|split; [assumption|reflexivity]]|assumption].
      * apply nth_error_None in Q. unfold zlen in E. lia.
    + assert (Q : nth_error vs (Z.to_nat j) = None) by (apply nth_error_None; unfold zlen in E; lia).
      rewrite Q in N. rewrite <- N in *. cbn [bind or_null] in *. eexists. split; [reflexivity|].
      split; [split; [assumption|split; [assumption|reflexivity]]|assumption].
  - destruct P as [-> R]. unfold picked, p_get_idx, visit. destruct v as [|vs| | | | |];
      try (cbn [suits child]; unfold b_get_idx; rewrite (b_array_other _ _ _ _ R) by discriminate; reflexivity).
    cbn [suits child]. pose proof (memory_array _ M) as L.
    destruct (b_get_idx_spec bs m e vs (i mod 2 ^ 64) R ltac:(lia)) as (e' & -> & R'). rewrite named_at in R' by assumption.
    cbn [bind]. eexists. split; [reflexivity|]. fold (or_null (named (VArr vs) (VInt i))) in R'.
    split; [split; [assumption|split; [assumption|split; [reflexivity|exact R']]]|assumption].
Qed.

(** Looking [q] up in [p] gives what [k] names in [v], in the form of [p], or null if it
    names nothing, or fails if it is not the kind of name [v] has; in every combination
    of forms of the two. *)
Theorem c59_get p v f q k : stands p (v, f) -> in_memory v -> reads_as q k -> child (p_get_id p q) f (picked v k).
Proof.
  intros St M Q. unfold p_get_id. rewrite (proj1 Q). destruct k as [fs|vs|s|i|d|c|]; cbn [h_type];
    try (destruct v; reflexivity).
  - rewrite (id_str_ok q s Q). cbn [bind]. apply get_by_str; assumption.
  - destruct (id_index_ok q i Q) as [-> B]. cbn [bind]. apply get_by_index; assumption.
Qed.
Print Assumptions c59_get.

(** The same for lookups in a row. *)
Theorem c59_follow qs : forall ks p v f, stands p (v, f) -> in_memory v -> Forall2 reads_as qs ks ->
  child (p_follow p qs) f (followed v ks).
Proof.
  induction qs as [|q qs IH]; intros ks p v f St M F; inversion F as [|? k ? ks' Q F']; subst; cbn [p_follow followed].
  - exists p. auto.
  - pose proof (c59_get p v f q k St M Q) as C. destruct (picked v k) as [x|e]; cbn [child] in C.
    + destruct C as (p' & -> & St' & M'). cbn [bind]. apply IH; assumption.
    + rewrite C. reflexivity.
Qed.
Print Assumptions c59_follow.

(** Typed wrappers as keys do the same on what they can hold. *)
Theorem c59_get_typed p v f q k : stands p (v, f) -> in_memory v -> reads_as q k ->
  (forall i, k = VInt i -> child (p_get_num p q) f (picked v k)) /\
  (forall s, k = VStr s -> child (p_get_str p q) f (picked v k)).
Proof.
  intros St M Q. split.
  - intros i ->. destruct (id_index_ok q i Q) as [E B]. unfold p_get_num. rewrite E. cbn [bind]. apply get_by_index; assumption.
  - intros s ->. unfold p_get_str. rewrite (id_str_ok q s Q). cbn [bind]. apply get_by_str; assumption.
Qed.
Print Assumptions c59_get_typed.

(** has_key: whether the key names a member, for any identifier on an object; for one
    that is no string also on anything else. *)
Theorem c59_has_key p v f q k : stands p (v, f) -> reads_as q k ->
  p_has_id p q =
    match v, k with
    | VObj _, _ => Ok (match named v k with Some _ => true | None => false end)
    | _, VStr _ => Throw type_error
    | _, _ => Ok false
    end.
Proof.
  intros (H & G & P) Q. cbn [fst snd] in *. unfold p_has_id. rewrite (proj1 Q). destruct k as [fs|vs|s|i|d|c|]; cbn [h_type];
    try (destruct v; reflexivity).
  rewrite (id_str_ok q s Q). cbn [bind]. destruct p as [w|bs m e].
  - injection P as -> ->. cbn [p_has_key named]. destruct w as [fs| | | | | |]; try reflexivity.
    apply h_has_key_spec. apply heap_sorted. assumption.
  - destruct P as [-> R]. rewrite (fin_has _ _ _ _ R G). destruct v as [fs| | | | | |]; try reflexivity.
    cbn [named]. apply h_has_key_spec. apply heap_sorted. assumption.
Qed.
Print Assumptions c59_has_key.

(** ** Lookups with a default *)

(** The default is what is returned, in its own form, unless the member is there. *)
Definition chosen (r : res packet) (f : bool) (v k : value) (dp : packet) : Prop :=
  match named v k with
  | Some x => exists p, r = Ok p /\ stands p (x, f)
  | None => r = Ok dp
  end.

Lemma stands_size p v f : stands p (v, f) -> p_size p = h_size v.
Proof. intros (_ & _ & P). destruct p; [injection P as -> ->; reflexivity|exact (p_size_eq _ _ _ _ (proj2 P))]. Qed.

Lemma child_chosen r f v k dp x : named v k = Some x -> child r f (picked v k) -> chosen r f v k dp.
Proof.
  intros N C. unfold chosen. rewrite N. unfold picked in C. assert (S : suits v k = true).
  { destruct v, k; try discriminate N; reflexivity. }
  rewrite S, N in C. cbn [child or_null] in C. destruct C as (p & -> & St & _). eauto.
Qed.

Lemma within vs i : - 2 ^ 63 <= i < 2 ^ 63 -> zlen vs <= 2 ^ 59 ->
  (i mod 2 ^ 64 <? zlen vs) = match named (VArr vs) (VInt i) with Some _ => true | None => false end.
Proof.
  intros B L. rewrite <- named_at by assumption. pose proof (Z.mod_pos_bound i (2 ^ 64) ltac:(lia)) as B'.
  destruct (nth_error vs (Z.to_nat (i mod 2 ^ 64))) as [x|] eqn:E.
  - assert (N : nth_error vs (Z.to_nat (i mod 2 ^ 64)) <> None) by congruence. apply nth_error_Some in N. unfold zlen. lia.
  - apply nth_error_None in E. unfold zlen. lia.
Qed.

Theorem c59_get_or p v f q k dp : stands p (v, f) -> in_memory v -> reads_as q k ->
  (h_type v = T_array -> h_type k = T_integer) -> chosen (p_get_or_id p q dp) f v k dp.
Proof.
  intros St M Q A. unfold p_get_or_id. rewrite (stands_type _ _ _ St).
  destruct v as [fs|vs|s0|i0|d0|c0|]; cbn [h_type]; try (unfold chosen; destruct k; reflexivity).
  - rewrite (c59_has_key p _ f q k St Q). cbn [bind]. pose proof (c59_get p _ f q k St M Q) as C.
    destruct (named (VObj fs) k) as [x|] eqn:N; [exact (child_chosen _ _ _ _ dp x N C)|].
    unfold chosen. rewrite N. reflexivity.
  - specialize (A eq_refl). destruct k as [| | |i| | |]; try discriminate A. rewrite (stands_size _ _ _ St). cbn [h_size bind].
    destruct (id_index_ok q i Q) as [-> B]. cbn [bind]. rewrite within by (assumption || (apply memory_array; assumption)).
    pose proof (c59_get p _ f q _ St M Q) as C. destruct (named (VArr vs) (VInt i)) as [x|] eqn:N.
    + exact (child_chosen _ _ _ _ dp x N C).
    + unfold chosen. rewrite N. reflexivity.
Qed.
Print Assumptions c59_get_or.

Theorem c59_get_or_typed p v f q k dp : stands p (v, f) -> in_memory v -> reads_as q k ->
  (forall i, k = VInt i -> chosen (p_get_or_num p q dp) f v k dp) /\
  (forall s, k = VStr s -> chosen (p_get_or_str p q dp) f v k dp).
Proof.
  intros St M Q. split.
  - intros i ->. destruct (id_index_ok q i Q) as [E B]. unfold p_get_or_num. rewrite E. cbn [bind]. rewrite (stands_type _ _ _ St).
    destruct v as [|vs| | | | |]; cbn [h_type]; try (unfold chosen; reflexivity).
    rewrite (stands_size _ _ _ St). cbn [h_size bind]. rewrite within by (assumption || (apply memory_array; assumption)).
    pose proof (get_by_index p _ f i St M B) as C. destruct (named (VArr vs) (VInt i)) as [x|] eqn:N.
    + exact (child_chosen _ _ _ _ dp x N C).
    + unfold chosen. rewrite N. reflexivity.
  - intros s ->. pose proof (c59_has_key p v f q _ St Q) as H. unfold p_has_id in H. rewrite (proj1 Q) in H. cbn [h_type] in H.
    rewrite (id_str_ok q s Q) in H. cbn [bind] in H. unfold p_get_or_str. rewrite (id_str_ok q s Q). cbn [bind].
    rewrite (stands_type _ _ _ St). destruct v as [fs| | | | | |]; cbn [h_type]; try (unfold chosen; reflexivity).
    rewrite H. cbn [bind]. pose proof (get_by_str p _ f s St M) as C. destruct (named (VObj fs) (VStr s)) as [x|] eqn:N.
    + exact (child_chosen _ _ _ _ dp x N C).
    + unfold chosen. rewrite N. reflexivity.
Qed.
Print Assumptions c59_get_or_typed.

(** ** The keys of an object as keys *)

Lemma lookup_own (fs : list (str * value)) k x : StronglySorted key_lt (map fst fs) -> In (k, x) fs -> lookup k fs = Some x.
Proof.
  induction fs as [|[k' y] r IH]; intros S I; [contradiction|]. cbn [map fst] in S. apply StronglySorted_inv in S.
  destruct S as [S F]. cbn [lookup]. destruct (list_eq_dec _ k k') as [->|N].
  - destruct I as [E|I]; [congruence|]. exfalso. rewrite Forall_forall in F.
    apply (key_lt_irrefl k'). apply F. apply in_map_iff. exists (k', x). auto.
  - destruct I as [E|I]; [congruence|]. auto.
Qed.

(** Every key an object lists, used as it comes, is there and finds its value - also
    in another packet that holds the same value in another form. *)
Theorem c59_own_keys p p' fs f f' dp : stands p (VObj fs, f) -> stands p' (VObj fs, f') -> in_memory (VObj fs) ->
  exists ks, p_keys p = Ok ks /\
    Forall2 (fun q kx =>
      p_value q = Ok (VStr (fst kx)) /\ p_has_id p' q = Ok true /\
      (exists x, p_get_id p' q = Ok x /\ stands x (snd kx, f')) /\
      (exists x, p_get_or_id p' q dp = Ok x /\ stands x (snd kx, f'))) ks fs.
Proof.
  intros St St' M.
  assert (K : exists ks, p_keys p = Ok ks /\ Forall2 (fun q kx => p_value q = Ok (VStr (fst kx)) /\ reads_as q (VStr (fst kx))) ks fs).
  { destruct St as (H & G & P). cbn [fst snd] in *. unfold p_keys. destruct p as [w|bs m e].
    - injection P as <- ->. cbn [p_size h_size bind p_iterate_keys]. rewrite h_iterate_keys_spec. cbn [bind].
      eexists. split; [reflexivity|]. clear. induction fs as [|kx r IH]; constructor; [|assumption].
      split; [reflexivity|]. split; reflexivity.
    - destruct P as [-> R]. rewrite (p_size_eq _ _ _ _ R). cbn [h_size bind p_iterate_keys].
      destruct (b_iterate_keys_spec bs m e fs R) as (es & -> & F). cbn [bind]. eexists. split; [reflexivity|].
      clear - F. remember (map fst fs) as l eqn:E. revert fs E. induction F as [|a k es l H F IH]; intros [|kx r] E; try discriminate E.
      + constructor.
      + injection E as -> E. cbn [map]. constructor; [|apply IH; assumption].
        split; [exact (key_value _ _ _ _ H)|apply key_reads; assumption]. }
  destruct K as (ks & E & F). exists ks. split; [exact E|].
  assert (S : StronglySorted key_lt (map fst fs)) by (apply heap_sorted; exact (proj1 St')).
  assert (F' : Forall2 (fun q kx => (p_value q = Ok (VStr (fst kx)) /\ reads_as q (VStr (fst kx))) /\ In kx fs) ks fs).
  { clear - F. assert (G : forall l, (forall kx, In kx l -> In kx fs) ->
      forall qs, Forall2 (fun q kx => p_value q = Ok (VStr (fst kx)) /\ reads_as q (VStr (fst kx))) qs l ->
      Forall2 (fun q kx => (p_value q = Ok (VStr (fst kx)) /\ reads_as q (VStr (fst kx))) /\ In kx fs) qs l).
    { induction l as [|kx l IH]; intros N qs Q; inversion Q; subst; constructor; [split; [assumption|apply N; left; reflexivity]|].
      apply IH; [|assumption]. intros y Y. apply N. right. assumption. }
    apply G; auto. }
  eapply WireMore.Forall2_impl; [|exact F']. intros q [k x] [[V Q] I]. cbn [fst snd] in *.
  assert (N : named (VObj fs) (VStr k) = Some x) by (apply lookup_own; assumption).
  split; [exact V|]. split; [rewrite (c59_has_key p' _ f' q _ St' Q); rewrite N; reflexivity|].
  pose proof (c59_get p' _ f' q _ St' M Q) as C. pose proof (c59_get_or p' _ f' q _ dp St' M Q ltac:(discriminate)) as D.
  unfold picked in C. cbn [suits] in C. rewrite N in C. cbn [child or_null] in C. unfold chosen in D. rewrite N in D.
  split; [destruct C as (y & -> & Sy & _); eauto|exact D].
Qed.
Print Assumptions c59_own_keys.

(** ** A concrete case *)
Definition c59_doc : value :=
  VObj [(b "at", VInt (-1)); (b "key", VStr (b "list")); (b "list", VArr [VStr (b "a"); VStr (b "at"); VNull])].
Example c59_case :
  match p_finalize 8 (PHeap c59_doc) with
  | Ok p =>
      let q := PHeap c59_doc in
      (* p[q["key"]][1] names a key of q, whose value is an index *)
      match p_get_id q (PHeap (VStr (b "key"))) with
      | Ok k =>
          match p_follow p [k; PHeap (VInt 1)] with
          | Ok k2 =>
              match p_get_id q k2 with
              | Ok i =>
                  p_value k2 = Ok (VStr (b "at")) /\ p_value i = Ok (VInt (-1)) /\
                  match p_follow p [k; i], p_get_or_id p i (PHeap (VBool true)) with
                  | Ok n, Ok d => p_value n = Ok VNull /\ d = PHeap (VBool true)
                  | _, _ => False
                  end /\
                  p_follow p [k; k] = Throw type_error /\ p_has_id p i = Ok false
              | _ => False
              end
          | _ => False
          end
      | _ => False
      end
  | _ => False
  end.
Proof. vm_compute. repeat split. Qed.
Example c59_case_fits : heap_value c59_doc /\ good_all c59_doc /\ in_memory c59_doc.
Proof.
  unfold c59_doc. refine (conj _ (conj _ _)); repeat (constructor; cbn); try (vm_compute; (reflexivity || discriminate));
    try (vm_compute; intuition discriminate).
Qed.

(** ** What the documentation promises beyond that *)

(** dart.h:6981-7001 has get_or return the default "if this is an array/object, but the
    passed identifier is not a number/string respectively" and calls it logically noexcept; an array asks any identifier for its integer
    first. *)
Theorem c59_get_or_refuted :
  exists p v f q k dp d, stands p (v, f) /\ in_memory v /\ stands q (k, false) /\ stands dp (d, false) /\
    or_else v k d = d /\ p_get_or_id p q dp = Throw type_error.
Proof.
  exists (PHeap (VArr [VNull])), (VArr [VNull]), false, (PHeap (VStr (b "a"))), (VStr (b "a")), (PHeap VNull), VNull.
  assert (H : forall v, heap_value v -> good_all v -> stands (PHeap v) (v, false)) by (intros v A B; exact (conj A (conj B eq_refl))).
  refine (conj (H _ _ _) (conj _ (conj (H _ _ _) (conj (H _ _ _) (conj eq_refl eq_refl)))));
    repeat (constructor; cbn); try (vm_compute; (reflexivity || discriminate)); try exact I.
Qed.
Print Assumptions c59_get_or_refuted.

(** A number wrapper may hold a decimal; get_or asks it for an integer whatever it is
    called on. *)
Theorem c59_get_or_number_refuted :
  exists p v f q k dp d, stands p (v, f) /\ in_memory v /\ stands q (k, false) /\ stands dp (d, false) /\
    h_type k = T_decimal /\ or_else v k d = d /\ p_get_or_id p q dp = Ok dp /\ p_get_or_num p q dp = Throw type_error.
Proof.
  exists (PHeap VNull), VNull, false, (PHeap (VDec 4609434218613702656)), (VDec 4609434218613702656), (PHeap VNull), VNull.
  assert (H : forall v, heap_value v -> good_all v -> stands (PHeap v) (v, false)) by (intros v A B; exact (conj A (conj B eq_refl))).
  refine (conj (H _ _ _) (conj _ (conj (H _ _ _) (conj (H _ _ _) (conj eq_refl (conj eq_refl (conj eq_refl eq_refl)))))));
    repeat (constructor; cbn); try (vm_compute; (reflexivity || discriminate)); try exact I.
Qed.
Print Assumptions c59_get_or_number_refuted.
