(** Calls on packets keep their type; the wrappers' programs follow SpecWrap.v. *)

From Coq Require Import ZArith List Bool Lia.
From Verif Require Import Base BaseFacts Keys Dec SpecDec DecFacts Wire Read Spec Buf BufFacts HeapOps SpecOps HeapRun SpecPacket Packet PacketRun
  Ordered SpecConv Conv ConvNum Float SpecArith Arith ArithFacts PropsArith SpecWrap Wrap.
Import ListNotations.
Open Scope Z_scope.

(** ** Types *)

Lemma insert_type v k x r : h_insert v k x = Ok r -> h_type (fst r) = h_type v.
Proof.
  unfold h_insert. destruct k; try discriminate.
  - destruct (65535 <? zlen s); [discriminate|]. destruct v; try discriminate. cbn [h_fields].
    destruct (map_find s fs); intros E; apply Ok_inj in E; subst; reflexivity.
  - destruct v; try discriminate. cbn [h_elements]. destruct (_ <? _); [discriminate|].
    intros E; apply Ok_inj in E; subst; reflexivity.
Qed.
Lemma set_type v k x r : h_set v k x = Ok r -> h_type (fst r) = h_type v.
Proof.
  unfold h_set. destruct k; try discriminate.
  - destruct (65535 <? zlen s); [discriminate|]. destruct v; try discriminate. cbn [h_fields].
    destruct (map_find s fs); [|discriminate]. intros E; apply Ok_inj in E; subst; reflexivity.
  - destruct v; try discriminate. cbn [h_elements]. destruct (_ <=? _); [discriminate|].
    intros E; apply Ok_inj in E; subst; reflexivity.
Qed.
Lemma erase_idx_type v i r : h_erase_idx v i = Ok r -> h_type (fst r) = h_type v.
Proof.
  unfold h_erase_idx. destruct v; try discriminate. cbn [h_elements].
  destruct (_ <=? _); intros E; apply Ok_inj in E; subst; reflexivity.
Qed.
Lemma erase_type v k r : h_erase v k = Ok r -> h_type (fst r) = h_type v.
Proof.
  unfold h_erase, h_erase_key. destruct k; try discriminate; [|apply erase_idx_type].
  destruct v; try discriminate. cbn [h_fields].
  destruct (map_find s fs); intros E; apply Ok_inj in E; subst; reflexivity.
Qed.
Lemma push_back_type v x r : h_push_back v x = Ok r -> h_type r = h_type v.
Proof.
  unfold h_push_back. destruct (h_size v) as [n| | | |]; try discriminate. cbn [bind].
  destruct (h_insert v (VInt n) x) as [[v' i]| | | |] eqn:E; try discriminate. cbn [bind].
  intros H. apply Ok_inj in H. subst. apply (insert_type _ _ _ _ E).
Qed.

Lemma mutated_type v r : (forall p, r = Ok p -> h_type (fst p) = h_type v) -> h_type (fst (mutated v r)) = h_type v.
Proof. intros H. destruct r as [p| | | |]; cbn [mutated fst]; auto. Qed.

Lemma run_op_type v o : h_type (fst (run_op v o)) = h_type v.
Proof.
  assert (B : forall (r : res (value * nat)) (f : value -> nat -> ans), (forall p, r = Ok p -> h_type (fst p) = h_type v) ->
    h_type (fst (mutated v ('(v', i) <- r ;; Ok (v', f v' i)))) = h_type v).
  { intros [[v' i]| | | |] f H; try reflexivity. exact (H _ eq_refl). }
  assert (C : forall r, (forall x, r = Ok x -> h_type x = h_type v) ->
    h_type (fst (mutated v (v' <- r ;; Ok (v', A_unit)))) = h_type v).
  { intros [v'| | | |] H; try reflexivity. exact (H _ eq_refl). }
  assert (A : forall r, h_type (fst (answered v r)) = h_type v) by (intros []; reflexivity).
  destruct o; cbn [run_op]; try apply A.
  - apply B. intros p. apply insert_type.
  - apply B. intros p. apply set_type.
  - apply B. intros p. apply erase_type.
  - apply C. intros u E. unfold h_push_front in E. destruct (h_insert _ _ _) as [[w i]| | | |] eqn:F; try discriminate.
    cbn [bind] in E. apply Ok_inj in E. subst. apply (insert_type _ _ _ _ F).
  - apply C. intros u. apply push_back_type.
  - apply C. intros u E. unfold h_pop_front in E. destruct (h_erase_idx _ _) as [[w i]| | | |] eqn:F; try discriminate.
    cbn [bind] in E. apply Ok_inj in E. subst. apply (erase_idx_type _ _ _ F).
  - apply C. intros u E. unfold h_pop_back in E. destruct (h_size v) as [n| | | |]; try discriminate. cbn [bind] in E.
    destruct (h_erase_idx _ _) as [[w i]| | | |] eqn:F; try discriminate.
    cbn [bind] in E. apply Ok_inj in E. subst. apply (erase_idx_type _ _ _ F).
  - apply C. intros u E. unfold h_resize in E. destruct v; try discriminate. apply Ok_inj in E. now subst.
  - apply C. intros u E. unfold h_clear in E. destruct v; try discriminate; apply Ok_inj in E; now subst.
Qed.

Lemma fold_range_type f (H : forall i a r, f i a = Ok r -> h_type r = h_type a) n : forall i a r,
  fold_range f i n a = Ok r -> h_type r = h_type a.
Proof.
  induction n as [|n IH]; intros i a r; cbn [fold_range].
  - intros E. apply Ok_inj in E. now subst.
  - destruct (f i a) as [b| | | |] eqn:E; try discriminate. cbn [bind]. intros F. rewrite (IH _ _ _ F). apply (H _ _ _ E).
Qed.

Lemma scalar_type_of m t o v : rd_scalar m t o = Ok v -> simplify_type t <> T_object -> simplify_type t <> T_array ->
  h_type v = simplify_type t.
Proof.
  unfold rd_scalar, simplify_type. intros E N M.
  destruct (t =? R_object); [congruence|]. destruct (t =? R_array); [congruence|].
  destruct (t =? R_small_string); destruct (t =? R_string); destruct (t =? R_big_string); cbn [orb] in *;
    try (destruct (rd_strv m _ o); [|discriminate..]; cbn [bind] in E; apply Ok_inj in E; subst; reflexivity).
  destruct (t =? R_short_integer); destruct (t =? R_integer); destruct (t =? R_long_integer); cbn [orb] in *;
    try (destruct (rd_le m o _); [|discriminate..]; cbn [bind] in E; apply Ok_inj in E; subst; reflexivity).
  destruct (t =? R_decimal); destruct (t =? R_long_decimal); cbn [orb] in *;
    try (destruct (rd_le m o _); [|discriminate..]; cbn [bind] in E; apply Ok_inj in E; subst; reflexivity).
  destruct (t =? R_boolean).
  - destruct (rd_le m o 1) as [z| | | |]; [|discriminate..]. cbn [bind] in E.
    destruct (z =? 0); [|destruct (z =? 1)]; try discriminate; apply Ok_inj in E; subst; reflexivity.
  - apply Ok_inj in E. subst. reflexivity.
Qed.
Lemma b_scalar_type t m e v : t <> T_object -> t <> T_array -> b_scalar t m e = Ok v -> h_type v = b_type e.
Proof.
  unfold b_scalar. intros N M. destruct (utype_eqb (b_type e) t) eqn:E; [|discriminate].
  assert (b_type e = t) as T by (destruct (b_type e), t; congruence || discriminate).
  destruct (snd e); [|discriminate]. intros R. unfold b_type in *. apply (scalar_type_of _ _ _ _ R); congruence.
Qed.

Lemma from_buffer_type fuel bs m e v : from_buffer fuel bs m e = Ok v -> h_type v = b_type e.
Proof.
  destruct fuel as [|fuel]; [discriminate|]. cbn [from_buffer]. destruct (b_type e) eqn:E; intros H.
  1: { destruct (b_size m e); try discriminate. cbn [bind] in H. apply fold_range_type in H; [exact H|].
       intros i acc r. destruct (b_deref_key m e i); try discriminate. cbn [bind].
       destruct (from_buffer fuel bs m _); try discriminate. cbn [bind].
       destruct (b_deref bs m e i); try discriminate. cbn [bind].
       destruct (from_buffer fuel bs m _); try discriminate. cbn [bind].
       destruct (h_insert acc _ _) as [[a' j]| | | |] eqn:F; try discriminate. cbn [bind].
       intros G. apply Ok_inj in G. subst. apply (insert_type _ _ _ _ F). }
  1: { destruct (b_size m e); try discriminate. cbn [bind] in H. apply fold_range_type in H; [exact H|].
       intros i acc r. destruct (b_deref bs m e i); try discriminate. cbn [bind].
       destruct (from_buffer fuel bs m _); try discriminate. cbn [bind]. apply push_back_type. }
  all: try (rewrite <- E; eapply b_scalar_type; [| |exact H]; discriminate).
  apply Ok_inj in H. subst. reflexivity.
Qed.

Lemma p_finalize_type n p q : p_finalize n p = Ok q -> p_type q = p_type p.
Proof.
  destruct p as [v|bs m e]; cbn [p_finalize].
  - unfold finalize. destruct v; try discriminate. destruct (_ <- upper_bound _ ;; _) as [m| | | |]; try discriminate.
    cbn [bind]. intros E. apply Ok_inj in E. subst. reflexivity.
  - intros E. apply Ok_inj in E. now subst.
Qed.
Lemma p_definalize_type p q : p_definalize p = Ok q -> p_type q = p_type p.
Proof.
  destruct p as [v|bs m e]; cbn [p_definalize].
  - intros E. apply Ok_inj in E. now subst.
  - destruct (from_buffer _ bs m e) as [v| | | |] eqn:F; try discriminate. cbn [bind].
    intros E. apply Ok_inj in E. subst. cbn [p_type]. apply (from_buffer_type _ _ _ _ _ F).
Qed.

(** Every call but the two that go to a child. *)
Definition stays (c : pcall) : bool := match c with Into _ | Into_idx _ => false | _ => true end.
Lemma p_call_type p c : stays c = true -> p_type (fst (p_call p c)) = p_type p.
Proof.
  destruct c; intros H; try discriminate; cbn [p_call]; try reflexivity.
  - assert (A : p_type (fst (p_do p o)) = p_type p).
    { destruct p as [v|bs m e].
      - rewrite heap_do. cbn [fst p_type]. apply run_op_type.
      - destruct o; reflexivity. }
    destruct (p_do p o). exact A.
  - unfold p_become. destruct (p_finalize addr p) as [q| | | |] eqn:E; cbn [fst]; try reflexivity. apply (p_finalize_type _ _ _ E).
  - unfold p_become. destruct (p_definalize p) as [q| | | |] eqn:E; cbn [fst]; try reflexivity. apply (p_definalize_type _ _ E).
Qed.

Lemma push_all_type l : forall a v, push_all l a = Ok v -> h_type v = h_type a.
Proof.
  induction l as [|e l IH]; intros a v; cbn [push_all].
  - intros E. apply Ok_inj in E. now subst.
  - destruct e as [x| | | |]; try discriminate. cbn [bind]. destruct (h_push_back a x) as [b| | | |] eqn:E; try discriminate.
    cbn [bind]. intros F. rewrite (IH _ _ F). apply (push_back_type _ _ _ E).
Qed.
Lemma add_fields_type l : forall a v, add_fields l a = Ok v -> h_type v = h_type a.
Proof.
  induction l as [|[k x] l IH]; intros a v; cbn [add_fields].
  - intros E. apply Ok_inj in E. now subst.
  - destruct k as [k| | | |]; try discriminate. cbn [bind]. destruct x as [x| | | |]; try discriminate. cbn [bind].
    destruct (h_insert a k x) as [[b i]| | | |] eqn:E; try discriminate. cbn [bind]. intros F. rewrite (IH _ _ F).
    apply (insert_type _ _ _ _ E).
Qed.

(** A native value of the accepted type becomes a packet of the kind. *)
Lemma to_dart_kind k t x v : accepts k t = true -> to_dart t x = Ok v -> of_kind k (h_type v).
Proof.
  destruct k, t; try discriminate; intros _; destruct x; cbn [to_dart]; try discriminate; intros E;
    try (apply Ok_inj in E; subst; cbn; auto; fail).
  - apply add_fields_type in E. exact E.
  - apply add_fields_type in E. exact E.
  - apply push_all_type in E. exact E.
  - apply push_all_type in E. exact E.
Qed.

Lemma is_a_spec k p : is_a k p = true <-> of_kind k (p_type p).
Proof. destruct k; cbn [is_a of_kind]; destruct (p_type p); cbn; split; intros; try discriminate; auto; intuition discriminate. Qed.
Lemma kind_eqb_eq a b : kind_eqb a b = true <-> a = b.
Proof. destruct a, b; cbn; split; intros; congruence || reflexivity. Qed.
