(** C68: maybe_as, and the members at both ends of a temporary packet. *)

From Coq Require Import ZArith List Bool Lia ZifyBool ZifyNat ZifyN String.
From Verif Require Import Base BaseFacts Keys Wire Read Buf Enc EncSize Spec ReadFacts Lookup BufFacts Canon HeapOps
  HeapFacts NestedFacts Packet PacketRun Conv SpecConv PropsConv SpecSpan Maybe Demo.
Import ListNotations.
Open Scope string_scope.
Open Scope list_scope.
Open Scope Z_scope.

Lemma h_back_last x vs : h_back (VArr (x :: vs)) = Ok (last (x :: vs) VNull).
Proof.
  cbn [h_back h_elements]. destruct (nth_error_last (x :: vs)) as (y & E & L); [discriminate|].
  replace (Z.to_nat (zlen (x :: vs) - 1)) with (List.length (x :: vs) - 1)%nat in E by (unfold zlen; lia). rewrite E. f_equal.
  rewrite <- L. destruct (@exists_last _ (x :: vs)) as (l' & z & ->); [discriminate|]. rewrite !last_last. reflexivity.
Qed.

(** A C++ type: the optional is empty exactly when the value cannot be read as that
    type, and otherwise holds what as() returns. Nothing is thrown. *)
Theorem c68_value t v :
  (reads t v -> exists c, from_dart t v = Ok c /\ maybe_as t v = Ok (Some c)) /\
  (~ reads t v -> maybe_as t v = Ok None).
Proof.
  destruct (c37_reads t v) as [A B]. unfold maybe_as. split; intros R.
  - destruct (A R) as [c E]. exists c. rewrite E. auto.
  - rewrite (B R). reflexivity.
Qed.
Print Assumptions c68_value.

Theorem c68_tells t v c : maybe_as t v = Ok (Some c) <-> from_dart t v = Ok c.
Proof. unfold maybe_as, maybe. destruct (from_dart t v); split; congruence. Qed.
Print Assumptions c68_tells.
Theorem c68_empty t v : maybe_as t v = Ok None <-> ~ reads t v.
Proof.
  destruct (c37_reads t v) as [A B]. split; [|apply c68_value].
  intros E R. destruct (A R) as [c F]. unfold maybe_as in E. rewrite F in E. discriminate E.
Qed.
Print Assumptions c68_empty.

(** Asking for a heap or a packet always succeeds and gives the same value. *)
Theorem c68_heap addr p v : p_shows p v -> maybe_dart addr K_heap p = Ok (PHeap v) /\ maybe_dart addr K_packet p = Ok p.
Proof.
  intros S. split; [|reflexivity]. unfold maybe_dart, cast. destruct p as [w|bs m e]; cbn [p_shows p_definalize] in *; [congruence|].
  rewrite (from_buffer_spec _ bs m e v S (walk_fuel _ _ _ _ S)). reflexivity.
Qed.
Print Assumptions c68_heap.

(** Asking for a buffer: one is returned as it is, an object is finalized unless it is
    too large, anything else gives a null buffer. The result is always a buffer. *)
Theorem c68_buffer addr p v : p_shows p v -> heap_value v -> addr mod 8 = 0 ->
  exists q, maybe_dart addr K_buffer p = Ok q /\ is_finalized q = true /\
    (is_finalized p = true -> q = p) /\
    (is_finalized p = false ->
      match v with
      | VObj _ => p_shows q v \/ (finalize v = Throw length_error /\ p_shows q VNull)
      | _ => p_shows q VNull
      end).
Proof.
  intros S H A. unfold maybe_dart, cast. destruct p as [w|bs m e]; cbn [p_shows p_finalize is_finalized] in *.
  - subst w. destruct v as [fs|vs|s|z|d|x|];
      try (eexists; split; [reflexivity|]; split; [reflexivity|]; split; [discriminate|]; intros _; apply rep_null_elem).
    pose proof (plain_short _ (heap_plain _ H)) as SS.
    destruct (upper_bound_cases (VObj fs)) as [(u & U & _)|U].
    + destruct (finalize_spec fs u SS U) as [_ E]. rewrite E. cbn [bind]. eexists. split; [reflexivity|]. split; [reflexivity|].
      split; [discriminate|]. intros _. left. apply (finalize_root fs _ addr H E A).
    + assert (E : finalize (VObj fs) = Throw length_error) by (unfold finalize; rewrite U; reflexivity). rewrite E.
      eexists. split; [reflexivity|]. split; [reflexivity|]. split; [discriminate|]. intros _. right. split; [reflexivity|apply rep_null_elem].
  - exists (PBuf bs m e). split; [reflexivity|]. split; [reflexivity|]. split; [reflexivity|discriminate].
Qed.
Print Assumptions c68_buffer.

(** That a failure can be told from success is false for buffers: a null buffer is
    what both a null buffer and a mutable string give, though as() returns the one and
    throws for the other. *)
Theorem c68_tells_refuted :
  ~ forall addr p q, maybe_dart addr K_buffer p = maybe_dart addr K_buffer q ->
    ((exists x, cast addr K_buffer p = Ok x) <-> (exists x, cast addr K_buffer q = Ok x)).
Proof.
  intros H. specialize (H 0 (PBuf 0 [] (R_null, None)) (PHeap (VStr (b "x"))) eq_refl).
  destruct H as [H _]. destruct H as [x E]; [eexists; reflexivity|]. discriminate E.
Qed.
Print Assumptions c68_tells_refuted.

(** at_front() and at_back() of a temporary packet: an empty array is refused as
    otherwise, any other array is undefined behaviour. *)
Theorem c68_ends p vs : p_shows p (VArr vs) ->
  (vs = [] -> p_at_front_temp p = Throw out_of_range /\ p_at_back_temp p = Throw out_of_range) /\
  (vs <> [] -> p_at_front_temp p = Undef /\ p_at_back_temp p = Undef).
Proof.
  intros S. unfold p_at_front_temp, p_at_back_temp, p_at_front, p_at_back, visit.
  destruct p as [w|bs m e]; cbn [p_shows] in S.
  - subst w. unfold h_at_front, h_at_back. cbn [h_size bind].
    destruct vs as [|x vs]; split; intros N; try congruence; [split; reflexivity|].
    replace (zlen (x :: vs) =? 0) with false by (rewrite zlen_cons; unfold zlen; lia).
    rewrite h_back_last. split; reflexivity.
  - pose proof (b_at_front_spec _ _ _ _ S) as F. pose proof (b_at_back_spec _ _ _ _ S) as B.
    destruct vs as [|x vs]; split; intros N; try congruence.
    + rewrite F, B. split; reflexivity.
    + destruct F as (e1 & -> & _). destruct B as (e2 & -> & _). split; reflexivity.
Qed.
Print Assumptions c68_ends.

(** front() and back() of a temporary have the element, or null where there is none. *)
Theorem c68_ends_plain p vs : p_shows p (VArr vs) ->
  exists f l, p_front_temp p = Ok f /\ p_back_temp p = Ok l /\ p_shows f (hd VNull vs) /\ p_shows l (last vs VNull).
Proof.
  intros S. unfold p_front_temp, p_back_temp, visit. destruct p as [w|bs m e]; cbn [p_shows] in S.
  - subst w. destruct vs as [|x vs]; [eexists _, _; repeat apply conj; reflexivity|].
    rewrite h_back_last. eexists _, _. repeat apply conj; reflexivity.
  - pose proof (b_front_spec _ _ _ _ S) as F. pose proof (b_back_spec _ _ _ _ S) as B.
    destruct F as (e1 & -> & R1). destruct B as (e2 & -> & R2). cbn [bind]. eexists _, _. split; [reflexivity|]. split; [reflexivity|].
    split; assumption.
Qed.
Print Assumptions c68_ends_plain.

(** So that a temporary answers as a variable does is false. *)
Theorem c68_temporary_refuted : ~ forall p v, p_shows p v -> p_at_front_temp p = p_at_front p.
Proof. intros H. specialize (H (PHeap (VArr [VNull])) _ eq_refl). discriminate H. Qed.
Print Assumptions c68_temporary_refuted.

(** Reading as a C++ type: an integer, a pair from an array of three, an optional
    from null. To a buffer: an object, an array, a part of a buffer. At both ends. *)
Example c68_case :
  maybe_as TStr (VInt 3) = Ok None /\ maybe_as TStr (VStr (b "x")) = Ok (Some (CStr (b "x"))) /\
  maybe_as (TPair TStr TNull) (VArr [VStr (b "x"); VNull; VNull]) = Ok None /\
  maybe_as (TPair TStr TNull) (VArr [VStr (b "x"); VNull]) = Ok (Some (CList [CStr (b "x"); CNull])) /\
  maybe_as (TOpt TStr) VNull = Ok (Some (COpt None)) /\ maybe_as (TOpt TStr) (VInt 1) = Ok None /\
  match maybe_dart 0 K_buffer (PHeap demo), maybe_dart 0 K_buffer (PHeap (VArr [demo])) with
  | Ok q, Ok r => is_finalized q && is_finalized r && utype_eqb (p_type q) T_object && utype_eqb (p_type r) T_null
  | _, _ => false
  end = true /\
  p_at_front_temp (PHeap (VArr [VInt 1; VInt 2])) = Undef /\ p_at_back_temp (PHeap (VArr [])) = Throw out_of_range /\
  p_back_temp (PHeap (VArr [VInt 1; VInt 2])) = Ok (PHeap (VInt 2)).
Proof. vm_compute. auto 20. Qed.
