(** Properties of dart::packet: C30, C31, and the part of C02 about small objects. *)

From Coq Require Import ZArith List Bool Lia String.
From Verif Require Import Base Keys Wire Read Spec Buf BufFacts HeapOps NestedFacts SpecOps HeapRun
  SpecPacket Packet PacketFacts PacketRun Demo.
Import ListNotations.
Open Scope string_scope.
Open Scope list_scope.
Open Scope Z_scope.

(** ** C02: what is small enough can be finalized *)
Theorem c02_small_objects_finalize fs : heap_value (VObj fs) -> room (VObj fs) < 2 ^ 32 ->
  exists m, finalize (VObj fs) = Ok m.
Proof. exact (small_objects_finalize fs). Qed.
Print Assumptions c02_small_objects_finalize.
Example c02_small_case : heap_value demo /\ room demo < 2 ^ 32.
Proof. split; [exact demo_heap|vm_compute; reflexivity]. Qed.

(** ** C30 *)

(** Whatever calls are made on a packet - reads, mutations, finalizing and
    definalizing in any order, stepping into children - it answers as the value it
    stands for, and mutations of a finalized packet are refused. *)
Theorem c30_packet_follows_its_value v cs : heap_value v -> good_all v -> Forall pcall_ok cs ->
  exists s, psteps run_op (v, false) cs (snd (p_run (PHeap v) cs)) s /\
    p_value (fst (p_run (PHeap v) cs)) = Ok (fst s) /\ is_finalized (fst (p_run (PHeap v) cs)) = snd s.
Proof.
  intros H G F. destruct (run_ok cs (PHeap v) (v, false)) as (s & St & S); [|assumption|].
  { split; [assumption|]. split; [assumption|]. reflexivity. }
  exists s. split; [exact St|]. destruct S as (Hs & Gs & P). destruct (fst (p_run (PHeap v) cs)) as [w|bs m e].
  - subst s. split; reflexivity.
  - destruct P as [-> R]. split; [apply WireMore.represents_value; assumption|reflexivity].
Qed.
Print Assumptions c30_packet_follows_its_value.

(** Two packets standing for one value - a mutable one and a finalized one, or an
    element deep inside a finalized one - answer every sequence of reads alike. *)
Lemma reads_det v c f f' a a' s s' :
  pstep run_op (v, f) c a s -> pstep run_op (v, f') c a' s' -> only_reads v c = true ->
  a = a' /\ s = (after v c, f) /\ s' = (after v c, f').
Proof.
  assert (RA : forall o, mutates o = false -> fst (run_op v o) = v).
  { intros o M. destruct o; try discriminate; apply answered_fst. }
  intros A B O. destruct c; try discriminate; cbn [pstep only_reads after] in *.
  - apply andb_true_iff in O. destruct O as [O1 O2]. apply negb_true_iff in O1, O2. rewrite O1, (RA o O1) in *.
    destruct f, f', A as [-> A], B as [-> B]; rewrite ?A, ?B by assumption; auto.
  - destruct A as [-> ->], B as [-> ->]. auto.
  - destruct A as [-> ->], B as [-> ->]. auto.
  - destruct A as [-> ->], B as [-> ->]. auto.
  - destruct A as [-> ->], B as [-> ->]. auto.
  - destruct A as [-> (x & -> & X0 & X)], B as [-> (y & -> & Y0 & Y)]. split; [|auto]. do 2 f_equal.
    destruct (path_shapes sep path) as [E|(ks & tr & E & F & N & T)].
    + rewrite X0, Y0 by assumption. reflexivity.
    + rewrite (X ks tr E F N T), (Y ks tr E F N T). reflexivity.
  - destruct v; destruct A as [-> ->], B as [-> ->]; auto.
  - destruct v; destruct A as [-> ->], B as [-> ->]; auto.
Qed.

Theorem c30_same_answers v cs : forall p q f f', stands p (v, f) -> stands q (v, f') ->
  Forall pcall_ok cs -> only_reads_all v cs -> snd (p_run p cs) = snd (p_run q cs).
Proof.
  revert v. induction cs as [|c cs IH]; intros v p q f f' P Q F O; cbn [p_run]; [reflexivity|].
  apply Forall_cons_iff in F. destruct F as [F1 F2]. destruct O as [O1 O2].
  destruct (step_ok p _ c P F1) as (s & St & S). destruct (step_ok q _ c Q F1) as (s' & St' & S').
  destruct (reads_det _ _ _ _ _ _ _ _ St St' O1) as (E & -> & ->).
  specialize (IH _ _ _ _ _ S S' F2 O2).
  destruct (p_call p c) as [p1 a]. destruct (p_call q c) as [q1 a']. cbn [fst snd] in *. subst a'.
  destruct (p_run p1 cs), (p_run q1 cs). cbn [snd] in *. congruence.
Qed.
Print Assumptions c30_same_answers.

Corollary c30_before_and_after fs addr q cs :
  heap_value (VObj fs) -> good_all (VObj fs) -> addr mod 8 = 0 -> p_finalize addr (PHeap (VObj fs)) = Ok q ->
  Forall pcall_ok cs -> only_reads_all (VObj fs) cs ->
  snd (p_run (PHeap (VObj fs)) cs) = snd (p_run q cs).
Proof.
  intros H G A E F O. cbn [p_finalize] in E. destruct (finalize (VObj fs)) as [m|w| | |] eqn:Fz; try discriminate.
  apply BaseFacts.Ok_inj in E. subst q. apply (c30_same_answers (VObj fs) cs _ _ false true); try assumption.
  - split; [assumption|]. split; [assumption|]. reflexivity.
  - split; [assumption|]. split; [assumption|]. split; [reflexivity|]. apply (finalize_root fs m addr H Fz A).
Qed.
Print Assumptions c30_before_and_after.

Ltac show_ok :=
  unfold pcall_ok, op_ok, op_values;
  repeat match goal with |- _ /\ _ => split end;
  lazymatch goal with
  | |- True => exact I
  | |- scalar_type _ = true => reflexivity
  | |- heap_value _ => constructor; unfold heap_node; try exact I; lia
  | |- good_all _ => constructor; exact I
  | |- _ => lia
  end.
Definition c30_calls : list pcall :=
  [Do Size; Do Keys; Do Values; Do (Get (b "z")); Do (At (b "nope")); Do (Has (b "pi")); Do (Find (b "d"));
   Do (Get_idx 0); Get_type; Empty; Read T_integer; Nested (b "arg.k") x2e; Do (Get_or (b "q") (VInt 5));
   Into (b "z"); Do Rvalues; Do (At_idx 9); Do Back; Do At_front; Do (Get_idx_or 7 VNull); Into_idx 1; Read T_string;
   Do Size; Read_or T_integer (VInt 3); Do (Get (b "a")); Empty].
Example c30_case :
  heap_value demo /\ good_all demo /\ Forall pcall_ok c30_calls /\ only_reads_all demo c30_calls /\
  match p_finalize 64 (PHeap demo) with
  | Ok q => snd (p_run q c30_calls) = snd (p_run (PHeap demo) c30_calls) /\
            last (snd (p_run q c30_calls)) (P_ans A_bad) = P_flag false
  | _ => False
  end.
Proof.
  split; [exact demo_heap|]. split; [exact demo_good|].
  split. { unfold c30_calls. repeat (apply Forall_cons; [show_ok|]). apply Forall_nil. }
  split; [vm_compute; tauto|]. vm_compute. split; reflexivity.
Qed.

(** The reads left out do depend on the representation. *)
Theorem c30_front_or_refuted :
  let v := VObj [(b "l", VArr [VInt 1])] in
  match p_finalize 0 (PHeap v) with
  | Ok q => snd (p_run (PHeap v) [Into (b "l"); Do (Front_or VNull); Do (Back_or VNull)]) =
              [P_ans A_unit; P_ans (A_value (VInt 1)); P_ans (A_value (VInt 1))] /\
            snd (p_run q [Into (b "l"); Do (Front_or VNull); Do (Back_or VNull)]) =
              [P_ans A_unit; P_ans (A_err state_error); P_ans (A_err state_error)]
  | _ => False
  end.
Proof. vm_compute. split; reflexivity. Qed.
Print Assumptions c30_front_or_refuted.
Theorem c30_find_absent_refuted :
  let v := VObj [(b "l", VNull)] in
  match p_finalize 0 (PHeap v) with
  | Ok q => snd (p_run (PHeap v) [Do (Find (b "x"))]) = [P_ans A_end] /\
            snd (p_run q [Do (Find (b "x"))]) = [P_ans A_bad]
  | _ => False
  end.
Proof. vm_compute. split; reflexivity. Qed.
Print Assumptions c30_find_absent_refuted.
Theorem c30_at_index_refuted :
  let v := VObj [(b "l", VNull)] in
  match p_finalize 0 (PHeap v) with
  | Ok q => snd (p_run (PHeap v) [Do (At_idx 5)]) = [P_ans (A_err out_of_range)] /\
            snd (p_run q [Do (At_idx 5)]) = [P_ans (A_err type_error)]
  | _ => False
  end.
Proof. vm_compute. split; reflexivity. Qed.
Print Assumptions c30_at_index_refuted.

(** ** C31 *)

Theorem c31_mutations_refused bs m e o : mutates o = true ->
  p_call (PBuf bs m e) (Do o) = (PBuf bs m e, P_ans (A_err state_error)).
Proof. destruct o; try discriminate; reflexivity. Qed.
Print Assumptions c31_mutations_refused.

(** A finalized packet stays what it is until it is definalized, whatever is
    called on it in between. *)
Theorem c31_immutable cs : forall bs m e v, represents bs m e v -> good_all v ->
  Forall pcall_ok cs -> Forall (fun c => match c with Definalize | Into _ | Into_idx _ => False | _ => True end) cs ->
  fst (p_run (PBuf bs m e) cs) = PBuf bs m e.
Proof.
  induction cs as [|c cs IH]; intros bs m e v R G F D; cbn [p_run]; [reflexivity|].
  apply Forall_cons_iff in F. destruct F as [F1 F2]. apply Forall_cons_iff in D. destruct D as [D1 D2].
  assert (E : fst (p_call (PBuf bs m e) c) = PBuf bs m e).
  { destruct c; try reflexivity; try contradiction. destruct o; reflexivity. }
  specialize (IH bs m e v R G F2 D2). destruct (p_call (PBuf bs m e) c) as [q a]. cbn [fst] in E. subst q.
  destruct (p_run (PBuf bs m e) cs). exact IH.
Qed.
Print Assumptions c31_immutable.

(** Definalizing gives back the very mutable packet: afterwards every call behaves
    as on the original. *)
Theorem c31_definalize fs addr q : heap_value (VObj fs) -> addr mod 8 = 0 ->
  p_finalize addr (PHeap (VObj fs)) = Ok q -> is_finalized q = true /\ p_definalize q = Ok (PHeap (VObj fs)).
Proof.
  intros H A E. cbn [p_finalize] in E. destruct (finalize (VObj fs)) as [m|w| | |] eqn:F; try discriminate.
  apply BaseFacts.Ok_inj in E. subst q. split; [reflexivity|]. cbn [p_definalize]. fold (definalize addr m).
  unfold root. change (from_buffer (S (List.length m)) addr m (R_object, Some 0)) with (definalize addr m).
  rewrite (definalize_finalize fs m addr H F A). reflexivity.
Qed.
Print Assumptions c31_definalize.

Theorem c31_definalize_child bs m e v : represents bs m e v -> p_definalize (PBuf bs m e) = Ok (PHeap v).
Proof.
  intros R. cbn [p_definalize]. rewrite (from_buffer_spec _ bs m e v R (Canon.walk_fuel _ _ _ _ R)). reflexivity.
Qed.
Print Assumptions c31_definalize_child.

Example c31_case :
  snd (p_run (PHeap demo) [Finalize 8; Do (Insert (VStr (b "x")) VNull); Do Clear; Is_finalized; Do (Has (b "x"));
                           Definalize; Do (Insert (VStr (b "x")) VNull); Do (Has (b "x")); Do Clear; Do Size;
                           Finalize 16; Finalize 24; Is_finalized; Into (b "k"); Get_type; Finalize 0; Definalize; Finalize 0]) =
  [P_ans A_unit; P_ans (A_err state_error); P_ans (A_err state_error); P_flag true; P_ans (A_bool false);
   P_ans A_unit; P_ans (A_pair (b "x") VNull); P_ans (A_bool true); P_ans A_unit; P_ans (A_size 0);
   P_ans A_unit; P_ans A_unit; P_flag true; P_ans A_unit; P_type T_null; P_ans A_unit; P_ans A_unit; P_ans (A_err type_error)].
Proof. vm_compute. reflexivity. Qed.
