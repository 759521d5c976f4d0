(** C45: the handles of the C interface. *)

From Coq Require Import ZArith String List Bool Lia.
From Verif Require Import Base BaseFacts Keys Wire Read Spec Buf BufFacts HeapOps SpecOps HeapRun SpecPacket Packet PacketRun
  SpecJson SpecWrap Wrap WrapTypes WrapRun SpecAbi Abi AbiRun.
Import ListNotations.
Open Scope string_scope. Open Scope list_scope. Open Scope Z_scope.

(** A program that keeps to the contract sees the answers and error codes the
    machine of typed, counted packets gives, whatever functions it calls and in
    whatever order. *)
Theorem c45_machine cs : careful run_op [] cs ->
  exists t, asteps run_op [] cs (snd (a_run [] cs)) t.
Proof. intros C. destruct (abi_run cs [] [] (Forall2_nil _) C) as (t & St & _). eauto. Qed.
Print Assumptions c45_machine.

Lemma asteps_defined m s cs l t : asteps m s cs l t -> Forall (fun a => a <> R_bad /\ a <> R_static) l.
Proof. induction 1; constructor; [eapply astep_defined; eassumption|assumption]. Qed.

(** It never reinterprets an object as one of another type, touches one that is not
    there or overflows a handle; and it compiles. *)
Theorem c45_defined cs : careful run_op [] cs -> Forall (fun a => a <> R_bad /\ a <> R_static) (snd (a_run [] cs)).
Proof. intros C. destruct (c45_machine cs C) as (t & St). eapply asteps_defined. exact St. Qed.
Print Assumptions c45_defined.

(** The tags of every handle name what lives in it; a heap is never finalized and a
    buffer always is. *)
Theorem c45_tags cs i v d n p : careful run_op [] cs -> nth_error (fst (a_run [] cs)) i = Some v -> v_obj v = Some (d, n, p) ->
  v_tags v = Some (match d with FHeap => 1 | FBuffer => 2 | FPacket => 3 end, match n with Safe => 1 | Unsafe => 2 end) /\
  match d with FHeap => is_finalized p = false | FBuffer => is_finalized p = true | FPacket => True end.
Proof.
  intros C N O. destruct (abi_run cs [] [] (Forall2_nil _) C) as (t & _ & M).
  destruct (side_nth_l _ _ _ M i _ N) as ([ty [[[d' n'] x]|]] & _ & T); cbn [fst snd] in T.
  - destruct T as (_ & G & q & Q & S & Sh). rewrite O in Q. injection Q as <- <- <-. split; [exact G|].
    rewrite (stands_shape _ _ S). destruct d; [exact Sh|exact Sh|exact I].
  - destruct T as [_ T]. congruence.
Qed.
Print Assumptions c45_tags.

(** Every exception becomes the code of its kind, and no code is that of success. *)
Theorem c45_codes o : match o with
  | Thrown e => err_handler o = Code (err_code e) /\ err_code e <> no_error
  | _ => err_handler o = o
  end.
Proof. destruct o; try reflexivity. cbn. split; [now rewrite handle_code|apply err_code_pos]. Qed.
Print Assumptions c45_codes.

(** What a successful take leaves: null, if a mutable packet was taken, or a heap
    that did not go under a new name. *)
Theorem c45_take m s f set i p j s' ty d n y : astep m s (Put f set true i p j) (R_code no_error) s' -> i <> j ->
  nth_error s j = Some (ty, Some (d, n, (y, false))) ->
  (set = true \/ (exists z, p = Index z) \/ exists t2 d2 n2 fs k x, p = Named k /\
     nth_error s i = Some (t2, Some (d2, n2, (VObj fs, false))) /\ lookup k fs = Some x) ->
  nth_error s' j = Some (ty, Some (d, n, (VNull, false))).
Proof.
  intros (d1 & n1 & x1 & d' & n' & y' & (t1 & E1 & _) & (ty' & E' & _) & H) NE E OK.
  pose proof (eq_trans (eq_sym E) E') as Q. injection Q as <- <- <- <-.
  destruct (form_eqb d1 FBuffer); [destruct H as [H _]; discriminate H|].
  destruct (negb _); [destruct H as [H _]; destruct f; discriminate H|].
  destruct H as (b & x' & St & C & ->). injection C as C.
  assert (Ei : is_error b = false).
  { destruct b as [[]| |]; try reflexivity. cbn in C. destruct (err_code_pos e). symmetry. exact C. }
  assert (Ex : snd x1 = false).
  { destruct x1 as [v1 []]; [|reflexivity]. cbn [pstep] in St. destruct set; cbn [mutates] in St; destruct St as [_ ->]; discriminate Ei. }
  assert (E2 : nth_error (update s i x') j = Some (ty, Some (d, n, (y, false)))).
  { rewrite (update_nth _ _ _ _ _ _ _ _ E1). destruct (Nat.eqb_spec i j); [contradiction|exact E]. }
  rewrite (update_nth _ _ _ _ _ _ _ _ E2), Nat.eqb_refl. do 4 f_equal. unfold left_of. cbn [snd]. rewrite Ei, Ex.
  assert (G : match set, p, fst x1 with
              | false, Named k, VObj fs => match lookup k fs with Some _ => gone (y, false) | None => (y, false) end
              | _, _, _ => gone (y, false) end = (VNull, false)).
  { destruct OK as [->|[(z & ->)|(t2 & d2 & n2 & fs & k & x & -> & Ei2 & L)]]; [reflexivity|destruct set; reflexivity|].
    destruct set; [reflexivity|]. pose proof (eq_trans (eq_sym E1) Ei2) as Q. injection Q as -> -> -> ->. cbn [fst]. rewrite L. reflexivity. }
  destruct d; [exact G|exact G|reflexivity].
Qed.
Print Assumptions c45_take.

(** ** A program *)

Definition c45_program : list acall :=
  [Declare FPacket; Construct 0 (Seed FPacket 1 (VObj [])); Put_value Generic false 0 (Named (lit "a")) (VInt 5);
   Return_new (Lower Generic 0 4096); Put_value Generic true 1 (Named (lit "a")) (VInt 6);
   Return_new (Child Generic 1 (Named (lit "a"))); Read_err Generic 2 T_integer; Read_err Generic 2 T_boolean;
   Return_new (Init FHeap 2); Put Generic false true 0 (Named (lit "b")) 3; Put Generic false true 0 (Named (lit "b")) 2;
   Type_of Generic 2; Count Generic 0; Destroy Generic 0; Destroy OfHeap 3].
Example c45_program_answers : snd (a_run [] c45_program) =
  [R_done; R_code 0; R_code 0; R_done; R_code 3; R_done; R_value (VInt 5); R_code 1; R_done; R_code 1; R_code 0;
   R_type 4; R_size 2; R_code 0; R_code 0].
Proof. vm_compute. reflexivity. Qed.

(** It keeps to the contract. *)
Lemma used s f i d n x ty d' n' x' : usable s f i d n x -> nth_error s i = Some (ty, Some (d', n', x')) -> d = d' /\ n = n' /\ x = x'.
Proof. intros (t & E & _) N. pose proof (eq_trans (eq_sym E) N) as Q. injection Q as _ -> -> ->. auto. Qed.
Lemma found_used s f i ty d n x : nth_error s i = Some (ty, Some (d, n, x)) -> takes f ty = true -> takes f d = true -> live s f i.
Proof. intros E A B. exists d, n, x, ty. auto. Qed.
Lemma careful_step s c r s1 : proper s c -> acall_ok c -> (forall a s', astep run_op s c a s' -> s' = s1) ->
  careful run_op s1 r -> careful run_op s (c :: r).
Proof. intros P O N C. split; [exact P|]. split; [exact O|]. intros a s' H. rewrite (N a s' H). exact C. Qed.
Lemma pstep_do v o b x' : pstep run_op (v, false) (Do o) b x' -> x' = (fst (run_op v o), false) /\ b = P_ans (snd (run_op v o)).
Proof. exact (fun h => h). Qed.
Lemma pstep_fixed v o b x' : mutates o = true -> pstep run_op (v, true) (Do o) b x' -> x' = (v, true) /\ b = P_ans (A_err state_error).
Proof. intros M. cbn [pstep]. rewrite M. exact (fun h => h). Qed.
Lemma pstep_finalize fs fin a b x' : room (VObj fs) < 2 ^ 32 -> pstep run_op (VObj fs, fin) (Finalize a) b x' ->
  x' = (VObj fs, true) /\ b = P_ans A_unit.
Proof. intros R [H|(_ & L & _)]; [exact H|]. lia. Qed.
Ltac unpack := repeat match goal with
  | H : exists _, _ |- _ => destruct H
  | H : _ /\ _ |- _ => destruct H
  end.
Ltac held := match goal with
  | U : usable _ _ _ ?d ?n ?x |- _ => destruct (used _ _ _ _ _ _ _ _ _ _ U eq_refl) as (? & ? & ?); clear U; subst d n x
  | E : nth_error _ _ = Some _ |- _ => injection E as ?; subst
  end.
Ltac went := intros a s' H; cbn [astep] in H; unfold changed, asks in H; cbn [makes] in H; unpack; repeat held; cbn [form_eqb counter_eqb negb] in *; unpack;
  repeat match goal with
  | P : pstep _ (_, false) (Do _) _ _ |- _ => apply pstep_do in P; destruct P; subst
  | P : pstep _ (_, true) (Do _) _ _ |- _ => apply pstep_fixed in P; [|reflexivity]; destruct P; subst
  | P : pstep _ (VObj _, _) (Finalize _) _ _ |- _ => apply pstep_finalize in P; [|reflexivity]; destruct P; subst
  | P : pstep _ _ (into _) _ _ |- _ => destruct P; subst
  end; subst; cbn [counter_of Z.eqb Pos.eqb outcome is_error] in *; unpack; subst; try reflexivity; vm_compute; reflexivity.
Ltac alive := eapply found_used; reflexivity.
Local Notation c45_object := (VObj [(lit "a", VInt 5)]).
Example c45_program_careful : careful run_op [] c45_program.
Proof.
  unfold c45_program.
  assert (GK : forall c, b2z c < 128 -> c <> Byte.x00 -> place_ok (Named [c])).
  { intros c L N. split; [|reflexivity]. split; [intros [E|[]]; exact (N E)|]. split; [constructor; [exact L|constructor]|discriminate]. }
  assert (GI : forall z, - 2 ^ 63 <= z < 2 ^ 63 -> heap_value (VInt z) /\ good_all (VInt z)) by (intros z Z; split; constructor; [exact Z|exact I]).
  apply careful_step with (s1 := [(FPacket, None)]); [exact I|exact I|went|].
  apply careful_step with (s1 := [(FPacket, Some (FPacket, Safe, (VObj [], false)))]); [|split; constructor; constructor|went|].
  { split; [reflexivity|]. split; [exact I|]. eexists. split; [reflexivity|]. split; [reflexivity|]. intros d ->. reflexivity. }
  apply careful_step with (s1 := [(FPacket, Some (FPacket, Safe, (c45_object, false)))]);
    [split; [reflexivity|]; split; [reflexivity|alive]|split; [apply GK; [reflexivity|discriminate]|apply GI; lia]|went|].
  apply careful_step with (s1 := [(FPacket, Some (FPacket, Safe, (c45_object, false))); (FPacket, Some (FPacket, Safe, (c45_object, true)))]);
    [split; [reflexivity|alive]|reflexivity|went|].
  apply careful_step with (s1 := [(FPacket, Some (FPacket, Safe, (c45_object, false))); (FPacket, Some (FPacket, Safe, (c45_object, true)))]);
    [split; [reflexivity|]; split; [reflexivity|alive]|split; [apply GK; [reflexivity|discriminate]|apply GI; lia]|went|].
  set (rest3 := [(FPacket, Some (FPacket, Safe, (c45_object, false))); (FPacket, Some (FPacket, Safe, (c45_object, true)));
                 (FPacket, Some (FPacket, Safe, (VInt 5, true)))]).
  apply careful_step with (s1 := rest3); [split; [reflexivity|alive]|exact I|went|].
  apply careful_step with (s1 := rest3); [split; [reflexivity|]; split; [discriminate|alive]|exact I|went|].
  apply careful_step with (s1 := rest3); [split; [reflexivity|]; split; [discriminate|alive]|exact I|went|].
  apply careful_step with (s1 := rest3 ++ [(FHeap, Some (FHeap, Unsafe, (VNull, false)))]); [split; [reflexivity|exact I]|exact I|went|].
  apply careful_step with (s1 := rest3 ++ [(FHeap, Some (FHeap, Unsafe, (VNull, false)))]);
    [split; [reflexivity|]; split; [discriminate|]; split; alive|apply GK; [reflexivity|discriminate]|went|].
  set (rest4 := [(FPacket, Some (FPacket, Safe, (VObj [(lit "a", VInt 5); (lit "b", VInt 5)], false))); (FPacket, Some (FPacket, Safe, (c45_object, true)));
                 (FPacket, Some (FPacket, Safe, (VInt 5, true))); (FHeap, Some (FHeap, Unsafe, (VNull, false)))]).
  apply careful_step with (s1 := rest4);
    [split; [reflexivity|]; split; [discriminate|]; split; alive|apply GK; [reflexivity|discriminate]|went|].
  apply careful_step with (s1 := rest4); [alive|exact I|went|].
  apply careful_step with (s1 := rest4); [alive|exact I|went|].
  apply careful_step with (s1 := put 0 (FPacket, None) rest4); [alive|exact I|went|].
  apply careful_step with (s1 := put 3 (FHeap, None) (put 0 (FPacket, None) rest4)); [alive|exact I|went|].
  exact I.
Qed.

(** ** What does not hold

    abi.h:1671-1673 (and for every other take): "the instance val will have been reset
    to null".  A heap inserted under a new name is copied and keeps what it held. *)
Theorem c45_take_resets_refuted : exists cs, careful run_op [] cs /\
  snd (a_run [] (cs ++ [Put OfHeap false true 0 (Named (lit "a")) 1; Type_of OfHeap 1])) = [R_done; R_done; R_code 0; R_type 4].
Proof.
  exists [Return_new (Seed FHeap 1 (VObj [])); Return_new (Seed FHeap 1 (VInt 5))]. split; [|vm_compute; reflexivity].
  apply careful_step with (s1 := [(FHeap, Some (FHeap, Safe, (VObj [], false)))]); [split; [reflexivity|exact I]|split; constructor; constructor|went|].
  split; [split; [reflexivity|exact I]|]. split; [split; constructor; [split; [discriminate|reflexivity]|exact I]|]. intros. exact I.
Qed.
Print Assumptions c45_take_resets_refuted.

(** A mutable packet is emptied even when nothing was inserted, so its value is lost. *)
Theorem c45_take_failed_refuted : exists cs, careful run_op [] cs /\
  snd (a_run [] (cs ++ [Put Generic false true 0 (Named (lit "a")) 1; Type_of Generic 1])) = [R_done; R_done; R_code type_code; R_type 7].
Proof.
  exists [Return_new (Seed FPacket 1 (VArr [])); Return_new (Seed FPacket 1 (VInt 5))]. split; [|vm_compute; reflexivity].
  apply careful_step with (s1 := [(FPacket, Some (FPacket, Safe, (VArr [], false)))]); [split; [reflexivity|exact I]|split; constructor; constructor|went|].
  split; [split; [reflexivity|exact I]|]. split; [split; constructor; [split; [discriminate|reflexivity]|exact I]|]. intros. exact I.
Qed.
Print Assumptions c45_take_failed_refuted.

(** abi.h:7504-7506: on a finalized packet dart_to_buffer "is equivalent to
    dart_buffer_copy".  It lifts and lowers again, which fails unless it is an object. *)
Definition c45_array_child : list acall :=
  [Return_new (Seed FPacket 1 (VObj [])); Return_new (Seed FPacket 1 (VArr [])); Put Generic false false 0 (Named (lit "a")) 1;
   Return_new (Lower Generic 0 4096); Return_new (Child Generic 2 (Named (lit "a"))); Finalized 3; Declare FBuffer; Declare FPacket].
Theorem c45_to_buffer_refuted :
  snd (a_run [] (c45_array_child ++ [Construct 4 (To_buffer 3 8192); Construct 5 (Lower Generic 3 8192)])) =
  [R_done; R_done; R_code 0; R_done; R_done; R_flag true; R_done; R_done; R_code type_code; R_code no_error].
Proof. vm_compute. reflexivity. Qed.
Print Assumptions c45_to_buffer_refuted.

(** abi.h:4321: dart_init_rc "cannot meaningfully fail".  With a number that is no
    counter it returns a handle that nothing can be done with, not even destroy it. *)
Theorem c45_init_refuted :
  snd (a_run [] [Return_new (Init FPacket 3); Type_of Generic 0; Put_value Generic false 0 (Named (lit "a")) VNull; Destroy Generic 0]) =
  [R_done; R_type 8; R_code client_code; R_code client_code].
Proof. vm_compute. reflexivity. Qed.
Print Assumptions c45_init_refuted.

(** The conditions of the contract are needed.  dart_copy_err takes any destination:
    a dart_heap_t that got a packet is undefined for the dart_heap functions, though
    they compile; a dart_buffer_t is too small. *)
Theorem c45_copy_refuted :
  snd (a_run [] [Return_new (Seed FPacket 1 (VObj [])); Declare FHeap; Construct 1 (Duplicate Generic 0); Count OfHeap 1]) =
    [R_done; R_done; R_code no_error; R_bad] /\
  snd (a_run [] [Return_new (Seed FPacket 1 (VObj [])); Declare FBuffer; Construct 1 (Duplicate Generic 0)]) =
    [R_done; R_done; R_bad].
Proof. split; vm_compute; reflexivity. Qed.
Print Assumptions c45_copy_refuted.

(** After a failed get the destination has tags but no object: dart_destroy, which
    abi.h:4443-4445 asks for, is undefined, as is any other use. *)
Theorem c45_failed_refuted :
  snd (a_run [] [Return_new (Seed FPacket 1 (VInt 1)); Declare FPacket; Construct 1 (Child Generic 0 (Named (lit "a"))); Destroy Generic 1]) =
    [R_done; R_done; R_code type_code; R_bad].
Proof. vm_compute. reflexivity. Qed.
Print Assumptions c45_failed_refuted.
