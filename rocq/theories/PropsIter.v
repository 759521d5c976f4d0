(** C47: the iterators of the C interface. *)

From Coq Require Import ZArith String List Bool Lia.
From Verif Require Import Base BaseFacts Keys Wire Read Spec Buf BufFacts HeapOps SpecOps HeapRun SpecPacket Packet PacketRun
  SpecJson SpecWrap Wrap WrapTypes WrapRun SpecAbi Abi AbiRun PropsAbi SpecIter Iter IterRun IterLoop.
Import ListNotations.
Open Scope string_scope. Open Scope list_scope. Open Scope Z_scope.

Lemma nothing_yet : iagree ([], []) ([], []).
Proof. split; constructor. Qed.

(** A program that keeps to the contract, with any number of variables and iterators,
    sees the answers and codes of the machine whose iterators each hold the list of
    the members still ahead. *)
Theorem c47_machine cs : icareful run_op ([], []) cs ->
  exists t, isteps run_op ([], []) cs (snd (i_run ([], []) cs)) t.
Proof. intros C. destruct (iter_run cs _ _ nothing_yet C) as (t & St & _). eauto. Qed.
Print Assumptions c47_machine.

Lemma isteps_defined m s cs l t : isteps m s cs l t -> Forall (fun a => a <> R_bad /\ a <> R_static) l.
Proof. induction 1; constructor; [eapply istep_defined; eassumption|assumption]. Qed.

(** No iterator is read after what it walks along is gone, nor past its end. *)
Theorem c47_defined cs : icareful run_op ([], []) cs -> Forall (fun a => a <> R_bad /\ a <> R_static) (snd (i_run ([], []) cs)).
Proof. intros C. destruct (c47_machine cs C) as (t & St). eapply isteps_defined. exact St. Qed.
Print Assumptions c47_defined.

(** After any such program, a loop over a live aggregate - while not done: get, look,
    destroy, next - visits each member once, in order, ends, and leaves every variable
    as it was: more calls see what they would have seen. *)
Theorem c47_walk cs : icareful run_op ([], []) cs ->
  exists t w, isteps run_op ([], []) cs (snd (i_run ([], []) cs)) (t, w) /\
  forall keys body j x d n v l fuel,
    usable t Generic j d n v -> children keys v = Some l -> nth_error t x = Some (FPacket, None) ->
    forallb looks body = true -> (forall y, In y l -> careful run_op (put x (FPacket, Some (FPacket, n, y)) t) body) ->
    (length l < fuel)%nat ->
    exists ls w',
      Forall2 (fun y a => asteps run_op (put x (FPacket, Some (FPacket, n, y)) t) body a (put x (FPacket, Some (FPacket, n, y)) t)) l ls /\
      snd (walk_all fuel keys body (fst (i_run ([], []) cs)) j x) =
        [R_done; R_code 0] ++
        concat (map (fun a => [R_flag false; R_code 0] ++ a ++ [R_code 0; R_code 0]) ls) ++ [R_flag true; R_code 0] /\
      forall more, icareful run_op (t, w') more ->
        exists t', isteps run_op (t, w') more (snd (i_run (fst (walk_all fuel keys body (fst (i_run ([], []) cs)) j x)) more)) t'.
Proof.
  intros C. destruct (iter_run cs _ _ nothing_yet C) as ([t w] & St & M). exists t, w. split; [exact St|].
  intros keys body j x d n v l fuel U Ch D LB B L.
  destruct (walk_ok _ t w keys body j x d n v l fuel M U Ch D LB B L) as (ls & w' & F & A & M').
  exists ls, w'. split; [exact F|]. split; [exact A|]. intros more Cm.
  destruct (iter_run more _ _ M' Cm) as (t' & St' & _). eauto.
Qed.
Print Assumptions c47_walk.

(** An iterator over a finalized aggregate owes nothing to the variable it came from:
    no call on variables changes what is ahead of it. *)
Theorem c47_kept m s w c a s' w' i n l : istep m (s, w) (Plain c) a (s', w') ->
  nth_error w i = Some (Some (n, None, Ahead l)) -> nth_error w' i = Some (Some (n, None, Ahead l)).
Proof. intros (s1 & _ & Q) E. injection Q as _ ->. rewrite (map_nth_error (upset (touches c)) i w E). reflexivity. Qed.
Print Assumptions c47_kept.

(** ** The macro

    abi.h:54-61: dart_for_each over a live aggregate visits each member once, in
    order, and then always destroys the loop variable, which it has destroyed already
    or, when there is no member, never constructed. *)
Theorem c47_for_each_refuted cs : icareful run_op ([], []) cs ->
  exists t w, isteps run_op ([], []) cs (snd (i_run ([], []) cs)) (t, w) /\
  forall keys body j x d n v l fuel,
    usable t Generic j d n v -> children keys v = Some l -> nth_error t x = Some (FPacket, None) ->
    forallb looks body = true -> (forall y, In y l -> careful run_op (put x (FPacket, Some (FPacket, n, y)) t) body) ->
    (length l < fuel)%nat ->
    exists ls,
      Forall2 (fun y a => asteps run_op (put x (FPacket, Some (FPacket, n, y)) t) body a (put x (FPacket, Some (FPacket, n, y)) t)) l ls /\
      snd (dart_for_each fuel keys body (fst (i_run ([], []) cs)) j x) =
        [R_done; R_code 0] ++
        concat (map (fun a => [R_code 0; R_flag false] ++ a ++ [R_code 0; R_code 0]) ls) ++ [R_code runtime_code; R_bad].
Proof.
  intros C. destruct (iter_run cs _ _ nothing_yet C) as ([t w] & St & M). exists t, w. split; [exact St|].
  intros keys body j x d n v l fuel U Ch D LB B L.
  pose proof (for_each_ok _ t w keys body j x d n v fuel M U D) as F. rewrite Ch in F.
  destruct (F LB B L) as (ls & G & A). exists ls. split; [exact G|]. rewrite A.
  assert (Q : forall ls, each_answers ls =
    concat (map (fun a => [R_code no_error; R_flag false] ++ a ++ [R_code no_error; R_code no_error]) ls) ++ [R_code runtime_code; R_bad]).
  { clear. intros ls. induction ls as [|a ls IH]; [reflexivity|]. cbn [each_answers map concat]. rewrite IH.
    repeat (rewrite <- app_assoc; cbn [app]). reflexivity. }
  rewrite Q. reflexivity.
Qed.
Print Assumptions c47_for_each_refuted.

(** Over anything else it looks at an iterator that was never constructed. *)
Theorem c47_for_each_scalar_refuted cs : icareful run_op ([], []) cs ->
  exists t w, isteps run_op ([], []) cs (snd (i_run ([], []) cs)) (t, w) /\
  forall keys body j x d n v fuel,
    usable t Generic j d n v -> children keys v = None -> nth_error t x = Some (FPacket, None) ->
    snd (dart_for_each (S fuel) keys body (fst (i_run ([], []) cs)) j x) = [R_done; R_code type_code; R_bad].
Proof.
  intros C. destruct (iter_run cs _ _ nothing_yet C) as ([t w] & St & M). exists t, w. split; [exact St|].
  intros keys body j x d n v fuel U Ch D.
  pose proof (for_each_ok _ t w keys body j x d n v (S fuel) M U D) as F. rewrite Ch in F. apply F. lia.
Qed.
Print Assumptions c47_for_each_scalar_refuted.

(** ** A program *)

Lemma icareful_step s c r s1 : iproper s c -> (forall a s', istep run_op s c a s' -> s' = s1) ->
  icareful run_op s1 r -> icareful run_op s (c :: r).
Proof. intros P N C. split; [exact P|]. intros a s' H. rewrite (N a s' H). exact C. Qed.
Lemma icareful_plain s w c r s1 : proper s c -> acall_ok c -> (forall a s', astep run_op s c a s' -> s' = s1) ->
  icareful run_op (s1, map (upset (touches c)) w) r -> icareful run_op (s, w) (Plain c :: r).
Proof.
  intros P OK N C. split; [split; assumption|]. intros a s' (s2 & H & ->). rewrite (N a s2 H). exact C.
Qed.

Definition c47_setup : list icall :=
  map Plain [Return_new (Seed FPacket 1 (VObj [])); Put_value Generic false 0 (Named (lit "a")) (VInt 5);
             Put_value Generic false 0 (Named (lit "b")) (VInt 6); Return_new (Lower Generic 0 4096); Declare FPacket].
Local Notation c47_object := (VObj [(lit "a", VInt 5); (lit "b", VInt 6)]).
Local Notation c47_state := [(FPacket, Some (FPacket, Safe, (c47_object, false))); (FPacket, Some (FPacket, Safe, (c47_object, true)));
  (FPacket, None)].
(** Programs with a single outcome. *)
Inductive surely : istate -> list icall -> istate -> Prop :=
| surely_nil s : surely s [] s
| surely_cons s c s1 r s2 : iproper s c -> (forall a s', istep run_op s c a s' -> s' = s1) -> surely s1 r s2 -> surely s (c :: r) s2.
Lemma surely_careful s cs s1 rest : surely s cs s1 -> icareful run_op s1 rest -> icareful run_op s (cs ++ rest).
Proof. induction 1; intros C; [exact C|]. cbn [app]. eapply icareful_step; eauto. Qed.
Lemma surely_there s cs s1 l t : surely s cs s1 -> isteps run_op s cs l t -> t = s1.
Proof.
  intros S. revert l. induction S as [s|s c s1 r s2 P N S IH]; intros l H.
  - inversion H; subst. reflexivity.
  - inversion H; subst. match goal with A : istep _ _ _ _ _ |- _ => apply N in A; subst end. eapply IH. eassumption.
Qed.
Lemma surely_plain s w c r s1 s2 : proper s c -> acall_ok c -> (forall a s', astep run_op s c a s' -> s' = s1) ->
  surely (s1, map (upset (touches c)) w) r s2 -> surely (s, w) (Plain c :: r) s2.
Proof.
  intros P OK N C. econstructor; [split; assumption| |exact C]. intros a s' (s3 & H & ->). rewrite (N a s3 H). reflexivity.
Qed.
Lemma c47_setup_surely : surely ([], []) c47_setup (c47_state, []).
Proof.
  unfold c47_setup. cbn [map].
  assert (GK : forall c, b2z c < 128 -> c <> Byte.x00 -> place_ok (Named [c])).
  { intros c L N. split; [|reflexivity]. split; [intros [E|[]]; exact (N E)|]. split; [constructor; [exact L|constructor]|discriminate]. }
  assert (GI : forall z, - 2 ^ 63 <= z < 2 ^ 63 -> heap_value (VInt z) /\ good_all (VInt z)) by (intros z Z; split; constructor; [exact Z|exact I]).
  apply surely_plain with (s1 := [(FPacket, Some (FPacket, Safe, (VObj [], false)))]);
    [split; [reflexivity|exact I]|split; constructor; constructor|went|].
  apply surely_plain with (s1 := [(FPacket, Some (FPacket, Safe, (VObj [(lit "a", VInt 5)], false)))]);
    [split; [reflexivity|]; split; [reflexivity|alive]|split; [apply GK; [reflexivity|discriminate]|apply GI; lia]|went|].
  apply surely_plain with (s1 := [(FPacket, Some (FPacket, Safe, (c47_object, false)))]);
    [split; [reflexivity|]; split; [reflexivity|alive]|split; [apply GK; [reflexivity|discriminate]|apply GI; lia]|went|].
  apply surely_plain with (s1 := [(FPacket, Some (FPacket, Safe, (c47_object, false))); (FPacket, Some (FPacket, Safe, (c47_object, true)))]);
    [split; [reflexivity|alive]|reflexivity|went|].
  apply surely_plain with (s1 := c47_state); [exact I|exact I|went|].
  constructor.
Qed.

(** It walks along the names of a finalized object whose variable is gone, with a
    copy going its own way. *)
Definition c47_program : list icall :=
  c47_setup ++
  [Declare_it; Declare_it; It_from true 0 1; Plain (Destroy Generic 1); It_get 2 0; Plain (Read_plain Generic 2 T_string); It_next 0;
   It_copy 1 0; It_next 0; It_next 0; It_done 0; It_done 1; It_return 1; Plain (Read_plain Generic 3 T_string); It_return 0;
   Plain (Type_of Generic 4); It_done_destroy 0 (Some 2%nat); It_destroy 1].
Example c47_program_answers : snd (i_run ([], []) c47_program) =
  [R_done; R_code 0; R_code 0; R_done; R_done] ++
  [R_done; R_done; R_code 0; R_code 0; R_code 0; R_value (VStr (lit "a")); R_code 0; R_code 0; R_code 0; R_code 0; R_flag true;
   R_flag false; R_done; R_value (VStr (lit "b")); R_done; R_type 7; R_flag true; R_code 0].
Proof. vm_compute. reflexivity. Qed.

Ltac iwent := intros a s' H; cbn [istep] in H; unpack; repeat (match goal with
  | U : usable _ _ _ ?d ?n ?x |- _ => destruct (used _ _ _ _ _ _ _ _ _ _ U eq_refl) as (? & ? & ?); clear U; subst d n x
  | E : nth_error _ _ = Some (Some (?n, ?o, Ahead ?l)) |- _ => injection E as ? ? ?; subst n o l
  end); cbn in *; unpack; subst; reflexivity.
Ltac iplain := intros a s' H; cbn in H; unpack; repeat held; subst; reflexivity.
Ltac walks_here := do 3 eexists; reflexivity.
Example c47_program_careful : icareful run_op ([], []) c47_program.
Proof.
  unfold c47_program. eapply surely_careful; [exact c47_setup_surely|].
  set (names := [(VStr (lit "a"), true); (VStr (lit "b"), true)]).
  set (keep := [(FPacket, Some (FPacket, Safe, (c47_object, false))); (FPacket, @None content)]).
  set (full := keep ++ [(FPacket, Some (FPacket, Safe, (VStr (lit "a"), true)))]).
  set (both := full ++ [(FPacket, Some (FPacket, Safe, (VStr (lit "b"), true)))]).
  set (more := both ++ [(FPacket, Some (FPacket, Safe, (VNull, false)))]).
  apply icareful_step with (s1 := (c47_state, [None])); [exact I|iwent|].
  apply icareful_step with (s1 := (c47_state, [None; None])); [exact I|iwent|].
  apply icareful_step with (s1 := (c47_state, [Some (Safe, None, Ahead names); None])); [split; [reflexivity|alive]|iwent|].
  apply icareful_plain with (s1 := keep ++ [(FPacket, None)]); [alive|exact I|went|].
  apply icareful_step with (s1 := (full, [Some (Safe, None, Ahead names); None])); [split; [walks_here|reflexivity]|iwent|].
  apply icareful_plain with (s1 := full); [split; [reflexivity|alive]|exact I|went|].
  apply icareful_step with (s1 := (full, [Some (Safe, None, Ahead (tl names)); None])); [walks_here|iwent|].
  apply icareful_step with (s1 := (full, [Some (Safe, None, Ahead (tl names)); Some (Safe, None, Ahead (tl names))])); [split; [reflexivity|walks_here]|iwent|].
  apply icareful_step with (s1 := (full, [Some (Safe, None, Ahead []); Some (Safe, None, Ahead (tl names))])); [walks_here|iwent|].
  apply icareful_step with (s1 := (full, [Some (Safe, None, Ahead []); Some (Safe, None, Ahead (tl names))])); [walks_here|iwent|].
  apply icareful_step with (s1 := (full, [Some (Safe, None, Ahead []); Some (Safe, None, Ahead (tl names))])); [walks_here|iwent|].
  apply icareful_step with (s1 := (full, [Some (Safe, None, Ahead []); Some (Safe, None, Ahead (tl names))])); [walks_here|iwent|].
  apply icareful_step with (s1 := (both, [Some (Safe, None, Ahead []); Some (Safe, None, Ahead (tl names))])); [walks_here|iwent|].
  apply icareful_plain with (s1 := both); [split; [reflexivity|alive]|exact I|went|].
  apply icareful_step with (s1 := (more, [Some (Safe, None, Ahead []); Some (Safe, None, Ahead (tl names))])); [walks_here|iwent|].
  apply icareful_plain with (s1 := more); [alive|exact I|went|].
  apply icareful_step with (s1 := (put 2 (FPacket, None) more, [None; Some (Safe, None, Ahead (tl names))])).
  { split; [walks_here|]. intros y Q. injection Q as <-. split; [eexists; reflexivity|]. intros n o _. alive. }
  { intros a s' H. cbn [istep] in H. unpack. injection H as <- <- <-. unpack. subst s'.
    match goal with H : astep _ _ _ _ _ |- _ => cbn [astep] in H end. unpack. subst.
    match goal with H : nth_error _ 2 = _ |- _ => injection H as ? ? ? ?; subst end. reflexivity. }
  apply icareful_step with (s1 := (put 2 (FPacket, None) more, [None; None])); [eexists; reflexivity|iwent|].
  exact I.
Qed.

(** The two loops over its members, mutable or finalized. *)
Example c47_loops :
  let st := fst (i_run ([], []) c47_setup) in
  let visit b := [R_flag false; R_code 0; R_value b; R_code 0; R_code 0] in
  (forall j, (j < 2)%nat -> snd (walk_all 3 false [Read_err Generic 2 T_integer] st j 2) =
    [R_done; R_code 0] ++ visit (VInt 5) ++ visit (VInt 6) ++ [R_flag true; R_code 0]) /\
  snd (dart_for_each 3 false [Read_err Generic 2 T_integer] st 0 2) =
    [R_done; R_code 0; R_code 0; R_flag false; R_value (VInt 5); R_code 0; R_code 0; R_code 0; R_flag false; R_value (VInt 6);
     R_code 0; R_code 0; R_code 5; R_bad].
Proof. split; [|vm_compute; reflexivity]. intros j J. destruct j as [|[|j]]; [vm_compute; reflexivity|vm_compute; reflexivity|lia]. Qed.

(** The hypotheses of the theorems on loops are met there. *)
Example c47_loops_meet : icareful run_op ([], []) c47_setup /\
  (forall t, isteps run_op ([], []) c47_setup (snd (i_run ([], []) c47_setup)) t -> t = (c47_state, [])) /\
  usable c47_state Generic 0 FPacket Safe (c47_object, false) /\
  children false (c47_object, false) = Some [(VInt 5, false); (VInt 6, false)] /\
  nth_error c47_state 2 = Some (FPacket, None) /\ forallb looks [Read_err Generic 2 T_integer] = true /\
  forall y, careful run_op (put 2 (FPacket, Some (FPacket, Safe, y)) c47_state) [Read_err Generic 2 T_integer].
Proof.
  split; [rewrite <- (app_nil_r c47_setup); eapply surely_careful; [exact c47_setup_surely|exact I]|].
  split; [intros t H; exact (surely_there _ _ _ _ _ c47_setup_surely H)|].
  split; [exists FPacket; auto|]. split; [reflexivity|]. split; [reflexivity|]. split; [reflexivity|].
  intros y. split; [split; [reflexivity|]; split; [discriminate|alive]|]. split; [exact I|]. intros. exact I.
Qed.

(** The conditions of the contract are needed: an iterator over a mutable aggregate
    does not survive a change to it, and an iterator is used only between
    initialisation and destruction. *)
Example c47_stale : let go l := last (snd (i_run ([], []) (c47_setup ++ [Declare_it] ++ l))) R_done in
  go [It_from false 0 0; Plain (Remove Generic 0 (Named (lit "a"))); It_get 2 0] = R_bad /\
  go [It_from false 0 1; Plain (Remove Generic 0 (Named (lit "a"))); It_get 2 0] = R_code 0 /\
  go [It_next 0] = R_bad /\ go [It_from false 0 0; It_destroy 0; It_destroy 0] = R_bad.
Proof. vm_compute. auto. Qed.

(** ** Iterators of no kind

    An iterator over a packet made with a counter the library does not know gets the
    packet's tags. Every call on it is refused, and it counts as done: a loop over it
    ends at once. *)
Theorem c47_unknown s w i p rc o : nth_error w i = Some (mkivar (Some (p, rc)) o) -> ~ 1 <= p <= 3 \/ ~ 1 <= rc <= 2 ->
  i_call (s, w) (It_done i) = ((s, w), R_flag true) /\
  i_call (s, w) (It_done_destroy i None) = ((s, w), R_flag true) /\
  i_call (s, w) (It_next i) = ((s, w), R_code client_code) /\
  i_call (s, w) (It_destroy i) = ((s, w), R_code client_code).
Proof.
  intros N K.
  assert (H : has_it w i = true) by (unfold has_it; apply Nat.ltb_lt; apply nth_error_Some; congruence).
  assert (T : forall R (client bad : R) k, it_unwrap client bad w i k = client).
  { intros R client bad k. unfold it_unwrap. rewrite N. cbn [i_tags i_obj]. unfold tag_switch, rc_switch.
    destruct (Z.eq_dec p 1) as [->|N1]; [|destruct (Z.eq_dec p 2) as [->|N2]; [|destruct (Z.eq_dec p 3) as [->|N3]]].
    1-3: destruct (Z.eq_dec rc 1) as [->|M1]; [lia|]; destruct (Z.eq_dec rc 2) as [->|M2]; [lia|];
      destruct rc as [|[q|[]|]|]; try reflexivity; try congruence; destruct q; reflexivity.
    destruct p as [|[[]|[]|]|]; try reflexivity; congruence. }
  unfold i_call, icompiles. cbn [snd]. rewrite H. cbn [andb]. unfold it_done, it_destroy, it_next, it_access. cbn [snd].
  rewrite !T. cbn [fst snd]. repeat split; reflexivity.
Qed.
Print Assumptions c47_unknown.
Example c47_unknown_case :
  let '(s, w) := fst (i_run ([], []) [Plain (Declare FPacket); Plain (Construct 0 (Init FPacket 7)); Declare_it; It_from false 0 0]) in
  nth_error w 0 = Some (mkivar (Some (3, 7)) None).
Proof. vm_compute. reflexivity. Qed.
