(** C70: calls that are refused memory.

    [m_run p m] executes calls on shared storage when the memory asked for is there
    or not as the list [m] says (Fail.v); [v_run] executes calls on variables that
    hold independent values (StoreSpec.v). *)

From Coq Require Import ZArith List Bool Lia String.
From Verif Require Import Base BaseFacts Keys Wire Spec SpecOps HeapOps Store StoreSpec StoreFacts StoreSteps StoreRun PropsStore Fail SpecFail FailFacts Demo.
Import ListNotations.
Open Scope string_scope.
Open Scope list_scope.
Open Scope Z_scope.

(** When nothing is refused the calls are those of C16-C18. *)
Theorem c70_enough p s os :
  m_run p [] s os = ('(s1, l) <- s_run s os ;; Ok ([], s1, map Some l, [])).
Proof.
  revert s. induction os as [|o os IH]; intros s; cbn [m_run s_run]; [reflexivity|].
  rewrite exec_nil. unfold some_of. destruct (s_exec s o) as [[s1 a]| | | |]; cbn [bind]; try reflexivity.
  rewrite IH. destruct (s_run s1 os) as [[s2 l]| | | |]; reflexivity.
Qed.
Print Assumptions c70_enough.

(** Whatever is refused, a history amounts to the calls that were answered: these
    give the answers independent values give, and every variable shows what it
    would had the refused calls not been made.  Nothing is lost. *)
Theorem c70_value_semantics n m os :
  Forall (call_ok n) os -> m_allowed Std_shared m (init n) (repeat VNull n) os ->
  exists m' s outs, m_run Std_shared m (init n) os = Ok (m', s, outs, []) /\ List.length outs = List.length os /\
    let '(e, l) := v_run (repeat VNull n) (answered os outs) in
    answers outs = l /\ forall x, (x < n)%nat -> observes s x (val e x).
Proof.
  intros C A. destruct (m_run_allowed os m (init n) (repeat VNull n) (Inv_init n)) as (m' & s & outs & E & L & I & Q & LE).
  { rewrite repeat_length. exact C. } { exact A. }
  exists m', s, outs. split; [exact E|]. split; [exact L|].
  destruct (v_run (repeat VNull n) (answered os outs)) as [e l]. cbn [fst snd] in *. split; [congruence|].
  intros x Lx. destruct (L_get s e [] x I) as (h & N & _ & Sh); [rewrite LE, repeat_length; exact Lx|]. exists h. auto.
Qed.
Print Assumptions c70_value_semantics.

(** One call after such a history, with either kind of counter: it does what it
    does when memory is there, or it is refused and no variable shows anything
    else than before; at most one container is lost, none with std::shared_ptr. *)
Theorem c70_call n m os m1 s outs l p o :
  Forall (call_ok n) os -> m_storable Std_shared m (init n) os ->
  m_run Std_shared m (init n) os = Ok (m1, s, outs, l) ->
  call_ok n o -> storable s o -> forall answers_to_come,
  exists m' s' a lost, m_exec p answers_to_come s o = Ok (m', s', a, lost) /\
    match a with
    | Some b => s_exec s o = Ok (s', b) /\ lost = []
    | None => (forall x v, observes s x v <-> observes s' x v) /\
              (List.length lost <= 1)%nat /\ (p = Std_shared -> lost = [])
    end.
Proof.
  intros C A E CO St mm. destruct (m_run_storable os m (init n) (repeat VNull n) (Inv_init n)) as (m2 & s2 & e & outs2 & E2 & I & L).
  { rewrite repeat_length. exact C. } { exact A. }
  rewrite E in E2. apply Ok_inj in E2. injection E2 as -> -> -> ->. rewrite repeat_length in L. rewrite <- L in CO.
  destruct (exec_leaves p mm s2 e o I CO St) as (m' & s' & a & lost & E' & Q). exists m', s', a, lost. split; [exact E'|].
  destruct a as [b|]; [exact Q|]. destruct Q as ([W F] & LV & Q3 & Q4). split; [|auto].
  destruct I as [W0 F0].
  assert (BOTH : forall s3 s4, Forall2 (shows (heap s3)) (vars s3) e -> Forall2 (shows (heap s4)) (vars s4) e ->
    forall x v, observes s3 x v -> observes s4 x v).
  { intros s3 s4 G3 G4 x v (h & N & Sh). pose proof (Forall2_nth _ _ _ x G3) as P3. pose proof (Forall2_nth _ _ _ x G4) as P4.
    rewrite N in P3. destruct (nth_error e x) as [w|]; [|contradiction].
    destruct (nth_error (vars s4) x) as [h4|] eqn:N4; [|contradiction]. exists h4. split; [exact N4|].
    rewrite (shows_det _ _ _ Sh _ P3). exact P4. }
  intros x v. split; apply BOTH; assumption.
Qed.
Print Assumptions c70_call.

(** Counts stay exact whatever was refused. *)
Theorem c70_counts n m os :
  Forall (call_ok n) os -> m_storable Std_shared m (init n) os ->
  exists m' s outs, m_run Std_shared m (init n) os = Ok (m', s, outs, []) /\ List.length (vars s) = n /\
    (forall a k c, cell_at (heap s) a = Some (k, c) ->
       k = nref a (vars s) + nref a (all_kids (heap s)) /\ 0 < k) /\
    (forall h a, In h (vars s ++ all_kids (heap s)) -> href h = Some a ->
       refcount (heap s) h = nref a (vars s) + nref a (all_kids (heap s)) /\ 0 < refcount (heap s) h) /\
    ((forall h, In h (vars s) -> href h = None) -> forall a, cell_at (heap s) a = None).
Proof.
  intros C A. destruct (m_run_storable os m (init n) (repeat VNull n) (Inv_init n)) as (m' & s & e & outs & E & I & L).
  { rewrite repeat_length. exact C. } { exact A. }
  exists m', s, outs. split; [exact E|]. split.
  { rewrite (Inv_len _ _ _ I), L, repeat_length. reflexivity. }
  destruct I as [W F]. cbn [app] in W. split; [exact (proj1 W)|]. split.
  - intros h a J Er. destruct (proj2 W h J) as (v & Sh). destruct (shows_live _ _ _ _ Sh Er) as (k & c & Ck).
    unfold refcount. rewrite Er, Ck. exact (proj1 W a k c Ck).
  - intros NR. exact (nothing_left _ _ W NR).
Qed.
Print Assumptions c70_counts.

Lemma m_run_app p os1 : forall m s os2, m_run p m s (os1 ++ os2) =
  ('(m1, s1, o1, l1) <- m_run p m s os1 ;; '(m2, s2, o2, l2) <- m_run p m1 s1 os2 ;; Ok (m2, s2, o1 ++ o2, l1 ++ l2)).
Proof.
  induction os1 as [|o os1 IH]; intros m s os2; cbn [app m_run bind].
  - destruct (m_run p m s os2) as [[[[m2 s2] o2] l2]| | | |]; reflexivity.
  - destruct (m_exec p m s o) as [[[[m1 s1] a] l]| | | |]; cbn [bind]; try reflexivity. rewrite IH.
    destruct (m_run p m1 s1 os1) as [[[[m2 s2] o2] l2]| | | |]; cbn [bind]; try reflexivity.
    destruct (m_run p m2 s2 os2) as [[[[m3 s3] o3] l3]| | | |]; cbn [bind]; try reflexivity.
    rewrite app_assoc. reflexivity.
Qed.
Lemma m_storable_app p os1 : forall m s os2, m_storable p m s os1 ->
  (forall m1 s1 o1 l1, m_run p m s os1 = Ok (m1, s1, o1, l1) -> m_storable p m1 s1 os2) -> m_storable p m s (os1 ++ os2).
Proof.
  induction os1 as [|o os1 IH]; intros m s os2 A H; cbn [app m_storable m_run] in *; [exact (H m s [] [] eq_refl)|].
  destruct A as [A1 A2]. split; [exact A1|]. destruct (m_exec p m s o) as [[[[m1 s1] a] l]| | | |] eqn:E; try exact I.
  apply IH; [exact A2|]. intros m2 s2 o2 l2 E2. cbn [bind] in H. rewrite E2 in H. cbn [bind] in H. eapply H. reflexivity.
Qed.
Lemma destroy_storable p n : forall m k s, m_storable p m s (map O_destroy (seq k n)).
Proof.
  induction n as [|n IH]; intros m k s; cbn [seq map m_storable storable]; [exact I|]. split; [exact I|].
  destruct (m_exec p m s (O_destroy k)) as [[[[m1 s1] a] l]| | | |]; try exact I. apply IH.
Qed.
Lemma m_destroy p n : forall m k s, m_run p m s (map O_destroy (seq k n)) =
  ('(s1, l) <- s_run s (map O_destroy (seq k n)) ;; Ok (m, s1, map Some l, [])).
Proof.
  induction n as [|n IH]; intros m k s; cbn [seq map m_run s_run]; [reflexivity|]. cbn [m_exec]. unfold may. cbn [ask_n].
  destruct (s_exec s (O_destroy k)) as [[s1 a]| | | |]; cbn [bind]; try reflexivity. rewrite IH.
  destruct (s_run s1 _) as [[s2 l]| | | |]; reflexivity.
Qed.

(** Destroying every variable after any such history releases everything. *)
Theorem c70_nothing_leaks n m os :
  Forall (call_ok n) os -> m_storable Std_shared m (init n) os ->
  exists m' s outs, m_run Std_shared m (init n) (os ++ map O_destroy (seq 0 n)) = Ok (m', s, outs, []) /\
    forall a, cell_at (heap s) a = None.
Proof.
  intros C A. destruct (c70_counts n m (os ++ map O_destroy (seq 0 n))) as (m' & s & outs & E & L & _ & _ & NL).
  - apply Forall_app. split; [exact C|]. apply Forall_forall. intros o J. apply in_map_iff in J. destruct J as (x & <- & J).
    apply in_seq in J. cbn. lia.
  - apply m_storable_app; [exact A|]. intros. apply destroy_storable.
  - exists m', s, outs. split; [exact E|]. apply NL. intros h J. rewrite m_run_app in E.
    apply bind_Ok in E. destruct E as ([[[m1 s1] o1] l1] & E1 & E). apply bind_Ok in E. destruct E as ([[[m2 s2] o2] l2] & E2 & E).
    apply Ok_inj in E. injection E as -> -> _ _. rewrite m_destroy in E2. apply bind_Ok in E2. destruct E2 as ([s3 l3] & E3 & E2).
    apply Ok_inj in E2. injection E2 as _ -> _ _. apply In_nth_error in J. destruct J as (y & N).
    rewrite (destroy_run n 0 s1 s l3 E3 y h N); [reflexivity|].
    assert (y < List.length (vars s))%nat by (apply nth_error_Some; congruence). lia.
Qed.
Print Assumptions c70_nothing_leaks.

(** ** What is not so *)

(** With dart's own counted pointers (dart::unsafe_heap) a container is lost when
    its counter is refused: what it held outlives every variable. *)
Definition lossy : list hop :=
  [ O_make 0 New_object; O_make 1 New_array; O_push_back 1 (Cref 0); O_copy 2 1; O_pop_back 2 ].
Definition refuse_counter : memory := repeat true 7 ++ [false].

Theorem c70_unsafe_leaks_refuted :
  ~ forall n m os, Forall (call_ok n) os -> m_storable Dart_unsafe m (init n) os ->
      exists m' s outs l, m_run Dart_unsafe m (init n) (os ++ map O_destroy (seq 0 n)) = Ok (m', s, outs, l) /\
        forall a, cell_at (heap s) a = None.
Proof.
  intros H. destruct (H 3%nat refuse_counter lossy) as (m' & s & outs & l & E & Q).
  - unfold lossy. repeat apply Forall_cons; try apply Forall_nil. all: cbn [call_ok src_in]; lia.
  - vm_compute. tauto || (repeat split; intros; discriminate).
  - vm_compute in E. apply Ok_inj in E. injection E as <- <- <- <-. specialize (Q 0%nat). vm_compute in Q. discriminate Q.
Qed.
Print Assumptions c70_unsafe_leaks_refuted.

(** A refused call may leave storage arranged otherwise: the target is unshared
    before its argument is converted, and refcount() tells. *)
Definition shared_pair : list hop := [ O_make 0 New_array; O_copy 1 0 ].
Definition long_text : value := VStr (b "a string that does not fit its handle").
Definition before_push : state := St [Some (2, CArr [])] [HArr 0; HArr 0].
Definition after_push : state := St [Some (1, CArr []); Some (1, CArr [])] [HArr 0; HArr 1].

Theorem c70_storage_kept_refuted :
  ~ forall n os s l o m m' s', Forall (call_ok n) os -> all_storable (init n) os -> s_run (init n) os = Ok (s, l) ->
      call_ok n o -> storable s o -> m_exec Std_shared m s o = Ok (m', s', None, []) ->
      forall x h h', nth_error (vars s) x = Some h -> nth_error (vars s') x = Some h' ->
        refcount (heap s') h' = refcount (heap s) h.
Proof.
  intros H.
  assert (E : s_run (init 2) shared_pair = Ok (before_push, [A_unit; A_unit])) by (vm_compute; reflexivity).
  assert (R : m_exec Std_shared [true; true; true; false] before_push (O_push_back 1 (Lit long_text)) = Ok ([], after_push, None, []))
    by (vm_compute; reflexivity).
  assert (C : Forall (call_ok 2) shared_pair).
  { unfold shared_pair. repeat apply Forall_cons; try apply Forall_nil; cbn [call_ok]; lia. }
  assert (A : all_storable (init 2) shared_pair) by (vm_compute; tauto).
  assert (CO : call_ok 2 (O_push_back 1 (Lit long_text))).
  { split; [lia|]. unfold src_in, scalar, long_text. cbn [lit_h]. discriminate. }
  specialize (H _ _ _ _ _ _ _ _ C A E CO (fun F => F) R 0%nat (HArr 0) (HArr 0) eq_refl eq_refl).
  vm_compute in H. discriminate H.
Qed.
Print Assumptions c70_storage_kept_refuted.

(** ** A case *)

(** Refused: the counter of a long key, the second node of a copy, its counter, and the room for
    an element. *)
Definition short_of_memory : list hop :=
  [ O_make 0 New_object; O_insert 0 (VStr (b "a")) (Lit (VInt 1)); O_insert 0 (VStr (b "a key that does not fit in")) (Lit VNull);
    O_make 1 New_array; O_insert 0 (VStr (b "c")) (Cref 1); O_copy 2 0;
    O_insert 2 (VStr (b "d")) (Lit (VBool true)); O_erase 2 (VStr (b "a")); O_erase 2 (VStr (b "a"));
    O_push_back 1 (Cref 2); O_push_back 1 (Rref 2); O_read 2 1 R_back ].
Definition answers_given : memory :=
  [ true; true; true; false; true; true; true; true; false; true; true; true; false; true; true; true; true; true; true; true; false ].
Example c70_case :
  Forall (call_ok 3) short_of_memory /\ m_allowed Std_shared answers_given (init 3) (repeat VNull 3) short_of_memory /\
  match m_run Std_shared answers_given (init 3) short_of_memory with
  | Ok (_, s, outs, []) =>
      List.length (filter (fun o => match o with None => true | _ => false end) outs) = 4%nat /\
      map (show s) [0%nat; 1%nat; 2%nat] = map Ok (fst (v_run (repeat VNull 3) (answered short_of_memory outs)))
  | _ => False
  end.
Proof.
  split; [|split].
  - unfold short_of_memory. repeat apply Forall_cons; try apply Forall_nil. all: cbn [call_ok src_in scalar]; repeat split.
    all: try lia. all: try discriminate.
  - vm_compute. repeat split; try tauto; try discriminate.
  - vm_compute. split; reflexivity.
Qed.
