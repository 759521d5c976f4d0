(** C71: erasing through an iterator when memory is refused.

    [m_erase_at p m] is erase(iterator) when memory is there or not as the list [m]
    says (FailAt.v); [c_exec] is the same with memory for everything, [c_step] what
    it must do to values and positions (C49). *)

From Coq Require Import ZArith List Bool Lia String.
From Verif Require Import Base BaseFacts Keys Wire Spec SpecOps HeapOps Store StoreSpec StoreFacts StoreSteps StoreRun
  Cursor SpecCursor CursorFacts CursorRun PropsStore PropsCursor Fail SpecFail FailFacts FailAt FailAtFacts Demo.
Import ListNotations.
Open Scope string_scope.
Open Scope list_scope.
Open Scope Z_scope.

(** When nothing is refused it is the call of C49. *)
Theorem c71_enough p c i x j :
  m_erase_at p [] c i x j = ('(c1, a) <- c_exec c (Erase_at i x j) ;; Ok ([], c1, Some a, [])).
Proof. apply erase_at_nil. Qed.
Print Assumptions c71_enough.

(** It either does what it does when memory is there, or it is refused: then every
    variable is the handle it was and shows what it showed, and at most one container
    is lost, none with std::shared_ptr.  On an object the caller is told of a type
    error, on anything else std::bad_alloc goes through. *)
Theorem c71_erase_at n m c e ms p mm i x j st a :
  stands n m c (e, ms) -> fair n m (store c) (e, ms) (Erase_at i x j) -> c_step (e, ms) (Erase_at i x j) = Some (st, a) ->
  exists m' c' r lost, m_erase_at p mm c i x j = Ok (m', c', r, lost) /\
    ((r = Some a /\ c_exec c (Erase_at i x j) = Ok (c', a) /\ lost = []) \/
     (vars (store c') = vars (store c) /\ (forall y v, observes (store c) y v <-> observes (store c') y v) /\
      (List.length lost <= 1)%nat /\ (p = Std_shared -> lost = []) /\
      r = match val e x with VObj _ => Some (A_err type_error) | _ => None end)).
Proof.
  intros SD FR H. destruct (stands_inv _ _ _ _ SD) as (C & Ln & Lm). cbn [fst snd] in *.
  destruct (R_step n m c (e, ms) _ st a C Ln Lm FR H) as (c1 & E & _). destruct FR as (_ & Lx & _).
  destruct (at_ok p mm c e ms i x j c1 a C ltac:(lia) E) as (m' & c2 & r & l & E2 & Q). exists m', c2, r, l. split; [exact E2|].
  destruct Q as [(-> & -> & ->)|(s & -> & I & V & [Q1 Q2] & ->)]; [left; auto|right].
  cbn [store after]. split; [exact V|]. split; [|auto]. destruct C as ([_ F0] & _). cbn [fst] in F0. destruct I as [_ F]. rewrite V in F.
  assert (BOTH : forall s3 s4, vars s3 = vars s4 -> Forall2 (shows (heap s3)) (vars s3) e -> Forall2 (shows (heap s4)) (vars s4) e ->
    forall y v, observes s3 y v -> observes s4 y v).
  { intros s3 s4 VV G3 G4 y v (h & N & Sh). pose proof (Forall2_nth _ _ _ y G3) as P3. pose proof (Forall2_nth _ _ _ y G4) as P4.
    rewrite <- VV in P4. rewrite N in P3, P4. destruct (nth_error e y) as [w|]; [|contradiction].
    exists h. rewrite <- VV. split; [exact N|]. rewrite (shows_det _ _ _ Sh _ P3). exact P4. }
  intros y v. split; apply BOTH; auto; rewrite V; exact F.
Qed.
Print Assumptions c71_erase_at.

(** After a refusal the program goes on as if the call had not been made, with every
    iterator where it was. *)
Theorem c71_goes_on n m c e ms mm i x j st a m' c' r lost os :
  stands n m c (e, ms) -> fair n m (store c) (e, ms) (Erase_at i x j) -> c_step (e, ms) (Erase_at i x j) = Some (st, a) ->
  m_erase_at Std_shared mm c i x j = Ok (m', c', r, lost) -> r <> Some a -> careful n m c' (e, ms) os ->
  exists c2 e2 ms2 l, c_run c' os = Ok (c2, l) /\ c_steps (e, ms) os = Some ((e2, ms2), l) /\
    forall y, (y < n)%nat -> observes (store c2) y (val e2 y).
Proof.
  intros SD FR H E NE CA. destruct (stands_inv _ _ _ _ SD) as (C & Ln & Lm). cbn [fst snd] in *.
  destruct (R_step n m c (e, ms) _ st a C Ln Lm FR H) as (c1 & E1 & _). destruct FR as (_ & Lx & _).
  destruct (at_ok Std_shared mm c e ms i x j c1 a C ltac:(lia) E1) as (m2 & c2 & r2 & l & E2 & Q).
  rewrite E in E2. apply Ok_inj in E2. injection E2 as <- <- <- <-.
  destruct Q as [(-> & _ & _)|(s & -> & I & V & [Q1 _] & _)]; [contradiction|]. rewrite (Q1 eq_refl) in I. cbn [flat_map] in I.
  destruct (R_run n m os _ (e, ms) (refused_CInv c e ms s C I V) Ln Lm CA) as (c3 & [e3 ms3] & l3 & E3 & S3 & C3 & Ln3 & _).
  exists c3, e3, ms3, l3. split; [exact E3|]. split; [exact S3|]. intros y L. cbn [fst] in Ln3. apply (CInv_observes c3 e3 ms3 y C3). lia.
Qed.
Print Assumptions c71_goes_on.

(** Counts are exact after the call, refused or not: the handle it held on the
    container is given up either way. *)
Theorem c71_counts n m c e ms mm i x j st a m' c' r lost :
  stands n m c (e, ms) -> fair n m (store c) (e, ms) (Erase_at i x j) -> c_step (e, ms) (Erase_at i x j) = Some (st, a) ->
  m_erase_at Std_shared mm c i x j = Ok (m', c', r, lost) ->
  (forall ad k cl, cell_at (heap (store c')) ad = Some (k, cl) ->
     k = nref ad (vars (store c')) + nref ad (all_kids (heap (store c'))) /\ 0 < k) /\
  ((forall h, In h (vars (store c')) -> href h = None) -> forall ad, cell_at (heap (store c')) ad = None).
Proof.
  intros SD FR H E. destruct (stands_inv _ _ _ _ SD) as (C & Ln & Lm). cbn [fst snd] in *.
  destruct (R_step n m c (e, ms) _ st a C Ln Lm FR H) as (c1 & E1 & C1 & _). destruct FR as (_ & Lx & _).
  destruct (at_ok Std_shared mm c e ms i x j c1 a C ltac:(lia) E1) as (m2 & c2 & r2 & l & E2 & Q).
  rewrite E in E2. apply Ok_inj in E2. injection E2 as <- <- <- <-.
  assert (W : wf (heap (store c')) (vars (store c'))).
  { destruct Q as [(_ & -> & _)|(s & -> & I & _ & [Q1 _] & _)].
    - destruct C1 as ([W _] & _). exact W.
    - rewrite (Q1 eq_refl) in I. destruct I as [W _]. exact W. }
  split; [exact (proj1 W)|]. intros NR. exact (nothing_left _ _ W NR).
Qed.
Print Assumptions c71_counts.

(** ** What is not so *)

(** A type error does not mean that the iterator was of the wrong type: the same
    call on the same iterator succeeds when memory is there again. *)
Definition one_field : list instr :=
  [ Call (O_make 0 New_object); Call (O_insert 0 (VStr (b "a")) (Lit (VInt 1))); Call (O_copy 1 0); Begin false 0 1 ].
Definition before_erase : cstate := Cs (St [Some (2, CObj [(b "a", HInt 1)])] [HObj 0; HObj 0]) [P_field 0 (Some (b "a")) false].
Definition its_values : cspec := ([VObj [(b "a", VInt 1)]; VObj [(b "a", VInt 1)]], [M_at 1 0 false]).
Lemma one_field_stands : stands 2 1 before_erase its_values.
Proof.
  exists one_field, [A_unit; A_unit; A_unit; A_unit]. split; [|split; vm_compute; reflexivity].
  vm_compute. repeat split; try tauto; try discriminate; try lia.
Qed.
Theorem c71_told_apart_refuted :
  ~ forall n m c st mm i x j st' a m' c' lost, stands n m c st -> fair n m (store c) st (Erase_at i x j) ->
      c_step st (Erase_at i x j) = Some (st', a) ->
      m_erase_at Std_shared mm c i x j = Ok (m', c', Some (A_err type_error), lost) -> a = A_err type_error.
Proof.
  intros H.
  assert (R : m_erase_at Std_shared [true; false] before_erase 0 1 0 = Ok ([], before_erase, Some (A_err type_error), [])) by (vm_compute; reflexivity).
  assert (S : c_step its_values (Erase_at 0 1 0) = Some (([VObj [(b "a", VInt 1)]; VObj []], [M_at 1 0 false]), A_unit)) by (vm_compute; reflexivity).
  assert (F : fair 2 1 (store before_erase) its_values (Erase_at 0 1 0)) by (cbn; lia).
  specialize (H _ _ _ _ _ _ _ _ _ _ _ _ _ one_field_stands F S R). discriminate H.
Qed.
Print Assumptions c71_told_apart_refuted.

(** ** Cases *)

(** Refused: the container, its only node, and its counter; then it is there. *)
Example c71_case :
  fair 2 1 (store before_erase) its_values (Erase_at 0 1 0) /\
  map (fun mm => match m_erase_at Std_shared mm before_erase 0 1 0 with
                 | Ok (m', c', r, []) => Some (m', show (store c') 1, r) | _ => None end)
      [ [false]; [true; false]; [true; true; false]; [true; true; true; false] ] =
  [ Some ([], Ok (VObj [(b "a", VInt 1)]), Some (A_err type_error)); Some ([], Ok (VObj [(b "a", VInt 1)]), Some (A_err type_error));
    Some ([], Ok (VObj [(b "a", VInt 1)]), Some (A_err type_error)); Some ([false], Ok (VObj []), Some A_unit) ].
Proof. split; [cbn; lia|vm_compute; reflexivity]. Qed.
(** On an array the refusal itself is seen, and dart's own pointers lose the copy. *)
Example c71_case_array :
  match c_run (c_init 2 1) [ Call (O_make 0 New_array); Call (O_push_back 0 (Lit (VInt 1))); Call (O_copy 1 0); Begin false 0 1 ] with
  | Ok (c, _) =>
      match m_erase_at Dart_unsafe [true; true; false] c 0 1 0 with
      | Ok (m', c', r, lost) => (show (store c') 1, r, lost) = (Ok (VArr [VInt 1]), None, [CArr [HInt 1]])
      | _ => False
      end
  | _ => False
  end.
Proof. vm_compute. reflexivity. Qed.
