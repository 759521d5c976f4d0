(** C72: inserting and setting through an iterator when memory is refused.

    [m_at p m] is a call with an iterator when memory is there or not as the list
    [m] says (FailPut.v); [c_exec] is the same with memory for everything, [c_step]
    what it must do to values and positions (C49). *)

From Coq Require Import ZArith List Bool Lia String.
From Verif Require Import Base BaseFacts Keys Wire Spec SpecOps HeapOps Store StoreSpec StoreFacts StoreSteps StoreRun
  Cursor SpecCursor CursorFacts CursorRun PropsStore PropsCursor Fail SpecFail FailFacts FailAt FailAtFacts FailPut FailPutFacts Demo.
Import ListNotations.
Open Scope string_scope.
Open Scope list_scope.
Open Scope Z_scope.

(** When nothing is refused the calls are those of C49. *)
Theorem c72_enough p c o :
  m_at p [] c o = ('(c1, a) <- c_exec c o ;; Ok ([], c1, Some a, [])).
Proof.
  destruct o; try reflexivity; cbn [m_at c_exec].
  - apply put_nil. intros s k. unfold m_insert. rewrite after_cow_nil. reflexivity.
  - apply put_nil. intros s k. unfold m_set. rewrite after_cow_nil. reflexivity.
  - apply erase_at_nil.
Qed.
Print Assumptions c72_enough.

Lemma put_leaves n m c e ms p mm o i x j v st a :
  stands n m c (e, ms) -> o = Insert_at i x j v \/ o = Set_at i x j v ->
  fair n m (store c) (e, ms) o -> c_step (e, ms) o = Some (st, a) ->
  CInv c (e, ms) /\ List.length e = n /\ List.length ms = m /\
  exists c1, c_exec c o = Ok (c1, a) /\ CInv c1 st /\
  exists m' c' r lost, m_at p mm c o = Ok (m', c', r, lost) /\
    ((r = Some a /\ c' = c1 /\ lost = []) \/
     exists s, c' = after c s /\ Inv s e (flat_map kids lost) /\ others [x] (store c) s /\ lost_ok p lost /\ r = None).
Proof.
  intros SD O FR H. destruct (stands_inv _ _ _ _ SD) as (C & Ln & Lm). cbn [fst snd] in *.
  destruct (R_step n m c (e, ms) _ st a C Ln Lm FR H) as (c1 & E & C1 & _). split; [exact C|]. split; [exact Ln|]. split; [exact Lm|].
  exists c1. split; [exact E|]. split; [exact C1|].
  destruct O as [-> | ->]; destruct FR as (_ & Lx & _); cbn [m_at c_exec] in *.
  - apply (put_ok p mm s_insert (m_insert p mm) c e ms i x j v c1 a C); [lia|apply insert_may_put; lia|exact E].
  - apply (put_ok p mm s_set (m_set p mm) c e ms i x j v c1 a C); [lia|apply set_may_put; lia|exact E].
Qed.

(** insert and set through an iterator either do what they do when memory is there,
    or std::bad_alloc is seen and every variable shows what it showed, the argument
    included; no variable but the target has another handle than before, and at most
    one container is lost, none with std::shared_ptr. *)
Theorem c72_put_at n m c e ms p mm o i x j v st a :
  stands n m c (e, ms) -> o = Insert_at i x j v \/ o = Set_at i x j v ->
  fair n m (store c) (e, ms) o -> c_step (e, ms) o = Some (st, a) ->
  exists m' c' r lost, m_at p mm c o = Ok (m', c', r, lost) /\
    ((r = Some a /\ c_exec c o = Ok (c', a) /\ lost = []) \/
     (r = None /\ (forall y w, observes (store c) y w <-> observes (store c') y w) /\
      (forall y, y <> x -> nth_error (vars (store c')) y = nth_error (vars (store c)) y) /\
      (List.length lost <= 1)%nat /\ (p = Std_shared -> lost = []))).
Proof.
  intros SD O FR H. destruct (put_leaves n m c e ms p mm o i x j v st a SD O FR H) as (C & _ & _ & c1 & E & _ & m' & c2 & r & l & E2 & Q).
  exists m', c2, r, l. split; [exact E2|].
  destruct Q as [(-> & -> & ->)|(s & -> & I & V & [Q1 Q2] & ->)]; [left; auto|right].
  cbn [store after]. split; [reflexivity|]. split; [|split; [|auto]].
  - destruct C as ([_ F0] & _). cbn [fst] in F0. destruct I as [_ F].
    assert (BOTH : forall s3 s4, Forall2 (shows (heap s3)) (vars s3) e -> Forall2 (shows (heap s4)) (vars s4) e ->
      forall y w, observes s3 y w -> observes s4 y w).
    { intros s3 s4 G3 G4 y w (h & N & Sh). pose proof (Forall2_nth _ _ _ y G3) as P3. pose proof (Forall2_nth _ _ _ y G4) as P4.
      rewrite N in P3. destruct (nth_error e y) as [u|]; [|contradiction].
      destruct (nth_error (vars s4) y) as [h4|] eqn:N4; [|contradiction]. exists h4. split; [exact N4|].
      rewrite (shows_det _ _ _ Sh _ P3). exact P4. }
    intros y w. split; apply BOTH; assumption.
  - intros y NY. apply V. intros [J|[]]. auto.
Qed.
Print Assumptions c72_put_at.

(** After a refusal the program goes on as if the call had not been made, as long as
    it no longer uses the iterators of the target; counts are exact. *)
Theorem c72_goes_on n m c e ms mm o i x j v st a m' c' lost os :
  stands n m c (e, ms) -> o = Insert_at i x j v \/ o = Set_at i x j v ->
  fair n m (store c) (e, ms) o -> c_step (e, ms) o = Some (st, a) ->
  m_at Std_shared mm c o = Ok (m', c', None, lost) -> careful n m c' (e, upset [x] ms) os ->
  exists c2 e2 ms2 l, c_run c' os = Ok (c2, l) /\ c_steps (e, upset [x] ms) os = Some ((e2, ms2), l) /\
    forall y, (y < n)%nat -> observes (store c2) y (val e2 y).
Proof.
  intros SD O FR H E CA. destruct (put_leaves n m c e ms Std_shared mm o i x j v st a SD O FR H) as (C & Ln & Lm & c1 & _ & _ & m2 & c2 & r & l & E2 & Q).
  rewrite E in E2. apply Ok_inj in E2. injection E2 as <- <- <- <-.
  destruct Q as [(Q & _)|(s & -> & I & V & [Q1 _] & _)]; [discriminate Q|]. rewrite (Q1 eq_refl) in I. cbn [flat_map] in I.
  destruct (R_run n m os _ (e, upset [x] ms) (refused_put c e ms s x C I V) Ln) as (c3 & [e3 ms3] & l3 & E3 & S3 & C3 & Ln3 & _).
  { cbn [snd]. unfold upset. rewrite map_length. exact Lm. } { exact CA. }
  exists c3, e3, ms3, l3. split; [exact E3|]. split; [exact S3|]. intros y L. cbn [fst] in Ln3. apply (CInv_observes c3 e3 ms3 y C3). lia.
Qed.
Print Assumptions c72_goes_on.

Theorem c72_counts n m c e ms mm o i x j v st a m' c' r lost :
  stands n m c (e, ms) -> o = Insert_at i x j v \/ o = Set_at i x j v ->
  fair n m (store c) (e, ms) o -> c_step (e, ms) o = Some (st, a) ->
  m_at Std_shared mm c o = Ok (m', c', r, lost) ->
  (forall ad k cl, cell_at (heap (store c')) ad = Some (k, cl) ->
     k = nref ad (vars (store c')) + nref ad (all_kids (heap (store c'))) /\ 0 < k) /\
  ((forall h, In h (vars (store c')) -> href h = None) -> forall ad, cell_at (heap (store c')) ad = None).
Proof.
  intros SD O FR H E. destruct (put_leaves n m c e ms Std_shared mm o i x j v st a SD O FR H) as (C & _ & _ & c1 & _ & C1 & m2 & c2 & r2 & l & E2 & Q).
  rewrite E in E2. apply Ok_inj in E2. injection E2 as <- <- <- <-.
  assert (W : wf (heap (store c')) (vars (store c'))).
  { destruct Q as [(_ & -> & _)|(s & -> & I & _ & [Q1 _] & _)].
    - destruct C1 as ([W _] & _). exact W.
    - rewrite (Q1 eq_refl) in I. destruct I as [W _]. exact W. }
  split; [exact (proj1 W)|]. intros NR. exact (nothing_left _ _ W NR).
Qed.
Print Assumptions c72_counts.

(** ** What is not so *)

(** The iterators of the target do not survive: it has been unshared by the time the
    argument is refused memory, and comparing with end() is undefined. *)
Definition one_element : list instr :=
  [ Call (O_make 0 New_array); Call (O_push_back 0 (Lit (VInt 1))); Call (O_copy 1 0); Begin false 0 1 ].
Definition before_set : cstate := Cs (St [Some (2, CArr [HInt 1])] [HArr 0; HArr 0]) [P_elem 0 0; P_none].
Definition after_set : cstate := Cs (St [Some (1, CArr [HInt 1]); Some (1, CArr [HInt 1])] [HArr 0; HArr 1]) [P_elem 0 0; P_none].
Definition set_values : cspec := ([VArr [VInt 1]; VArr [VInt 1]], [M_at 1 0 false; M_none]).
Definition too_long : src := Lit (VStr (b "a string that does not fit its handle")).
Lemma one_element_stands : stands 2 2 before_set set_values.
Proof.
  exists one_element, [A_unit; A_unit; A_unit; A_unit]. split; [|split; vm_compute; reflexivity].
  vm_compute. repeat split; try tauto; try discriminate; try lia.
Qed.
Lemma set_fair : fair 2 2 (store before_set) set_values (Set_at 0 1 0 too_long).
Proof. vm_compute. repeat split; try tauto; try discriminate; try lia. Qed.
Theorem c72_positions_refuted :
  ~ forall n m c st mm o i x j v st' a m' c' os st2 l, stands n m c st -> o = Insert_at i x j v \/ o = Set_at i x j v ->
      fair n m (store c) st o -> c_step st o = Some (st', a) -> m_at Std_shared mm c o = Ok (m', c', None, []) ->
      c_steps st os = Some (st2, l) -> exists c2, c_run c' os = Ok (c2, l).
Proof.
  intros H.
  assert (R : m_at Std_shared [true; true; true; false] before_set (Set_at 0 1 0 too_long) = Ok ([], after_set, None, [])) by (vm_compute; reflexivity).
  assert (S : exists st' a, c_step set_values (Set_at 0 1 0 too_long) = Some (st', a)) by (eexists _, _; vm_compute; reflexivity).
  destruct S as (st' & a & S).
  assert (T : exists st2 l, c_steps set_values [End_ false 1 1; Same 0 1] = Some (st2, l)) by (eexists _, _; vm_compute; reflexivity).
  destruct T as (st2 & l & T).
  destruct (H _ _ _ _ _ _ _ _ _ _ _ _ _ _ _ _ _ one_element_stands (or_intror eq_refl) set_fair S R T) as (c2 & E).
  vm_compute in E. discriminate E.
Qed.
Print Assumptions c72_positions_refuted.

(** ** A case *)

(** Refused: the container, the block, the counter, the characters, their counter. *)
Example c72_case :
  stands 2 2 before_set set_values /\ fair 2 2 (store before_set) set_values (Set_at 0 1 0 too_long) /\
  map (fun k => match m_at Std_shared (repeat true k ++ [false]) before_set (Set_at 0 1 0 too_long) with
                | Ok (m', c', r, []) => Some (m', show (store c') 0, show (store c') 1, r) | _ => None end)
      [0; 1; 2; 3; 4]%nat = repeat (Some ([], Ok (VArr [VInt 1]), Ok (VArr [VInt 1]), None)) 5 /\
  match m_at Std_shared (repeat true 5 ++ [false]) before_set (Set_at 0 1 0 too_long) with
  | Ok (m', c', r, []) => show (store c') 0 = Ok (VArr [VInt 1]) /\ show (store c') 1 <> Ok (VArr [VInt 1]) /\ r = Some A_unit
  | _ => False
  end.
Proof.
  split; [exact one_element_stands|]. split; [exact set_fair|]. split; [vm_compute; reflexivity|].
  vm_compute. split; [reflexivity|]. split; [discriminate|reflexivity].
Qed.
