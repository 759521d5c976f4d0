(** C49: iterators as positions.  For every program that uses an iterator only while
    its variable is unchanged since, or the iterator the last change returned,
    insert, set and erase through iterators act on exactly the member the iterator
    stands before, whichever storage is shared. *)

From Coq Require Import ZArith List Bool Lia String ZifyBool ZifyNat ZifyN.
From Verif Require Import Base BaseFacts Keys Wire Spec SpecOps HeapOps HeapFacts
  Store StoreSpec StoreFacts StoreSteps StoreRun Cursor SpecCursor CursorFacts CursorRun PropsStore Demo.
Import ListNotations.
Open Scope string_scope.
Open Scope list_scope.
Open Scope Z_scope.

Lemma CInv_observes c e ms x : CInv c (e, ms) -> (x < List.length e)%nat -> observes (store c) x (val e x).
Proof. intros (I & _ & _) L. destruct (L_get _ _ _ _ I L) as (h & N & _ & Sh). exists h. split; [exact N|exact Sh]. Qed.

(** Nothing a careful program does is undefined, every call answers as the
    specification says, and every variable shows the specified value. *)
Theorem c49_edits n m os : careful n m (c_init n m) (start n m) os ->
  exists c e ms l, c_run (c_init n m) os = Ok (c, l) /\ c_steps (start n m) os = Some ((e, ms), l) /\
    forall x, (x < n)%nat -> observes (store c) x (val e x).
Proof.
  intros CA. destruct (R_run n m os (c_init n m) (start n m) (CInv_init n m) (repeat_length _ _) (repeat_length _ _) CA)
    as (c & [e ms] & l & E & S & C & Ln & Lm). exists c, e, ms, l. split; [exact E|]. split; [exact S|].
  intros x L. cbn [fst] in Ln. apply (CInv_observes c e ms x C). lia.
Qed.
Print Assumptions c49_edits.

(** Whatever an instruction changes, it changes through the variables named in it:
    all others show what they showed. *)
Definition writes (o : instr) (y : nat) : Prop :=
  match o with
  | Call o => In y (changes o)
  | Load x _ | Erase_at _ x _ => y = x
  | Insert_at _ x _ v | Set_at _ x _ v => y = x \/ In y (moved v)
  | _ => False
  end.
Lemma becomes_val e0 e ms x w xs i p keys st a y : becomes e0 ms x w xs i p keys = Some (st, a) -> y <> x -> val e0 y = val e y -> val (fst st) y = val e y.
Proof. unfold becomes. intros H N Q. injection H as <- _. cbn [fst]. rewrite val_other by exact N. exact Q. Qed.
Lemma by_key_val e ms o x i k keys st a y : by_key e ms o x i k keys = Some (st, a) -> ~ In y (changes o) -> val (fst st) y = val e y.
Proof.
  unfold by_key. intros H N. pose proof (exec_val e o y N) as Q. destruct (v_exec e o) as [e' an]. cbn [fst] in Q.
  destruct an; try (injection H as <- _; exact Q); destruct (val e' x); injection H as <- _; exact Q.
Qed.
Lemma step_val e ms o st a y : c_step (e, ms) o = Some (st, a) -> ~ writes o y -> val (fst st) y = val e y.
Proof.
  intros H N. destruct o as [o|keys i x|keys i x|keys i x k|i|i|x i|i j|i|i j|i j|i x j v|i x j v|i x j]; cbn [c_step writes] in *.
  - pose proof (exec_val e o y N) as Q. destruct (v_exec e o) as [e' an]. injection H as <- _. exact Q.
  - destruct (members keys (val e x)); injection H as <- _; reflexivity.
  - destruct (members keys (val e x)); injection H as <- _; reflexivity.
  - destruct (val e x); injection H as <- _; reflexivity.
  - destruct (mark_of ms i); try discriminate. destruct (members keys (val e x)) as [l|]; [|discriminate]. destruct (p <? List.length l)%nat; [|discriminate].
    injection H as <- _. reflexivity.
  - destruct (mark_of ms i) as [|x [|p] keys|]; try discriminate. injection H as <- _. reflexivity.
  - destruct (mark_of ms i) as [|z p keys|]; try discriminate. destruct (members keys (val e z)) as [l|]; [|discriminate].
    destruct (nth_error l p); [|discriminate]. injection H as <- _. apply val_other. exact N.
  - destruct (Nat.eqb i j); [injection H as <- _; reflexivity|]. destruct (mark_of ms i) as [|u p k|], (mark_of ms j) as [|w q l|]; try discriminate; try (injection H as <- _; reflexivity).
    destruct (Nat.eqb u w); [|discriminate]. injection H as <- _. reflexivity.
  - injection H as <- _. reflexivity.
  - injection H as <- _. reflexivity.
  - injection H as <- _. reflexivity.
  - assert (EV : val (emptied e v) y = val e y) by (apply emptied_val; tauto). assert (NX : y <> x) by tauto.
    unfold edit in H. destruct (mark_of ms j) as [|z p keys|]; [injection H as <- _; reflexivity| |discriminate].
    destruct (val e x) as [fs|vs| | | | |]; destruct (val e z) as [gs|us| | | | |]; try (injection H as <- _; reflexivity).
    + destruct (nth_error gs p) as [[k w]|]; [|discriminate]. destruct (Nat.eqb x z).
      * exact (becomes_val _ _ _ _ _ _ _ _ _ _ _ _ H NX EV).
      * apply (by_key_val _ _ _ _ _ _ _ _ _ _ H). cbn [changes In]. intuition congruence.
    + destruct (Nat.eqb x z); [|discriminate]. exact (becomes_val _ _ _ _ _ _ _ _ _ _ _ _ H NX EV).
  - assert (EV : val (emptied e v) y = val e y) by (apply emptied_val; tauto). assert (NX : y <> x) by tauto.
    unfold edit in H. destruct (mark_of ms j) as [|z p keys|]; [injection H as <- _; reflexivity| |discriminate].
    destruct (val e x) as [fs|vs| | | | |]; destruct (val e z) as [gs|us| | | | |]; try (injection H as <- _; reflexivity).
    + destruct (nth_error gs p) as [[k w]|]; [|discriminate]. destruct (Nat.eqb x z).
      * exact (becomes_val _ _ _ _ _ _ _ _ _ _ _ _ H NX EV).
      * apply (by_key_val _ _ _ _ _ _ _ _ _ _ H). cbn [changes In]. intuition congruence.
    + destruct (Nat.eqb x z); [|discriminate]. destruct (p <? List.length vs)%nat.
      * exact (becomes_val _ _ _ _ _ _ _ _ _ _ _ _ H NX EV).
      * injection H as <- _. reflexivity.
  - unfold edit in H. destruct (mark_of ms j) as [|z p keys|]; [injection H as <- _; reflexivity| |discriminate].
    destruct (val e x) as [fs|vs| | | | |]; destruct (val e z) as [gs|us| | | | |]; try (injection H as <- _; reflexivity).
    + destruct (nth_error gs p) as [[k w]|]; [|discriminate]. destruct (Nat.eqb x z); exact (becomes_val _ _ _ _ _ _ _ _ _ _ _ _ H N eq_refl).
    + destruct (Nat.eqb x z); [|discriminate]. exact (becomes_val _ _ _ _ _ _ _ _ _ _ _ _ H N eq_refl).
Qed.

(** States careful programs reach, with the values and marks they stand for. *)
Definition stands (n m : nat) (c : cstate) (st : cspec) : Prop :=
  exists os l, careful n m (c_init n m) (start n m) os /\ c_run (c_init n m) os = Ok (c, l) /\ c_steps (start n m) os = Some (st, l).
Lemma stands_inv n m c st : stands n m c st -> CInv c st /\ List.length (fst st) = n /\ List.length (snd st) = m.
Proof.
  intros (os & l & CA & E & S). destruct (R_run n m os (c_init n m) (start n m) (CInv_init n m) (repeat_length _ _) (repeat_length _ _) CA)
    as (c' & st' & l' & E' & S' & C & Ln & Lm). rewrite E in E'. apply Ok_inj in E'. injection E' as <- <-. rewrite S in S'. injection S' as <-. auto.
Qed.

Theorem c49_others n m c e ms o st a : stands n m c (e, ms) -> fair n m (store c) (e, ms) o -> c_step (e, ms) o = Some (st, a) ->
  exists c', c_exec c o = Ok (c', a) /\
    forall y v, (y < n)%nat -> ~ writes o y -> observes (store c) y v -> observes (store c') y v.
Proof.
  intros SD FR H. destruct (stands_inv _ _ _ _ SD) as (C & Ln & Lm). destruct (R_step n m c (e, ms) o st a C Ln Lm FR H) as (c' & E & C' & Ln' & Lm').
  exists c'. split; [exact E|]. intros y v L N (h & Nh & Sh). cbn [fst snd] in *.
  assert (v = val e y) as ->.
  { destruct C as (I & _ & _). cbn [fst] in I. destruct (L_get _ _ _ y I ltac:(lia)) as (h' & Nh' & _ & Sh').
    rewrite Nh in Nh'. injection Nh' as <-. exact (shows_det _ _ _ Sh _ Sh'). }
  rewrite <- (step_val e ms o st a y H N). destruct st as [e' ms']. cbn [fst] in *. apply (CInv_observes c' e' ms' y C'). lia.
Qed.
Print Assumptions c49_others.

(** The usual loop erases exactly the members that satisfy the condition, in objects
    and arrays, shared or not; [t] is the loop's own variable. *)
Theorem c49_erase_if n m c e ms x t i j cond :
  stands n m c (e, ms) -> (x < n)%nat -> (t < n)%nat -> x <> t -> (i < m)%nat -> (j < m)%nat -> i <> j ->
  (exists vs, val e x = VObj vs) \/ (exists vs, val e x = VArr vs) ->
  exists N, forall fuel depth, (N <= fuel)%nat -> (N <= depth)%nat ->
  exists c', erase_if fuel depth cond x t i j c = Ok c' /\ observes (store c') x (kept cond (val e x)) /\
    forall y v, (y < n)%nat -> y <> x -> y <> t -> observes (store c) y v -> observes (store c') y v.
Proof.
  intros SD Lx Lt NX Li Lj NI K. destruct (stands_inv _ _ _ _ SD) as (C & Ln & Lm). cbn [fst snd] in *.
  assert (FIN : forall c' e' ms', CInv c' (e', ms') -> List.length e' = n -> (forall z, z <> x -> z <> t -> val e' z = val e z) ->
    forall y v, (y < n)%nat -> y <> x -> y <> t -> observes (store c) y v -> observes (store c') y v).
  { intros c' e' ms' C' L' O' y v L N1 N2 (h & Nh & Sh). assert (v = val e y) as ->.
    { destruct C as (I & _ & _). cbn [fst] in I. destruct (L_get _ _ _ y I ltac:(lia)) as (h' & Nh' & _ & Sh').
      rewrite Nh in Nh'. injection Nh' as <-. exact (shows_det _ _ _ Sh _ Sh'). }
    rewrite <- O' by assumption. apply (CInv_observes c' e' ms' y C'). lia. }
  assert (MX : forall (A : Type) (f : A -> nat) l, exists M, (List.length l < M)%nat /\ forall y, In y l -> (f y < M)%nat).
  { intros A f l. induction l as [|a l (M & H1 & H2)]; [exists 1%nat; cbn; split; [lia|tauto]|].
    exists (S (M + f a)). cbn [List.length]. split; [lia|]. intros y [<-|J]; [lia|]. specialize (H2 y J). lia. }
  destruct K as [(vs & V)|(vs & V)].
  - destruct (MX _ (fun kv => weight (snd kv)) vs) as (M & H1 & H2). exists M. intros fuel depth L1 L2.
    destruct (erase_if_ok VObj snd (fun l => eq_refl)) with (n := n) (m := m) (cond := cond) (x := x) (t := t) (i := i) (j := j) (depth := depth) (fuel := fuel) (c := c) (e := e) (ms := ms) (l := vs)
      as (c' & e' & ms' & E & C' & L' & V' & O'); auto; try lia.
    { intros e0 ms0 i0 x0 p l MK V0 LP. cbn [c_step]. unfold edit. rewrite MK, V0. destruct (nth_error l p) as [[k w]|] eqn:NP.
      - rewrite Nat.eqb_refl. reflexivity.
      - apply nth_error_None in NP. lia. }
    { intros y J. specialize (H2 y J). lia. }
    exists c'. split; [exact E|]. rewrite V. cbn [kept]. rewrite <- V'. split; [apply (CInv_observes c' e' ms' x C'); lia|]. exact (FIN c' e' ms' C' L' O').
  - destruct (MX _ weight vs) as (M & H1 & H2). exists M. intros fuel depth L1 L2.
    destruct (erase_if_ok VArr (fun y => y) (fun l => eq_trans (f_equal Some eq_refl) (f_equal Some (eq_sym (map_id l))))) with (n := n) (m := m) (cond := cond) (x := x) (t := t) (i := i) (j := j) (depth := depth) (fuel := fuel) (c := c) (e := e) (ms := ms) (l := vs)
      as (c' & e' & ms' & E & C' & L' & V' & O'); auto; try lia.
    { intros e0 ms0 i0 x0 p l MK V0 LP. cbn [c_step]. unfold edit. rewrite MK, V0, Nat.eqb_refl. reflexivity. }
    { intros y J. specialize (H2 y J). lia. }
    exists c'. split; [exact E|]. rewrite V. cbn [kept]. rewrite <- V'. split; [apply (CInv_observes c' e' ms' x C'); lia|]. exact (FIN c' e' ms' C' L' O').
Qed.
Print Assumptions c49_erase_if.

(** An array shared with a copy, edited through iterators only: 5 put before the
    second element, the element after it replaced, the first erased; then an object
    edited at the place an iterator of another object names. *)
Definition edits : list instr :=
  [ Call (O_make 0 New_array); Call (O_push_back 0 (Lit (VInt 1))); Call (O_push_back 0 (Lit (VInt 2)));
    Call (O_copy 1 0); Begin false 0 0; Begin false 1 1; Next 0;
    Insert_at 0 0 0 (Lit (VInt 5)); Load 2 0; Next 0; Set_at 0 0 0 (Lit (VStr (b "two"))); Prev 0; Prev 0;
    Erase_at 0 0 0; Load 3 1; Next 1; Erase_at 1 1 1; End_ false 0 1; Same 0 1;
    Call (O_make 3 New_object); Call (O_insert 3 (VStr (b "k")) (Cref 0)); Call (O_insert 3 (VStr (b "long")) (Lit VNull));
    Call (O_copy 4 3); Find_ true 1 3 (b "long"); Load 2 1; Set_at 0 4 1 (Rref 1); Erase_at 1 3 1; Holds 1;
    Insert_at 0 0 1 (Lit VNull); Take 1 0 ].
Example c49_case :
  careful 5 2 (c_init 5 2) (start 5 2) edits /\
  match c_run (c_init 5 2) edits with
  | Ok (c, l) =>
      map (show (store c)) (seq 0 5) =
        map Ok [ VArr [VInt 5; VStr (b "two")]; VNull; VStr (b "long"); VObj [(b "k", VArr [VInt 5; VStr (b "two")])];
                 VObj [(b "k", VArr [VInt 5; VStr (b "two")]); (b "long", VArr [VInt 1])] ] /\
      In (A_bool true) l /\ In (A_err type_error) l
  | _ => False
  end.
Proof.
  split.
  - vm_compute. repeat split; try tauto; try discriminate; try lia; intros h E; injection E as <-; vm_compute; discriminate.
  - vm_compute. split; [reflexivity|]. split; repeat first [left; reflexivity | right].
Qed.
Definition odd (v : value) : bool := match v with VInt z => Z.odd z | _ => false end.
Example c49_erase_case :
  match c_run (c_init 3 2) [ Call (O_make 0 New_array); Call (O_push_back 0 (Lit (VInt 1))); Call (O_push_back 0 (Lit (VInt 2)));
      Call (O_push_back 0 (Lit (VInt 3))); Call (O_copy 1 0) ] with
  | Ok (c, _) =>
      match erase_if 9 9 odd 0 2 0 1 c with
      | Ok c' => map (show (store c')) (seq 0 2) = map Ok [VArr [VInt 2]; VArr [VInt 1; VInt 2; VInt 3]]
      | _ => False
      end
  | _ => False
  end.
Proof. vm_compute. reflexivity. Qed.

(** ** What careless programs run into *)
Definition leads (n m : nat) (os : list instr) (c : cstate) : Prop := exists l, c_run (c_init n m) os = Ok (c, l).

(** end() is a position of an array, and insert(end(), v) appends; for an object it
    reads the key of a pair that does not exist. *)
Theorem c49_end_refuted :
  (exists c c', leads 1 1 [Call (O_make 0 New_array); End_ false 0 0] c /\ c_exec c (Insert_at 0 0 0 (Lit (VInt 1))) = Ok (c', A_unit)) /\
  (exists c, leads 1 1 [Call (O_make 0 New_object); End_ false 0 0] c /\ c_exec c (Insert_at 0 0 0 (Lit (VInt 1))) = Undef).
Proof.
  split; [do 2 eexists|eexists]; (split; [eexists; vm_compute; reflexivity|vm_compute; reflexivity]).
Qed.
Print Assumptions c49_end_refuted.

(** An iterator of an array can be used on a copy, until either is changed. *)
Definition two_arrays : list instr :=
  [Call (O_make 0 New_array); Call (O_push_back 0 (Lit (VInt 1))); Call (O_copy 1 0); Begin false 0 0].
Theorem c49_copy_refuted :
  (exists c c', leads 3 1 two_arrays c /\ c_exec c (Set_at 0 1 0 (Lit (VInt 2))) = Ok (c', A_unit)) /\
  (exists c, leads 3 1 (two_arrays ++ [Call (O_push_back 1 (Lit (VInt 3)))]) c /\ c_exec c (Set_at 0 1 0 (Lit (VInt 2))) = Undef).
Proof.
  split; [do 2 eexists|eexists]; (split; [eexists; vm_compute; reflexivity|vm_compute; reflexivity]).
Qed.
Print Assumptions c49_copy_refuted.

(** clear() and resize() on a copy that still shares take the iterators of the
    original with them. *)
Theorem c49_clear_refuted o : o = O_clear 1 \/ o = O_resize 1 0 (Lit VNull) ->
  exists c, leads 3 1 (two_arrays ++ [Call o]) c /\ c_exec c (Load 2 0) = Undef.
Proof. intros [-> | ->]; eexists; (split; [eexists; vm_compute; reflexivity|vm_compute; reflexivity]). Qed.
Print Assumptions c49_clear_refuted.

(** After set() through an iterator, that iterator shows the new value or the old
    one, depending on whether there was a copy. *)
Theorem c49_stale_refuted :
  let run copy := [Call (O_make 0 New_array); Call (O_push_back 0 (Lit (VInt 1)))] ++ (if copy : bool then [Call (O_copy 1 0)] else []) ++
                  [Begin false 0 0; Set_at 1 0 0 (Lit (VInt 2)); Load 2 0] in
  (exists c, leads 3 2 (run false) c /\ show (store c) 2 = Ok (VInt 2)) /\
  (exists c, leads 3 2 (run true) c /\ show (store c) 2 = Ok (VInt 1)).
Proof. split; eexists; (split; [eexists; vm_compute; reflexivity|vm_compute; reflexivity]). Qed.
Print Assumptions c49_stale_refuted.
