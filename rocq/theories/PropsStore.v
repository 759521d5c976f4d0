(** C16, C17, C18: shared storage.

    [s_run] executes calls on counted, shared, copy-on-write storage (Store.v);
    [v_run] executes the same calls on variables that hold independent values
    (StoreSpec.v). *)

From Coq Require Import ZArith List Bool Lia String.
From Verif Require Import Base BaseFacts Keys Wire Spec SpecOps HeapOps Store StoreSpec StoreFacts StoreSteps StoreRun Demo.
Import ListNotations.
Open Scope string_scope.
Open Scope list_scope.
Open Scope Z_scope.

(** What a variable shows is unique, and [show] computes it. *)
Theorem c16_observe_once s x v w : observes s x v -> observes s x w -> v = w.
Proof.
  intros (h & N & S) (h' & N' & S'). rewrite N in N'. injection N' as <-. eapply shows_det; eassumption.
Qed.
Print Assumptions c16_observe_once.

Lemma h_show_ok fuel cs : forall h v, h_show fuel cs h = Ok v -> shows cs h v.
Proof.
  induction fuel as [|fuel IH]; intros h v E; [discriminate|]. destruct h; cbn [h_show] in E;
    try (apply Ok_inj in E; subst v; constructor; fail).
  - destruct (cell_at cs a) as [[n [fs|ms]]|] eqn:C; try discriminate. apply bind_Ok in E. destruct E as (l & El & E).
    apply Ok_inj in E. subst v. apply (sh_obj cs a n fs l C). clear C. revert l El. induction fs as [|[k m] fs IHf]; intros l El.
    + apply Ok_inj in El. subst l. constructor.
    + apply bind_Ok in El. destruct El as (w & Ew & El). apply bind_Ok in El. destruct El as (ws & Ews & El).
      apply Ok_inj in El. subst l. constructor; [split; [reflexivity|apply IH; exact Ew]|apply IHf; exact Ews].
  - destruct (cell_at cs a) as [[n [fs|ms]]|] eqn:C; try discriminate. apply bind_Ok in E. destruct E as (l & El & E).
    apply Ok_inj in E. subst v. apply (sh_arr cs a n ms l C). clear C. revert l El. induction ms as [|m ms IHf]; intros l El.
    + apply Ok_inj in El. subst l. constructor.
    + apply bind_Ok in El. destruct El as (w & Ew & El). apply bind_Ok in El. destruct El as (ws & Ews & El).
      apply Ok_inj in El. subst l. constructor; [apply IH; exact Ew|apply IHf; exact Ews].
Qed.
Lemma show_observes s x v : show s x = Ok v -> observes s x v.
Proof.
  unfold show, get_var. intros E. apply bind_Ok in E. destruct E as (h & G & E).
  destruct (nth_error (vars s) x) as [h'|] eqn:N; [|discriminate]. apply Ok_inj in G. subst h'.
  exists h. split; [exact N|]. eapply h_show_ok. exact E.
Qed.

(** ** C16 *)

(** Every history of allowed calls gives the answers independent values give, and
    leaves every variable showing its independent value. *)
Theorem c16_value_semantics n os :
  Forall (call_ok n) os -> all_allowed (init n) (repeat VNull n) os ->
  let '(e, answers) := v_run (repeat VNull n) os in
  exists s, s_run (init n) os = Ok (s, answers) /\ forall x, (x < n)%nat -> observes s x (val e x).
Proof.
  intros C A. destruct (run_allowed os (init n) (repeat VNull n) (Inv_init n)) as (s & E & I & L).
  { rewrite repeat_length. exact C. } { exact A. }
  destruct (v_run (repeat VNull n) os) as [e l]. cbn [fst snd] in *. exists s. split; [exact E|].
  intros x Lx. destruct (L_get s e [] x I) as (h & N & _ & Sh); [rewrite L, repeat_length; exact Lx|]. exists h. auto.
Qed.
Print Assumptions c16_value_semantics.

(** The variables a call may change: its target and what is moved from. *)
Definition touches (o : hop) (y : nat) : Prop :=
  let moved v := match v with Rref z => z = y | _ => False end in
  match o with
  | O_make x _ | O_copy x _ | O_destroy x | O_read x _ _ | O_erase x _
  | O_pop_front x | O_pop_back x | O_clear x | O_resize x _ _ => x = y
  | O_move x z => x = y \/ z = y
  | O_insert x _ v | O_set x _ v | O_push_front x v | O_push_back x v => x = y \/ moved v
  end.

Lemma val_set_other e x y v : y <> x -> val (list_set x v e) y = val e y.
Proof. intros N. unfold val. revert x y N. induction e as [|a e IH]; intros [|x] [|y] N; cbn; auto; congruence. Qed.

Lemma settle_other e x e' r y : y <> x -> val e' y = val e y -> val (fst (settle e x e' r)) y = val e y.
Proof. intros N H. destruct r; cbn [settle fst]; auto. rewrite val_set_other; assumption. Qed.

Lemma v_exec_other e o y : ~ touches o y -> val (fst (v_exec e o)) y = val e y.
Proof.
  assert (EM : forall v, ~ (match v with Rref z => z = y | _ => False end) -> val (emptied e v) y = val e y).
  { intros [ | | |z] H; cbn [emptied]; auto. apply val_set_other. congruence. }
  assert (VI : forall x k v, x <> y -> ~ (match v with Rref z => z = y | _ => False end) -> val (fst (v_insert e x k v)) y = val e y).
  { intros x k v N H. apply settle_other; [congruence|]. destruct (overwrites _ _); auto. }
  destruct o as [x f|x z|x z|x|x z r|x k v|x k v|x k|x v|x v|x|x|x|x n v]; cbn [touches v_exec]; intros T;
    try (apply settle_other; [congruence|auto]; fail).
  - destruct f; apply val_set_other; congruence.
  - apply val_set_other; congruence.
  - destruct (Nat.eqb x z); [reflexivity|]. cbn [fst]. rewrite !val_set_other by (intros ->; tauto). reflexivity.
  - apply val_set_other; congruence.
  - apply VI; tauto.
  - apply settle_other; [intros ->; tauto|]. apply EM. tauto.
  - apply VI; tauto.
  - destruct (h_size (val e x)); try reflexivity. apply VI; tauto.
Qed.

(** A call on one variable leaves what every other variable shows as it was. *)
Theorem c16_others_unchanged n os s l o :
  Forall (call_ok n) (os ++ [o]) -> all_allowed (init n) (repeat VNull n) (os ++ [o]) ->
  s_run (init n) os = Ok (s, l) ->
  exists s' a, s_exec s o = Ok (s', a) /\
    forall y v, (y < n)%nat -> ~ touches o y -> observes s y v -> observes s' y v.
Proof.
  intros C A E. apply Forall_app in C. destruct C as [C1 C2]. apply Forall_cons_iff in C2. destruct C2 as [C2 _].
  assert (G : forall os s0 e0 l, Inv s0 e0 [] -> List.length e0 = n -> Forall (call_ok n) os -> all_allowed s0 e0 (os ++ [o]) ->
    s_run s0 os = Ok (s, l) -> exists e, Inv s e [] /\ List.length e = n /\ allowed s e o).
  { clear. induction os as [|p os IH]; intros s0 e0 l I L C A E; cbn [s_run app all_allowed] in *.
    - apply Ok_inj in E. injection E as -> _. exists e0. tauto.
    - inversion C as [|? ? Cp Cs]; subst. destruct A as [Ap As]. destruct (step s0 e0 p I Cp (proj1 Ap)) as (s1 & e1 & E1 & I1 & L1 & V).
      specialize (V Ap). subst e1. rewrite E1 in *. cbn [bind] in E. apply bind_Ok in E. destruct E as ([s2 l2] & E2 & E).
      apply Ok_inj in E. injection E as -> _.
      exact (IH s1 (fst (v_exec e0 p)) l2 I1 L1 Cs As E2). }
  destruct (G os (init n) (repeat VNull n) l (Inv_init n) (repeat_length _ _) C1 A E) as (e & Ie & Le & Al).
  rewrite <- Le in C2. destruct (step s e o Ie C2 (proj1 Al)) as (s' & e' & E' & I' & L' & V). specialize (V Al).
  exists s', (snd (v_exec e o)). split; [exact E'|]. intros y v Ly T (h & N & Sh).
  destruct (L_get s e [] y Ie) as (h0 & N0 & _ & Sh0); [lia|]. rewrite N in N0. injection N0 as <-.
  destruct (L_get s' e' [] y I') as (h1 & N1 & _ & Sh1); [lia|]. exists h1. split; [exact N1|].
  rewrite V, (v_exec_other e o y T) in Sh1. rewrite (shows_det _ _ _ Sh _ Sh0). exact Sh1.
Qed.
Print Assumptions c16_others_unchanged.

(** A history with shared and nested storage. *)
Definition history : list hop :=
  [ O_make 0 New_object; O_insert 0 (VStr (b "n")) (Lit (VInt 7));
    O_make 1 New_array; O_push_back 1 (Lref 0); O_push_back 1 (Cref 0); O_push_back 1 (Lit (VStr (b "s")));
    O_copy 2 1; O_insert 0 (VStr (b "m")) (Rref 2); O_copy 2 0;
    O_set 2 (VStr (b "n")) (Lit VNull); O_read 3 1 (R_get_idx 0); O_insert 3 (VStr (b "l")) (Cref 1);
    O_erase 1 (VInt 0); O_pop_back 1; O_erase 0 (VStr (b "n")); O_insert 3 (VStr (b "l")) (Rref 0);
    O_read 1 2 (R_at (b "absent")); O_move 0 2; O_push_front 1 (Cref 3); O_make 2 New_array; O_resize 2 3 (Cref 1); O_clear 2; O_destroy 1 ].

Example c16_case :
  Forall (call_ok 4) history /\ all_allowed (init 4) (repeat VNull 4) history /\
  match s_run (init 4) history with
  | Ok (s, l) => map (show s) [0%nat; 1%nat; 2%nat; 3%nat] = map Ok (fst (v_run (repeat VNull 4) history)) /\
                 In (A_err out_of_range) l
  | _ => False
  end.
Proof.
  split; [|split].
  - unfold history. repeat apply Forall_cons; try apply Forall_nil.
    all: cbn [call_ok src_in scalar]; repeat split.
    all: try lia.
    all: try discriminate.
  - vm_compute. repeat split; try tauto; try discriminate; intros h E; injection E as <-; vm_compute; discriminate.
  - vm_compute. split; [reflexivity|repeat first [left; reflexivity | right]].
Qed.

(** Without the restrictions: clear() and resize() reach the other handle, and
    inserting a variable over an existing key empties that variable. *)
Definition reached (n : nat) (os : list hop) (s : state) : Prop := exists l, s_run (init n) os = Ok (s, l).

Definition changes_other (n : nat) (os : list hop) (o : hop) (y : nat) : Prop :=
  exists s s' a v w, reached n os s /\ s_exec s o = Ok (s', a) /\ ~ touches o y /\
    observes s y v /\ observes s' y w /\ v <> w.

Ltac shared_witness V W := do 3 eexists; exists V, W; split; [eexists; vm_compute; reflexivity|];
  split; [vm_compute; reflexivity|]; split; [cbn; try tauto; lia|];
  split; [apply show_observes; vm_compute; reflexivity|];
  split; [apply show_observes; vm_compute; reflexivity|discriminate].

Theorem c16_clear_refuted :
  changes_other 2 [O_make 0 New_array; O_push_back 0 (Lit (VInt 1)); O_copy 1 0] (O_clear 0) 1.
Proof. shared_witness (VArr [VInt 1]) (VArr []). Qed.
Theorem c16_resize_refuted :
  changes_other 2 [O_make 0 New_array; O_copy 1 0] (O_resize 0 2 (Lit (VInt 5))) 1.
Proof. shared_witness (VArr []) (VArr [VInt 5; VInt 5]). Qed.
Theorem c16_insert_lvalue_refuted :
  changes_other 2 [O_make 0 New_object; O_insert 0 (VStr (b "k")) (Lit (VInt 1)); O_make 1 (New_scalar (VInt 9))]
    (O_insert 0 (VStr (b "k")) (Lref 1)) 1.
Proof. shared_witness (VInt 9) VNull. Qed.
Print Assumptions c16_clear_refuted.
Print Assumptions c16_resize_refuted.
Print Assumptions c16_insert_lvalue_refuted.

(** ** C17 *)

(** In every state a history reaches: no call ever touched released storage (the
    run is [Ok]), the count of every live container is the number of variables
    and container slots that refer to it, and is positive; whatever a variable or
    a container refers to is live; and once no variable refers to any storage,
    none is left. *)
Theorem c17_counts_exact n os :
  Forall (call_ok n) os -> all_storable (init n) os ->
  exists s l, s_run (init n) os = Ok (s, l) /\ List.length (vars s) = n /\
    (forall a k c, cell_at (heap s) a = Some (k, c) ->
       k = nref a (vars s) + nref a (all_kids (heap s)) /\ 0 < k) /\
    (forall h a, In h (vars s ++ all_kids (heap s)) -> href h = Some a ->
       refcount (heap s) h = nref a (vars s) + nref a (all_kids (heap s)) /\ 0 < refcount (heap s) h) /\
    ((forall h, In h (vars s) -> href h = None) -> forall a, cell_at (heap s) a = None).
Proof.
  intros C A. destruct (run_storable os (init n) (repeat VNull n) (Inv_init n)) as (s & e & l & E & I & L).
  { rewrite repeat_length. exact C. } { exact A. }
  exists s, l. split; [exact E|]. split.
  { rewrite (Inv_len _ _ _ I), L, repeat_length. reflexivity. }
  destruct I as [W F]. cbn [app] in W. split; [exact (proj1 W)|]. split.
  - intros h a I Er. destruct (proj2 W h I) as (v & Sh). destruct (shows_live _ _ _ _ Sh Er) as (k & c & Ck).
    unfold refcount. rewrite Er, Ck. exact (proj1 W a k c Ck).
  - intros NR. exact (nothing_left _ _ W NR).
Qed.
Print Assumptions c17_counts_exact.

Lemma drop_all_storable n : forall k s, all_storable s (map O_destroy (seq k n)).
Proof.
  induction n as [|n IH]; intros k s; cbn [seq map all_storable storable]; [exact I|]. split; [exact I|].
  destruct (s_exec s (O_destroy k)) as [[s1 a]| | | |]; try exact I. apply IH.
Qed.

Lemma all_storable_app os1 : forall s os2, all_storable s os1 ->
  (forall s1 l, s_run s os1 = Ok (s1, l) -> all_storable s1 os2) -> all_storable s (os1 ++ os2).
Proof.
  induction os1 as [|o os1 IH]; intros s os2 A H; cbn [app all_storable s_run] in *; [exact (H s [] eq_refl)|].
  destruct A as [A1 A2]. split; [exact A1|]. destruct (s_exec s o) as [[s1 a]| | | |] eqn:E; try exact I.
  apply IH; [exact A2|]. intros s2 l E2. apply (H s2 (a :: l)). cbn [bind]. rewrite E2. reflexivity.
Qed.

Lemma s_run_app os1 : forall s os2, s_run s (os1 ++ os2) =
  ('(s1, l1) <- s_run s os1 ;; '(s2, l2) <- s_run s1 os2 ;; Ok (s2, l1 ++ l2)).
Proof.
  induction os1 as [|o os1 IH]; intros s os2; cbn [app s_run bind].
  - destruct (s_run s os2) as [[s2 l2]| | | |]; reflexivity.
  - destruct (s_exec s o) as [[s1 a]| | | |]; try reflexivity. cbn [bind]. rewrite IH.
    destruct (s_run s1 os1) as [[s2 l2]| | | |]; try reflexivity. cbn [bind].
    destruct (s_run s2 os2) as [[s3 l3]| | | |]; reflexivity.
Qed.

Lemma destroy_vars s k s1 a : s_destroy s k = Ok (s1, a) -> vars s1 = list_set k HNull (vars s).
Proof.
  unfold s_destroy, overwrite, drop_s. intros E. apply bind_Ok in E. destruct E as (t & E & Q). apply Ok_inj in Q. injection Q as <- _.
  apply bind_Ok in E. destruct E as (h & _ & E). apply bind_Ok in E. destruct E as (cs & _ & E). apply Ok_inj in E. subst t. reflexivity.
Qed.
Lemma destroy_run n : forall k s s' l, s_run s (map O_destroy (seq k n)) = Ok (s', l) ->
  forall y h, nth_error (vars s') y = Some h -> (k <= y < k + n)%nat -> h = HNull.
Proof.
  assert (KEEP : forall n k s s' l, s_run s (map O_destroy (seq k n)) = Ok (s', l) ->
    forall y, (y < k)%nat -> nth_error (vars s') y = nth_error (vars s) y).
  { clear. induction n as [|n IH]; intros k s s' l E y L; cbn [seq map s_run] in E.
    - apply Ok_inj in E. injection E as -> _. reflexivity.
    - apply bind_Ok in E. destruct E as ([s1 a] & E1 & E). apply bind_Ok in E. destruct E as ([s2 l2] & E2 & E).
      apply Ok_inj in E. injection E as -> _. rewrite (IH _ _ _ _ E2 y) by lia.
      rewrite (destroy_vars _ _ _ _ E1). apply nth_set_other. lia. }
  induction n as [|n IH]; intros k s s' l E y h N L; [lia|]. cbn [seq map s_run] in E.
  apply bind_Ok in E. destruct E as ([s1 a] & E1 & E). apply bind_Ok in E. destruct E as ([s2 l2] & E2 & E).
  apply Ok_inj in E. injection E as -> _. destruct (Nat.eq_dec y k) as [->|Ny].
  - rewrite (KEEP _ _ _ _ _ E2 k) in N by lia.
    rewrite (destroy_vars _ _ _ _ E1) in N.
    assert (Lk : (k < List.length (vars s))%nat).
    { pose proof (list_set_length k HNull (vars s)) as Q. rewrite <- Q. apply nth_error_Some. congruence. }
    rewrite nth_set_same in N by exact Lk. congruence.
  - apply (IH (S k) s1 s' l2 E2 y h N). lia.
Qed.

(** Destroying every variable after any such history releases everything. *)
Theorem c17_nothing_leaks n os :
  Forall (call_ok n) os -> all_storable (init n) os ->
  exists s l, s_run (init n) (os ++ map O_destroy (seq 0 n)) = Ok (s, l) /\ forall a, cell_at (heap s) a = None.
Proof.
  intros C A. destruct (c17_counts_exact n (os ++ map O_destroy (seq 0 n))) as (s & l & E & L & _ & _ & NL).
  - apply Forall_app. split; [exact C|]. apply Forall_forall. intros o I. apply in_map_iff in I. destruct I as (x & <- & I).
    apply in_seq in I. cbn. lia.
  - apply all_storable_app; [exact A|]. intros s1 l1 _. apply drop_all_storable.
  - exists s, l. split; [exact E|]. apply NL. intros h I. rewrite s_run_app in E.
    apply bind_Ok in E. destruct E as ([s1 l1] & E1 & E). apply bind_Ok in E. destruct E as ([s2 l2] & E2 & E).
    apply Ok_inj in E. injection E as -> _. apply In_nth_error in I. destruct I as (y & N).
    rewrite (destroy_run n 0 s1 s l2 E2 y h N); [reflexivity|].
    assert (y < List.length (vars s))%nat by (apply nth_error_Some; congruence). lia.
Qed.
Print Assumptions c17_nothing_leaks.

Example c17_case :
  Forall (call_ok 4) history /\ all_storable (init 4) history /\
  match s_run (init 4) history with
  | Ok (s, _) => map (fun x => match nth_error (vars s) x with Some h => refcount (heap s) h | None => -1 end)
                   [0%nat; 1%nat; 2%nat; 3%nat] = [1; 0; 1; 1] /\
                 zlen (filter (fun o => match o with Some _ => true | None => false end) (heap s)) = 6
  | _ => False
  end.
Proof.
  split; [exact (proj1 c16_case)|]. split.
  - vm_compute. repeat split; try tauto; try discriminate; intros h E; injection E as <-; vm_compute; discriminate.
  - vm_compute. split; reflexivity.
Qed.

(** Without the restrictions: an object put into itself, and an array resized with
    a copy of itself, are never released. *)
Definition leaks (n : nat) (os : list hop) : Prop :=
  exists s l a p, s_run (init n) (os ++ map O_destroy (seq 0 n)) = Ok (s, l) /\ cell_at (heap s) a = Some p.

Theorem c17_self_insert_refuted : leaks 1 [O_make 0 New_object; O_insert 0 (VStr (b "self")) (Cref 0)].
Proof. do 2 eexists. exists 0%nat. eexists. split; vm_compute; reflexivity. Qed.
Theorem c17_self_insert_over_refuted :
  leaks 1 [O_make 0 New_object; O_insert 0 (VStr (b "self")) (Lit VNull); O_insert 0 (VStr (b "self")) (Lref 0)].
Proof. do 2 eexists. exists 0%nat. eexists. split; vm_compute; reflexivity. Qed.
Theorem c17_resize_alias_refuted : leaks 2 [O_make 0 New_array; O_copy 1 0; O_resize 0 2 (Cref 1)].
Proof. do 2 eexists. exists 0%nat. eexists. split; vm_compute; reflexivity. Qed.
Print Assumptions c17_self_insert_refuted.
Print Assumptions c17_self_insert_over_refuted.
Print Assumptions c17_resize_alias_refuted.

(** ** C18 *)

(** A call that throws, with any arguments, leaves what every variable shows. *)
Theorem c18_failed_calls_change_nothing n os s l o s' er :
  Forall (call_ok n) os -> all_storable (init n) os -> s_run (init n) os = Ok (s, l) ->
  call_ok n o -> s_exec s o = Ok (s', A_err er) ->
  forall x v, observes s x v <-> observes s' x v.
Proof.
  intros C A E CO Ex. destruct (run_storable os (init n) (repeat VNull n) (Inv_init n)) as (s0 & e & l0 & E0 & Iv & L).
  { rewrite repeat_length. exact C. } { exact A. }
  rewrite E in E0. apply Ok_inj in E0. injection E0 as <- <-. rewrite repeat_length in L.
  assert (I' : Inv s' e []) by (eapply err_keeps; [exact Iv|rewrite L; exact CO|exact Ex]).
  assert (K : forall t, Inv t e [] -> forall x v, observes t x v <-> nth_error e x = Some v).
  { intros t [_ F] x v. pose proof (Forall2_nth _ _ _ x F) as Q. unfold observes. split.
    - intros (h & N & Sh). rewrite N in Q. destruct (nth_error e x) as [w|]; [|contradiction].
      rewrite (shows_det _ _ _ Sh _ Q). reflexivity.
    - intros N. rewrite N in Q. destruct (nth_error (vars t) x) as [h|]; [|contradiction]. eauto. }
  intros x v. rewrite (K _ Iv), (K _ I'). tauto.
Qed.
Print Assumptions c18_failed_calls_change_nothing.

(** A failing call on shared storage: it has copied the container by then. *)
Example c18_case :
  let os := [O_make 0 New_array; O_push_back 0 (Lit (VInt 1)); O_copy 1 0] in
  let o := O_insert 0 (VInt 9) (Cref 1) in
  Forall (call_ok 2) os /\ all_storable (init 2) os /\ call_ok 2 o /\
  match s_run (init 2) os with
  | Ok (s, _) =>
      match s_exec s o with
      | Ok (s', a) => a = A_err out_of_range /\ vars s <> vars s' /\ show s 0 = show s' 0 /\ show s 0 = Ok (VArr [VInt 1])
      | _ => False
      end
  | _ => False
  end.
Proof.
  cbv zeta. split.
  { repeat apply Forall_cons; try apply Forall_nil. all: cbn [call_ok src_in scalar]; repeat split. all: try lia. discriminate. }
  split. { vm_compute. repeat split; tauto. }
  split. { cbn. lia. }
  vm_compute. repeat split; congruence.
Qed.
