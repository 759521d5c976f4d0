(** C64: dart_heap_t, the C calls on it and the crossing to and from C++ handles, over
    the counted storage of the two reference counters. *)

From Coq Require Import ZArith List Bool Lia String.
From Verif Require Import Base BaseFacts Keys Wire Spec SpecOps HeapOps Store StoreSpec StoreFacts StoreSteps StoreRun PropsStore Demo Swap SpecSwap SwapFrame SwapFacts.
Import ListNotations.
Open Scope string_scope.
Open Scope list_scope.
Open Scope Z_scope.

Ltac answer H R := match type of H with w_run _ _ _ = Ok (?w, ?l) =>
  match type of R with w_run _ _ _ = Ok (?w', ?l') => rewrite H in R; apply Ok_inj in R; first [injection R as <- <-|injection R as <- _] end end.

(** ** What slots and variables show *)

(** Every legal program gives the replies that slots and variables holding independent
    values give, and leaves each of them showing its value. *)
Theorem c64_values n k p : legal_program n k p ->
  exists w e l, w_run n k p = Ok (w, l) /\ p_run n k p = Ok (e, l) /\ slots w = slots e /\
    forall c x, (x < n + k)%nat -> observes (store c w) x (val (store c e) x).
Proof.
  intros L. destruct (legal_run n k p L) as (w & e & l & E1 & E2 & R). exists w, e, l.
  refine (conj E1 (conj E2 (conj (l_slots _ _ _ _ _ R) _))). intros c x B. eapply Rel_observes; eassumption.
Qed.
Print Assumptions c64_values.

Lemma all_legal_app n k p : forall w e q, all_legal n k w e (p ++ q) ->
  all_legal n k w e p /\ forall w' e' l l', run s_exec abandon n w p = Ok (w', l) -> run p_exec p_forget n e p = Ok (e', l') -> all_legal n k w' e' q.
Proof.
  induction p as [|o p IH]; intros w e q L; cbn [app all_legal run] in *.
  - split; [exact Logic.I|]. intros w' e' l l' H1 H2. apply Ok_inj in H1, H2. injection H1 as <- _. injection H2 as <- _. exact L.
  - destruct L as [L1 L2]. split.
    + split; [exact L1|]. destruct (run1 s_exec _ n w o) as [[w1 a]| | | |]; auto. destruct (run1 p_exec _ n e o) as [[e1 b]| | | |]; auto.
      apply (proj1 (IH _ _ _ L2)).
    + intros w' e' l l' H1 H2. apply bind_Ok in H1, H2. destruct H1 as ([w1 a] & A1 & H1), H2 as ([e1 b] & A2 & H2).
      rewrite A1, A2 in L2. apply bind_Ok in H1, H2. destruct H1 as ([w2 l2] & B1 & H1), H2 as ([e2 m2] & B2 & H2).
      apply Ok_inj in H1, H2. injection H1 as <- _. injection H2 as <- _. exact (proj2 (IH _ _ _ L2) _ _ _ _ B1 B2).
Qed.
Lemma run_app {S} (ex : S -> hop -> res (S * ans)) fo n p : forall w q, run ex fo n w (p ++ q) =
  ('(w1, l) <- run ex fo n w p ;; '(w2, m) <- run ex fo n w1 q ;; Ok (w2, l ++ m)).
Proof.
  induction p as [|o p IH]; intros w q; cbn [app run bind].
  - destruct (run ex fo n w q) as [[w2 m]| | | |]; reflexivity.
  - destruct (run1 ex fo n w o) as [[w1 a]| | | |]; cbn [bind]; try reflexivity. rewrite IH.
    destruct (run ex fo n w1 p) as [[w2 l]| | | |]; cbn [bind]; try reflexivity.
    destruct (run ex fo n w2 q) as [[w3 m]| | | |]; reflexivity.
Qed.
Lemma legal_app n k p q : legal_program n k (p ++ q) ->
  exists w e l, w_run n k p = Ok (w, l) /\ p_run n k p = Ok (e, l) /\ Rel n k (fun c => lost n c (fresh_world n k) p) w e /\ all_legal n k w e q.
Proof.
  intros L. destruct (all_legal_app n k p _ _ _ L) as [L1 L2]. destruct (legal_run n k p L1) as (w & e & l & E1 & E2 & R).
  exists w, e, l. refine (conj E1 (conj E2 (conj R _))). exact (L2 _ _ _ _ E1 E2).
Qed.

(** What observes determines is unique. *)
Lemma shown n k G w e c x v : Rel n k G w e -> (x < n + k)%nat -> observes (store c w) x v -> v = val (store c e) x.
Proof. intros R B O. eapply c16_observe_once; [exact O|]. eapply Rel_observes; eassumption. Qed.

(** The handle in a variable after a legal call is what the value machine says. *)
Lemma one_more n k p o : legal_program n k (p ++ [o]) ->
  exists w e l G, w_run n k p = Ok (w, l) /\ Rel n k G w e /\ legal n k w e o /\
    exists w' e' r G', run1 s_exec abandon n w o = Ok (w', r) /\ run1 p_exec p_forget n e o = Ok (e', r) /\ Rel n k G' w' e' /\
      w_run n k (p ++ [o]) = Ok (w', l ++ [r]).
Proof.
  intros L. destruct (legal_app n k p [o] L) as (w & e & l & E1 & E2 & R & A). destruct A as [A _].
  eexists w, e, l, _. refine (conj E1 (conj R (conj A _))).
  destruct (run1_step n k _ w e o R A) as (w' & e' & r & F1 & F2 & R'). eexists w', e', r, _. refine (conj F1 (conj F2 (conj R' _))).
  unfold w_run in *. rewrite run_app, E1. cbn [bind run]. rewrite F1. reflexivity.
Qed.

(** ** Crossing *)

(** A C++ handle given to C and taken back shows what it showed; copied, it goes on
    showing that; moved, it is null. *)
Theorem c64_crossing n k p c j x y (moved : bool) w l v :
  legal_program n k (p ++ [To_c c j x moved]) -> (y < n)%nat -> w_run n k p = Ok (w, l) -> observes (store c w) x v ->
  exists w' l', w_run n k (p ++ [To_c c j x moved; To_cpp c y j]) = Ok (w', l') /\
    observes (store c w') y v /\ observes (store c w') (n + j) v /\
    (x <> y -> observes (store c w') x (if moved then VNull else v)).
Proof.
  intros L Y E O. destruct (one_more n k p _ L) as (w0 & e & l0 & G & E0 & R & A & w1 & e1 & r & G1 & F1 & F2 & R1 & E1).
  answer E E0. cbn [legal] in A. destruct A as [J X].
  pose proof (shown _ _ _ _ _ _ x v R ltac:(lia) O) as V.
  assert (V1 : e1 = built n e j c (if moved then O_move (n + j) x else O_copy (n + j) x) /\ r = Done A_unit /\
    slot_at w1 j = Ok (Slot (Some c) (Some c)) /\ val (store c e1) (n + j) = v /\ val (store c e1) x = (if moved then VNull else v)).
  { cbn [run1] in F1, F2. set (o := if moved then O_move (n + j) x else O_copy (n + j) x) in *.
    destruct (construct_step n k G w e j c o R J) as (w2 & r2 & C1 & C2 & R2).
    { unfold o. destruct moved; cbn [call_ok]; lia. } { intros s e2. unfold o. destruct moved; split; exact Logic.I. }
    { intros i t D _ _. unfold o. destruct moved; cbn [touches]; lia. }
    rewrite F1 in C1. apply Ok_inj in C1. injection C1 as <- <-. rewrite F2 in C2. apply Ok_inj in C2. injection C2 as ->.
    split; [reflexivity|].
    destruct (slot_ok w j) as [t Nt]; [rewrite (l_size _ _ _ _ _ R); exact J|].
    unfold construct, slot_at in F2. rewrite <- (l_slots _ _ _ _ _ R), Nt in F2. cbn [bind] in F2. cbv zeta in F2. unfold p_exec in F2. cbn [bind] in F2.
    set (e0 := match held t with Some d => with_store d (p_forget (store d e) (n + j)) e | None => e end) in *.
    assert (Z : List.length (store c e0) = (n + k)%nat /\ val (store c e0) x = v).
    { pose proof (r_size _ _ _ _ _ _ _ (l_one _ _ _ _ _ R c)) as Q. unfold e0. destruct (held t) as [d|]; [|split; [exact Q|symmetry; exact V]].
      destruct (counter_dec c d) as [<-|D].
      - rewrite store_same. unfold p_forget. rewrite list_set_length, val_set_other by lia. split; [exact Q|symmetry; exact V].
      - rewrite store_other by exact D. split; [exact Q|symmetry; exact V]. }
    destruct Z as [Z1 Z2].
    assert (K : v_exec (store c e0) o = ((if moved then list_set (n + j) v (list_set x VNull (store c e0)) else list_set (n + j) v (store c e0)), A_unit)).
    { unfold o. destruct moved; cbn [v_exec]; rewrite Z2; [|reflexivity]. destruct (Nat.eqb_spec (n + j) x); [lia|reflexivity]. }
    rewrite K in F2. cbn [bind] in F2. apply Ok_inj in F2. injection F2 as F2 Fr. split; [congruence|].
    assert (T : slots w1 = list_set j (Slot (Some c) (Some c)) (slots w)).
    { rewrite (l_slots _ _ _ _ _ R2), <- F2. cbn [set_slot slots]. rewrite slots_with. unfold e0. rewrite (l_slots _ _ _ _ _ R).
      destruct (held t); rewrite ?slots_with; reflexivity. }
    split. { unfold slot_at. rewrite T, nth_set_same by (rewrite (l_size _ _ _ _ _ R); exact J). reflexivity. }
    rewrite <- F2, store_slot, store_same. destruct moved; cbn [fst].
    - rewrite val_set_self by (rewrite list_set_length; lia). split; [reflexivity|]. rewrite val_set_other by lia. apply val_set_self. lia.
    - rewrite val_set_self by lia. split; [reflexivity|]. rewrite val_set_other by lia. exact Z2. }
  destruct V1 as (_ & -> & S1 & V1 & V2).
  destruct (on_step n k G1 w1 e1 c (O_copy y (n + j)) R1) as (w2 & H1 & _ & R2).
  { cbn [call_ok]. lia. } { split; exact Logic.I. } { intros i t _ _. cbn [touches]. lia. }
  exists w2, ((l ++ [Done A_unit]) ++ [Done A_unit]). split.
  { replace [To_c c j x moved; To_cpp c y j] with ([To_c c j x moved] ++ [To_cpp c y j]) by reflexivity. rewrite app_assoc.
    unfold w_run in *. rewrite run_app, E1. cbn [bind run run1]. unfold use. rewrite S1. cbn [bind tag held]. rewrite !counter_eqb_refl. cbn [bind].
    rewrite H1. reflexivity. }
  assert (K : forall z u, (z < n + k)%nat -> val (list_set y (val (store c e1) (n + j)) (store c e1)) z = u -> observes (store c w2) z u).
  { intros z u B <-. pose proof (Rel_observes _ _ _ _ _ c z R2 B) as Q. rewrite store_same in Q. exact Q. }
  pose proof (r_size _ _ _ _ _ _ _ (l_one _ _ _ _ _ R1 c)) as Q.
  split; [|split].
  - apply K; [lia|]. rewrite val_set_self by lia. exact V1.
  - apply K; [lia|]. rewrite val_set_other by lia. exact V1.
  - intros D. apply K; [lia|]. rewrite val_set_other by exact D. exact V2.
Qed.
Print Assumptions c64_crossing.

(** A handle of the other counter is refused, and a C call that mixes counters answers
    DART_CLIENT_ERROR; nothing changes. *)
Theorem c64_wrong_counter n (w : world) c x j t d : nth_error (slots w) j = Some t -> tag t = Some d -> c <> d ->
  run1 s_exec abandon n w (To_cpp c x j) = Ok (w, Done (A_err type_error)).
Proof. intros N T D. cbn [run1]. unfold slot_at. rewrite N. cbn [bind]. rewrite T, counter_eqb_ne by exact D. reflexivity. Qed.
Print Assumptions c64_wrong_counter.
Theorem c64_mixed n (w : world) i j c d q : nth_error (slots w) j = Some (Slot (Some c) (Some c)) ->
  nth_error (slots w) i = Some (Slot (Some d) (Some d)) -> c <> d ->
  run1 s_exec abandon n w (C_insert j q (Const i)) = Ok (w, Client) /\ run1 s_exec abandon n w (C_insert j q (Take i)) = Ok (w, Client) /\
  run1 s_exec abandon n w (C_set j q (Const i)) = Ok (w, Client) /\ run1 s_exec abandon n w (C_set j q (Take i)) = Ok (w, Client).
Proof.
  intros N1 N2 D. cbn [run1]. unfold with_arg, arg, use, slot_at. rewrite N1, N2. cbn [bind tag held]. rewrite !counter_eqb_refl. cbn [bind].
  rewrite counter_eqb_ne by exact D. refine (conj eq_refl (conj eq_refl (conj eq_refl eq_refl))).
Qed.
Print Assumptions c64_mixed.

(** ** Apart from each other *)

(** What the variables of C++ show is changed by no C call, save being moved from or
    assigned to. *)
Definition c_call (o : call) : Prop := match o with Cpp _ _ | To_cpp _ _ _ | To_c _ _ _ true => False | _ => True end.
Theorem c64_c_calls_apart n k p o w l w' l' : legal_program n k (p ++ [o]) -> c_call o ->
  w_run n k p = Ok (w, l) -> w_run n k (p ++ [o]) = Ok (w', l') ->
  forall c x v, (x < n)%nat -> observes (store c w) x v -> observes (store c w') x v.
Proof.
  intros L K E E' c x v B O. destruct (one_more n k p o L) as (w0 & e & l0 & G & E0 & R & A & w1 & e1 & r & G1 & F1 & F2 & R1 & E1).
  answer E E0. answer E' E1. pose proof (shown _ _ _ _ _ _ x v R ltac:(lia) O) as V. subst v.
  pose proof (Rel_observes _ _ _ _ _ c x R1 ltac:(lia)) as Q. replace (val (store c e) x) with (val (store c e1) x); [exact Q|].
  clear - F2 K B.
  assert (ON : forall d o e1 r, on p_exec e d o = Ok (e1, r) -> (forall y, touches o y -> y <> x) -> val (store c e1) x = val (store c e) x).
  { clear. intros d o e1 r H T. unfold on, p_exec in H. cbn [bind] in H. destruct (v_exec (store d e) o) as [e2 a] eqn:EV. apply Ok_inj in H. injection H as <- _.
    destruct (counter_dec c d) as [<-|D].
    - rewrite store_same. change e2 with (fst (e2, a)). rewrite <- EV. apply v_exec_other. intros Ty. exact (T x Ty eq_refl).
    - rewrite store_other by exact D. reflexivity. }
  assert (CON : forall j d o e1 r, construct p_exec p_forget n e j d o = Ok (e1, r) -> (forall y, touches o y -> y <> x) -> val (store c e1) x = val (store c e) x).
  { clear - B. intros j d o e1 r H T. unfold construct in H. apply bind_Ok in H. destruct H as (t & _ & H). cbv zeta in H. unfold p_exec in H. cbn [bind] in H.
    set (e0 := match held t with Some d => with_store d (p_forget (store d e) (n + j)) e | None => e end) in *.
    assert (V0 : val (store c e0) x = val (store c e) x).
    { unfold e0. destruct (held t) as [d0|]; [|reflexivity]. destruct (counter_dec c d0) as [<-|D].
      - rewrite store_same. apply val_set_other. lia.
      - rewrite store_other by exact D. reflexivity. }
    assert (OK : val (store c (set_slot j (Slot (Some d) (Some d)) (with_store d (fst (v_exec (store d e0) o)) e0))) x = val (store c e) x).
    { rewrite store_slot, <- V0. destruct (counter_dec c d) as [<-|D].
      - rewrite store_same. apply v_exec_other. intros Ty. exact (T x Ty eq_refl).
      - rewrite store_other by exact D. reflexivity. }
    destruct (v_exec (store d e0) o) as [e2 a]. cbn [fst bind] in *. destruct a; apply Ok_inj in H; injection H as <- _; first [exact OK|rewrite store_slot; reflexivity]. }
  assert (ARG : forall j u mk e1 r, with_arg p_exec n e j u mk = Ok (e1, r) ->
    (forall u' y, touches (mk u') y -> y = (n + j)%nat \/ u' = Rref y) -> val (store c e1) x = val (store c e) x).
  { clear - ON B. intros j u mk e1 r H T. unfold with_arg in H. apply bind_Ok in H. destruct H as (d & _ & H). apply bind_Ok in H. destruct H as (a & Ea & H).
    destruct a as [u'|]; [|apply Ok_inj in H; injection H as <- _; reflexivity].
    apply (ON _ _ _ _ H). intros y Ty. destruct (T _ _ Ty) as [->|Q]; [lia|]. destruct u as [u|i|i]; cbn [arg] in Ea.
    - apply Ok_inj in Ea. congruence.
    - apply bind_Ok in Ea. destruct Ea as (d' & _ & Ea). destruct (counter_eqb d d'); apply Ok_inj in Ea; congruence.
    - apply bind_Ok in Ea. destruct Ea as (d' & _ & Ea). destruct (counter_eqb d d'); apply Ok_inj in Ea; [|discriminate].
      assert (y = n + i)%nat by congruence. lia. }
  destruct o as [d o|j d f|j i|j i|j|j i q|j q u|j q u|j q|j|j m|d j y [|]|d y j]; cbn [c_call run1] in *; try contradiction.
  - apply (CON _ _ _ _ _ F2). intros y; cbn [touches]. lia.
  - apply bind_Ok in F2. destruct F2 as (d & _ & F2). destruct (Nat.eqb j i); [discriminate|]. apply (CON _ _ _ _ _ F2). intros y; cbn [touches]. lia.
  - apply bind_Ok in F2. destruct F2 as (d & _ & F2). destruct (Nat.eqb j i); [discriminate|]. apply (CON _ _ _ _ _ F2). intros y; cbn [touches]. lia.
  - apply bind_Ok in F2. destruct F2 as (d & _ & F2). apply bind_Ok in F2. destruct F2 as ([e2 r2] & F & F2). apply Ok_inj in F2. injection F2 as <- _.
    rewrite store_slot. apply (ON _ _ _ _ F). intros y; cbn [touches]. lia.
  - apply bind_Ok in F2. destruct F2 as (d & _ & F2). destruct (Nat.eqb j i); [discriminate|]. apply (CON _ _ _ _ _ F2). intros y; cbn [touches]. lia.
  - apply (ARG _ _ _ _ _ F2). intros u' y; cbn [touches]. intros [->|H]; [auto|]. destruct u'; try contradiction. subst. auto.
  - apply (ARG _ _ _ _ _ F2). intros u' y; cbn [touches]. intros [->|H]; [auto|]. destruct u'; try contradiction. subst. auto.
  - apply bind_Ok in F2. destruct F2 as (d & _ & F2). apply (ON _ _ _ _ F2). intros y; cbn [touches]. lia.
  - apply bind_Ok in F2. destruct F2 as (d & _ & F2). apply (ON _ _ _ _ F2). intros y; cbn [touches]. lia.
  - apply bind_Ok in F2. destruct F2 as (d & _ & F2). apply (ON _ _ _ _ F2). intros y; cbn [touches]. lia.
  - apply (CON _ _ _ _ _ F2). intros z; cbn [touches]. lia.
Qed.
Print Assumptions c64_c_calls_apart.

(** And what slots show by no call on C++ variables, nor by taking a handle back. *)
Theorem c64_cpp_calls_apart n k p o w l w' l' : legal_program n k (p ++ [o]) ->
  match o with Cpp _ _ | To_cpp _ _ _ => True | _ => False end ->
  w_run n k p = Ok (w, l) -> w_run n k (p ++ [o]) = Ok (w', l') ->
  slots w' = slots w /\ forall c j v, (j < k)%nat -> observes (store c w) (n + j) v -> observes (store c w') (n + j) v.
Proof.
  intros L K E E'. destruct (one_more n k p o L) as (w0 & e & l0 & G & E0 & R & A & w1 & e1 & r & G1 & F1 & F2 & R1 & E1).
  answer E E0. answer E' E1.
  assert (M : slots e1 = slots e /\ forall c j, val (store c e1) (n + j) = val (store c e) (n + j)).
  { assert (ON : forall d o e1 r, on p_exec e d o = Ok (e1, r) -> (forall y, touches o y -> (y < n)%nat) ->
      slots e1 = slots e /\ forall c j, val (store c e1) (n + j) = val (store c e) (n + j)).
    { clear. intros d o e1 r H T. unfold on, p_exec in H. cbn [bind] in H. destruct (v_exec (store d e) o) as [e2 a] eqn:EV. apply Ok_inj in H. injection H as <- _.
      split; [apply slots_with|]. intros c j. destruct (counter_dec c d) as [<-|D].
      - rewrite store_same. change e2 with (fst (e2, a)). rewrite <- EV. apply v_exec_other. intros Ty. specialize (T _ Ty). lia.
      - rewrite store_other by exact D. reflexivity. }
    destruct o as [d o|j d f|j i|j i|j|j i q|j q u|j q u|j q|j|j m|d j y mv|d y j]; try contradiction; cbn [run1 legal] in *.
    - apply (ON _ _ _ _ F2). destruct A as [C _]. intros y Ty. clear - C Ty.
      destruct o as [x f|x z|x z|x|x z r|x k v|x k v|x k|x v|x v|x|x|x|x z v]; cbn [call_ok touches] in *;
        repeat match goal with H : _ /\ _ |- _ => destruct H end; try (subst; assumption);
        (destruct Ty as [<-|Ty]; [assumption|]; first [subst; assumption|destruct v; try contradiction; subst; assumption]).
    - destruct A as [Y _]. apply bind_Ok in F2. destruct F2 as (t & _ & F2). destruct (tag t) as [d'|]; [|discriminate]. destruct (counter_eqb d d').
      + apply bind_Ok in F2. destruct F2 as (d2 & _ & F2). apply (ON _ _ _ _ F2). intros z; cbn [touches]. lia.
      + apply Ok_inj in F2. injection F2 as <- _. auto. }
  destruct M as [M1 M2]. split; [rewrite (l_slots _ _ _ _ _ R1), (l_slots _ _ _ _ _ R); exact M1|].
  intros c j v B O. pose proof (shown _ _ _ _ _ _ (n + j)%nat v R ltac:(lia) O) as V. subst v. rewrite <- M2. eapply Rel_observes; [exact R1|lia].
Qed.
Print Assumptions c64_cpp_calls_apart.

(** ** Call by call *)
Definition plain {A} (r : res A) : Prop := match r with Ok _ | Throw _ => True | _ => False end.
Lemma plain_get v k : plain (h_get v k).
Proof. destruct v; try exact Logic.I. cbn [h_get h_fields]. unfold map_find. destruct (nth_error fs (map_lower_bound k fs)) as [[k' x]|] eqn:N; [|exact Logic.I]. destruct (dart_ltb k k'); [exact Logic.I|]. rewrite N. exact Logic.I. Qed.
Lemma plain_get_idx v z : 0 <= z -> plain (h_get_idx v z).
Proof.
  intros P. destruct v; try exact Logic.I. cbn [h_get_idx h_elements h_size bind]. unfold zlen. destruct (Z.ltb_spec z (Z.of_nat (List.length vs))); [|exact Logic.I].
  destruct (nth_error vs (Z.to_nat z)) eqn:N; [exact Logic.I|]. apply nth_error_None in N. lia.
Qed.
Lemma plain_result r : plain r -> plain (result r).
Proof. destruct r as [[a m]| | | |]; exact (fun x => x). Qed.
Lemma plain_insert v k x : plain (h_insert v k x).
Proof.
  destruct k; try exact Logic.I; cbn [h_insert].
  - destruct (_ <? _); [exact Logic.I|]. destruct v; try exact Logic.I. cbn [h_fields]. cbv zeta. destruct (map_find s fs); exact Logic.I.
  - destruct v; try exact Logic.I. cbn [h_elements]. cbv zeta. destruct (_ <? _); exact Logic.I.
Qed.
Lemma plain_set v k x : plain (h_set v k x).
Proof.
  destruct k; try exact Logic.I; cbn [h_set].
  - destruct (_ <? _); [exact Logic.I|]. destruct v; try exact Logic.I. cbn [h_fields]. destruct (map_find s fs); exact Logic.I.
  - destruct v; try exact Logic.I. cbn [h_elements]. cbv zeta. destruct (_ <=? _); exact Logic.I.
Qed.
Lemma plain_erase v k : plain (h_erase v k).
Proof.
  destruct k; try exact Logic.I; cbn [h_erase].
  - unfold h_erase_key. destruct v; try exact Logic.I. cbn [h_fields]. destruct (map_find s fs); exact Logic.I.
  - unfold h_erase_idx. destruct v; try exact Logic.I. cbn [h_elements]. destruct (_ <=? _); exact Logic.I.
Qed.
Lemma plain_clear v : plain (h_clear v).
Proof. destruct v; exact Logic.I. Qed.
Lemma plain_resize v m d : plain (h_resize v m d).
Proof. destruct v; exact Logic.I. Qed.

Section Effect.
Context (n k : nat).
(** The same about independent values. *)
Definition hv (e : world (S := env)) (j : nat) (c : counter) (v : value) : Prop :=
  nth_error (slots e) j = Some (Slot (Some c) (Some c)) /\ val (store c e) (n + j) = v.
Lemma hv_of G w e j c v : Rel n k G w e -> slot_shows n w j c v -> (j < k)%nat /\ hv e j c v.
Proof.
  intros R [N O]. assert (J : (j < k)%nat) by (rewrite <- (l_size _ _ _ _ _ R); apply nth_error_Some; congruence). split; [exact J|].
  split; [rewrite <- (l_slots _ _ _ _ _ R); exact N|]. symmetry. eapply shown; [exact R|lia|exact O].
Qed.
Lemma of_hv G w e j c v : Rel n k G w e -> hv e j c v -> slot_shows n w j c v.
Proof.
  intros R [N V]. rewrite <- (l_slots _ _ _ _ _ R) in N. split; [exact N|]. rewrite <- V. eapply Rel_observes; [exact R|].
  assert (j < List.length (slots w))%nat by (apply nth_error_Some; congruence). rewrite (l_size _ _ _ _ _ R) in *. lia.
Qed.
Lemma hv_use e j c v : hv e j c v -> use e j = Ok c.
Proof. intros [N _]. unfold use, slot_at. rewrite N. cbn [bind tag held]. rewrite counter_eqb_refl. reflexivity. Qed.

(** A call on counter [c]. *)
Lemma on_keeps e c o i d v : hv e i d v -> (c = d -> ~ touches o (n + i)) -> hv (with_store c (fst (v_exec (store c e) o)) e) i d v.
Proof.
  intros [N V] T. split; [rewrite slots_with; exact N|]. destruct (counter_dec d c) as [->|D].
  - rewrite store_same, v_exec_other by (apply T; reflexivity). exact V.
  - rewrite store_other by exact D. exact V.
Qed.
Lemma settle_hv e j c old e2 (res : res value) : hv e j c old -> (n + j < List.length e2)%nat -> List.length (store c e) = List.length e2 -> plain res ->
  match res with
  | Ok v => snd (settle (store c e) (n + j) e2 res) = A_unit /\ hv (with_store c (fst (settle (store c e) (n + j) e2 res)) e) j c v
  | Throw er => settle (store c e) (n + j) e2 res = (store c e, A_err er) /\ hv (with_store c (fst (settle (store c e) (n + j) e2 res)) e) j c old
  | _ => False
  end.
Proof.
  intros [N V] B L P. destruct res as [v|er| | |]; try contradiction; cbn [settle fst snd].
  - split; [reflexivity|]. split; [rewrite slots_with; exact N|]. rewrite store_same. apply val_set_self. exact B.
  - split; [reflexivity|]. split; [rewrite slots_with; exact N|]. rewrite store_same. exact V.
Qed.

(** A constructor that works, or fails. *)
Lemma built_ok e j c o r e' v : (j < List.length (slots e))%nat -> construct p_exec p_forget n e j c o = Ok (e', r) -> failed r = false ->
  (forall e0, (forall d i, i <> (n + j)%nat -> val (store d e0) i = val (store d e) i) -> (forall d, List.length (store d e0) = List.length (store d e)) ->
    val (fst (v_exec (store c e0) o)) (n + j) = v) ->
  hv e' j c v.
Proof.
  intros J E F V. unfold construct in E. apply bind_Ok in E. destruct E as (t & _ & E). cbv zeta in E. unfold p_exec in E. cbn [bind] in E.
  set (e0 := match held t with Some d => with_store d (p_forget (store d e) (n + j)) e | None => e end) in *.
  assert (V0 : forall d i, i <> (n + j)%nat -> val (store d e0) i = val (store d e) i).
  { intros d i D. unfold e0. destruct (held t) as [d0|]; [|reflexivity]. destruct (counter_dec d d0) as [<-|D0].
    - rewrite store_same. apply val_set_other. exact D.
    - rewrite store_other by exact D0. reflexivity. }
  assert (L0 : forall d, List.length (store d e0) = List.length (store d e)).
  { intros d. unfold e0. destruct (held t) as [d0|]; [|reflexivity]. destruct (counter_dec d d0) as [<-|D0].
    - rewrite store_same. apply list_set_length.
    - rewrite store_other by exact D0. reflexivity. }
  specialize (V e0 V0 L0). assert (S0 : slots e0 = slots e) by (unfold e0; destruct (held t); rewrite ?slots_with; reflexivity).
  assert (Q : hv (set_slot j (Slot (Some c) (Some c)) (with_store c (fst (v_exec (store c e0) o)) e0)) j c v).
  { split; [cbn [set_slot slots]; rewrite slots_with, S0; apply nth_set_same; exact J|]. rewrite store_slot, store_same. exact V. }
  destruct (v_exec (store c e0) o) as [e2 a]. cbn [fst bind] in *. destruct a; apply Ok_inj in E; injection E as <- <-; try discriminate F; exact Q.
Qed.
Lemma construct_keeps e j c o r e' i d v : hv e i d v -> i <> j -> construct p_exec p_forget n e j c o = Ok (e', r) ->
  (c = d -> ~ touches o (n + i)) -> hv e' i d v.
Proof.
  intros [N V] D E T. unfold construct in E. apply bind_Ok in E. destruct E as (t & _ & E). cbv zeta in E. unfold p_exec in E. cbn [bind] in E.
  set (e0 := match held t with Some d => with_store d (p_forget (store d e) (n + j)) e | None => e end) in *.
  assert (H0 : hv e0 i d v).
  { unfold e0. destruct (held t) as [d0|]; [|split; assumption]. split; [rewrite slots_with; exact N|]. destruct (counter_dec d d0) as [<-|D0].
    - rewrite store_same. unfold p_forget. rewrite val_set_other by lia. exact V.
    - rewrite store_other by exact D0. exact V. }
  assert (SL : forall e2 t2, hv e2 i d v -> hv (set_slot j t2 e2) i d v).
  { intros e2 t2 [N2 V2]. split; [cbn [set_slot slots]; rewrite nth_set_other by exact D; exact N2|]. rewrite store_slot. exact V2. }
  pose proof (on_keeps e0 c o i d v H0 T) as H1. destruct (v_exec (store c e0) o) as [e2 a]. cbn [fst bind] in *.
  destruct a; apply Ok_inj in E; injection E as <- _; apply SL; first [exact H1|split; assumption].
Qed.
End Effect.

(** Each C call does to the slots it names what its value semantics say. *)
Theorem c64_effects n k p o w l w' l' r : legal_program n k (p ++ [o]) -> w_run n k p = Ok (w, l) -> w_run n k (p ++ [o]) = Ok (w', l' ++ [r]) ->
  effect n w o w' r.
Proof.
  intros L E E'. destruct (one_more n k p o L) as (w0 & e & l0 & G & E0 & R & A & w1 & e1 & r1 & G1 & F1 & F2 & R1 & E1).
  answer E E0. rewrite E' in E1. apply Ok_inj in E1. injection E1 as <- Q. apply app_inj_tail in Q. destruct Q as [_ <-].
  pose proof (fun c => r_size _ _ _ _ _ _ _ (l_one _ _ _ _ _ R c)) as Z.
  assert (LS : forall j, (j < k)%nat -> (j < List.length (slots e))%nat) by (intros j; rewrite <- (l_slots _ _ _ _ _ R), (l_size _ _ _ _ _ R); auto).
  assert (OUT : forall j c old o' e2 res, hv n e j c old -> (j < k)%nat -> on p_exec e c o' = Ok (e1, r) ->
    v_exec (store c e) o' = settle (store c e) (n + j) e2 res -> List.length e2 = (n + k)%nat -> plain res -> outcome n w' r j c old res).
  { intros j c old o' e2 res H J O V L2 P. unfold on, p_exec in O. cbn [bind] in O. rewrite V in O.
    pose proof (settle_hv n e j c old e2 res H ltac:(lia) ltac:(rewrite Z; lia) P) as Q.
    destruct (settle (store c e) (n + j) e2 res) as [e3 a] eqn:ES. apply Ok_inj in O. injection O as <- <-. cbn [fst snd] in Q.
    destruct res as [v|er| | |]; try contradiction; cbn [outcome].
    - destruct Q as [-> Q]. split; [reflexivity|]. eapply of_hv; eassumption.
    - destruct Q as [Qe Q]. injection Qe as -> ->. split; [reflexivity|]. eapply of_hv; eassumption. }
  assert (ARG : forall j q u mk (res : value -> value -> value -> res value) (tk : value -> value -> bool), live w j -> legal_arg w j u -> with_arg p_exec n e j u mk = Ok (e1, r) ->
     (forall c u', v_exec (store c e) (mk u') = settle (store c e) (n + j) (if tk (val (store c e) (n + j)) q then emptied (store c e) u' else store c e) (res (val (store c e) (n + j)) q (src_value (store c e) u'))) ->
     (forall a b d, plain (res a b d)) ->
     forall c old x, slot_shows n w j c old -> arg_shows n w c u x ->
      match x with
      | None => r = Client
      | Some x => outcome n w' r j c old (res old q x) /\ arg_after n w' c u x (match r with Done A_unit => tk old q | _ => false end)
      end).
  { intros j q u mk res tk Lj La F V P c old x Sj Sa. destruct (hv_of n k _ _ _ _ _ _ R Sj) as [J Hj].
    unfold with_arg in F. rewrite (hv_use _ _ _ _ _ Hj) in F. cbn [bind] in F. apply bind_Ok in F. destruct F as (a & Fa & F).
    assert (NE : forall i, (u = Const i \/ u = Take i) -> i <> j) by (intros i [->| ->]; exact (proj2 La)).
    assert (AS : match x with
      | Some y => exists u', a = Some u' /\ src_value (store c e) u' = y /\ (forall tk, List.length (if tk : bool then emptied (store c e) u' else store c e) = (n + k)%nat) /\
          match u with Val _ => True | Const i => u' = Cref (n + i) /\ hv n e i c y /\ (i < k)%nat | Take i => u' = Rref (n + i) /\ hv n e i c y /\ (i < k)%nat end
      | None => a = None end).
    { destruct u as [y|i|i]; cbn [arg_shows arg] in *.
      - subst x. apply Ok_inj in Fa. exists (Lit y). repeat split; auto. intros [|]; cbn [emptied]; apply Z.
      - destruct Sa as (d & y & Si & ->). destruct (hv_of n k _ _ _ _ _ _ R Si) as [Ji Hi]. rewrite (hv_use _ _ _ _ _ Hi) in Fa. cbn [bind] in Fa. apply Ok_inj in Fa. subst a.
        destruct (counter_eqb c d) eqn:Q; [|reflexivity]. apply counter_eqb_eq in Q. subst d. exists (Cref (n + i)).
        refine (conj eq_refl (conj (proj2 Hi) (conj _ (conj eq_refl (conj Hi Ji))))). intros [|]; cbn [emptied]; apply Z.
      - destruct Sa as (d & y & Si & ->). destruct (hv_of n k _ _ _ _ _ _ R Si) as [Ji Hi]. rewrite (hv_use _ _ _ _ _ Hi) in Fa. cbn [bind] in Fa. apply Ok_inj in Fa. subst a.
        destruct (counter_eqb c d) eqn:Q; [|reflexivity]. apply counter_eqb_eq in Q. subst d. exists (Rref (n + i)).
        refine (conj eq_refl (conj (proj2 Hi) (conj _ (conj eq_refl (conj Hi Ji))))). intros [|]; cbn [emptied]; rewrite ?list_set_length; apply Z. }
    destruct x as [y|].
    - destruct AS as (u' & -> & SV & LE & K). pose proof (V c u') as V'. rewrite SV, (proj2 Hj) in V'.
      split; [eapply OUT; [exact Hj|exact J|exact F|exact V'|apply LE|apply P]|].
      assert (AF : forall i z, i <> j -> nth_error (slots e) i = Some (Slot (Some c) (Some c)) -> (i < k)%nat ->
        val (fst (v_exec (store c e) (mk u'))) (n + i) = z -> slot_shows n w' i c z).
      { intros i z D Ni Ji Vi. apply (of_hv n k _ _ _ i c z R1). unfold on, p_exec in F. cbn [bind] in F. destruct (v_exec (store c e) (mk u')) as [e3 b]. apply Ok_inj in F.
        injection F as <- _. split; [rewrite slots_with; exact Ni|]. rewrite store_same. exact Vi. }
      assert (RR : r = Done (snd (v_exec (store c e) (mk u')))).
      { unfold on, p_exec in F. cbn [bind] in F. destruct (v_exec (store c e) (mk u')) as [e3 b]. apply Ok_inj in F. injection F as _ <-. reflexivity. }
      specialize (P old q y). rewrite V' in *. destruct u as [u|i|i]; cbn [arg_after]; [exact Logic.I| |].
      + destruct K as (-> & [Ni Vi] & Ji). apply AF; auto. clear RR. destruct (res old q y) as [z|er| | |]; try contradiction; cbn [settle fst].
        * pose proof (NE i (or_introl eq_refl)). rewrite val_set_other by lia. destruct (tk old q); exact Vi.
        * exact Vi.
      + destruct K as (-> & [Ni Vi] & Ji). pose proof (NE i (or_intror eq_refl)). apply AF; auto. subst r. destruct (res old q y) as [z|er| | |]; try contradiction; cbn [settle fst snd].
        * rewrite val_set_other by lia. destruct (tk old q); [|exact Vi]. cbn [emptied]. apply val_set_self. rewrite Z. lia.
        * exact Vi.
    - subst a. cbn in F. apply Ok_inj in F. congruence. }
  destruct o as [c o|j c f|j i|j i|j|j i q|j q v|j q v|j q|j|j m|c j x mv|c x j]; cbn [effect]; try exact Logic.I; cbn [legal run1] in *.
  - destruct A as [J Sc].
    assert (Q : failed r = false /\ r = Done A_unit).
    { unfold construct in F2. apply bind_Ok in F2. destruct F2 as (t & _ & F2). cbv zeta in F2. unfold p_exec in F2. cbn [bind] in F2.
      destruct f; cbn [v_exec bind] in F2; apply Ok_inj in F2; injection F2 as _ <-; auto. }
    destruct Q as [Q ->]. split; [reflexivity|]. apply (of_hv n k _ _ _ _ _ _ R1). apply (built_ok n e j c _ _ _ _ (LS j J) F2 Q).
    intros e0 _ L0. destruct f; cbn [v_exec fst]; apply val_set_self; rewrite L0, Z; lia.
  - destruct A as (J & _ & D). intros c v S. destruct (hv_of n k _ _ _ _ _ _ R S) as [Ji Hi]. rewrite (hv_use _ _ _ _ _ Hi) in F2. cbn [bind] in F2.
    destruct (Nat.eqb j i); [discriminate|].
    assert (Q : failed r = false /\ r = Done A_unit).
    { unfold construct in F2. apply bind_Ok in F2. destruct F2 as (t & _ & F2). cbv zeta in F2. unfold p_exec in F2. cbn [bind v_exec] in F2. apply Ok_inj in F2; injection F2 as _ <-; auto. }
    destruct Q as [Q ->]. split; [reflexivity|]. split; apply (of_hv n k _ _ _ _ _ _ R1).
    + apply (built_ok n e j c _ _ _ _ (LS j J) F2 Q). intros e0 V0 L0. cbn [v_exec fst]. rewrite val_set_self by (rewrite L0, Z; lia). rewrite V0 by lia. exact (proj2 Hi).
    + apply (construct_keeps n e j c _ _ _ i c v Hi ltac:(lia) F2). intros _. cbn [touches]. lia.
  - destruct A as (J & _ & D). intros c v S. destruct (hv_of n k _ _ _ _ _ _ R S) as [Ji Hi]. rewrite (hv_use _ _ _ _ _ Hi) in F2. cbn [bind] in F2.
    destruct (Nat.eqb j i); [discriminate|].
    assert (Q : r = Done A_unit /\ hv n e1 i c VNull /\ failed r = false).
    { unfold construct in F2. apply bind_Ok in F2. destruct F2 as (t & Nt & F2). cbv zeta in F2. unfold p_exec in F2. cbn [bind v_exec] in F2.
      set (e0 := match held t with Some d => with_store d (p_forget (store d e) (n + j)) e | None => e end) in *. apply Ok_inj in F2; injection F2 as <- <-. split; [reflexivity|]. split; [|reflexivity].
      assert (S0 : slots e0 = slots e /\ List.length (store c e0) = (n + k)%nat).
      { unfold e0. destruct (held t) as [d0|]; [|split; [reflexivity|apply Z]]. split; [apply slots_with|]. destruct (counter_dec c d0) as [<-|D0].
        - rewrite store_same. unfold p_forget. rewrite list_set_length. apply Z.
        - rewrite store_other by exact D0. apply Z. }
      destruct S0 as [S0 L0]. split.
      - cbn [set_slot slots]. rewrite slots_with, S0, nth_set_other by lia. exact (proj1 Hi).
      - rewrite store_slot, store_same. destruct (Nat.eqb_spec (n + j) (n + i)); [lia|]. rewrite val_set_other by lia. apply val_set_self. lia. }
    destruct Q as (-> & Qi & Q). split; [reflexivity|]. split; apply (of_hv n k _ _ _ _ _ _ R1); [|exact Qi].
    apply (built_ok n e j c _ _ _ _ (LS j J) F2 Q). intros e0 V0 L0. cbn [v_exec fst]. destruct (Nat.eqb_spec (n + j) (n + i)); [lia|].
    rewrite val_set_self by (rewrite list_set_length, L0, Z; lia). rewrite V0 by lia. exact (proj2 Hi).
  - apply bind_Ok in F2. destruct F2 as (c & U & F2). apply bind_Ok in F2. destruct F2 as ([e2 r2] & O & F2). apply Ok_inj in F2. injection F2 as <- ->.
    unfold on, p_exec in O. cbn [bind v_exec] in O. apply Ok_inj in O. injection O as <- <-. split; [reflexivity|]. exists c.
    rewrite (l_slots _ _ _ _ _ R1). cbn [set_slot slots]. apply nth_set_same. rewrite slots_with. apply LS. rewrite <- (l_size _ _ _ _ _ R).
    destruct A as [c' N]. apply nth_error_Some. congruence.
  - destruct A as (J & _ & D & Qz). intros c v S. destruct (hv_of n k _ _ _ _ _ _ R S) as [Ji Hi]. rewrite (hv_use _ _ _ _ _ Hi) in F2. cbn [bind] in F2.
    destruct (Nat.eqb j i); [discriminate|]. split.
    { apply (of_hv n k _ _ _ _ _ _ R1). apply (construct_keeps n e j c _ _ _ i c v Hi ltac:(lia) F2). intros _. cbn [touches]. lia. }
    set (rd := match q with inl s => R_get s | inr z => R_get_idx z end) in *.
    set (m := match q with inl s => h_get v s | inr z => h_get_idx v z end).
    assert (M : v_read v rd = m) by (unfold rd, m; destruct q; reflexivity).
    assert (P : plain m) by (unfold m; destruct q; [apply plain_get|apply plain_get_idx; exact Qz]).
    assert (Q : r = match m with Ok _ => Done A_unit | Throw er => Done (A_err er) | _ => r end).
    { unfold construct in F2. apply bind_Ok in F2. destruct F2 as (t & Nt & F2). cbv zeta in F2. unfold p_exec in F2. cbn [bind v_exec] in F2.
      set (e0 := match held t with Some d => with_store d (p_forget (store d e) (n + j)) e | None => e end) in *.
      assert (V0 : val (store c e0) (n + i) = v).
      { unfold e0. destruct (held t) as [d0|]; [|exact (proj2 Hi)]. destruct (counter_dec c d0) as [<-|D0].
        - rewrite store_same. unfold p_forget. rewrite val_set_other by lia. exact (proj2 Hi).
        - rewrite store_other by exact D0. exact (proj2 Hi). }
      rewrite V0, M in F2. destruct m; try contradiction; cbn [settle bind] in F2; apply Ok_inj in F2; injection F2 as _ <-; reflexivity. }
    destruct m as [mv|er| | |] eqn:Em; try contradiction; [|exact Q]. split; [exact Q|]. apply (of_hv n k _ _ _ _ _ _ R1).
    apply (built_ok n e j c _ _ _ _ (LS j J) F2); [rewrite Q; reflexivity|]. intros e0 V0 L0. cbn [v_exec]. rewrite V0 by lia. rewrite (proj2 Hi), M. cbn [settle fst].
    apply val_set_self. rewrite L0, Z. lia.
  - destruct A as [Lj La]. change (place_of q) with (key_value q) in F2.
    apply (ARG j (key_value q) v _ (fun a b d => result (h_insert a b d)) overwrites Lj La F2).
    + intros c u'. reflexivity.
    + intros a b d. apply plain_result, plain_insert.
  - destruct A as [Lj La]. change (place_of q) with (key_value q) in F2.
    apply (ARG j (key_value q) v _ (fun a b d => result (h_set a b d)) (fun _ _ => true) Lj La F2).
    + intros c u'. reflexivity.
    + intros a b d. apply plain_result, plain_set.
  - change (place_of q) with (key_value q) in F2. intros c old S. destruct (hv_of n k _ _ _ _ _ _ R S) as [J H]. rewrite (hv_use _ _ _ _ _ H) in F2. cbn [bind] in F2.
    eapply OUT; [exact H|exact J|exact F2| |apply (Z c)|apply plain_result, plain_erase]. cbn [v_exec]. rewrite (proj2 H). reflexivity.
  - intros c old S. destruct (hv_of n k _ _ _ _ _ _ R S) as [J H]. rewrite (hv_use _ _ _ _ _ H) in F2. cbn [bind] in F2.
    eapply OUT; [exact H|exact J|exact F2| |apply (Z c)|apply plain_clear]. cbn [v_exec]. rewrite (proj2 H). reflexivity.
  - intros c old S. destruct (hv_of n k _ _ _ _ _ _ R S) as [J H]. rewrite (hv_use _ _ _ _ _ H) in F2. cbn [bind] in F2.
    eapply OUT; [exact H|exact J|exact F2| |apply (Z c)|apply plain_resize]. cbn [v_exec]. rewrite (proj2 H). reflexivity.
Qed.
Print Assumptions c64_effects.

(** And nothing to any other slot. *)
Theorem c64_slots_apart n k p o w l w' l' : legal_program n k (p ++ [o]) -> w_run n k p = Ok (w, l) -> w_run n k (p ++ [o]) = Ok (w', l') ->
  forall i c v, ~ In i (slots_of o) -> slot_shows n w i c v -> slot_shows n w' i c v.
Proof.
  intros L E E' i c v NI S. destruct (one_more n k p o L) as (w0 & e & l0 & G & E0 & R & A & w1 & e1 & r1 & G1 & F1 & F2 & R1 & E1).
  answer E E0. answer E' E1. destruct (hv_of n k _ _ _ _ _ _ R S) as [Ji H]. apply (of_hv n k _ _ _ _ _ _ R1).
  assert (ON : forall d o' r, on p_exec e d o' = Ok (e1, r) -> ~ touches o' (n + i) -> hv n e1 i c v).
  { intros d o' r O T. unfold on, p_exec in O. cbn [bind] in O. pose proof (on_keeps n e d o' i c v H (fun _ => T)) as Q.
    destruct (v_exec (store d e) o') as [e3 a]. apply Ok_inj in O. injection O as <- _. exact Q. }
  assert (ARG : forall j u mk r, with_arg p_exec n e j u mk = Ok (e1, r) -> i <> j -> u <> Take i ->
    (forall u' y, touches (mk u') y -> y = (n + j)%nat \/ u' = Rref y) -> hv n e1 i c v).
  { intros j u mk r F D NT T. unfold with_arg in F. apply bind_Ok in F. destruct F as (d & _ & F). apply bind_Ok in F. destruct F as (a & Fa & F).
    destruct a as [u'|]; [|apply Ok_inj in F; injection F as <- _; exact H].
    apply (ON _ _ _ F). intros Ty. destruct (T _ _ Ty) as [Q|Q]; [lia|]. destruct u as [u|i'|i']; cbn [arg] in Fa.
    - apply Ok_inj in Fa. congruence.
    - apply bind_Ok in Fa. destruct Fa as (d' & _ & Fa). destruct (counter_eqb d d'); apply Ok_inj in Fa; congruence.
    - apply bind_Ok in Fa. destruct Fa as (d' & _ & Fa). destruct (counter_eqb d d'); apply Ok_inj in Fa; [|discriminate].
      assert (n + i = n + i')%nat by congruence. assert (i = i') by lia. congruence. }
  destruct o as [d o|j d f|j i'|j i'|j|j i' q|j q u|j q u|j q|j|j m|d j x mv|d x j]; cbn [slots_of In run1 legal] in *.
  - apply (ON _ _ _ F2). intros T. destruct A as [C _]. assert (n + i < n)%nat; [|lia]. clear - C T.
    destruct o as [x f|x z|x z|x|x z r|x k v|x k v|x k|x v|x v|x|x|x|x z v]; cbn [call_ok touches] in *;
      repeat match goal with H : _ /\ _ |- _ => destruct H end; try (subst; assumption);
      (destruct T as [<-|T]; [assumption|]; first [subst; assumption|destruct v; try contradiction; subst; assumption]).
  - apply (construct_keeps n e j _ _ _ _ i c v H ltac:(lia) F2). intros _. cbn [touches]. lia.
  - apply bind_Ok in F2. destruct F2 as (d & _ & F2). destruct (Nat.eqb j i'); [discriminate|]. apply (construct_keeps n e j _ _ _ _ i c v H ltac:(lia) F2). intros _. cbn [touches]. lia.
  - apply bind_Ok in F2. destruct F2 as (d & _ & F2). destruct (Nat.eqb j i'); [discriminate|]. apply (construct_keeps n e j _ _ _ _ i c v H ltac:(lia) F2). intros _. cbn [touches]. lia.
  - apply bind_Ok in F2. destruct F2 as (d & _ & F2). apply bind_Ok in F2. destruct F2 as ([e2 r2] & O & F2). apply Ok_inj in F2. injection F2 as <- _.
    unfold on, p_exec in O. cbn [bind v_exec] in O. apply Ok_inj in O. injection O as <- _.
    pose proof (on_keeps n e d (O_destroy (n + j)) i c v H) as Q. cbn [touches v_exec fst] in Q. destruct (Q ltac:(lia)) as [N V].
    split; [cbn [set_slot slots]; rewrite nth_set_other by lia; exact N|]. rewrite store_slot. exact V.
  - apply bind_Ok in F2. destruct F2 as (d & _ & F2). destruct (Nat.eqb j i'); [discriminate|]. apply (construct_keeps n e j _ _ _ _ i c v H ltac:(lia) F2). intros _. cbn [touches]. lia.
  - apply (ARG _ _ _ _ F2).
    + intros ->. destruct u; cbn [In] in NI; tauto.
    + intros ->. cbn [In] in NI. tauto.
    + intros u' y; cbn [touches]. intros [->|T]; [auto|]. destruct u'; try contradiction. subst. auto.
  - apply (ARG _ _ _ _ F2).
    + intros ->. destruct u; cbn [In] in NI; tauto.
    + intros ->. cbn [In] in NI. tauto.
    + intros u' y; cbn [touches]. intros [->|T]; [auto|]. destruct u'; try contradiction. subst. auto.
  - apply bind_Ok in F2. destruct F2 as (d & _ & F2). apply (ON _ _ _ F2). cbn [touches]. lia.
  - apply bind_Ok in F2. destruct F2 as (d & _ & F2). apply (ON _ _ _ F2). cbn [touches]. lia.
  - apply bind_Ok in F2. destruct F2 as (d & _ & F2). apply (ON _ _ _ F2). cbn [touches]. lia.
  - apply (construct_keeps n e j _ _ _ _ i c v H ltac:(lia) F2). intros _. destruct mv; cbn [touches]; lia.
  - destruct A as [Y _]. apply bind_Ok in F2. destruct F2 as (t & _ & F2). destruct (tag t) as [d'|]; [|discriminate]. destruct (counter_eqb d d').
    + apply bind_Ok in F2. destruct F2 as (d2 & _ & F2). apply (ON _ _ _ F2). cbn [touches]. lia.
    + apply Ok_inj in F2. injection F2 as <- _. exact H.
Qed.
Print Assumptions c64_slots_apart.

(** ** Storage *)

(** Every count is the number of handles: in variables and slots, in containers, and in
    bytes that were initialised again. *)
Theorem c64_counts n k p w l c : legal_program n k p -> w_run n k p = Ok (w, l) -> counted w c (lost n c (fresh_world n k) p).
Proof.
  intros L E. destruct (legal_run n k p L) as (w0 & e & l0 & E0 & _ & R). answer E E0. exact (Rel_counted _ _ _ _ _ c R).
Qed.
Print Assumptions c64_counts.

Lemma tidy_lost n c p : forall w, tidy n w p -> lost n c w p = [].
Proof.
  induction p as [|o p IH]; intros w T; cbn [lost tidy] in *; [reflexivity|]. destruct T as [T1 T2].
  destruct (run1 s_exec abandon n w o) as [[w1 a]| | | |]; try reflexivity. rewrite (IH _ T2). cbn [app]. destruct (failed a); [reflexivity|].
  unfold overwritten. destruct (target o) as [j|]; [|reflexivity]. destruct (nth_error (slots w) j) as [t|] eqn:N; [|reflexivity].
  pose proof (T1 t eq_refl) as H. destruct t as [tg h]. cbn [held] in H. rewrite H. reflexivity.
Qed.

(** A program that destroys before it initialises again leaves nothing: once no variable
    refers to storage and no slot holds an object, no cell is left. *)
Theorem c64_tidy n k p w l c : legal_program n k p -> tidy n (fresh_world n k) p -> w_run n k p = Ok (w, l) ->
  (forall x h, (x < n)%nat -> nth_error (vars (store c w)) x = Some h -> href h = None) ->
  (forall j t, nth_error (slots w) j = Some t -> held t <> Some c) ->
  forall a, cell_at (heap (store c w)) a = None.
Proof.
  intros L T E NV NS. destruct (legal_run n k p L) as (w0 & e & l0 & E0 & _ & R). answer E E0.
  destruct (l_one _ _ _ _ _ R c) as [LE Z [eg [W F]] N]. rewrite (tidy_lost n c p _ T) in *. unfold more in W. cbn [vars heap app] in W. rewrite app_nil_r in W.
  apply (nothing_left _ _ W). intros h Ih. apply In_nth_error in Ih. destruct Ih as (x & Nx).
  destruct (lt_dec x n) as [B|B]; [exact (NV x h B Nx)|].
  assert (Bx : (x < n + k)%nat). { rewrite <- Z, <- LE. apply nth_error_Some. congruence. }
  destruct (slot_ok w (x - n)) as [t Nt]; [rewrite (l_size _ _ _ _ _ R); lia|].
  pose proof (N _ t Nt (NS _ t Nt)) as V. replace (n + (x - n))%nat with x in V by lia.
  destruct (Rel_observes _ _ _ _ _ c x R Bx) as (h' & Nh & Sh). rewrite Nx in Nh. injection Nh as <-. rewrite V in Sh. inversion Sh. reflexivity.
Qed.
Print Assumptions c64_tidy.

Lemma lost_app n c p : forall w q w' l, run s_exec abandon n w p = Ok (w', l) -> lost n c w (p ++ q) = lost n c w' q ++ lost n c w p.
Proof.
  induction p as [|o p IH]; intros w q w' l E; cbn [app run lost] in *.
  - apply Ok_inj in E. injection E as <- _. rewrite app_nil_r. reflexivity.
  - apply bind_Ok in E. destruct E as ([w1 a] & A & E). rewrite A. apply bind_Ok in E. destruct E as ([w2 l2] & B & E). apply Ok_inj in E. injection E as <- _.
    rewrite (IH _ q _ _ B). rewrite app_assoc. reflexivity.
Qed.

(** Whatever was in bytes initialised again is never released, whatever is called after. *)
Theorem c64_leak n k p q w l c h a : legal_program n k (p ++ q) -> In h (lost n c (fresh_world n k) p) -> href h = Some a ->
  w_run n k (p ++ q) = Ok (w, l) -> exists m d, cell_at (heap (store c w)) a = Some (m, d) /\ 0 < m.
Proof.
  intros L I Hr E. destruct (legal_app n k p q L) as (w1 & e1 & l1 & E1 & _ & _ & _).
  destruct (legal_run n k _ L) as (w0 & e & l0 & E0 & _ & R). answer E E0.
  destruct (Rel_alive _ _ _ _ _ c h R) as (v & Sh). { apply in_or_app. right. rewrite (lost_app n c p _ q _ _ E1). apply in_or_app. right. exact I. }
  destruct (shows_live _ _ _ _ Sh Hr) as (m & d & C). exists m, d. split; [exact C|]. exact (proj2 (Rel_counted _ _ _ _ _ c R a m d C)).
Qed.
Print Assumptions c64_leak.

(** So initialising a slot twice, with both initialisations answered and the slot
    destroyed in the end, leaves a cell no handle refers to. *)
Definition twice : list call := [C_init 0 Safe New_object; C_init 0 Safe New_array; C_destroy 0].
Theorem c64_leak_refuted : ~ (forall n k p w l c, legal_program n k p -> w_run n k p = Ok (w, l) ->
  forall a m d, cell_at (heap (store c w)) a = Some (m, d) -> m = nref a (vars (store c w)) + nref a (all_kids (heap (store c w)))).
Proof.
  intros H. specialize (H 0%nat 1%nat twice). destruct (w_run 0 1 twice) as [[w l]| | | |] eqn:E; try (vm_compute in E; discriminate E).
  specialize (H w l Safe). assert (L : legal_program 0 1 twice).
  { vm_compute. repeat split; try lia. exists Safe. reflexivity. }
  specialize (H L eq_refl 0%nat). vm_compute in E. injection E as <- <-. specialize (H 1 (CObj []) eq_refl). vm_compute in H. discriminate H.
Qed.
Print Assumptions c64_leak_refuted.

(** ** Bytes that are not what the tag says *)

(** After its destruction a slot keeps its tag, and any use of it is undefined. *)
Theorem c64_after_destroy n (w w' : world) j r : run1 s_exec abandon n w (C_destroy j) = Ok (w', r) ->
  exists c, nth_error (slots w') j = Some (Slot (Some c) None) /\ use w' j = Undef.
Proof.
  intros E. cbn [run1] in E. apply bind_Ok in E. destruct E as (c & U & E). apply bind_Ok in E. destruct E as ([w1 r1] & O & E).
  apply Ok_inj in E. injection E as <- _. exists c.
  assert (N : nth_error (slots (set_slot j (Slot (Some c) None) w1)) j = Some (Slot (Some c) None)).
  { cbn [set_slot slots]. apply nth_set_same. unfold use, slot_at in U. apply bind_Ok in U. destruct U as (t & U & _).
    assert (Q : slots w1 = slots w). { unfold on in O. apply bind_Ok in O. destruct O as ([s a] & _ & O). apply Ok_inj in O. injection O as <- _. apply slots_with. }
    rewrite Q. apply nth_error_Some. destruct (nth_error (slots w) j); congruence. }
  split; [exact N|]. unfold use, slot_at. rewrite N. reflexivity.
Qed.
Print Assumptions c64_after_destroy.

(** A get that fails has already written the tag of its destination: its bytes are as
    they were, and if they hold the other counter any use of them is undefined. *)
Theorem c64_failed_get n (w w' : world) j i q c d er : nth_error (slots w) j = Some (Slot (Some d) (Some d)) ->
  nth_error (slots w) i = Some (Slot (Some c) (Some c)) ->
  run1 s_exec abandon n w (C_get j i q) = Ok (w', Done (A_err er)) ->
  (forall b, store b w' = store b w) /\ use w' j = (if counter_eqb c d then Ok c else Undef).
Proof.
  intros N1 N2 E. cbn [run1] in E. unfold use at 1 in E. unfold slot_at in E. rewrite N2 in E. cbn [bind tag held] in E. rewrite counter_eqb_refl in E. cbn [bind] in E.
  destruct (Nat.eqb j i); [discriminate|]. unfold construct, slot_at in E. rewrite N1 in E. cbn [bind held] in E. cbv zeta in E.
  apply bind_Ok in E. destruct E as ([s a] & X & E).
  assert (w' = set_slot j (Slot (Some c) (Some d)) w) as -> by (destruct a; apply Ok_inj in E; congruence).
  split; [intros b; apply store_slot|]. unfold use, slot_at. cbn [set_slot slots]. rewrite nth_set_same by (apply nth_error_Some; congruence). cbn [bind tag held]. reflexivity.
Qed.
Print Assumptions c64_failed_get.

(** So a failed call does not leave its destination as it was: it could be destroyed
    before, and cannot be after. *)
Definition confuse : list call := [C_init 0 Unsafe New_object; C_init 1 Safe New_array; C_get 0 1 (inl (b "k"))].
Theorem c64_failed_get_refuted : ~ (forall n k p o w w' l l' er, legal_program n k (p ++ [o]) -> w_run n k p = Ok (w, l) ->
  w_run n k (p ++ [o]) = Ok (w', l') -> last l' Client = Done (A_err er) -> forall j, live w j -> use w' j <> Undef).
Proof.
  intros H. pose (p := [C_init 0 Unsafe New_object; C_init 1 Safe New_array]). specialize (H 0%nat 2%nat p (C_get 0 1 (inl (b "k")))).
  assert (L : legal_program 0 2 (p ++ [C_get 0 1 (inl (b "k"))])).
  { vm_compute. repeat split; try lia; try discriminate. exists Safe. reflexivity. }
  destruct (w_run 0 2 p) as [[w l]| | | |] eqn:E; try (vm_compute in E; discriminate E).
  destruct (w_run 0 2 (p ++ [C_get 0 1 (inl (b "k"))])) as [[w' l']| | | |] eqn:E'; try (vm_compute in E'; discriminate E').
  specialize (H w w' l l' type_error L eq_refl eq_refl). vm_compute in E, E'. injection E as <- <-. injection E' as <- <-.
  refine (H eq_refl 0%nat _ eq_refl). exists Unsafe. reflexivity.
Qed.
Print Assumptions c64_failed_get_refuted.

(** ** A program over everything *)
Definition busy : list call :=
  [ Cpp Safe (O_make 0 New_object); Cpp Safe (O_insert 0 (VStr (b "n")) (Lit (VInt 7)));
    To_c Safe 0 0 false; C_init 1 Safe New_array; C_insert 1 (inr 0) (Const 0);
    C_insert 0 (inl (b "m")) (Val (VStr (b "s"))); C_insert 1 (inr 1) (Take 0);
    C_init 2 Unsafe New_object; C_insert 2 (inl (b "x")) (Const 1);
    C_destroy 0; C_get 0 1 (inr 1); To_cpp Safe 1 0; To_cpp Unsafe 1 0;
    Cpp Safe (O_erase 1 (VStr (b "n"))); To_cpp Unsafe 1 2; C_set 2 (inl (b "y")) (Val VNull);
    C_copy 3 1; C_erase 1 (inr 0); C_resize 1 2; C_destroy 3; To_c Safe 3 1 true; C_destroy 1; C_move 1 3 ].
Example c64_case :
  legal_program 2 4 busy /\ tidy 2 (fresh_world 2 4) busy /\
  match w_run 2 4 busy with
  | Ok (w, l) =>
      map (show (safe w)) [0; 1; 2; 3]%nat = map Ok
        [VObj [(b "n", VInt 7)]; VNull; VObj [(b "m", VStr (b "s")); (b "n", VInt 7)]; VObj [(b "m", VStr (b "s"))]] /\
      show (loose w) 1 = Ok (VObj []) /\ In Client l /\ In (Done (A_err type_error)) l
  | _ => False
  end.
Proof.
  split; [|split].
  - vm_compute. repeat split; try lia; try tauto; try discriminate.
    all: try (exists Safe; reflexivity). all: try (exists Unsafe; reflexivity).
    all: try (intros _; exists Safe; reflexivity). all: try (intros _; exists Unsafe; reflexivity).
    all: try (intros [|] h E; vm_compute in E; try discriminate E; injection E as <-; vm_compute; discriminate).
  - vm_compute. repeat split. all: intros t E; injection E as <-; reflexivity.
  - vm_compute. repeat split; tauto.
Qed.
Definition cleared : list call :=
  busy ++ [C_destroy 3; C_destroy 2; C_destroy 1; C_destroy 0; Cpp Safe (O_destroy 0); Cpp Safe (O_destroy 1); Cpp Unsafe (O_destroy 1)].
Example c64_tidy_case :
  legal_program 2 4 cleared /\ tidy 2 (fresh_world 2 4) cleared /\
  match w_run 2 4 cleared with
  | Ok (w, _) => (4 <= List.length (heap (safe w)))%nat /\ forallb (fun o => match o with None => true | _ => false end) (heap (safe w) ++ heap (loose w)) = true
  | _ => False
  end.
Proof.
  split; [|split].
  - vm_compute. repeat split; try lia; try tauto; try discriminate.
    all: try (exists Safe; reflexivity). all: try (exists Unsafe; reflexivity).
    all: try (intros _; exists Safe; reflexivity). all: try (intros _; exists Unsafe; reflexivity).
    all: try (intros [|] h E; vm_compute in E; try discriminate E; injection E as <-; vm_compute; discriminate).
  - vm_compute. repeat split. all: intros t E; injection E as <-; reflexivity.
  - vm_compute. split; [lia|reflexivity].
Qed.
