(** C54: dart::optional, the stand-in for std::optional, behaves as an optional
    value; objects are constructed and destroyed exactly once, whatever throws. *)

From Coq Require Import ZArith List Bool Lia.
From Verif Require Import Base HeapOps SpecOpt Opt OptRun.
Import ListNotations.
Local Open Scope nat_scope.

(** Every program that keeps its side of the bargain runs without undefined
    behaviour, sees the answers of the specification, and at its end exactly as many
    objects of the wrapped type are alive as variables hold one. *)
Theorem c54_programs : forall n ops, o_fair_all (o_blank n) ops ->
  exists s, o_run (o_start n) ops = Ok (s, snd (o_story (o_blank n) ops))
            /\ alive (objs s) = holding (fst (o_story (o_blank n) ops)).
Proof.
  intros n ops F. destruct (o_run_ok ops _ _ (o_start_ok n) F) as [s [E I]].
  exists s. split; [exact E|exact (alive_holding _ _ I)].
Qed.

(** Nothing leaks: once every variable is gone or empty, every object that was ever
    constructed has been destroyed. (Destroying one twice would be undefined.) *)
Theorem c54_no_leaks : forall n ops, o_fair_all (o_blank n) ops ->
  (forall x c, nth_error (fst (o_story (o_blank n) ops)) x <> Some (Some (Some c))) ->
  exists s, o_run (o_start n) ops = Ok (s, snd (o_story (o_blank n) ops))
            /\ forall i o, nth_error (objs s) i = Some o -> o = None.
Proof.
  intros n ops F None_left. destruct (o_run_ok ops _ _ (o_start_ok n) F) as [s [E I]].
  exists s. split; [exact E|]. intros i [c|] H; [|reflexivity]. exfalso.
  destruct (I_all _ _ I i c H) as [x O].
  assert (L : x < length (fst (o_story (o_blank n) ops))) by (rewrite <- (I_len _ _ I); exact (nth_some _ _ _ O)).
  destruct (nth_error (fst (o_story (o_blank n) ops)) x) as [v|] eqn:Ep; [|apply nth_error_None in Ep; lia].
  pose proof (I_rel _ _ I x _ v O Ep) as R. destruct v as [[d|]|]; cbn in R; try tauto. exact (None_left x d Ep).
Qed.

(** The operations that can be interrupted, and the variable they work on. *)
Definition works_on (o : oop) : option nat :=
  match o with
  | C_copy x _ _ | C_move x _ _ | C_val x _ _ | A_copy x _ _ | A_move x _ _ | A_val x _ _ | Emplace x _ _ => Some x
  | _ => None
  end.

Lemma exceptions_at : forall s p o s1, Inv s p -> o_fair p o -> o_exec s o = Ok (s1, O_thrown) ->
  exists p1, p1 = fst (o_does p o)
    /\ (forall y, works_on o <> Some y -> nth_error p1 y = nth_error p y)
    /\ (forall x, works_on o = Some x ->
          match o with
          | C_copy _ _ _ | C_move _ _ _ | C_val _ _ _ => nth_error p1 x = Some None
          | Emplace _ _ _ => nth_error p1 x = Some (Some None)
          | _ => match nth_error p x with
                 | Some (Some (Some _)) => full p1 x
                 | _ => nth_error p1 x = nth_error p x
                 end
          end)
    /\ alive (objs s1) <= alive (objs s).
Proof.
  intros s p o s1 I F E. destruct (o_exec_ok s p o I F) as [s2 [E2 I2]]. rewrite E in E2. injection E2 as <- Ans.
  exists (fst (o_does p o)). split; [reflexivity|]. rewrite (alive_holding _ _ I), (alive_holding _ _ I2). clear E.
  assert (Set_ : forall x v, x < length p -> forall y, nth_error (set_var p x v) y = if Nat.eqb x y then Some v else nth_error p y).
  { intros x v L y. rewrite set_var_list, nth_list_set by exact L. destruct (Nat.eqb_spec x y) as [->|]; [|reflexivity].
    destruct (Nat.ltb_spec y (length p)); [reflexivity|lia]. }
  assert (Few : forall x v, x < length p -> match nth_error p x with Some (Some (Some _)) => True | _ => match v with Some (Some _) => False | _ => True end end ->
            holding (set_var p x v) <= holding p).
  { intros x v L Hv. rewrite set_var_list by exact L. clear - Hv. unfold holding. revert x Hv.
    induction p as [|u r IH]; intros [|x] Hv; cbn [list_set filter]; try lia.
    - cbn [nth_error] in Hv. destruct u as [[d|]|]; [destruct v as [[e|]|]; cbn; lia| |]; destruct v as [[e|]|]; cbn; try tauto; lia.
    - cbn [nth_error] in Hv. specialize (IH x Hv). destruct u as [[d|]|]; cbn [length]; lia. }
  assert (Lt : forall x, there p x -> x < length p) by (intros x [h H]; exact (nth_some _ _ _ H)).
  assert (Lr : forall x, room_for p x -> x < length p) by (intros x H; exact (nth_some _ _ _ H)).
  assert (Fill : forall x c t u after, x < length p -> O_thrown = snd (s_fill p x c t u after) ->
            match u with Some (Some _) => False | _ => True end ->
            (forall y, y <> x -> nth_error (fst (s_fill p x c t u after)) y = nth_error p y)
            /\ nth_error (fst (s_fill p x c t u after)) x = Some u /\ holding (fst (s_fill p x c t u after)) <= holding p).
  { intros x c t u after L A Hu. destruct t as [|w]; [discriminate|]. cbn [s_fill fst]. split; [|split].
    - intros y Ne. rewrite Set_ by exact L. destruct (Nat.eqb_spec x y); [congruence|reflexivity].
    - rewrite Set_, Nat.eqb_refl by exact L. reflexivity.
    - apply Few; [exact L|]. destruct (nth_error p x) as [[[d|]|]|]; try exact Logic.I; destruct u as [[?|]|]; tauto. }
  assert (Over : forall x c t after d, nth_error p x = Some (Some (Some d)) -> O_thrown = snd (s_over p x c t after) ->
            (forall y, y <> x -> nth_error (fst (s_over p x c t after)) y = nth_error p y)
            /\ full (fst (s_over p x c t after)) x /\ holding (fst (s_over p x c t after)) <= holding p).
  { intros x c t after d Hx A. pose proof (nth_some _ _ _ Hx) as L. destruct t as [|w]; [discriminate|]. cbn [s_over fst]. split; [|split].
    - intros y Ne. rewrite Set_ by exact L. destruct (Nat.eqb_spec x y); [congruence|reflexivity].
    - exists w. rewrite Set_, Nat.eqb_refl by exact L. reflexivity.
    - apply Few; [exact L|]. rewrite Hx. exact Logic.I. }
  destruct o; cbn [o_does o_fair works_on] in *; try discriminate Ans.
  - destruct F as [T _]. destruct (of_var p y); [|discriminate].
    destruct (Fill x c t None (fun s => s) (Lr _ T) Ans Logic.I) as [A [B C]].
    split; [intros z Nz; apply A; congruence|]. split; [|exact C]. intros z Ez. injection Ez as <-. exact B.
  - destruct F as [T _]. destruct (of_var p y); [|discriminate].
    destruct (Fill x c t None (fun s => hollow s y) (Lr _ T) Ans Logic.I) as [A [B C]].
    split; [intros z Nz; apply A; congruence|]. split; [|exact C]. intros z Ez. injection Ez as <-. exact B.
  - destruct F as [T _].
    destruct (Fill x _ t None (fun s => arg_after s a) (Lr _ T) Ans Logic.I) as [A [B C]].
    split; [intros z Nz; apply A; congruence|]. split; [|exact C]. intros z Ez. injection Ez as <-. exact B.
  - destruct F as [Tx _]. destruct (Nat.eqb x y); [discriminate|]. destruct (of_var p y); [|discriminate].
    destruct (there_cases p x Tx) as [[d H]|H].
    + rewrite (of_full p x d H) in *. destruct (Over x c t (fun s => s) d H Ans) as [A [B C]].
      split; [intros z Nz; apply A; congruence|]. split; [|exact C]. intros z Ez. injection Ez as <-. rewrite H. exact B.
    + rewrite (of_empty p x H) in *. destruct (Fill x c t (Some None) (fun s => s) (Lt _ Tx) Ans Logic.I) as [A [B C]].
      split; [intros z Nz; apply A; congruence|]. split; [|exact C]. intros z Ez. injection Ez as <-. rewrite H. exact B.
  - destruct F as [Tx _]. destruct (Nat.eqb x y); [discriminate|]. destruct (of_var p y); [|discriminate].
    destruct (there_cases p x Tx) as [[d H]|H].
    + rewrite (of_full p x d H) in *. destruct (Over x c t (fun s => hollow s y) d H Ans) as [A [B C]].
      split; [intros z Nz; apply A; congruence|]. split; [|exact C]. intros z Ez. injection Ez as <-. rewrite H. exact B.
    + rewrite (of_empty p x H) in *. destruct (Fill x c t (Some None) (fun s => hollow s y) (Lt _ Tx) Ans Logic.I) as [A [B C]].
      split; [intros z Nz; apply A; congruence|]. split; [|exact C]. intros z Ez. injection Ez as <-. rewrite H. exact B.
  - destruct F as [Tx _]. destruct (there_cases p x Tx) as [[d H]|H].
    + rewrite (of_full p x d H) in *. destruct (Over x _ t (fun s => arg_after s a) d H Ans) as [A [B C]].
      split; [intros z Nz; apply A; congruence|]. split; [|exact C]. intros z Ez. injection Ez as <-. rewrite H. exact B.
    + rewrite (of_empty p x H) in *. destruct (Fill x _ t (Some None) (fun s => arg_after s a) (Lt _ Tx) Ans Logic.I) as [A [B C]].
      split; [intros z Nz; apply A; congruence|]. split; [|exact C]. intros z Ez. injection Ez as <-. rewrite H. exact B.
  - destruct F as [Tx _]. destruct (Fill x _ t (Some None) (fun s => arg_after s a) (Lt _ Tx) Ans Logic.I) as [A [B C]].
    split; [intros z Nz; apply A; congruence|]. split; [|exact C]. intros z Ez. injection Ez as <-. exact B.
  - destruct (of_var p x); discriminate.
  - destruct (of_var p x); discriminate.
  - destruct t; [destruct (of_var p x); discriminate|]. cbn [fst]. split; [reflexivity|]. split; [discriminate|lia].
  - destruct t; [destruct (of_var p x); discriminate|]. cbn [fst]. split; [reflexivity|]. split; [discriminate|lia].
Qed.

(** An exception from the wrapped type harms nobody else: every other variable, the
    source of a move included, is what it was, and no object stays behind. The
    variable itself never starts to hold anything: a constructor leaves no variable,
    emplace leaves it empty, and an assignment leaves it empty or still holding. *)
Theorem c54_exceptions : forall n ops s l o s1,
  o_fair_all (o_blank n) ops -> o_run (o_start n) ops = Ok (s, l) ->
  o_fair (fst (o_story (o_blank n) ops)) o -> o_exec s o = Ok (s1, O_thrown) ->
  let p := fst (o_story (o_blank n) ops) in
  let p1 := fst (o_does p o) in
  (forall y, works_on o <> Some y -> nth_error p1 y = nth_error p y)
  /\ (forall x, works_on o = Some x ->
        match o with
        | C_copy _ _ _ | C_move _ _ _ | C_val _ _ _ => nth_error p1 x = Some None
        | Emplace _ _ _ => nth_error p1 x = Some (Some None)
        | _ => match nth_error p x with
               | Some (Some (Some _)) => full p1 x
               | _ => nth_error p1 x = nth_error p x
               end
        end)
  /\ alive (objs s1) = holding p1 /\ alive (objs s1) <= alive (objs s).
Proof.
  intros n ops s l o s1 Fa E F Ex p p1. destruct (o_run_ok ops _ _ (o_start_ok n) Fa) as [s2 [E2 I]].
  rewrite E in E2. injection E2 as <- _. destruct (exceptions_at s p o s1 I F Ex) as [q [-> [A [B C]]]].
  split; [exact A|]. split; [exact B|]. split; [|exact C].
  destruct (o_exec_ok s p o I F) as [s3 [E3 I3]]. rewrite Ex in E3. injection E3 as <- _. exact (alive_holding _ _ I3).
Qed.

(** emplace destroys before it reads its arguments: given a reference to what the
    variable holds, it reads an object that is gone. Everything else the caller owes
    is met, and an assignment from the same reference is fine. *)
Theorem c54_emplace_self_refuted : exists p c,
  full p 0 /\ arg_val p (Ref 0) = c /\ snd (o_does p (Emplace 0 (Ref 0) Works)) = O_unit
  /\ o_run (o_start 1) [C_val 0 (Temp c) Works; Emplace 0 (Ref 0) Works] = Undef
  /\ exists s, o_run (o_start 1) [C_val 0 (Temp c) Works; A_val 0 (Ref 0) Works; Value 0] = Ok (s, [O_unit; O_unit; O_content c]).
Proof.
  exists [Some (Some (Full 7))], (Full 7). split; [exists (Full 7); reflexivity|]. split; [reflexivity|]. split; [reflexivity|].
  split; [reflexivity|]. exists (OSt [Some (Full 7)] [Some (Opt true (Some 0))]). reflexivity.
Qed.

(** An emplace that throws does not bring the old value back (assignment keeps the
    variable holding): no strong exception safety. *)
Theorem c54_emplace_throws_refuted : forall z, exists s,
  o_run (o_start 1) [C_val 0 (Temp (Full z)) Works; Emplace 0 (Temp (Full (z + 1))) (Throws Hollow); Has 0]
  = Ok (s, [O_unit; O_thrown; O_bool false]).
Proof. intros z. exists (OSt [None] [Some empty]). reflexivity. Qed.

(** Dereferencing an empty optional is undefined (value() is the checked form). *)
Theorem c54_deref_empty_refuted :
  o_run (o_start 1) [C_null 0; Deref 0] = Undef
  /\ exists s, o_run (o_start 1) [C_null 0; Value 0] = Ok (s, [O_unit; O_bad_access]).
Proof. split; [reflexivity|]. exists (OSt [] [Some empty]). reflexivity. Qed.

(** Comparing with a bare value is comparing with an optional that holds it, and
    comparing with nullopt is comparing with an empty one. *)
Theorem c54_mixed_comparisons : forall (A B : Type) (eq lt le gt ge : A -> B -> bool) (qe : B -> A -> bool),
  (forall a c, qe c a = eq a c) ->
  forall (l : option A) (r : option B) (a : A) (c : B),
    (ov_eq eq l c, ov_ne eq l c, ov_lt lt l c, ov_le le l c, ov_gt gt l c, ov_ge ge l c)
    = (o_eq eq l (Some c), o_ne eq l (Some c), o_lt lt l (Some c), o_le le l (Some c), o_gt gt l (Some c), o_ge ge l (Some c))
    /\ (vo_eq qe a r, vo_lt lt a r, vo_le le a r, vo_gt gt a r, vo_ge ge a r)
       = (o_eq eq (Some a) r, o_lt lt (Some a) r, o_le le (Some a) r, o_gt gt (Some a) r, o_ge ge (Some a) r)
    /\ (on_eq l, on_lt l, on_le l) = (o_eq eq l None, o_lt lt l None, o_le le l None)
    /\ (no_eq r, no_lt r, no_le r) = (o_eq eq None r, o_lt lt None r, o_le le None r).
Proof.
  intros A B eq lt le gt ge qe Hq l r a c.
  split; [destruct l; reflexivity|]. split; [destruct r; cbn; rewrite ?Hq; reflexivity|].
  split; [destruct l; reflexivity|destruct r; reflexivity].
Qed.

(** If the wrapped type's operators describe a total order, so do the optional's,
    with the empty optional below everything else. *)
Definition total_order {A} (eq lt le gt ge : A -> A -> bool) : Prop :=
  (forall a c, eq a c = true <-> a = c)
  /\ (forall a, lt a a = false)
  /\ (forall a c d, lt a c = true -> lt c d = true -> lt a d = true)
  /\ (forall a c, lt a c = true \/ a = c \/ lt c a = true)
  /\ (forall a c, gt a c = lt c a /\ le a c = negb (lt c a) /\ ge a c = negb (lt a c)).
Theorem c54_order : forall (A : Type) (eq lt le gt ge : A -> A -> bool),
  total_order eq lt le gt ge ->
  total_order (o_eq eq) (o_lt lt) (o_le le) (o_gt gt) (o_ge ge) /\ forall a, o_lt lt None (Some a) = true.
Proof.
  intros A eq lt le gt ge [He [Hi [Ht [Hc Hd]]]]. split; [|reflexivity]. unfold total_order.
  split; [|split; [|split; [|split]]].
  - intros [a|] [c|]; cbn; split; try discriminate; try reflexivity.
    + intros H. apply He in H. congruence.
    + intros H. apply He. congruence.
  - intros [a|]; cbn; [apply Hi|reflexivity].
  - intros [a|] [c|] [d|]; cbn; try discriminate; try reflexivity. apply Ht.
  - intros [a|] [c|]; cbn; auto. destruct (Hc a c) as [H|[H|H]]; [left; exact H|right; left; congruence|right; right; exact H].
  - intros [a|] [c|]; cbn; auto.
Qed.

(** A program that meets the hypotheses: copies, moves, exceptions in between, a
    value assigned to itself, and everything gone at the end. *)
Definition demo : list oop :=
  [ C_val 0 (Temp (Full 5)) Works; C_copy 1 0 Works; C_move 2 0 Works; C_null 3;
    Value 0; Value 2; A_val 0 (Ref 2) Works; A_val 0 (Ref 0) Works; Value 0;
    A_copy 3 1 (Throws Hollow); Has 3; A_move 3 1 Works; Value 3; Value 1;
    Emplace 1 (Mov 3) Works; Value 1; A_val 2 (Temp (Full 9)) (Throws (Full 8)); Value 2;
    Emplace 2 (Ref 1) (Throws Hollow); Has 2; Value_or 2 (Ref 1) Works; Value_or_move 1 (Temp (Full 4)) Works; Value 1;
    A_null 0; Value 0; Reset 3; D_var 0; D_var 1; D_var 2; D_var 3 ]%Z.
Example c54_demo : o_fair_all (o_blank 4) demo
  /\ match o_run (o_start 4) demo with
     | Ok (s, l) => l = [ O_unit; O_unit; O_unit; O_unit; O_content Hollow; O_content (Full 5); O_unit; O_unit; O_content (Full 5);
                          O_thrown; O_bool false; O_unit; O_content (Full 5); O_content Hollow;
                          O_unit; O_content (Full 5); O_thrown; O_content (Full 8);
                          O_thrown; O_bool false; O_content (Full 5); O_content (Full 5); O_content Hollow;
                          O_unit; O_bad_access; O_unit; O_unit; O_unit; O_unit; O_unit ]
                    /\ alive (objs s) = 0 /\ length (objs s) = 7
     | _ => False
     end.
Proof.
  split.
  - cbn. repeat split; try (eexists; reflexivity); discriminate.
  - vm_compute. auto.
Qed.
Example c54_exception_case :
  let p := fst (o_story (o_blank 2) [C_val 0 (Temp (Full 5)) Works; C_null 1]) in
  o_fair p (A_move 1 0 (Throws Hollow))
  /\ match o_run (o_start 2) [C_val 0 (Temp (Full 5)) Works; C_null 1; A_move 1 0 (Throws Hollow); Value 0; Has 1] with
     | Ok (_, l) => l = [O_unit; O_unit; O_thrown; O_content (Full 5); O_bool false]
     | _ => False
     end.
Proof. split; [split; eexists; reflexivity|reflexivity]. Qed.
Example c54_order_case : total_order Z.eqb Z.ltb Z.leb Z.gtb Z.geb.
Proof.
  split; [exact Z.eqb_eq|]. split; [exact Z.ltb_irrefl|].
  split; [intros a c d H1 H2; apply Z.ltb_lt in H1, H2; apply Z.ltb_lt; lia|].
  split; [intros a c; rewrite !Z.ltb_lt; lia|].
  intros a c. split; [apply Z.gtb_ltb|]. split; [apply Z.leb_antisym|].
  rewrite Z.geb_leb. apply Z.leb_antisym.
Qed.

Print Assumptions c54_programs.
Print Assumptions c54_no_leaks.
Print Assumptions c54_exceptions.
Print Assumptions c54_emplace_self_refuted.
Print Assumptions c54_emplace_throws_refuted.
Print Assumptions c54_deref_empty_refuted.
Print Assumptions c54_mixed_comparisons.
Print Assumptions c54_order.
