(** C52: views.  For every program that uses a view only while the variable it was
    reached through is unchanged (or, for a view of the whole variable, still holds an
    aggregate of the same kind), views show exactly what their owner holds, whichever
    storage is shared, and nothing of them can be seen in the owners. *)

From Coq Require Import ZArith List Bool Lia String ZifyBool ZifyNat ZifyN.
From Verif Require Import Base BaseFacts Keys Wire Spec SpecOps HeapOps HeapFacts
  Store StoreSpec StoreFacts StoreSteps StoreRun Views Cursor SpecCursor SpecView CursorFacts CursorRun PropsStore ViewFrame ViewRun Demo.
Import ListNotations.
Open Scope string_scope.
Open Scope list_scope.
Open Scope Z_scope.

(** View [u] can be read, and shows [v]. *)
Definition sees (t : vstate) (u : nat) (v : value) : Prop :=
  exists w h, get_view t u = Ok w /\ through (base t) w = Ok h /\ shows (heap (base t)) h v.

Theorem c52_views n m os : mindful n m (v_init n m) (vs_start n m) os ->
  exists t e us l, v_run_ops (v_init n m) os = Ok (t, l) /\ vs_steps (vs_start n m) os = Some ((e, us), l) /\
    (forall x, (x < n)%nat -> observes (base t) x (val e x)) /\
    (forall u v, (u < m)%nat -> worth e (view_at us u) = Some v -> sees t u v).
Proof.
  intros M. destruct (V_run n m os _ _ (VInv_init n m) (repeat_length _ _) (repeat_length _ _) M) as (t & [e us] & l & R & S & C & Ln & Lm).
  exists t, e, us, l. split; [exact R|]. split; [exact S|]. cbn [fst snd] in *. pose proof C as (I & T & F). cbn [fst snd] in I, T, F. split.
  - intros x L. destruct (L_get _ _ _ x I ltac:(lia)) as (h & N & _ & Sh). exists h. auto.
  - intros u v L W. destruct (VInv_get t e us u C ltac:(lia)) as (w & G & V). destruct (worth_ok _ _ _ _ _ I T V W) as (h & TH & Sh & _).
    exists w, h. auto.
Qed.
Print Assumptions c52_views.

(** The states such programs reach. *)
Definition viewing (n m : nat) (t : vstate) (st : vspec) : Prop :=
  exists os l, mindful n m (v_init n m) (vs_start n m) os /\ v_run_ops (v_init n m) os = Ok (t, l) /\ vs_steps (vs_start n m) os = Some (st, l).
Lemma viewing_inv n m t st : viewing n m t st -> VInv t st /\ List.length (fst st) = n /\ List.length (snd st) = m.
Proof.
  intros (os & l & M & R & S). destruct (V_run n m os _ _ (VInv_init n m) (repeat_length _ _) (repeat_length _ _) M) as (t' & st' & l' & R' & S' & C & Ln & Lm).
  rewrite R in R'. apply Ok_inj in R'. injection R' as <- <-. rewrite S in S'. injection S' as <-. auto.
Qed.

(** Views do not count: what refcount() says, through a view or not, is the number of
    owning handles, in variables and inside containers. *)
Theorem c52_uncounted n m t e us u v : viewing n m t (e, us) -> (u < m)%nat -> worth e (view_at us u) = Some v ->
  exists w h, get_view t u = Ok w /\ through (base t) w = Ok h /\
    forall a, href h = Some a -> view_count t u = Ok (nref a (vars (base t)) + nref a (all_kids (heap (base t)))).
Proof.
  intros VW L W. destruct (viewing_inv _ _ _ _ VW) as (C & Ln & Lm). cbn [fst snd] in *. pose proof C as (I & T & F). cbn [fst snd] in I, T, F.
  destruct (VInv_get t e us u C ltac:(lia)) as (w & G & V). destruct (worth_ok _ _ _ _ _ I T V W) as (h & TH & Sh & _).
  exists w, h. split; [exact G|]. split; [exact TH|]. intros a R. unfold view_count. rewrite G. cbn [bind]. rewrite TH. cbn [bind].
  destruct (shows_live _ _ _ _ Sh R) as (k & c & Ce). unfold refcount. rewrite R, Ce. destruct I as [[W1 _] _]. cbn [app] in W1.
  destruct (W1 _ _ _ Ce) as [-> _]. reflexivity.
Qed.
Print Assumptions c52_uncounted.

(** The owners cannot tell whether there are views: leaving out all there is about
    views leaves the same variables, storage, counts and answers. *)
Fixpoint calls (os : list vop) : list hop :=
  match os with
  | [] => []
  | Base o :: r => o :: calls r
  | _ :: r => calls r
  end.
Fixpoint call_answers (l : list vans) : list ans :=
  match l with
  | [] => []
  | W_call a :: r => a :: call_answers r
  | _ :: r => call_answers r
  end.
Definition owns (o : vop) : Prop := match o with Own _ _ => True | _ => False end.

Lemma glance_call s h a : glance s h = Ok a -> call_answers [a] = [].
Proof.
  destruct h; cbn [glance]; try (intros H; apply Ok_inj in H; subst; reflexivity);
    destruct (cell_at (heap s) a0) as [[k [f|g]]|]; try discriminate; intros H; apply Ok_inj in H; subst; reflexivity.
Qed.
Lemma view_base t o t' a : v_exec_op t o = Ok (t', a) -> ~ owns o -> match o with Base _ => True | _ => base t' = base t /\ call_answers [a] = [] end.
Proof.
  intros H N. destruct o as [o|w x|w u r|w u i|u|w u|w u|w|x u|w y r]; cbn [v_exec_op owns] in *; try exact I; try tauto.
  - bind_inv H. apply Ok_inj in H. injection H as <- <-. auto.
  - bind_inv H. bind_inv H. bind_inv H. destruct r2; apply Ok_inj in H; injection H as <- <-; auto.
  - bind_inv H. bind_inv H. bind_inv H. destruct r1 as [|[p hm]]; apply Ok_inj in H; injection H as <- <-; auto.
  - bind_inv H. bind_inv H. bind_inv H. apply Ok_inj in H. injection H as <- <-. split; [reflexivity|]. exact (glance_call _ _ _ E1).
  - bind_inv H. apply Ok_inj in H. injection H as <- <-. auto.
  - destruct (Nat.eqb w u); [apply Ok_inj in H; injection H as <- <-; auto|]. bind_inv H. apply Ok_inj in H. injection H as <- <-. auto.
  - apply Ok_inj in H. injection H as <- <-. auto.
  - bind_inv H. bind_inv H. destruct r1; apply Ok_inj in H; injection H as <- <-; auto.
Qed.
Lemma call_answers_cons a l : call_answers (a :: l) = call_answers [a] ++ call_answers l.
Proof. destruct a; reflexivity. Qed.

Theorem c52_invisible os : forall t t' l, (forall o, In o os -> ~ owns o) -> v_run_ops t os = Ok (t', l) ->
  s_run (base t) (calls os) = Ok (base t', call_answers l).
Proof.
  induction os as [|o os IH]; intros t t' l N H; cbn [v_run_ops] in H; [apply Ok_inj in H; injection H as <- <-; reflexivity|].
  bind_inv H. destruct r as [t1 a]. bind_inv H. destruct r as [t2 l2]. apply Ok_inj in H. injection H as <- <-.
  specialize (IH t1 t2 l2 (fun o' J => N o' (or_intror J)) E0). pose proof (view_base _ _ _ _ E (N o (or_introl eq_refl))) as VB.
  destruct o as [o|w x|w u r|w u i|u|w u|w u|w|x u|w y r];
    try (cbn [calls]; destruct VB as (VB1 & VB2); rewrite <- VB1, IH, call_answers_cons, VB2; reflexivity).
  cbn [v_exec_op] in E. bind_inv E. destruct r as [s1 b]. apply Ok_inj in E. injection E as <- <-. cbn [base on_base] in IH.
  cbn [calls s_run]. rewrite E1. cbn [bind]. rewrite IH. reflexivity.
Qed.
Print Assumptions c52_invisible.

(** ** A case *)
Definition key (t : string) : value := VStr (b t).
Definition walk : list vop :=
  [ Base (O_make 0 New_object); Base (O_make 1 New_array); Base (O_push_back 1 (Lit (VInt 7)));
    Base (O_insert 0 (key "list") (Cref 1)); Base (O_copy 2 0);
    View 0 0; Member 1 0 (R_at (b "list")); Member 2 1 R_front;      (* views of x, x["list"], x["list"][0] *)
    Base (O_push_back 1 (Lit (VInt 8)));                              (* a sharer of the storage grows *)
    Base (O_insert 2 (key "more") (Lit VNull));                       (* another sharer is edited *)
    Glance 0; Glance 1; Glance 2; Nth 3 0 0; Glance 3;
    Own 3 1; Base (O_push_back 3 (Lit (VBool true))); Glance 1;       (* y = view.as_owner(); y.push_back(true) *)
    Base (O_insert 0 (key "also") (Cref 3)); Glance 0; Glance 2 ].    (* x itself is edited: its view follows *)
Example c52_walk : match v_run_ops (v_init 4 4) walk with
  | Ok (t, l) =>
      skipn 10 l = [ W_keys [b "list"]; W_len 1; W_scalar (VInt 7); W_done; W_len 1; W_done; W_call A_unit; W_len 1;
                     W_call A_unit; W_keys [b "also"; b "list"]; W_scalar (VInt 7) ]
  | _ => False
  end.
Proof. vm_compute. reflexivity. Qed.
Example c52_walk_mindful : mindful 4 4 (v_init 4 4) (vs_start 4 4) walk.
Proof.
  unfold walk. cbn [mindful].
  repeat (split; [vm_compute; repeat match goal with |- _ /\ _ => split | |- True => exact I end; try lia; try discriminate; try (intros; congruence)|];
    match goal with |- context [match ?x with Some _ => _ | None => _ end] => let y := eval vm_compute in x in change x with y end;
    match goal with |- context [match ?x with Ok _ => _ | _ => _ end] => let y := eval vm_compute in x in change x with y end; cbn iota beta).
  exact I.
Qed.

(** ** What views do not do *)

(** They do not keep what they showed: a view of a variable follows it. *)
Theorem c52_snapshot_refuted : ~ forall n m os o t st t' l a u v,
  mindful n m (v_init n m) (vs_start n m) (os ++ [Base o]) -> v_run_ops (v_init n m) os = Ok (t, l) -> vs_steps (vs_start n m) os = Some (st, l) ->
  v_exec_op t (Base o) = Ok (t', a) -> sees t u v -> (exists w, sees t' u w) -> sees t' u v.
Proof.
  intros H.
  specialize (H 1%nat 1%nat [Base (O_make 0 New_array); View 0 0] (O_push_back 0 (Lit (VInt 1)))).
  assert (E : exists t st t' l a,
    mindful 1 1 (v_init 1 1) (vs_start 1 1) ([Base (O_make 0 New_array); View 0 0] ++ [Base (O_push_back 0 (Lit (VInt 1)))]) /\
    v_run_ops (v_init 1 1) [Base (O_make 0 New_array); View 0 0] = Ok (t, l) /\ vs_steps (vs_start 1 1) [Base (O_make 0 New_array); View 0 0] = Some (st, l) /\
    v_exec_op t (Base (O_push_back 0 (Lit (VInt 1)))) = Ok (t', a) /\ sees t 0 (VArr []) /\ sees t' 0 (VArr [VInt 1])).
  { exists (Vs (St [Some (1, CArr [])] [HArr 0]) [V_at (At_var 0) false]), ([VArr []], [S_root 0 false]),
      (Vs (St [Some (1, CArr [HInt 1])] [HArr 0]) [V_at (At_var 0) false]), [W_call A_unit; W_done], (W_call A_unit).
    split.
    { cbn [app mindful]. vm_compute. repeat match goal with |- _ /\ _ => split | |- True => exact I end; try lia; try discriminate; intros; congruence. }
    split; [vm_compute; reflexivity|]. split; [vm_compute; reflexivity|]. split; [vm_compute; reflexivity|]. split.
    - exists (V_at (At_var 0) false), (HArr 0). split; [reflexivity|]. split; [reflexivity|]. eapply sh_arr; [reflexivity|constructor].
    - exists (V_at (At_var 0) false), (HArr 0). split; [reflexivity|]. split; [reflexivity|]. eapply sh_arr; [reflexivity|]. constructor; constructor. }
  destruct E as (t & st & t' & l & a & M & R & S & X & S1 & S2).
  specialize (H t st t' l a 0%nat (VArr []) M R S X S1 (ex_intro _ _ S2)).
  destruct H as (w1 & h1 & G1 & T1 & Q1). destruct S2 as (w2 & h2 & G2 & T2 & Q2).
  assert (w1 = w2) by congruence. subst w2. assert (h1 = h2) by congruence. subst h2. pose proof (shows_det _ _ _ Q1 _ Q2). discriminate.
Qed.
Print Assumptions c52_snapshot_refuted.

(** A view of a member does not outlast a change to the variable that leaves the
    member as it is: the vector may have moved its elements. *)
Theorem c52_growth_refuted : ~ forall n m os t st l x v t' u w,
  mindful n m (v_init n m) (vs_start n m) os -> v_run_ops (v_init n m) os = Ok (t, l) -> vs_steps (vs_start n m) os = Some (st, l) ->
  vfair n m (base t) st (Base (O_push_back x v)) -> v_exec_op t (Base (O_push_back x v)) = Ok (t', W_call A_unit) ->
  sees t u w -> sees t' u w.
Proof.
  intros H.
  assert (N : ~ sees (Vs (St [Some (1, CArr [HObj 1; HNull]); Some (2, CObj [])] [HArr 0; HObj 1]) [V_at (At_var 0) false; V_lost]) 1 (VObj [])).
  { intros (w & h & G & T & _). injection G as <-. discriminate. }
  apply N. apply (H 2%nat 2%nat
    [Base (O_make 0 New_array); Base (O_make 1 New_object); Base (O_push_back 0 (Cref 1)); View 0 0; Member 1 0 R_front]
    (Vs (St [Some (1, CArr [HObj 1]); Some (2, CObj [])] [HArr 0; HObj 1]) [V_at (At_var 0) false; V_at (At_elem 0 0) true])
    ([VArr [VObj []]; VObj []], [S_root 0 false; S_in 0 (VObj [])])
    [W_call A_unit; W_call A_unit; W_call A_unit; W_done; W_done] 0%nat (Lit VNull)).
  - cbn [mindful]. vm_compute. repeat match goal with |- _ /\ _ => split | |- True => exact I end; try lia; try discriminate; intros; congruence.
  - vm_compute. reflexivity.
  - vm_compute. reflexivity.
  - vm_compute. repeat match goal with |- _ /\ _ => split | |- True => exact I end; try lia; try discriminate; intros; congruence.
  - vm_compute. reflexivity.
  - exists (V_at (At_elem 0 0) true), (HObj 1). split; [reflexivity|]. split; [reflexivity|]. eapply sh_obj; [reflexivity|constructor].
Qed.
Print Assumptions c52_growth_refuted.

(** A view initialised from a member read from an owning handle, view v = x["a"],
    points into the temporary that read returned. *)
Theorem c52_temporary_refuted : ~ forall n m os t st l w y r t' m',
  mindful n m (v_init n m) (vs_start n m) os -> v_run_ops (v_init n m) os = Ok (t, l) -> vs_steps (vs_start n m) os = Some (st, l) ->
  vfair n m (base t) st (View_temp w y r) -> v_exec_op t (View_temp w y r) = Ok (t', W_done) ->
  v_read (val (fst st) y) r = Ok m' -> sees t' w m'.
Proof.
  intros H.
  assert (N : ~ sees (Vs (St [Some (1, CObj [(b "a", HArr 1)]); Some (2, CArr [])] [HObj 0; HArr 1]) [V_lost]) 0 (VArr [])).
  { intros (w & h & G & T & _). injection G as <-. discriminate. }
  apply N. apply (H 2%nat 1%nat
    [Base (O_make 0 New_object); Base (O_make 1 New_array); Base (O_insert 0 (key "a") (Cref 1))]
    (Vs (St [Some (1, CObj [(b "a", HArr 1)]); Some (2, CArr [])] [HObj 0; HArr 1]) [V_val HNull])
    ([VObj [(b "a", VArr [])]; VArr []], [S_val VNull])
    [W_call A_unit; W_call A_unit; W_call A_unit] 0%nat 0%nat (R_get (b "a"))).
  - cbn [mindful]. vm_compute. repeat match goal with |- _ /\ _ => split | |- True => exact I end; try lia; try discriminate; intros; congruence.
  - vm_compute. reflexivity.
  - vm_compute. reflexivity.
  - vm_compute. repeat match goal with |- _ /\ _ => split | |- True => exact I end; try lia; try discriminate; intros; congruence.
  - vm_compute. reflexivity.
  - vm_compute. reflexivity.
Qed.
Print Assumptions c52_temporary_refuted.
