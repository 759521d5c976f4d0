(** C50: threads with variables that share copy-on-write storage.

    [g_run] lets threads run their calls access by access under any schedule (Par.v);
    [g_log] is the list of accesses, and [race_free] says it has no data race (ParLog.v);
    [v_run] executes a thread's calls on variables that hold independent values
    (StoreSpec.v). *)

From Coq Require Import ZArith List Bool Lia String ZifyBool ZifyNat ZifyN.
From Verif Require Import Base BaseFacts Keys Wire Spec SpecOps HeapOps Store StoreSpec StoreFacts StoreSteps StoreRun PropsStore Par SpecPar ParLog ParFacts ParWp ParCalls ParRun ParRace Demo.
Import ListNotations.
Open Scope string_scope.
Open Scope list_scope.
Open Scope Z_scope.

(** What a thread must have to show, given the values it was started with and its
    calls: the answers its calls would give if nobody else were there, and between
    calls the values too. *)
Definition stands (c : cells) (th : thread) (sp : env * list hop) : Prop :=
  let '(e, os) := sp in
  match code th with
  | None => exists ds, os = ds ++ todo th /\ out th = snd (v_run e ds) /\ Forall2 (shows c) (vars_ th) (fst (v_run e ds))
  | Some _ => exists ds o, os = ds ++ o :: todo th /\ out th = snd (v_run e ds)
  end.

Lemma stands_all acq g sps : GI acq g sps -> Forall2 (stands (cs (mem_ g))) (threads g) sps.
Proof.
  intros (ps & <- & W & F). clear W. induction F as [|[hand th] [e os] ps sps T F IH]; cbn [map]; constructor; [|exact IH].
  cbn [TI stands snd fst] in *. destruct (code th).
  - destruct T as (ds & o & e1 & S & V & _). exists ds, o. rewrite V. auto.
  - destruct T as (ds & e1 & S & V & (_ & o & [_ A]) & _). exists ds. rewrite V. auto.
Qed.

(** A program of one thread makes the variables; they are dealt out to threads. *)
Definition dealt (n : nat) (os : list hop) (jobs : list (nat * list hop)) (s : state) : Prop :=
  Forall (call_ok n) os /\ all_allowed (init n) (repeat VNull n) os /\ reached n os s /\ total jobs = n.
Definition starts (n : nat) (os : list hop) (jobs : list (nat * list hop)) : list (env * list hop) :=
  shares jobs (fst (v_run (repeat VNull n) os)).

Lemma dealt_ok acq n os jobs s : dealt n os jobs s -> Forall (fun p => good acq (fst p) (snd p)) (starts n os jobs) ->
  GI acq (fork s jobs) (starts n os jobs).
Proof.
  intros (C & A & (l & R) & T) G. destruct (run_allowed os (init n) (repeat VNull n) (Inv_init n)) as (s1 & E & I & L).
  { rewrite repeat_length. exact C. } { exact A. }
  rewrite R in E. injection E as <- _. apply fork_ok; [exact I| |exact G]. rewrite L, repeat_length. exact T.
Qed.

Definition all_orderly (sps : list (env * list hop)) : Prop := Forall (fun p => orderly (fst p) (snd p)) sps.

(** Where reading a count acquires: whatever the schedule, no race and no access to
    released storage, and each thread gets what it would get alone. *)
Theorem c50_threads n os jobs s sched : dealt n os jobs s -> all_orderly (starts n os jobs) ->
  race_free (g_log true (fork s jobs) sched) /\
  exists g, g_run true (fork s jobs) sched = Ok g /\ Forall2 (stands (cs (mem_ g))) (threads g) (starts n os jobs).
Proof.
  intros D O. destruct (run_ok true sched (fork s jobs) (starts n os jobs)) as (g & E & G).
  - apply (dealt_ok true n os jobs s D). eapply Forall_impl; [|exact O]. intros p H. split; auto.
  - split; [exact (run_race_free _ _ _ _ _ E)|]. exists g. split; [exact E|]. eapply stands_all. exact G.
Qed.
Print Assumptions c50_threads.

(** Threads that only make, copy, move, destroy and read need no more than the counts
    std::shared_ptr has. *)
Theorem c50_looking n os jobs s sched acquire : dealt n os jobs s -> all_orderly (starts n os jobs) ->
  Forall (fun p => forallb looks (snd p) = true) (starts n os jobs) ->
  race_free (g_log acquire (fork s jobs) sched) /\
  exists g, g_run acquire (fork s jobs) sched = Ok g /\ Forall2 (stands (cs (mem_ g))) (threads g) (starts n os jobs).
Proof.
  intros D O LK. destruct (run_ok acquire sched (fork s jobs) (starts n os jobs)) as (g & E & G).
  - apply (dealt_ok acquire n os jobs s D). apply Forall_forall. intros p I. split.
    + exact (proj1 (Forall_forall _ _) O p I).
    + right. exact (proj1 (Forall_forall _ _) LK p I).
  - split; [exact (run_race_free _ _ _ _ _ E)|]. exists g. split; [exact E|]. eapply stands_all. exact G.
Qed.
Print Assumptions c50_looking.

(** At the end every thread has run its calls, and the counts are exact: nothing leaks
    and nothing was released twice. *)
Lemma roots_vars acq c sy ps sps : Forall2 (TI acq c sy) ps sps -> forallb finished (map snd ps) = true ->
  req (roots (map view ps)) (flat_map vars_ (map snd ps)).
Proof.
  intros F. induction F as [|[hand th] sp ps sps T F IH]; cbn [map forallb snd]; intros H; [apply req_refl|].
  apply andb_true_iff in H. destruct H as [H1 H2]. unfold roots in *. cbn [flat_map view fst snd].
  unfold finished in H1. destruct (code th) eqn:C; [discriminate|]. destruct (junk th); [|discriminate].
  cbn [TI] in T. rewrite C in T. destruct T as (ds & e & _ & _ & (Rq & _) & _). rewrite app_nil_r. apply req_app; [exact Rq|exact (IH H2)].
Qed.
Theorem c50_finished n os jobs s sched g : dealt n os jobs s -> all_orderly (starts n os jobs) ->
  g_run true (fork s jobs) sched = Ok g -> forallb finished (threads g) = true ->
  Forall2 (fun th p => out th = snd (v_run (fst p) (snd p)) /\ Forall2 (shows (cs (mem_ g))) (vars_ th) (fst (v_run (fst p) (snd p))))
    (threads g) (starts n os jobs) /\
  (forall a k c, cell_at (cs (mem_ g)) a = Some (k, c) ->
     k = nref a (flat_map vars_ (threads g)) + nref a (all_kids (cs (mem_ g))) /\ 0 < k) /\
  ((forall h, In h (flat_map vars_ (threads g)) -> href h = None) -> forall a, cell_at (cs (mem_ g)) a = None).
Proof.
  intros D O R FN. destruct (run_ok true sched (fork s jobs) (starts n os jobs)) as (g' & E & G).
  { apply (dealt_ok true n os jobs s D). eapply Forall_impl; [|exact O]. intros p H. split; auto. }
  rewrite R in E. injection E as <-. split.
  - pose proof (stands_all _ _ _ G) as S. clear - S FN. induction S as [|th [e l] ths sps H S IH]; constructor.
    + cbn [forallb] in FN. apply andb_true_iff in FN. destruct FN as [FN _]. unfold finished in FN. cbn [stands fst snd] in *.
      destruct (code th); [discriminate|]. destruct (junk th); [|discriminate]. destruct (todo th); [|discriminate].
      destruct H as (ds & -> & H1 & H2). rewrite app_nil_r. auto.
    + apply IH. cbn [forallb] in FN. apply andb_true_iff in FN. tauto.
  - destruct G as (ps & PS & W & F). rewrite <- PS in *. pose proof (roots_vars _ _ _ _ _ F FN) as Rq.
    pose proof (wf_req _ _ _ Rq (w_wf _ _ _ _ W)) as Wf. split; [exact (proj1 Wf)|].
    intros NR. exact (nothing_left _ _ Wf NR).
Qed.
Print Assumptions c50_finished.

(** From wherever a schedule has led, some schedule leads to the end; a thread left
    alone needs nobody else to get there. *)
Theorem c50_ends n os jobs s sched g : dealt n os jobs s -> all_orderly (starts n os jobs) ->
  g_run true (fork s jobs) sched = Ok g ->
  (forall t th, nth_error (threads g) t = Some th -> exists k g' th',
     g_run true g (repeat t k) = Ok g' /\ nth_error (threads g') t = Some th' /\ finished th' = true) /\
  (exists sched' g', g_run true g sched' = Ok g' /\ forallb finished (threads g') = true).
Proof.
  intros D O R. destruct (run_ok true sched (fork s jobs) (starts n os jobs)) as (g' & E & G).
  { apply (dealt_ok true n os jobs s D). eapply Forall_impl; [|exact O]. intros p H. split; auto. }
  rewrite R in E. injection E as <-. split.
  - intros t th A. destruct (solo _ _ _ _ _ G A) as (k & g' & th' & E & A' & F & _). eauto 6.
  - destruct (all_end true _ (List.length (threads g)) g G ltac:(lia)) as (sc & g' & E & _ & L & F). exists sc, g'. split; [exact E|].
    apply forallb_forall. intros th I. apply In_nth_error in I. destruct I as (t & I). apply (F t); [|exact I].
    rewrite <- L. apply nth_error_Some. congruence.
Qed.
Print Assumptions c50_ends.

(** ** Cases *)
Definition made : list hop :=
  [ O_make 0 New_array; O_push_back 0 (Lit (VInt 1)); O_make 1 New_object; O_insert 1 (VStr (b "l")) (Cref 0);
    O_copy 2 1; O_copy 3 0 ].
Definition work : list (nat * list hop) :=
  [ (2%nat, [O_push_back 0 (Lit (VInt 2)); O_insert 1 (VStr (b "m")) (Rref 0); O_read 0 1 (R_at (b "x"))]);
    (2%nat, [O_read 1 0 (R_get (b "l")); O_push_front 1 (Cref 0); O_erase 0 (VStr (b "l")); O_destroy 1]) ].

Ltac settle := repeat first [exact I | reflexivity | apply Forall_cons | apply Forall_nil | lia | discriminate | apply conj].
Ltac calls := unfold made, work; settle; cbn [call_ok src_in scalar]; settle.
Ltac permitted := vm_compute; settle; try (intros E; discriminate E).
Ltac each := match goal with |- context [starts ?n ?os ?j] => let l := eval vm_compute in (starts n os j) in change (starts n os j) with l end; unfold all_orderly;
  repeat apply Forall_cons; try apply Forall_nil; permitted.

Example c50_case : exists s, dealt 4 made work s /\ all_orderly (starts 4 made work) /\
  forall sched, In sched [List.concat (repeat [0%nat; 1%nat; 1%nat] 30); repeat 1%nat 40 ++ repeat 0%nat 40; List.concat (repeat [0%nat; 1%nat] 40)] ->
  match g_run true (fork s work) sched with
  | Ok g => forallb finished (threads g) = true /\
            map out (threads g) = [[A_unit; A_unit; A_err out_of_range]; [A_unit; A_unit; A_unit; A_unit]]
  | _ => False
  end.
Proof.
  eexists. split; [|split].
  - split; [|split; [|split]].
    + calls.
    + permitted.
    + eexists. vm_compute. reflexivity.
    + reflexivity.
  - each.
  - intros sched. cbn [In]. intros [<- |[<- |[<- |[]]]]; vm_compute; split; reflexivity.
Qed.
Definition browse : list (nat * list hop) :=
  [ (2%nat, [O_copy 0 1; O_read 0 0 (R_get (b "l")); O_destroy 1]); (2%nat, [O_read 1 0 (R_get (b "l")); O_destroy 0; O_move 0 1]) ].
Example c50_looking_case : exists s, dealt 4 made browse s /\ all_orderly (starts 4 made browse) /\
  Forall (fun p => forallb looks (snd p) = true) (starts 4 made browse) /\
  match g_run false (fork s browse) (List.concat (repeat [0%nat; 1%nat] 20)) with
  | Ok g => forallb finished (threads g) = true /\ map vars_ (threads g) = [[HArr 0; HNull]; [HArr 0; HNull]]
  | _ => False
  end.
Proof.
  eexists. split; [|split; [|split]].
  - split; [|split; [|split]].
    + calls.
    + permitted.
    + eexists. vm_compute. reflexivity.
    + reflexivity.
  - each.
  - each.
  - vm_compute. split; reflexivity.
Qed.

(** ** What is false *)
Definition races (acquire : bool) (jobs : list (nat * list hop)) : Prop :=
  exists n os s sched, dealt n os jobs s /\ ~ race_free (g_log acquire (fork s jobs) sched).

Ltac race_witness n os sched i j :=
  let r := eval vm_compute in (s_run (init n) os) in
  match r with Ok (?s, _) => exists n, os, s, sched end;
  split; [split; [calls|split; [permitted|split; [eexists; vm_compute; reflexivity|reflexivity]]]
         |apply (race_found _ i j); vm_compute; reflexivity].

(** With std::shared_ptr, a thread that finds itself the last owner writes in place
    although nothing orders the other thread's last look before that: both calls are
    orderly, on values of their own. *)
Theorem c50_relaxed_refuted :
  let jobs := [(1%nat, [O_push_back 0 (Lit (VInt 2))]); (2%nat, [O_read 1 0 R_front; O_destroy 0])] in
  races false jobs /\ all_orderly (starts 3 [O_make 0 New_array; O_push_back 0 (Lit (VInt 1)); O_copy 1 0] jobs).
Proof.
  split.
  - race_witness 3%nat [O_make 0 New_array; O_push_back 0 (Lit (VInt 1)); O_copy 1 0] (repeat 1%nat 10 ++ repeat 0%nat 12) 0%nat 5%nat.
  - each.
Qed.
(** clear() and resize() race even where reading a count acquires. *)
Theorem c50_clear_refuted : races true [(1%nat, [O_clear 0]); (2%nat, [O_read 1 0 R_front])].
Proof. race_witness 3%nat [O_make 0 New_array; O_push_back 0 (Lit (VInt 1)); O_copy 1 0] (repeat 1%nat 10 ++ repeat 0%nat 12) 0%nat 2%nat. Qed.
Theorem c50_resize_refuted : races true [(1%nat, [O_resize 0 3 (Lit VNull)]); (2%nat, [O_read 1 0 R_front])].
Proof. race_witness 3%nat [O_make 0 New_array; O_push_back 0 (Lit (VInt 1)); O_copy 1 0] (repeat 0%nat 10 ++ repeat 1%nat 12) 1%nat 2%nat. Qed.
Print Assumptions c50_relaxed_refuted.
Print Assumptions c50_clear_refuted.
Print Assumptions c50_resize_refuted.
