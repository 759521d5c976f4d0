(** C53: who keeps the bytes of finalized buffers alive. *)

From Coq Require Import ZArith List Bool Lia String.
From Verif Require Import Base BaseFacts Keys Wire Read Spec Buf BufFacts WireMore HeapOps SpecPacket SpecBufHold BufHold BufHoldRun Demo.
Import ListNotations.
Open Scope string_scope.
Open Scope list_scope.
Open Scope Z_scope.

(** Whatever a program does with buffers, their iterators and their views - within
    what the caller owes - nothing is undefined and every answer, values and
    reference counts alike, is the one of SpecBufHold.v. *)
Theorem c53_programs n j u ops : b_fair_all (b_blank n j u) ops ->
  exists s, b_run (b_start n j u) ops = Ok (s, snd (b_story (b_blank n j u) ops)).
Proof.
  intros F. destruct (b_run_ok ops _ _ (b_start_ok n j u) F) as (s & E & _). exists s. exact E.
Qed.
Print Assumptions c53_programs.

(** A block lives exactly as long as a variable or an iterator holds its document,
    its counter is the number of those, and as long as it lives all of the document
    can be read from it, even if only a small part of it is still referred to. *)
Theorem c53_lifetimes n j u ops s l : b_fair_all (b_blank n j u) ops -> b_run (b_start n j u) ops = Ok (s, l) ->
  let sp := fst (b_story (b_blank n j u) ops) in
  List.length (heap s) = List.length (docs sp) /\
  forall d, (d < List.length (docs sp))%nat ->
    match nth_error (heap s) d with
    | Some (Some b) =>
        (0 < holders sp d)%nat /\ users b = Z.of_nat (holders sp d) /\
        b_value (base b) (bytes b) root = Ok (nth d (docs sp) VNull)
    | _ => holders sp d = O
    end.
Proof.
  intros F E. destruct (b_run_ok ops _ _ (b_start_ok n j u) F) as (s' & E' & I).
  rewrite E in E'. apply Ok_inj in E'. assert (s' = s) as -> by congruence. clear E'.
  destruct I as [[L D] C _ _ _]. split; [assumption|]. intros d H. specialize (C d). unfold held in C.
  destruct (nth_error (heap s) d) as [[b|]|] eqn:N; [|lia..]. destruct C as [U P]. split; [lia|]. split; [exact U|].
  destruct (D d b N) as (_ & fs & ND & _ & R). rewrite (nth_error_nth _ _ _ ND). apply represents_value. exact R.
Qed.
Print Assumptions c53_lifetimes.

(** Nothing is left behind. *)
Corollary c53_no_leaks n j u ops s l : b_fair_all (b_blank n j u) ops -> b_run (b_start n j u) ops = Ok (s, l) ->
  let sp := fst (b_story (b_blank n j u) ops) in
  Forall (fun h => h = None) (handles sp) -> Forall (fun k => k = None) (walks sp) ->
  Forall (fun b => b = None) (heap s).
Proof.
  intros F E sp H K. destruct (c53_lifetimes n j u ops s l F E) as [L A]. fold sp in L, A.
  assert (Z : forall d, holders sp d = O).
  { intros d. unfold holders.
    assert (Q : forall T (q : list (option (nat * T))), Forall (fun h => h = None) q -> List.length (filter (holds_doc d) q) = O).
    { intros T q. induction 1 as [|a r -> _ IH]; [reflexivity|exact IH]. }
    rewrite (Q _ _ H), (Q _ _ K). reflexivity. }
  apply Forall_forall. intros o I. destruct (In_nth_error _ _ I) as [d N].
  assert (D : (d < List.length (docs sp))%nat) by (rewrite <- L; apply nth_error_Some; congruence).
  specialize (A d D). rewrite N in A. destruct o as [b|]; [|reflexivity]. destruct A as [P _]. rewrite Z in P. lia.
Qed.
Print Assumptions c53_no_leaks.

(** No call ever changes the bytes of a block, whatever the program, careless or not. *)
Ltac bind_inv H := let x := fresh "r" in let E := fresh "E" in
  apply bind_Ok in H; destruct H as (x & E & H).
Lemma retain_evolves r l l' : retain r l = Ok l' -> evolves l l'.
Proof.
  destruct r as [d|]; cbn [retain]; [|intros E; apply Ok_inj in E; subst; apply evolves_refl].
  destruct (nth_error l d) as [[b|]|] eqn:N; try discriminate. intros E. apply Ok_inj in E. subst l'.
  apply evolves_set with (b := b); auto.
Qed.
Lemma release_evolves r l l' : release r l = Ok l' -> evolves l l'.
Proof.
  destruct r as [d|]; cbn [release]; [|intros E; apply Ok_inj in E; subst; apply evolves_refl].
  destruct (nth_error l d) as [[b|]|] eqn:N; try discriminate. intros E. apply Ok_inj in E. subst l'.
  apply evolves_set with (b := b); [assumption|]. destruct (_ =? _); auto.
Qed.
Lemma put_evolves s l x t s' : put s l x t = Ok s' -> evolves l (heap s').
Proof.
  unfold put. destruct (nth_error (vars s) x) as [old|]; [|discriminate]. intros E. bind_inv E. apply Ok_inj in E. subst s'.
  eapply release_evolves; eassumption.
Qed.
Lemma put_it_evolves s l j t i s' : put_it s l j t i = Ok s' -> evolves l (heap s').
Proof.
  unfold put_it. destruct (nth_error (iters s) j) as [[old k]|]; [|discriminate]. intros E. bind_inv E. apply Ok_inj in E. subst s'.
  eapply release_evolves; eassumption.
Qed.
Lemma adopt_evolves l e d r l' t : adopt l e d r = Ok (l', t) -> evolves l l'.
Proof.
  unfold adopt. intros E. bind_inv E. apply retain_evolves in E0. destruct (is_null e).
  - bind_inv E. apply release_evolves in E1. apply Ok_inj in E. assert (l' = r1) as -> by congruence.
    eapply evolves_trans; eassumption.
  - apply Ok_inj in E. assert (l' = r0) as -> by congruence. assumption.
Qed.
Lemma fresh_evolves s x addr m s' : fresh s x addr m = Ok s' -> evolves (heap s) (heap s').
Proof.
  unfold fresh. intros E. apply put_evolves in E. eapply evolves_trans; [|exact E].
  split; [rewrite app_length; lia|]. intros d b D N. rewrite nth_error_app1 in N by assumption. eauto.
Qed.
Lemma move_evolves s x y s' : move_var s x y = Ok s' -> evolves (heap s) (heap s').
Proof.
  unfold move_var, var. destruct (Nat.eqb x y); [intros E; apply Ok_inj in E; subst; apply evolves_refl|].
  destruct (nth_error (vars s) y) as [h|]; [|discriminate]. intros E. bind_inv E. apply put_evolves in E0.
  apply Ok_inj in E. subst s'. exact E0.
Qed.
Lemma done_evolves s (r : res bstate) s' a : (forall t, r = Ok t -> evolves (heap s) (heap t)) -> done r = Ok (s', a) -> evolves (heap s) (heap s').
Proof. unfold done. intros H E. bind_inv E. apply Ok_inj in E. assert (s' = r0) as -> by congruence. auto. Qed.
Lemma trying_evolves {A} s (r : res A) k s' a : (forall x, k x = Ok (s', a) -> evolves (heap s) (heap s')) ->
  trying s r k = Ok (s', a) -> evolves (heap s) (heap s').
Proof.
  unfold trying. intros H. destruct r; try discriminate; [apply H|]. intros E. apply Ok_inj in E.
  assert (s' = s) as -> by congruence. apply evolves_refl.
Qed.
Ltac same_heap E := apply Ok_inj in E; injection E as <- <-; apply evolves_refl.
Theorem exec_evolves s o s' a : b_exec s o = Ok (s', a) -> evolves (heap s) (heap s').
Proof.
  destruct o; cbn [b_exec]; unfold var, itr, viw; intros E;
    repeat match type of E with
    | match nth_error ?l ?i with _ => _ end = _ => let N := fresh "N" in destruct (nth_error l i) as [?|] eqn:N; try discriminate E
    | (let (_, _) := ?p in _) = _ => destruct p
    end.
  - revert E. apply trying_evolves. intros m. apply done_evolves. intros t. apply fresh_evolves.
  - revert E. apply done_evolves. intros t E. bind_inv E. eapply evolves_trans; [eapply retain_evolves; eassumption|eapply put_evolves; eassumption].
  - revert E. apply done_evolves. intros t. apply move_evolves.
  - revert E. apply done_evolves. intros t. apply put_evolves.
  - revert E. apply trying_evolves. intros e. apply done_evolves. intros t E. bind_inv E. destruct r as [l1 t1].
    eapply evolves_trans; [eapply adopt_evolves; eassumption|eapply put_evolves; eassumption].
  - revert E. apply trying_evolves. intros e. apply done_evolves. intros t E. bind_inv E. destruct r as [l1 t1].
    eapply evolves_trans; [|exact (move_evolves _ _ _ _ E)]. cbn [heap]. destruct (is_null e).
    + bind_inv E0. apply release_evolves in E1. apply Ok_inj in E0. assert (l1 = r) as -> by congruence. assumption.
    + apply Ok_inj in E0. assert (l1 = heap s) as -> by congruence. apply evolves_refl.
  - revert E. apply trying_evolves. intros v E. same_heap E.
  - bind_inv E. same_heap E.
  - destruct (is_null _); [same_heap E|]. revert E. apply done_evolves. intros t E. bind_inv E. bind_inv E.
    apply retain_evolves in E0. destruct (ref _); [|discriminate]. eapply evolves_trans; [eassumption|eapply put_evolves; eassumption].
  - revert E. apply trying_evolves. intros m. apply done_evolves. intros t. apply fresh_evolves.
  - destruct (b_type _); try (same_heap E); (revert E; apply done_evolves; intros t E; bind_inv E;
      eapply evolves_trans; [eapply retain_evolves; eassumption|eapply put_it_evolves; eassumption]).
  - destruct (is_null _); [discriminate|]. same_heap E.
  - destruct (is_null _); [discriminate|]. revert E. apply trying_evolves. intros e. apply done_evolves. intros t E. bind_inv E. destruct r as [l1 t1].
    eapply evolves_trans; [eapply adopt_evolves; eassumption|eapply put_evolves; eassumption].
  - revert E. apply done_evolves. intros t. apply put_it_evolves.
  - same_heap E.
  - revert E. apply trying_evolves. intros e E. same_heap E.
  - revert E. apply trying_evolves. intros v E. same_heap E.
  - destruct (g_own _); [|same_heap E]. destruct (nth_error (vars s) _); [|discriminate]. bind_inv E. same_heap E.
  - revert E. apply done_evolves. intros t E. bind_inv E. bind_inv E.
    eapply evolves_trans; [eapply retain_evolves; eassumption|eapply put_evolves; eassumption].
Qed.
Theorem c53_bytes_never_change ops : forall s s' l d b b', b_run s ops = Ok (s', l) ->
  nth_error (heap s) d = Some (Some b) -> nth_error (heap s') d = Some (Some b') ->
  base b' = base b /\ bytes b' = bytes b.
Proof.
  assert (Q : forall s s' l, b_run s ops = Ok (s', l) -> evolves (heap s) (heap s')).
  { induction ops as [|o r IH]; intros s s' l E; cbn [b_run] in E.
    - apply Ok_inj in E. injection E as <- <-. apply evolves_refl.
    - bind_inv E. destruct r0 as [s1 a]. bind_inv E. destruct r0 as [s2 l2]. apply Ok_inj in E. injection E as <- <-.
      eapply evolves_trans; [eapply exec_evolves; eassumption|eapply IH; eassumption]. }
  intros s s' l d b b' E N N'. destruct (Q _ _ _ E) as [_ V].
  assert (D : (d < List.length (heap s))%nat) by (apply nth_error_Some; congruence).
  destruct (V d b' D N') as (b0 & N0 & A & B). rewrite N in N0. injection N0 as <-. auto.
Qed.
Print Assumptions c53_bytes_never_change.

(** Nor is a freed block ever used again for another document. *)
Theorem c53_gone_is_gone ops s s' l d : b_run s ops = Ok (s', l) ->
  nth_error (heap s) d = Some None -> nth_error (heap s') d = Some None.
Proof.
  assert (Q : forall s s' l, b_run s ops = Ok (s', l) -> evolves (heap s) (heap s')).
  { induction ops as [|o r IH]; intros t t' k E; cbn [b_run] in E.
    - apply Ok_inj in E. injection E as <- <-. apply evolves_refl.
    - bind_inv E. destruct r0 as [s1 a]. bind_inv E. destruct r0 as [s2 l2]. apply Ok_inj in E. injection E as <- <-.
      eapply evolves_trans; [eapply exec_evolves; eassumption|eapply IH; eassumption]. }
  intros E N. destruct (Q _ _ _ E) as [L V].
  assert (D : (d < List.length (heap s))%nat) by (apply nth_error_Some; congruence).
  destruct (nth_error (heap s') d) as [[b|]|] eqn:N'; [|reflexivity|].
  - destruct (V d b D N') as (b0 & N0 & _). congruence.
  - apply nth_error_None in N'. lia.
Qed.
Print Assumptions c53_gone_is_gone.

(** Views cost nothing: making, following, reading and counting them leaves every
    counter, variable and iterator as it was. *)
Theorem c53_views_uncounted s o s' a : b_exec s o = Ok (s', a) ->
  match o with P_of _ _ | P_member _ _ _ | P_read _ | P_count _ => True | _ => False end ->
  heap s' = heap s /\ vars s' = vars s /\ iters s' = iters s.
Proof.
  destruct o; cbn [b_exec]; unfold var, viw; intros E K; try contradiction; clear K.
  - destruct (nth_error (vars s) x); [|discriminate]. destruct (nth_error (views s) _); [|discriminate].
    apply Ok_inj in E. injection E as <- <-. auto.
  - destruct (nth_error (views s) u); [|discriminate]. destruct (nth_error (views s) _); [|discriminate].
    unfold trying in E. destruct (look _ _ _ _); try discriminate; apply Ok_inj in E; injection E as <- <-; auto.
  - destruct (nth_error (views s) _); [|discriminate].
    unfold trying in E. destruct (look _ _ _ _); try discriminate; apply Ok_inj in E; injection E as <- <-; auto.
  - destruct (nth_error (views s) _) as [g|]; [|discriminate]. destruct (g_own g).
    + destruct (nth_error (vars s) _); [|discriminate]. bind_inv E. apply Ok_inj in E. injection E as <- <-. auto.
    + apply Ok_inj in E. injection E as <- <-. auto.
Qed.
Print Assumptions c53_views_uncounted.

(** ** A program that meets the hypotheses *)
Definition c53_program : list bop :=
  [ M_new 0 demo 64; M_member 1 (By_key (b "z")) 0; M_count 0; W_begin 0 1; M_count 1;
    P_of 0 0; P_member 1 (By_key (b "arg")) 0; P_count 1; M_move 2 0; P_read 1; M_read 0; M_count 0;
    M_into 2 (By_key (b "arg")) 2; M_dup 3 2 128; M_count 2; M_into 2 (By_key (b "none")) 2; M_read 2;
    M_reset 1; W_deref 1 0; M_read 1; W_next 0; W_deref 1 0; W_drop 0; M_read 1;
    M_count 1; M_reopen 0 1; M_member 2 (Must_key (b "q")) 0; P_of 0 0; P_own 2 0; M_count 2;
    M_member 0 (By_key (b "nope")) 0; M_count 0; M_read 2; M_reset 2; M_reset 1; M_read 3; M_member 3 Must_first 3 ].
Ltac fair1 :=
  lazymatch goal with
  | |- b_fair _ (M_new _ _ _) =>
      split; [vm_compute; lia|]; split; [reflexivity|]; split; [reflexivity|];
      split; [exact demo_heap|]; split; [exact demo_good|vm_compute; reflexivity]
  | |- b_fair _ _ =>
      vm_compute; repeat match goal with |- _ /\ _ => split end;
      first [exact I | lia | discriminate | reflexivity]
  end.
Ltac fair_tac :=
  repeat lazymatch goal with
  | |- b_fair_all _ (_ :: _) => split; [fair1|]
  | |- b_fair_all (fst (b_does ?s ?o)) ?r => let s' := eval vm_compute in (fst (b_does s o)) in change (b_fair_all s' r)
  | |- b_fair_all _ [] => exact I
  end.
Example c53_program_fair : b_fair_all (b_blank 4 1 2) c53_program.
Proof. unfold c53_program. fair_tac. Qed.
(** What it answers: the counts rise and fall with the handles, the view counts
    nothing and survives the move, the iterator alone keeps the document, a null
    member holds nothing, and in the end only the duplicate is left. *)
Example c53_program_runs :
  let elem := VInt 70000 in
  let arg := VObj [(b "k", VStr (b "a string longer than twenty-three bytes")); (b "none", VNull)] in
  match b_run (b_start 4 1 2) c53_program with
  | Ok (s, l) =>
      l = [ B_unit; B_unit; B_count 2; B_unit; B_count 3;
            B_unit; B_unit; B_count 3; B_unit; B_value arg; B_value VNull; B_count 0;
            B_unit; B_unit; B_count 3; B_unit; B_value VNull;
            B_unit; B_unit; B_value elem; B_unit; B_unit; B_unit; B_value (VStr (b "hello, world"));
            B_count 1; B_unit; B_err out_of_range; B_unit; B_unit; B_count 3;
            B_unit; B_count 0; B_value demo; B_unit; B_unit; B_value arg; B_err type_error ] /\
      map (fun o => match o with Some blk => Some (users blk) | None => None end) (heap s) = [None; Some 1]
  | _ => False
  end.
Proof. vm_compute. split; reflexivity. Qed.

(** ** What as_owner does not promise *)

Definition c53_old : value := VObj [(b "l", VArr [VInt 1; VInt 2])].
Definition c53_new : value := VObj [(b "x", VInt 9)].
(** A view keeps the element it was taken from, as_owner the counted pointer of the
    variable as it is now. If the variable was assigned another document in the
    meantime the result looks like an owner of the old document but holds the new
    one: once the last real holder of the old one is gone, reading through this
    owning buffer is undefined - and the new document is never freed before it. *)
Theorem c53_as_owner_refuted :
  (match b_run (b_start 3 0 1)
     [ M_new 0 c53_old 64; M_copy 1 0; P_of 0 0; M_new 0 c53_new 128; P_own 2 0; M_read 2; M_count 2; M_reset 0; M_count 2 ] with
   | Ok (_, l) => skipn 5 l = [B_value c53_old; B_count 2; B_unit; B_count 1]
   | _ => False
   end) /\
  b_run (b_start 3 0 1)
    [ M_new 0 c53_old 64; M_copy 1 0; P_of 0 0; M_new 0 c53_new 128; P_own 2 0; M_reset 1; M_read 2 ] = Undef.
Proof. vm_compute. split; reflexivity. Qed.
Print Assumptions c53_as_owner_refuted.

(** The same if the variable was moved from: the result owns nothing at all. *)
Theorem c53_as_owner_moved_refuted :
  (match b_run (b_start 3 0 1) [ M_new 0 c53_old 64; P_of 0 0; M_move 1 0; P_read 0; P_own 2 0; M_read 2; M_count 2 ] with
   | Ok (_, l) => skipn 3 l = [B_value c53_old; B_unit; B_value c53_old; B_count 0]
   | _ => False
   end) /\
  b_run (b_start 3 0 1) [ M_new 0 c53_old 64; P_of 0 0; M_move 1 0; P_own 2 0; M_reset 1; M_read 2 ] = Undef.
Proof. vm_compute. split; reflexivity. Qed.
Print Assumptions c53_as_owner_moved_refuted.

(** And a view of a null that has since been assigned yields a null that keeps the
    document alive. *)
Theorem c53_null_owner_refuted :
  match b_run (b_start 2 0 1) [ P_of 0 0; M_new 0 c53_old 64; P_own 1 0; M_reset 0; M_read 1; M_count 1 ] with
  | Ok (s, l) => skipn 4 l = [B_value VNull; B_count 1] /\ existsb (fun o => match o with Some _ => true | None => false end) (heap s) = true
  | _ => False
  end.
Proof. vm_compute. split; reflexivity. Qed.
Print Assumptions c53_null_owner_refuted.

(** A view does not keep its document alive. *)
Theorem c53_view_alone_refuted :
  b_run (b_start 1 0 1) [ M_new 0 c53_old 64; P_of 0 0; M_reset 0; P_read 0 ] = Undef.
Proof. vm_compute. reflexivity. Qed.
Print Assumptions c53_view_alone_refuted.
