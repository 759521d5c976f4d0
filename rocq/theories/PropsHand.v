(** C58: bytes handed to the library and handed out by it: who owns what. *)

From Coq Require Import ZArith List Bool Lia String.
From Verif Require Import Base BaseFacts Keys Wire Read Spec Buf BufFacts WireMore HeapOps SpecPacket SpecBufHold SpecHand BufHold Hand Demo.
From Verif Require BufHoldRun.
From Coq Require Import ZifyBool ZifyNat.
From Verif Require Import HandRun.
From Verif Require SpecAbi PacketFacts.
Import ListNotations.
Open Scope string_scope.
Open Scope list_scope.
Open Scope Z_scope.

(** Whatever a program does with buffers, byte pointers and its own memory - within
    what the documentation and C ask of it, and as long as the memory behind a handle
    is intact whenever something is read through it - nothing is undefined and every
    answer is the documented one. *)
Theorem c58_programs n k ops : h_owes_all (h_blank n k) ops -> h_clear_all (h_blank n k) ops ->
  exists s, h_run (h_start n k) ops = Ok (s, snd (h_story (h_blank n k) ops)).
Proof.
  intros F K. destruct (h_run_ok ops _ _ (h_start_ok n k) F K) as (s & E & _). exists s. exact E.
Qed.
Print Assumptions c58_programs.

(** ** Without the copying constructor *)

Definition direct (sp : hspec) (g : glimpse) : Prop :=
  match g with Some (d, (_, via)) => via = d /\ exists v0, zone sp d = Counted v0 | None => True end.
Definition all_direct (sp : hspec) : Prop := Forall (direct sp) (shows sp).

Lemma Forall_put {A} (P : A -> Prop) l i a : (i < List.length l)%nat -> Forall P l -> P a -> Forall P (put_at l i a).
Proof.
  intros L F H. unfold put_at. apply Forall_app. split; [|constructor; [assumption|]].
  - apply Forall_forall. intros x I. rewrite Forall_forall in F. apply F. rewrite <- (firstn_skipn i l). apply in_or_app. auto.
  - apply Forall_forall. intros x I. rewrite Forall_forall in F. apply F. rewrite <- (firstn_skipn (S i) l). apply in_or_app. auto.
Qed.
Lemma direct_at sp x : all_direct sp -> direct sp (show sp x).
Proof.
  intros D. unfold show. destruct (Nat.lt_ge_cases x (List.length (shows sp))) as [L|L].
  - unfold all_direct in D. rewrite Forall_forall in D. apply D. apply nth_In. assumption.
  - rewrite nth_overflow by assumption. exact I.
Qed.
Lemma direct_set sp x g : all_direct sp -> (x < List.length (shows sp))%nat -> direct sp g -> all_direct (set_show sp x g).
Proof. intros D X G. unfold all_direct, set_show. cbn [shows]. apply Forall_put; assumption. Qed.
Lemma direct_more sp sp' : all_direct sp -> shows sp' = shows sp ->
  (forall d v, zone sp d = Counted v -> zone sp' d = Counted v) -> all_direct sp'.
Proof.
  intros D E H. unfold all_direct in *. rewrite E. eapply Forall_impl; [|exact D]. intros g. unfold direct.
  destruct g as [[d [v via]]|]; [|auto]. intros [A (v0 & C)]. eauto.
Qed.
Lemma zone_put sp r z d : (r < List.length (regions sp))%nat -> zone (set_zone sp r z) d = if Nat.eqb d r then z else zone sp d.
Proof.
  intros L. unfold zone, set_zone. cbn [regions]. rewrite BufHoldRun.put_set by assumption.
  destruct (Nat.eqb_spec d r) as [->|N]; [apply zone_same; assumption|apply zone_other; congruence].
Qed.
Lemma zone_in sp r : zone sp r <> Gone -> (r < List.length (regions sp))%nat.
Proof.
  intros N. destruct (Nat.lt_ge_cases r (List.length (regions sp))); [assumption|]. unfold zone in N.
  rewrite nth_overflow in N by assumption. congruence.
Qed.
Lemma zone_add sp z d v : zone sp d = Counted v -> zone (add_zone sp z) d = Counted v.
Proof.
  intros E. assert (L : (d < List.length (regions sp))%nat) by (apply zone_in; rewrite E; discriminate).
  unfold zone, add_zone in *. cbn [regions]. rewrite app_nth1 by assumption. assumption.
Qed.
Lemma zone_new sp z : zone (add_zone sp z) (List.length (regions sp)) = z.
Proof. unfold zone, add_zone. cbn [regions]. rewrite app_nth2, Nat.sub_diag by lia. reflexivity. Qed.
Lemma direct_add sp z : all_direct sp -> all_direct (add_zone sp z).
Proof. intros D. apply (direct_more sp); [assumption|reflexivity|]. intros d v. apply zone_add. Qed.
Lemma direct_rezone sp r z : all_direct sp -> is_mine (zone sp r) = true -> all_direct (set_zone sp r z).
Proof.
  intros D M. apply (direct_more sp); [assumption|reflexivity|]. intros d v E.
  rewrite zone_put by (apply zone_in; intros Q; rewrite Q in M; discriminate).
  destruct (Nat.eqb_spec d r) as [->|N]; [rewrite E in M; discriminate|assumption].
Qed.
Lemma direct_ptr sp k p : all_direct sp -> all_direct (set_point sp k p).
Proof. intros D. apply (direct_more sp); [assumption|reflexivity|auto]. Qed.
Lemma direct_free sp p : all_direct sp -> to_free sp p -> all_direct (freed sp p).
Proof.
  intros D F. destruct p as [[[r v] st]|]; cbn [freed]; [|assumption]. destruct F as [_ F].
  apply direct_rezone; [assumption|]. destruct (zone sp r); try contradiction; reflexivity.
Qed.
Lemma give_free sp p : to_give sp p -> to_free sp p.
Proof.
  destruct p as [[[r v] st]|]; [|auto]. intros [-> H]. split; [reflexivity|].
  destruct (zone sp r); try contradiction; exact I.
Qed.
Lemma direct_take sp x p : all_direct sp -> (x < List.length (shows sp))%nat -> to_give sp p ->
  match taken sp x p with inl sp' => all_direct sp' | inr _ => True end.
Proof.
  intros D X F. destruct p as [[[r v] st]|]; cbn [taken]; [|exact I]. destruct (zone sp r) as [|[|]| |] eqn:E; try exact I.
  assert (M : is_mine (zone sp r) = true) by (rewrite E; reflexivity).
  apply direct_set; [apply direct_rezone; assumption|exact X|]. split; [reflexivity|]. exists v.
  rewrite zone_put by (apply zone_in; rewrite E; discriminate). rewrite Nat.eqb_refl. reflexivity.
Qed.
Lemma direct_clear sp x : all_direct sp -> clear sp (show sp x).
Proof.
  intros D. pose proof (direct_at sp x D) as H. destruct (show sp x) as [[d [v via]]|] eqn:E; [|exact I].
  destruct H as [-> (v0 & C)]. cbn [clear]. rewrite C. unfold sharing.
  assert (N : In (Some (d, (v, d))) (filter (holds_doc d) (shows sp))).
  { apply filter_In. split; [|cbn; apply Nat.eqb_refl]. rewrite <- E. unfold show. apply nth_In.
    destruct (Nat.lt_ge_cases x (List.length (shows sp))); [assumption|]. unfold show in E. rewrite nth_overflow in E by assumption. discriminate. }
  destruct (filter (holds_doc d) (shows sp)); [contradiction|]. cbn. lia.
Qed.
Lemma direct_own_doc sp x v : all_direct sp -> (x < List.length (shows sp))%nat -> all_direct (own_doc sp x v).
Proof.
  intros D X. unfold own_doc. apply direct_set; [apply direct_add; assumption|exact X|]. split; [reflexivity|].
  exists v. apply zone_new.
Qed.

Lemma direct_step sp o : all_direct sp -> h_owes sp o -> is_open o = false ->
  h_clear sp o /\ all_direct (fst (h_does sp o)).
Proof.
  intros D F O. destruct o; cbn [is_open h_clear h_owes h_does fst] in *; try discriminate O;
    (split; [try exact I; try (apply direct_clear; assumption)|]).
  - apply direct_own_doc; tauto.
  - apply direct_set; [assumption|tauto|apply direct_at; assumption].
  - destruct F as [X Y]. destruct (Nat.eqb x y); [assumption|].
    apply direct_set; [apply direct_set; [assumption|assumption|apply direct_at; assumption]| |exact I].
    cbn [set_show shows]. rewrite BufHoldRun.put_len by assumption. assumption.
  - apply direct_set; [assumption|assumption|exact I].
  - destruct F as (X & Y & S). destruct (reached n _) as [u|e]; [|assumption]. cbn [fst].
    pose proof (direct_at sp y D) as H. destruct (show sp y) as [[d [v via]]|]; apply direct_set; try assumption; try exact I.
    destruct u; cbn [in_doc direct]; auto.
  - assumption.
  - assumption.
  - destruct F as (X & Y). pose proof (direct_at sp y D) as H. destruct (show sp y) as [[d [v via]]|]; [|assumption]. cbn [fst].
    destruct H as [-> (v0 & C)]. rewrite C. apply direct_set; [assumption..|]. split; [reflexivity|eauto].
  - destruct F as (X & K & G). pose proof (direct_take sp x _ D X G). destruct (taken sp x (point sp k)); assumption.
  - apply direct_ptr, direct_add. assumption.
  - destruct (show sp y) as [[d [[]via]]|]; first [assumption|apply direct_ptr; assumption].
  - destruct (glimpsed (show sp y)); first [assumption|apply direct_ptr, direct_add; assumption].
  - apply direct_ptr. assumption.
  - destruct F as [K M]. destruct (point sp k) as [[[r v] st]|]; [|assumption].
    apply direct_rezone; [assumption|]. destruct (zone sp r); try contradiction; reflexivity.
  - apply direct_free; tauto.
  - destruct F as (X & E & K & G). destruct (SpecAbi.counter_of rc).
    + pose proof (direct_take sp x _ D X G). destruct (taken sp x (point sp k)); cbn [fst]; [assumption|].
      apply direct_free; [assumption|apply give_free; assumption].
    + cbn [fst]. destruct packet; [apply direct_free; [assumption|apply give_free; assumption]|assumption].
Qed.

Lemma direct_chunks cs : forall sp, all_direct sp -> Forall plain cs -> h_owes_all sp (flat_map expand cs) ->
  h_clear_all sp (flat_map expand cs).
Proof.
  induction cs as [|c cs IH]; intros sp D P F; [exact I|]. apply Forall_inv in P as P1. apply Forall_inv_tail in P as P2.
  destruct c as [o|x k addr]; cbn [plain flat_map expand app h_owes_all h_clear_all] in *.
  - destruct F as [F1 F2]. destruct (direct_step sp o D F1 P1) as [C D']. split; [assumption|]. apply IH; assumption.
  - destruct F as (F1 & F2 & F3). split; [exact I|]. split; [exact I|]. apply IH; try assumption. clear IH F2 F3.
    destruct F1 as (X & K & A & T). cbn [h_does fst]. destruct (point sp k) as [[[r v] st]|]; [|contradiction].
    cbn [opened]. set (d := List.length (regions sp)).
    assert (X' : (x < List.length (shows (add_zone sp (Counted v))))%nat) by exact X.
    assert (E : show (set_show (add_zone sp (Counted v)) x (Some (d, (v, r)))) x = Some (d, (v, r))).
    { unfold show, set_show. cbn [shows]. rewrite BufHoldRun.put_set by exact X. apply BufHoldRun.nth_put_same. exact X. }
    rewrite E. cbn [fst].
    change (zone (set_show (add_zone sp (Counted v)) x (Some (d, (v, r)))) d) with (zone (add_zone sp (Counted v)) d).
    pose proof (zone_new sp (Counted v)) as ZN. fold d in ZN. rewrite ZN.
    replace (set_show (set_show (add_zone sp (Counted v)) x (Some (d, (v, r)))) x (Some (d, (v, d))))
      with (own_doc sp x v); [apply direct_own_doc; assumption|].
    unfold own_doc, set_show. cbn [regions shows points add_zone]. f_equal.
    rewrite !BufHoldRun.put_set; rewrite ?BufHoldRun.set_len, ?BufHoldRun.put_len; try exact X. symmetry. apply BufHoldRun.set_twice.
Qed.

(** A program that never uses the copying constructor, or opens the shared bytes of
    the result at once in its place, owes nothing but what is documented: handing over
    blocks, getting duplicates and borrowed bytes, and giving them away again are all
    safe, and every answer is right. *)
Theorem c58_without_copying n k cs : Forall plain cs -> h_owes_all (h_blank n k) (flat_map expand cs) ->
  exists s, h_run (h_start n k) (flat_map expand cs) = Ok (s, snd (h_story (h_blank n k) (flat_map expand cs))).
Proof.
  intros P F. apply c58_programs; [assumption|]. apply direct_chunks; try assumption.
  unfold all_direct, h_blank. cbn [shows]. clear. induction n; constructor; auto. exact I.
Qed.
Print Assumptions c58_without_copying.

(** ** Who owns what *)

(** Every block is owned by exactly one side. The library's exist exactly as long as a
    variable holds them, with the number of those in their counter, at an aligned
    address, and all of the document can be read from them; the client's exist until
    the client frees them or gives them away, and what was freed is gone. *)
Theorem c58_ownership n k ops s l : h_owes_all (h_blank n k) ops -> h_clear_all (h_blank n k) ops ->
  h_run (h_start n k) ops = Ok (s, l) ->
  let sp := fst (h_story (h_blank n k) ops) in
  List.length (store s) = List.length (regions sp) /\
  forall d, (d < List.length (regions sp))%nat ->
    nth d (owned s) false = is_mine (zone sp d) /\
    match zone sp d with
    | Counted v =>
        match nth_error (store s) d with
        | Some (Some b) =>
            (0 < sharing sp d)%nat /\ users b = Z.of_nat (sharing sp d) /\ base b mod 8 = 0 /\
            b_value (base b) (bytes b) root = Ok v
        | _ => sharing sp d = O
        end
    | Mine a => sharing sp d = O /\ exists b, nth_error (store s) d = Some (Some b) /\ a = (base b mod 8 =? 0)
    | Spoilt => sharing sp d = O /\ exists b, nth_error (store s) d = Some (Some b)
    | Gone => sharing sp d = O /\ nth_error (store s) d = Some None
    end.
Proof.
  intros F K E sp. destruct (h_run_ok ops _ _ (h_start_ok n k) F K) as (s' & E' & J).
  rewrite E in E'. apply Ok_inj in E'. assert (s' = s) as -> by congruence. clear E'. fold sp in J.
  pose proof J as [[L Z] C B P W]. split; [assumption|]. intros d D. split; [apply owned_at; assumption|].
  assert (U : (forall v, zone sp d <> Counted v) -> sharing sp d = O).
  { intros N. pose proof (mine_unheld _ _ _ _ d B N). pose proof (sharing_cnt sp d). lia. }
  specialize (C d). unfold held, mine in C. fold (zone sp d) in C. pose proof (sharing_cnt sp d) as SC.
  destruct (nth_error (store s) d) as [[b|]|] eqn:N.
  - specialize (Z d b N). fold (zone sp d) in Z. destruct (zone sp d) as [v|a| |]; cbn [zone_ok is_mine] in *.
    + destruct C as [C1 C2]. split; [lia|]. split; [lia|]. split; [apply Z|]. apply represents_value. apply Z.
    + split; [apply U; discriminate|eauto].
    + split; [apply U; discriminate|eauto].
    + contradiction.
  - destruct (zone sp d) as [v|a| |]; cbn [is_mine] in *; try (split; [apply U; discriminate|]); try lia; reflexivity.
  - apply nth_error_None in N. lia.
Qed.
Print Assumptions c58_ownership.

(** Nothing is left behind: once the variables are null and the client has freed what
    is its own, no block is left, the copies the copying constructor made included. *)
Corollary c58_no_leaks n k ops s l : h_owes_all (h_blank n k) ops -> h_clear_all (h_blank n k) ops ->
  h_run (h_start n k) ops = Ok (s, l) ->
  let sp := fst (h_story (h_blank n k) ops) in
  Forall (fun g => g = None) (shows sp) -> Forall (fun z => is_mine z = false) (regions sp) ->
  Forall (fun b => b = None) (store s).
Proof.
  intros F K E sp H M. destruct (c58_ownership n k ops s l F K E) as [L A]. fold sp in L, A.
  assert (Q : forall d, sharing sp d = O).
  { intros d. unfold sharing. induction H as [|a r -> _ IH]; [reflexivity|exact IH]. }
  apply Forall_forall. intros o J. destruct (In_nth_error _ _ J) as [d N].
  assert (D : (d < List.length (regions sp))%nat) by (rewrite <- L; apply nth_error_Some; congruence).
  destruct (A d D) as [_ B]. rewrite N in B. rewrite Forall_forall in M.
  assert (MD : is_mine (zone sp d) = false) by (apply M; apply nth_In; assumption).
  destruct (zone sp d) as [v|a| |]; try discriminate MD.
  - destruct o as [b|]; [|reflexivity]. destruct B as [B _]. rewrite Q in B. lia.
  - destruct B as [_ B]. congruence.
Qed.
Print Assumptions c58_no_leaks.

(** A block that was given away is freed by the library, with its last holder, and
    not before; one that was duplicated stays the client's whatever happens to the
    buffer it came from. Both follow from the theorem above; here for any document. *)
Corollary c58_handed_over v addr : small_object v -> addr mod 8 = 0 ->
  exists s, h_run (h_start 2 1) [K_load 0 v addr; H_take 0 0; H_copy 1 0; H_reset 0; H_read 1; H_count 1; H_reset 1]
    = Ok (s, [H_unit; H_unit; H_unit; H_unit; H_value v; H_cnt 1; H_unit]) /\ store s = [None].
Proof.
  intros V A. set (ops := [_; _; _; _; _; _; _]).
  assert (S : h_story (h_blank 2 1) ops =
    (HS [Counted v] [None; None] [Some (0%nat, v, true)], [H_unit; H_unit; H_unit; H_unit; H_value v; H_cnt 1; H_unit])).
  { cbn [ops h_story h_does own_region]. replace (addr mod 8 =? 0) with true by lia. reflexivity. }
  assert (F : h_owes_all (h_blank 2 1) ops).
  { cbn [ops h_owes_all]. split; [split; [cbn; lia|assumption]|]. cbn [h_does own_region]. replace (addr mod 8 =? 0) with true by lia.
    repeat match goal with |- _ /\ _ => split end; cbn; auto; lia. }
  assert (K : h_clear_all (h_blank 2 1) ops).
  { cbn [ops h_clear_all]. cbn [h_does own_region]. replace (addr mod 8 =? 0) with true by lia.
    repeat match goal with |- _ /\ _ => split end; cbn; auto; lia. }
  destruct (c58_programs 2 1 ops F K) as (s & E). rewrite S in E. cbn [snd] in E. exists s. split; [exact E|].
  pose proof (c58_ownership 2 1 ops s _ F K E) as [L _]. pose proof (c58_no_leaks 2 1 ops s _ F K E) as N.
  rewrite S in L, N. cbn [fst shows regions List.length] in *.
  assert (Forall (fun b => b = None) (store s)) as Q by (apply N; repeat constructor).
  destruct (store s) as [|o [|]]; try discriminate L. apply Forall_inv in Q. subst o. reflexivity.
Qed.
Print Assumptions c58_handed_over.

(** ** A program that meets the hypotheses *)

Definition c58_old : value := VObj [(b "l", VArr [VInt 1; VInt 2]); (b "o", VObj [(b "x", VStr (b "inner"))])].
Definition c58_long : value := VObj [(b "x", VInt 5000000000)].
Ltac small_tac :=
  split; [reflexivity|]; split; [heap_tac|]; split; [|vm_compute; reflexivity];
  repeat match goal with
  | |- good_all _ => unfold good_all
  | |- every _ _ _ => constructor
  | |- Forall _ _ => constructor
  | |- _ /\ _ => split
  | |- good_key _ => unfold good_key
  | |- True => exact I
  | |- ~ In _ _ => vm_compute; intuition congruence
  | |- _ < _ => vm_compute; congruence
  | |- _ <> _ => vm_compute; congruence
  end.
Lemma c58_old_small : small_object c58_old.
Proof. small_tac. Qed.
Lemma c58_long_small : small_object c58_long.
Proof. small_tac. Qed.
(** Opened from the client's memory and used while that is there, an interior object
    duplicated and the duplicate given to another buffer, a borrowed pointer into a
    document copied, and the C functions; in the end everything is freed. *)
Definition c58_program : list hop :=
  [ K_load 0 demo 64; H_open 0 0 128; H_read 0; H_count 0; H_member 1 (By_key (b "arg")) 0; K_dup 1 1 192; H_count 1;
    K_free 0; H_share 2 0; H_reset 0; H_reset 1; H_read 2; H_take 0 1; H_read 0; K_get 2 0; H_open 1 2 256; H_read 1;
    H_count 0; H_reset 0; H_reset 1; H_reset 2;
    K_load 0 c58_old 68; H_take 0 0; A_take true 1 0 0; H_read 0;
    K_load 0 c58_old 72; A_take true 3 0 0; K_load 0 c58_old 80; A_take false 3 0 0; K_point 1 0; A_take false 2 0 1; H_read 0;
    H_member 1 (By_key (b "o")) 0; K_get 0 1; H_reset 1; A_open 1 1 0 88; H_member 2 (Must_key (b "x")) 1; H_read 2; H_count 2;
    K_get 2 2; H_reset 1; H_reset 2; H_reset 0; K_load 2 c58_old 320; K_write 2 (b "noise"); K_free 2 ].
Ltac owes1 :=
  lazymatch goal with
  | |- h_owes _ (K_load _ demo _) =>
      split; [vm_compute; lia|]; split; [reflexivity|]; split; [exact demo_heap|]; split; [exact demo_good|vm_compute; reflexivity]
  | |- h_owes _ (K_load _ c58_old _) =>
      split; [vm_compute; lia|]; exact c58_old_small
  | |- h_owes _ (K_load _ c58_long _) =>
      split; [vm_compute; lia|]; exact c58_long_small
  | |- h_owes _ (H_new _ c58_old _) =>
      split; [vm_compute; lia|]; split; [reflexivity|]; exact c58_old_small
  | |- h_owes _ _ =>
      vm_compute; repeat match goal with |- _ /\ _ => split end; first [exact I | lia | discriminate | reflexivity]
  end.
Ltac owes_tac :=
  repeat lazymatch goal with
  | |- h_owes_all _ (_ :: _) => split; [owes1|]
  | |- h_owes_all (fst (h_does ?s ?o)) ?r => let s' := eval vm_compute in (fst (h_does s o)) in change (h_owes_all s' r)
  | |- h_owes_all _ [] => exact I
  end.
Ltac clear_tac :=
  repeat lazymatch goal with
  | |- h_clear_all _ (_ :: _) => split; [vm_compute; first [exact I | lia | reflexivity]|]
  | |- h_clear_all (fst (h_does ?s ?o)) ?r => let s' := eval vm_compute in (fst (h_does s o)) in change (h_clear_all s' r)
  | |- h_clear_all _ [] => exact I
  end.
Example c58_program_owes : h_owes_all (h_blank 3 3) c58_program.
Proof. unfold c58_program. owes_tac. Qed.
Example c58_program_clear : h_clear_all (h_blank 3 3) c58_program.
Proof. unfold c58_program. clear_tac. Qed.
(** What it answers; every block is gone in the end. *)
Example c58_program_runs :
  let arg := VObj [(b "k", VStr (b "a string longer than twenty-three bytes")); (b "none", VNull)] in
  match h_run (h_start 3 3) c58_program with
  | Ok (s, l) =>
      l = [ H_unit; H_unit; H_value demo; H_cnt 1; H_unit; H_unit; H_cnt 2;
            H_unit; H_unit; H_unit; H_unit; H_value demo; H_unit; H_value arg; H_unit; H_unit; H_value arg;
            H_cnt 1; H_unit; H_unit; H_unit;
            H_unit; H_err invalid_argument; H_code 2; H_value VNull;
            H_unit; H_code 6; H_unit; H_code 6; H_unit; H_code 0; H_value c58_old;
            H_unit; H_unit; H_unit; H_code 0; H_unit; H_value (VStr (b "inner")); H_cnt 2;
            H_err type_error; H_unit; H_unit; H_unit; H_unit; H_unit; H_unit ] /\
      store s = repeat None 9
  | _ => False
  end.
Proof. vm_compute. split; reflexivity. Qed.
(** In chunks, with no guard beyond the documented one. *)
Definition c58_chunks : list chunk :=
  [ Plain (K_load 0 c58_old 68); Copied 0 0 128; Plain (K_write 0 (b "noise")); Plain (K_free 0); Plain (H_read 0);
    Plain (K_get 1 0); Copied 0 1 192; Plain (H_read 0); Plain (H_count 0) ].
Example c58_chunks_owe : Forall plain c58_chunks /\ h_owes_all (h_blank 2 2) (flat_map expand c58_chunks).
Proof.
  split; [unfold c58_chunks; repeat constructor|].
  let l := eval cbv [c58_chunks flat_map expand app] in (flat_map expand c58_chunks) in change (h_owes_all (h_blank 2 2) l).
  owes_tac.
Qed.

(** ** The copying constructor does not read its copy *)

(** As documented, the bytes may be anywhere and the buffer is independent of them.
    Not so: when the client frees its block, reading through the buffer is undefined;
    the same when the bytes belonged to a document that is gone - even if the buffer
    is assigned to the very variable they came from. *)
Definition c58_documented : Prop := forall n k ops, h_owes_all (h_blank n k) ops ->
  exists s, h_run (h_start n k) ops = Ok (s, snd (h_story (h_blank n k) ops)).
Definition c58_freed : list hop := [ K_load 0 c58_old 64; H_open 0 0 128; K_free 0; H_read 0 ].
Definition c58_borrowed : list hop := [ H_new 0 c58_old 64; K_get 0 0; H_open 1 0 128; H_reset 0; H_read 1 ].
Definition c58_own : list hop := [ H_new 0 c58_old 64; K_get 0 0; H_open 0 0 128; H_read 0 ].
Theorem c58_copying_constructor_refuted :
  ~ c58_documented /\
  Forall (fun ops => h_owes_all (h_blank 2 1) ops /\ h_run (h_start 2 1) ops = Undef) [c58_freed; c58_borrowed; c58_own].
Proof.
  assert (F : h_owes_all (h_blank 2 1) c58_freed) by (unfold c58_freed; owes_tac).
  assert (U : h_run (h_start 2 1) c58_freed = Undef) by (vm_compute; reflexivity).
  split; [|constructor; [|constructor; [|constructor; [|constructor]]]].
  - intros D. destruct (D _ _ _ F) as (s & E). rewrite U in E. discriminate E.
  - split; assumption.
  - split; [unfold c58_borrowed; owes_tac|vm_compute; reflexivity].
  - split; [unfold c58_own; owes_tac|vm_compute; reflexivity].
Qed.
Print Assumptions c58_copying_constructor_refuted.

(** What the client writes to its block afterwards shows through the buffer, which
    should be immutable. *)
Definition c58_other : value := VObj [(b "x", VInt 9)].
Definition c58_bytes (v : value) : list Byte.byte := match finalize v with Ok m => m | _ => [] end.
Definition c58_written : list hop := [ K_load 0 c58_old 64; H_open 0 0 128; H_read 0; K_write 0 (c58_bytes c58_other); H_read 0 ].
Theorem c58_immutable_refuted :
  h_owes_all (h_blank 1 1) c58_written /\
  snd (h_story (h_blank 1 1) c58_written) = [H_unit; H_unit; H_value c58_old; H_unit; H_value c58_old] /\
  match h_run (h_start 1 1) c58_written with
  | Ok (_, l) => l = [H_unit; H_unit; H_value c58_old; H_unit; H_value c58_other]
  | _ => False
  end.
Proof. split; [unfold c58_written; owes_tac|]. split; [reflexivity|]. vm_compute. reflexivity. Qed.
Print Assumptions c58_immutable_refuted.

(** And bytes that are not aligned are read where they are, with every position that
    is computed from an address off. *)
Definition c58_unaligned : list hop := [ K_load 0 c58_long 68; H_open 0 0 128; H_member 0 (By_key (b "x")) 0; H_read 0 ].
Theorem c58_unaligned_refuted :
  h_owes_all (h_blank 1 1) c58_unaligned /\
  snd (h_story (h_blank 1 1) c58_unaligned) = [H_unit; H_unit; H_unit; H_value (VInt 5000000000)] /\
  match h_run (h_start 1 1) c58_unaligned with
  | Ok (_, l) => l = [H_unit; H_unit; H_unit; H_value (VInt 3028092406290448384)]
  | _ => False
  end.
Proof. split; [unfold c58_unaligned; owes_tac|]. split; [reflexivity|]. vm_compute. reflexivity. Qed.
Print Assumptions c58_unaligned_refuted.

(** ** Failing to take a block *)

(** With an unknown counter both C functions return the same error, but one has freed
    the block and the other has not: a client that frees it, or does not, is wrong
    with one of them. And an address that is not aligned costs the client its block
    through either, though not through the C++ constructor. *)
Theorem c58_failed_take_refuted v rc addr : small_object v -> SpecAbi.counter_of rc = None ->
  (forall pk, exists s, h_run (h_start 1 1) [K_load 0 v addr; A_take pk rc 0 0] = Ok (s, [H_unit; H_code SpecAbi.client_code]) /\
     match nth_error (store s) 0 with Some (Some _) => pk = false | _ => pk = true end) /\
  h_run (h_start 1 1) [K_load 0 v addr; A_take true rc 0 0; K_free 0] = Undef /\
  (addr mod 8 <> 0 ->
   (forall pk, exists s, h_run (h_start 1 1) [K_load 0 v addr; A_take pk 1 0 0] = Ok (s, [H_unit; H_code SpecAbi.logic_code]) /\
      store s = [None]) /\
   exists s m, h_run (h_start 1 1) [K_load 0 v addr; H_take 0 0] = Ok (s, [H_unit; H_err invalid_argument]) /\
      store s = [Some m]).
Proof.
  intros (T & H & G & R) C. destruct v as [fs| | | | | |]; try discriminate T.
  destruct (PacketFacts.small_objects_finalize fs H R) as (m & E).
  assert (L : h_exec (h_start 1 1) (K_load 0 (VObj fs) addr) =
    Ok (HSt [Some (Blk 1 addr m)] [null_hold] [true] [Some (0%nat, 0, zlen m)], H_unit)).
  { cbn [h_exec]. rewrite E. reflexivity. }
  split; [|split].
  - intros pk. cbn [h_run]. rewrite L. cbn [bind h_exec hptr ptrs nth_error]. rewrite rc_cases, C.
    destruct pk; cbn; eexists; (split; [reflexivity|]); reflexivity.
  - cbn [h_run]. rewrite L. cbn [bind h_exec hptr ptrs nth_error]. rewrite rc_cases, C. reflexivity.
  - intros A. assert (Q : ((addr + 0) mod 8 =? 0) = false) by (rewrite Z.add_0_r; lia). split.
    + intros pk. cbn [h_run]. rewrite L. cbn [bind h_exec hptr ptrs nth_error]. rewrite rc_cases.
      cbn -[Z.modulo Z.add zlen]. rewrite Q. cbn -[Z.modulo Z.add zlen]. eexists. split; reflexivity.
    + cbn [h_run]. rewrite L. cbn [bind h_exec hptr ptrs nth_error]. cbn -[Z.modulo Z.add zlen]. rewrite Q.
      cbn -[Z.modulo Z.add zlen]. eexists. eexists. split; reflexivity.
Qed.
Print Assumptions c58_failed_take_refuted.
