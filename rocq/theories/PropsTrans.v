(** C60: deep copies to another reference counter (transmogrify). *)

From Coq Require Import ZArith List Bool Lia String Sorted Permutation.
From Coq Require Import ZifyBool ZifyNat.
From Verif Require Import Base BaseFacts Keys KeysFacts Wire Read Enc Buf BufFacts Spec SpecOps HeapOps HeapFacts Nested NestedFacts
BufHoldRun Store StoreSpec StoreFacts StoreSteps StoreRun PackHoldFacts PacketRun Demo SpecKeyed SpecTrans Trans TransFacts.
Import ListNotations.
Open Scope string_scope.
Open Scope list_scope.
Open Scope Z_scope.

(** ** Mutable values *)

(** Any handle in a store with positive counts (c17_counts_exact) whose value is one a
    heap can hold is copied: the source is left exactly as it was, its counts
    included; the new store gets new cells after what it had, as many as the value
    has objects and arrays, each held once; and the result shows the value. *)
Theorem c60_heap old h v s :
  (forall a n c, cell_at old a = Some (n, c) -> 0 < n) -> shows old h v -> heap_value v -> in_memory v ->
  exists l g, transmogrify old h s = Ok (old, St (heap s ++ map single l) (vars s), g) /\
    shows (heap s ++ map single l) g v /\ List.length l = aggregates v /\ a_tree (List.length (heap s)) l g.
Proof.
  intros P Sh H M. destruct (plant (List.length (heap s)) v) as [l g] eqn:Q. exists l, g.
  refine (conj (transmogrify_ok old h v s l g P Sh H M Q) (conj _ (conj _ _))).
  - eapply plant_shows; [exact Q|apply holds_new].
  - exact (plant_count _ _ _ _ Q).
  - exact (plant_tree _ _ _ _ Q).
Qed.
Print Assumptions c60_heap.

(** In the middle of programs on both sides: what any variable of the old side holds is
    copied and assigned to any variable of the new side, which then goes on like one
    in which that variable had been given the value. *)
Theorem c60_programs n1 os1 o l1 x v n2 os2 y :
  Forall (call_ok n1) os1 -> all_storable (init n1) os1 -> s_run (init n1) os1 = Ok (o, l1) ->
  observes o x v -> heap_value v -> in_memory v ->
  Forall (call_ok n2) os2 -> all_allowed (init n2) (repeat VNull n2) os2 -> (y < n2)%nat ->
  let e2 := list_set y v (fst (v_run (repeat VNull n2) os2)) in
  exists h s s' g s'', nth_error (vars o) x = Some h /\ s_run (init n2) os2 = Ok (s, snd (v_run (repeat VNull n2) os2)) /\
    transmogrify (heap o) h s = Ok (heap o, s', g) /\ overwrite s' y g = Ok s'' /\
    Forall2 (shows (heap s'')) (vars s'') e2 /\
    forall os3, Forall (call_ok n2) os3 -> all_allowed s'' e2 os3 ->
      exists s3, s_run s'' os3 = Ok (s3, snd (v_run e2 os3)) /\ Forall2 (shows (heap s3)) (vars s3) (fst (v_run e2 os3)).
Proof.
  intros C1 A1 R1 (h & Nx & Sh) H M C2 A2 Y e2.
  assert (L0 : List.length (repeat VNull n2) = n2) by apply repeat_length.
  assert (L1 : List.length (repeat VNull n1) = n1) by apply repeat_length.
  destruct (run_storable os1 (init n1) (repeat VNull n1) (Inv_init n1)) as (o' & e1 & l1' & R1' & I1 & _); [rewrite L1; exact C1|exact A1|].
  rewrite R1 in R1'. injection R1' as <- <-.
  destruct (run_allowed os2 (init n2) (repeat VNull n2) (Inv_init n2)) as (s & R2 & I2 & L2); [rewrite L0; exact C2|exact A2|].
  destruct (plant (List.length (heap s)) v) as [l g] eqn:Q.
  assert (P : positive (heap o)) by (intros a n c E; exact (proj2 (proj1 (proj1 I1) a n c E))).
  pose proof (Inv_new s _ v l g I2 Q) as I3.
  destruct (L_overwrite _ _ y g v [] I3) as (s'' & E & I4).
  { cbn [heap]. eapply plant_shows; [exact Q|apply holds_new]. } { rewrite L2, L0. exact Y. }
  exists h, s, (St (heap s ++ map single l) (vars s)), g, s''.
  refine (conj Nx (conj R2 (conj (transmogrify_ok (heap o) h v s l g P Sh H M Q) (conj E (conj (proj2 I4) _))))).
  intros os3 C3 A3. destruct (run_allowed os3 s'' e2 I4) as (s3 & R3 & I5 & _).
  { subst e2. rewrite list_set_length, L2, L0. exact C3. } { exact A3. }
  exists s3. split; [exact R3|exact (proj2 I5)].
Qed.
Print Assumptions c60_programs.

(** ** Sharing is lost

    "As many allocations as there are nodes": nodes are counted as often as they are
    shared. A program of 4n + 1 calls makes a value in n + 1 cells whose copy has
    2^(n+1) - 1. *)
Definition round : list hop := [O_make 1 New_array; O_push_back 1 (Cref 0); O_push_back 1 (Cref 0); O_move 0 1].
Definition doubling (n : nat) : list hop := O_make 0 New_array :: List.concat (repeat round n).
Fixpoint doubled (n : nat) : value := match n with O => VArr [] | S n => VArr [doubled n; doubled n] end.

Lemma s_run_app os1 : forall os2 s, s_run s (os1 ++ os2) =
  ('(s1, l1) <- s_run s os1 ;; '(s2, l2) <- s_run s1 os2 ;; Ok (s2, l1 ++ l2)).
Proof.
  induction os1 as [|o r IH]; intros os2 s; cbn [app s_run].
  - cbn [bind]. destruct (s_run s os2) as [[]| | | |]; reflexivity.
  - destruct (s_exec s o) as [[s1 a]| | | |]; try reflexivity. cbn [bind]. rewrite IH. destruct (s_run s1 r) as [[s2 l]| | | |]; try reflexivity.
    cbn [bind]. destruct (s_run s2 os2) as [[]| | | |]; reflexivity.
Qed.

Definition level (i : nat) : cell := CArr (match i with O => [] | S j => [HArr j; HArr j] end).
Definition below (n : nat) : cells := map (fun i => Some (2, level i)) (seq 0 n).
Definition dag (n : nat) : cells := below n ++ [Some (1, level n)].
Lemma below_len n : List.length (below n) = n.
Proof. unfold below. rewrite map_length, seq_length. reflexivity. Qed.

Definition mid (n : nat) (z : Z) (done : list hval) : cells := below n ++ [Some (z, level n); Some (1, CArr done)].
Lemma mid_shared n z done : cell_at (mid n z done) n = Some (z, level n).
Proof. rewrite <- (below_len n) at 2. unfold mid. apply cell_at_mid. Qed.
Lemma mid_new n z done : cell_at (mid n z done) (S n) = Some (1, CArr done).
Proof.
  unfold mid. change (below n ++ [Some (z, level n); Some (1, CArr done)]) with (below n ++ [Some (z, level n)] ++ [Some (1, CArr done)]).
  rewrite app_assoc. replace (S n) with (List.length (below n ++ [Some (z, level n)])) by (rewrite app_length, below_len; cbn; lia).
  apply cell_at_mid.
Qed.
Lemma mid_set_shared n z z' done : list_set n (Some (z', level n)) (mid n z done) = mid n z' done.
Proof. rewrite <- (below_len n) at 1. unfold mid. apply list_set_mid. Qed.
Lemma mid_set_new n z done done' : list_set (S n) (Some (1, CArr done')) (mid n z done) = mid n z done'.
Proof.
  unfold mid. change (below n ++ [Some (z, level n); Some (1, CArr done)]) with (below n ++ [Some (z, level n)] ++ [Some (1, CArr done)]).
  rewrite app_assoc. replace (S n) with (List.length (below n ++ [Some (z, level n)])) by (rewrite app_length, below_len; cbn; lia).
  rewrite list_set_mid, <- app_assoc. reflexivity.
Qed.

Lemma mid_push n z done : zlen done < 2 ^ 64 ->
  s_push_back (St (mid n z done) [HArr n; HArr (S n)]) 1 (Cref 0) =
    Ok (St (mid n (z + 1) (done ++ [HArr n])) [HArr n; HArr (S n)], A_unit).
Proof.
  intros L. unfold s_push_back, s_size, get_var. cbn [vars nth_error bind heap]. rewrite mid_new. cbn [bind].
  unfold s_insert, unshare, get_var. cbn [vars nth_error bind heap]. unfold copy_on_write, copy_on_write_over, refcount. cbn [href].
  rewrite mid_new. cbn [Z.ltb Z.compare Pos.compare Pos.compare_cont bind list_set insert_in elements_of heap]. rewrite mid_new. cbn [bind].
  assert (0 <= zlen done) by (unfold zlen; lia). rewrite Z.mod_small by lia. rewrite Z.ltb_irrefl.
  unfold take_forward, take_copy, get_var. cbn [vars nth_error bind heap]. unfold inc. cbn [href]. rewrite mid_shared, mid_set_shared. cbn [bind].
  unfold put_s, put. cbn [heap vars]. rewrite mid_new, mid_set_new. cbn [bind].
  replace (Z.to_nat (zlen done)) with (List.length done) by (unfold zlen; lia).
  rewrite <- (app_nil_r done) at 2. rewrite list_insert_mid. reflexivity.
Qed.

Lemma one_round n : s_run (St (dag n) [HArr n; HNull]) round =
  Ok (St (dag (S n)) [HArr (S n); HNull], [A_unit; A_unit; A_unit; A_unit]).
Proof.
  unfold round. cbn [s_run s_exec s_make alloc heap vars]. unfold overwrite at 1, get_var at 1. cbn [vars nth_error bind set_var list_set heap].
  unfold drop_s at 1. rewrite drop_scalar by reflexivity. cbn [bind heap vars].
  replace (List.length (dag n)) with (S n) by (unfold dag; rewrite app_length, below_len; cbn; lia).
  replace (dag n ++ [Some (1, CArr [])]) with (mid n 1 []) by (unfold dag, mid; rewrite <- app_assoc; reflexivity).
  unfold set_var. cbn [heap vars list_set]. rewrite mid_push by reflexivity. cbn [bind app]. rewrite mid_push by reflexivity. cbn [bind app].
  unfold s_move. cbn [Nat.eqb]. unfold take_move, get_var. unfold overwrite, get_var, drop_s, set_var.
  cbn [vars nth_error bind list_set heap].
  rewrite (drop_held _ (HArr n) n _ (level n) eq_refl (mid_shared n _ _)) by lia. rewrite mid_set_shared. cbn [bind].
  replace (1 + 1 + 1 - 1) with 2 by lia. unfold mid, dag. f_equal. f_equal. f_equal.
  unfold below. rewrite seq_S, map_app, <- app_assoc. reflexivity.
Qed.

Lemma doubling_runs n : exists l, s_run (init 2) (doubling n) = Ok (St (dag n) [HArr n; HNull], l) /\ Forall (eq A_unit) l.
Proof.
  unfold doubling. cbn [s_run]. assert (E0 : s_exec (init 2) (O_make 0 New_array) = Ok (St (dag 0) [HArr 0; HNull], A_unit)) by reflexivity.
  rewrite E0. cbn [bind].
  assert (G : forall k m, exists l, s_run (St (dag m) [HArr m; HNull]) (List.concat (repeat round k)) = Ok (St (dag (m + k)) [HArr (m + k); HNull], l) /\
    Forall (eq A_unit) l).
  { induction k as [|k IH]; intros m; cbn [repeat List.concat].
    - exists []. rewrite Nat.add_0_r. split; [reflexivity|constructor].
    - destruct (IH (S m)) as (l & E & F). exists ([A_unit; A_unit; A_unit; A_unit] ++ l). split.
      + rewrite (s_run_app round). rewrite one_round. cbn [bind]. rewrite E. cbn [bind]. replace (S m + k)%nat with (m + S k)%nat by lia. reflexivity.
      + repeat (constructor; [reflexivity|]). exact F. }
  destruct (G n 0%nat) as (l & E & F). cbn [Nat.add] in E. rewrite E. cbn [bind]. exists (A_unit :: l). split; [reflexivity|constructor; [reflexivity|exact F]].
Qed.

Lemma dag_at n i : (i <= n)%nat -> exists z, 0 < z /\ cell_at (dag n) i = Some (z, level i).
Proof.
  intros L. unfold dag, cell_at. destruct (Nat.eq_dec i n) as [->|N].
  - exists 1. rewrite nth_error_app2 by (rewrite below_len; lia). rewrite below_len, Nat.sub_diag. split; [lia|reflexivity].
  - exists 2. rewrite nth_error_app1 by (rewrite below_len; lia). unfold below. rewrite nth_error_map.
    rewrite (nth_error_nth' (seq 0 n) 0%nat) by (rewrite seq_length; lia). rewrite seq_nth by lia. split; [lia|reflexivity].
Qed.
Lemma dag_len n : List.length (dag n) = S n.
Proof. unfold dag. rewrite app_length, below_len. cbn. lia. Qed.
Lemma dag_shows n : forall i, (i <= n)%nat -> shows (dag n) (HArr i) (doubled i).
Proof.
  induction i as [|i IH]; intros L; destruct (dag_at n _ L) as (z & _ & E); (eapply sh_arr; [exact E|]).
  - constructor.
  - repeat constructor; apply IH; lia.
Qed.
Lemma dag_positive n : positive (dag n).
Proof.
  intros a z c E. assert (L : (a <= n)%nat) by (apply cell_at_lt in E; rewrite dag_len in E; lia).
  destruct (dag_at n a L) as (z' & P & E'). rewrite E in E'. injection E' as -> _. exact P.
Qed.
Lemma doubled_fits n : heap_value (doubled n) /\ in_memory (doubled n).
Proof.
  induction n as [|n [A B]]; split; constructor; try exact I; try (repeat constructor; assumption).
  all: cbv; discriminate.
Qed.
Lemma doubled_nodes n : S (aggregates (doubled n)) = (2 ^ S n)%nat.
Proof.
  induction n as [|n IH]; [reflexivity|]. rewrite Nat.pow_succ_r', <- IH. cbn [doubled aggregates map list_sum fold_right]. lia.
Qed.

Theorem c60_sharing_lost n :
  List.length (doubling n) = (4 * n + 1)%nat /\
  exists o l h, s_run (init 2) (doubling n) = Ok (o, l) /\ Forall (eq A_unit) l /\
    nth_error (vars o) 0 = Some h /\ List.length (heap o) = S n /\
    forall s, exists s' g, transmogrify (heap o) h s = Ok (heap o, s', g) /\
      S (List.length (heap s')) = (List.length (heap s) + 2 ^ S n)%nat.
Proof.
  split.
  { unfold doubling. cbn [List.length]. induction n as [|n IH]; [reflexivity|]. cbn [repeat List.concat]. rewrite app_length.
    change (List.length round) with 4%nat. lia. }
  destruct (doubling_runs n) as (l & E & F). exists (St (dag n) [HArr n; HNull]), l, (HArr n).
  refine (conj E (conj F (conj eq_refl (conj (dag_len n) _)))). intros s. cbn [heap].
  destruct (doubled_fits n) as [H M].
  destruct (c60_heap (dag n) (HArr n) (doubled n) s (dag_positive n) (dag_shows n n (le_n n)) H M) as (k & g & T & _ & L & _).
  exists (St (heap s ++ map single k) (vars s)), g. split; [exact T|]. cbn [heap]. rewrite app_length, map_length, L.
  rewrite <- doubled_nodes. lia.
Qed.
Print Assumptions c60_sharing_lost.

(** ** Finalized values and packets *)

Definition p_shows (cs : cells) (p : form) (v : value) (finalized : bool) : Prop :=
  match p with
  | In_cells h => finalized = false /\ shows cs h v
  | In_bytes bs m e => finalized = true /\ represents bs m e v
  end.

(** Packets keep value and form, provided a finalized one holds an object; that one's
    copy touches neither store. *)
Theorem c60_packet old p v f s addr :
  (forall a n c, cell_at old a = Some (n, c) -> 0 < n) -> p_shows old p v f -> heap_value v -> in_memory v ->
  addr mod 8 = 0 -> (f = true -> h_type v = T_object) ->
  exists s' p', p_transmogrify old p s addr = Ok (old, s', p') /\ p_shows (heap s') p' v f /\ (f = true -> s' = s).
Proof.
  intros P Sh H M A O. destruct p as [h|bs m e]; destruct Sh as [-> Sh]; cbn [p_transmogrify].
  - destruct (c60_heap old h v s P Sh H M) as (l & g & -> & Sg & _). cbn [bind]. eexists _, _. split; [reflexivity|].
    split; [split; [reflexivity|exact Sg]|discriminate].
  - specialize (O eq_refl). destruct v as [fs| | | | | |]; try discriminate O.
    destruct (rep_bytes bs m e fs Sh) as (bytes & E & R). unfold b_transmogrify. rewrite E. cbn [bind].
    eexists _, _. split; [reflexivity|]. split; [split; [reflexivity|apply R; exact A]|reflexivity].
Qed.
Print Assumptions c60_packet.

(** Any other finalized value is refused... *)
Theorem c60_finalized_other old bs m e v s addr : represents bs m e v -> h_type v <> T_object ->
  p_transmogrify old (In_bytes bs m e) s addr = Throw type_error.
Proof.
  intros R N. cbn [p_transmogrify]. unfold b_transmogrify, b_get_bytes. rewrite (PacketRun.b_object_other _ _ _ _ R) by (destruct v; try discriminate; elim N; reflexivity).
  reflexivity.
Qed.
Print Assumptions c60_finalized_other.

(** ...although the same value is copied when it is mutable: a member of a document is
    enough. *)
Definition c60_doc : value := VObj [(b "a", VArr [VInt 1; VArr []])].
Theorem c60_finalized_refuted :
  exists m e v, finalize c60_doc = Ok m /\ b_get 0 m root (b "a") = Ok e /\ represents 0 m e v /\ heap_value v /\ in_memory v /\
    (forall old s addr, p_transmogrify old (In_bytes 0 m e) s addr = Throw type_error) /\
    exists h cs, shows cs h v /\ forall s addr, exists s' p', p_transmogrify cs (In_cells h) s addr = Ok (cs, s', p').
Proof.
  assert (HV : heap_value c60_doc) by (repeat (constructor; cbn); discriminate).
  destruct (finalize c60_doc) as [m| | | |] eqn:E; try (vm_compute in E; discriminate E). exists m.
  destruct (finalize_root _ m 0 HV E eq_refl) as (R & _).
  assert (G : good_keys [(b "a", VArr [VInt 1; VArr []])]).
  { apply good_all_keys. constructor; [exact I|]. constructor; [|constructor]. split.
    - cbn [fst]. split; [intros [X|[]]; discriminate X|]. split; [|discriminate]. constructor; [reflexivity|constructor].
    - repeat (constructor; try exact I). }
  destruct (b_get_spec 0 m root _ (b "a") R G) as (e & Eg & Re).
  replace (lookup (b "a") [(b "a", VArr [VInt 1; VArr []])]) with (Some (VArr [VInt 1; VArr []])) in Re by (vm_compute; reflexivity).
  exists e, (VArr [VInt 1; VArr []]).
  assert (Re' : represents 0 m e (VArr [VInt 1; VArr []])) by exact Re.
  assert (M : in_memory (VArr [VInt 1; VArr []])) by (repeat (constructor; cbn); discriminate).
  refine (conj eq_refl (conj Eg (conj Re' (conj (proj1 Re') (conj M (conj _ _)))))).
  - intros old s addr. apply (c60_finalized_other _ _ _ _ _ _ _ Re'). discriminate.
  - exists (HArr 1), [Some (1, CArr []); Some (1, CArr [HInt 1; HArr 0])].
    assert (Sh : shows [Some (1, CArr []); Some (1, CArr [HInt 1; HArr 0])] (HArr 1) (VArr [VInt 1; VArr []])).
    { eapply sh_arr; [reflexivity|]. constructor; [constructor|]. constructor; [|constructor]. eapply sh_arr; [reflexivity|constructor]. }
    split; [exact Sh|]. intros s addr.
    destruct (c60_packet [Some (1, CArr []); Some (1, CArr [HInt 1; HArr 0])] (In_cells (HArr 1)) (VArr [VInt 1; VArr []]) false s 0)
      as (s' & p' & Q & _); [|split; [reflexivity|exact Sh]|exact (proj1 Re')|exact M|reflexivity|discriminate|].
    { intros [|[|[|a]]] n c C; try discriminate C; injection C as <- _; lia. }
    exists s', p'. cbn [p_transmogrify] in *. exact Q.
Qed.
Print Assumptions c60_finalized_refuted.

(** ** A concrete case *)
Definition c60_history : list hop :=
  [ O_make 0 New_object; O_insert 0 (VStr (b "n")) (Lit (VInt 7)); O_make 1 New_array; O_push_back 1 (Cref 0); O_push_back 1 (Cref 0);
    O_insert 0 (VStr (b "list")) (Cref 1); O_copy 2 0 ].
Example c60_case :
  match s_run (init 3) c60_history, s_run (init 1) [O_make 0 New_array] with
  | Ok (o, _), Ok (s, _) =>
      match nth_error (vars o) 2 with
      | Some h =>
          match transmogrify (heap o) h s with
          | Ok (old, s', g) =>
              old = heap o /\ h_show 9 (heap s') g = show o 2 /\
              show o 2 = Ok (VObj [(b "n", VInt 7); (b "list", VArr [VObj [(b "n", VInt 7)]; VObj [(b "n", VInt 7)]])]) /\
              List.length (heap o) = 3%nat /\ (List.length (heap s') = List.length (heap s) + 4)%nat
          | _ => False
          end
      | None => False
      end
  | _, _ => False
  end.
Proof. vm_compute. repeat split. Qed.
