(** Facts behind C64: a legal call keeps both counters' storage accounted for and agrees
    with independent values. *)

From Coq Require Import ZArith List Bool Lia ZifyBool ZifyNat ZifyN.
From Verif Require Import Base BaseFacts Keys Wire Spec SpecOps HeapOps HeapFacts Store StoreSpec StoreFacts StoreSteps StoreRun PropsStore Swap SpecSwap SwapFrame.
Import ListNotations.
Open Scope Z_scope.

Lemma counter_eqb_refl c : counter_eqb c c = true.
Proof. destruct c; reflexivity. Qed.
Lemma counter_eqb_eq c d : counter_eqb c d = true -> c = d.
Proof. destruct c, d; cbn; congruence. Qed.
Lemma counter_eqb_ne c d : c <> d -> counter_eqb c d = false.
Proof. destruct c, d; cbn; congruence. Qed.
Definition counter_dec (c d : counter) : {c = d} + {c <> d}.
Proof. decide equality. Defined.

Section Any.
Context {S : Type}.
Lemma store_same c (s : S) w : store c (with_store c s w) = s.
Proof. destruct c; reflexivity. Qed.
Lemma store_other c d (s : S) w : d <> c -> store d (with_store c s w) = store d w.
Proof. destruct c, d; cbn; congruence. Qed.
Lemma slots_with c (s : S) w : slots (with_store c s w) = slots w.
Proof. destruct c; reflexivity. Qed.
Lemma store_slot c j t (w : world (S := S)) : store c (set_slot j t w) = store c w.
Proof. destruct c; reflexivity. Qed.
End Any.

Section Rel.
Context (n k : nat).

Record R1 (g : list hval) (s : state) (e : env) (sl : list slot) (c : counter) : Prop := {
  r_len : length (vars s) = length e;
  r_size : length e = (n + k)%nat;
  r_inv : exists eg, Inv (more g s) (e ++ eg) [];
  r_null : forall j t, nth_error sl j = Some t -> held t <> Some c -> val e (n + j) = VNull }.
Record Rel (G : counter -> list hval) (w : world) (e : world) : Prop := {
  l_slots : slots w = slots e;
  l_size : length (slots w) = k;
  l_one : forall c, R1 (G c) (store c w) (store c e) (slots w) c }.

Lemma R1_exec g s e sl c o : R1 g s e sl c -> call_ok (n + k) o -> allowed s e o ->
  (forall j t, nth_error sl j = Some t -> held t <> Some c -> ~ touches o (n + j)) ->
  exists s', s_exec s o = Ok (s', snd (v_exec e o)) /\ R1 g s' (fst (v_exec e o)) sl c.
Proof.
  intros [L Z [eg I] N] C A T. destruct (step_aside g eg s e o L I) as (s' & E & I' & L'); [rewrite Z; exact C|exact A|].
  exists s'. split; [exact E|]. split.
  - rewrite v_exec_len. exact L'.
  - rewrite v_exec_len. exact Z.
  - exists eg. exact I'.
  - intros j t Nt Ht. rewrite v_exec_other by (apply (T j t); assumption). apply (N j t); assumption.
Qed.
Lemma val_set_self e x v : (x < length e)%nat -> val (list_set x v e) x = v.
Proof. unfold val. revert x. induction e as [|a e IH]; intros [|x] L; cbn in *; try lia; auto. apply IH. lia. Qed.
Lemma R1_forget g s e sl c j h : R1 g s e sl c -> (j < k)%nat -> nth_error (vars s) (n + j) = Some h ->
  R1 (h :: g) (abandon s (n + j)) (p_forget e (n + j)) sl c.
Proof.
  intros [L Z [eg I] N] J Nh. split.
  - unfold abandon, set_var, p_forget. cbn [vars]. rewrite !list_set_length. exact L.
  - unfold p_forget. rewrite list_set_length. exact Z.
  - exists (val e (n + j) :: eg). apply aside_abandon; [exact L|lia|exact I|exact Nh].
  - intros i t Nt Ht. unfold p_forget. destruct (Nat.eq_dec i j) as [->|D].
    + apply val_set_self. lia.
    + rewrite val_set_other by lia. apply (N i t); assumption.
Qed.
Lemma nth_list_set {A} i j (t u : A) l : nth_error (list_set j t l) i = Some u -> (i = j /\ u = t) \/ (i <> j /\ nth_error l i = Some u).
Proof.
  revert i j. induction l as [|a l IH]; intros [|i] [|j]; cbn; intros H; try discriminate; auto.
  - injection H as ->. auto.
  - destruct (IH i j H) as [[-> ->]|[D E]]; auto.
Qed.
Lemma R1_slots g s e sl c j t : R1 g s e sl c -> held t = Some c \/ val e (n + j) = VNull -> R1 g s e (list_set j t sl) c.
Proof.
  intros [L Z I N] H. split; auto. intros i u Nu Hu. destruct (nth_list_set _ _ _ _ _ Nu) as [[-> ->]|[D E]].
  - destruct H; [contradiction|assumption].
  - apply (N i u); assumption.
Qed.
Lemma slot_ok (w : world (S := state)) j : (j < length (slots w))%nat -> exists t, nth_error (slots w) j = Some t.
Proof. intros L. destruct (nth_error (slots w) j) as [t|] eqn:E; eauto. apply nth_error_None in E. lia. Qed.

(** ** A call on what is there *)
Lemma on_step G w e c o : Rel G w e -> call_ok (n + k) o -> allowed (store c w) (store c e) o ->
  (forall j t, nth_error (slots w) j = Some t -> held t <> Some c -> ~ touches o (n + j)) ->
  exists w', on s_exec w c o = Ok (w', Done (snd (v_exec (store c e) o))) /\
    on p_exec e c o = Ok (with_store c (fst (v_exec (store c e) o)) e, Done (snd (v_exec (store c e) o))) /\
    Rel G w' (with_store c (fst (v_exec (store c e) o)) e).
Proof.
  intros [LS LZ L1] C A T. destruct (R1_exec _ _ _ _ _ o (L1 c) C A T) as (s' & E & R).
  exists (with_store c s' w). unfold on. rewrite E. cbn [bind]. split; [reflexivity|]. unfold p_exec. cbn [bind].
  destruct (v_exec (store c e) o) as [e1 a]. cbn [bind fst snd] in *. split; [reflexivity|]. split.
  - rewrite !slots_with. exact LS.
  - rewrite slots_with. exact LZ.
  - intros d. rewrite slots_with. destruct (counter_dec d c) as [->|D].
    + rewrite !store_same. exact R.
    + rewrite !store_other by exact D. apply L1.
Qed.

(** ** A constructor *)
Definition gone (c : counter) (w : world) (j : nat) : list hval :=
  match nth_error (slots w) j with
  | Some (Slot _ (Some d)) =>
      if counter_eqb c d then match nth_error (vars (store c w)) (n + j) with Some h => [h] | None => [] end else []
  | _ => []
  end.

Definition built (e : world) (j : nat) (c : counter) (o : hop) : world :=
  match nth_error (slots e) j with
  | Some t =>
      let e0 := match held t with Some d => with_store d (p_forget (store d e) (n + j)) e | None => e end in
      match snd (v_exec (store c e0) o) with
      | A_err _ => set_slot j (Slot (Some c) (held t)) e
      | _ => set_slot j (Slot (Some c) (Some c)) (with_store c (fst (v_exec (store c e0) o)) e0)
      end
  | None => e
  end.

Lemma construct_step G w e j c o : Rel G w e -> (j < k)%nat -> call_ok (n + k) o -> (forall s v, allowed s v o) ->
  (forall i t, i <> j -> nth_error (slots w) i = Some t -> held t <> Some c -> ~ touches o (n + i)) ->
  exists w' r, construct s_exec abandon n w j c o = Ok (w', r) /\ construct p_exec p_forget n e j c o = Ok (built e j c o, r) /\
    Rel (fun d => (if failed r then [] else gone d w j) ++ G d) w' (built e j c o).
Proof.
  intros [LS LZ L1] J C A T. destruct (slot_ok w j) as [t Nt]; [lia|].
  assert (Ne : nth_error (slots e) j = Some t) by (rewrite <- LS; exact Nt).
  unfold construct, slot_at, built, gone. rewrite Nt, Ne. cbn [bind]. cbv zeta.
  set (w0 := match held t with Some d => with_store d (abandon (store d w) (n + j)) w | None => w end).
  set (e0 := match held t with Some d => with_store d (p_forget (store d e) (n + j)) e | None => e end).
  set (g0 := fun d => match t with
      | {| held := Some d0 |} => if counter_eqb d d0 then match nth_error (vars (store d w)) (n + j) with Some h => [h] | None => [] end else []
      | _ => [] end).
  assert (L0 : forall d, R1 (g0 d ++ G d) (store d w0) (store d e0) (slots w) d /\ val (store d e0) (n + j) = VNull).
  { intros d. unfold g0, w0, e0. destruct t as [tg [d0|]]; cbn [held].
    - destruct (counter_dec d d0) as [->|D].
      + rewrite counter_eqb_refl, !store_same. destruct (nth_error (vars (store d0 w)) (n + j)) as [h|] eqn:Eh.
        * split; [apply R1_forget; [apply L1|exact J|exact Eh]|]. apply val_set_self. rewrite (r_size _ _ _ _ _ (L1 d0)). lia.
        * apply nth_error_None in Eh. pose proof (r_len _ _ _ _ _ (L1 d0)) as Q1. pose proof (r_size _ _ _ _ _ (L1 d0)) as Q2. lia.
      + rewrite counter_eqb_ne by exact D. rewrite !store_other by exact D. split; [apply L1|].
        apply (r_null _ _ _ _ _ (L1 d) j _ Nt). cbn [held]. congruence.
    - split; [apply L1|]. apply (r_null _ _ _ _ _ (L1 d) j _ Nt). cbn [held]. discriminate. }
  destruct (L0 c) as [Rc Vc]. pose proof (R1_slots _ _ _ _ _ j (Slot (Some c) (Some c)) Rc (or_introl eq_refl)) as Rs.
  destruct (R1_exec _ _ _ _ _ o Rs C (A _ _)) as (s' & E & R).
  { intros i u Nu Hu. destruct (nth_list_set _ _ _ _ _ Nu) as [[-> ->]|[D Ni]]; [cbn [held] in Hu; congruence|]. apply (T i u); assumption. }
  fold w0 in E. rewrite E. cbn [bind]. unfold p_exec. cbn [bind]. destruct (v_exec (store c e0) o) as [e1 a] eqn:EV. cbn [fst snd bind] in *.
  assert (OK : Rel (fun d => g0 d ++ G d) (set_slot j (Slot (Some c) (Some c)) (with_store c s' w0)) (set_slot j (Slot (Some c) (Some c)) (with_store c e1 e0))).
  { assert (S0 : slots (with_store c s' w0) = slots w /\ slots (with_store c e1 e0) = slots w).
    { unfold w0, e0. rewrite !slots_with. destruct (held t); rewrite ?slots_with; auto. }
    destruct S0 as [S1 S2]. split.
    - cbn [set_slot slots]. rewrite S1, S2. reflexivity.
    - cbn [set_slot slots]. rewrite list_set_length, S1. exact LZ.
    - intros d. rewrite !store_slot. cbn [set_slot slots]. rewrite S1. destruct (counter_dec d c) as [->|D].
      + rewrite !store_same. exact R.
      + rewrite !store_other by exact D. destruct (L0 d) as [Rd Vd]. apply R1_slots; [exact Rd|right; exact Vd]. }
  assert (BAD : Rel G (set_slot j (Slot (Some c) (held t)) w) (set_slot j (Slot (Some c) (held t)) e)).
  { split; [cbn [set_slot slots]; rewrite LS; reflexivity|cbn [set_slot slots]; rewrite list_set_length; exact LZ|].
    intros d. rewrite !store_slot. cbn [set_slot slots]. apply R1_slots; [apply L1|]. cbn [held].
    destruct (held t) as [d0|] eqn:Eh; [destruct (counter_dec d d0) as [->|D]; [left; reflexivity|right]|right];
      apply (r_null _ _ _ _ _ (L1 d) j _ Nt); congruence. }
  destruct a; eexists _, _; (split; [reflexivity|split; [reflexivity|]]); cbn [failed app]; first [exact OK|exact BAD].
Qed.

Lemma Rel_ext G G' w e : (forall c, G c = G' c) -> Rel G w e -> Rel G' w e.
Proof. intros H [A B C]. split; auto. intros c. rewrite <- H. apply C. Qed.
Lemma Rel_same G w e o r : target o = None -> Rel G w e -> forall w0, Rel (fun d => (if failed r then [] else overwritten n d w0 o) ++ G d) w e.
Proof. intros H R w0. eapply Rel_ext; [|exact R]. intros c. cbn beta. unfold overwritten. rewrite H. destruct (failed r); reflexivity. Qed.

Lemma live_use G w e j : Rel G w e -> live w j ->
  exists c, use w j = Ok c /\ use e j = Ok c /\ nth_error (slots w) j = Some (Slot (Some c) (Some c)) /\ (j < k)%nat.
Proof.
  intros R [c N]. exists c. unfold use, slot_at. rewrite <- (l_slots _ _ _ R), N. cbn [bind tag held]. rewrite counter_eqb_refl.
  refine (conj eq_refl (conj eq_refl (conj eq_refl _))). rewrite <- (l_size _ _ _ R). apply nth_error_Some. congruence.
Qed.

Lemma call_on_slot G w e j c o : Rel G w e -> nth_error (slots w) j = Some (Slot (Some c) (Some c)) -> (j < k)%nat ->
  call_ok (n + k) o -> allowed (store c w) (store c e) o ->
  (forall y, touches o y -> y = (n + j)%nat \/ exists i, y = (n + i)%nat /\ nth_error (slots w) i = Some (Slot (Some c) (Some c))) ->
  exists w', on s_exec w c o = Ok (w', Done (snd (v_exec (store c e) o))) /\
    on p_exec e c o = Ok (with_store c (fst (v_exec (store c e) o)) e, Done (snd (v_exec (store c e) o))) /\
    Rel G w' (with_store c (fst (v_exec (store c e) o)) e).
Proof.
  intros R N J C A T. apply on_step; auto. intros i t Ni Hi Ti. destruct (T _ Ti) as [Q|(i' & Q & N')].
  - assert (i = j) by lia. subst. rewrite N in Ni. injection Ni as <-. cbn [held] in Hi. congruence.
  - assert (i = i') by lia. subst. rewrite N' in Ni. injection Ni as <-. cbn [held] in Hi. congruence.
Qed.

Lemma arg_step G w e j c v : Rel G w e -> legal_arg w j v ->
  (exists u, arg n w c v = Ok (Some u) /\ arg n e c v = Ok (Some u) /\ src_in (n + k) u /\ ~ names u (n + j) /\
    (forall z, u <> Lref z) /\ forall y, u = Rref y -> exists i, y = (n + i)%nat /\ nth_error (slots w) i = Some (Slot (Some c) (Some c))) \/
  (arg n w c v = Ok None /\ arg n e c v = Ok None).
Proof.
  intros R L. destruct v as [v|i|i]; cbn [legal_arg arg] in *.
  - left. exists (Lit v). repeat split; auto; try congruence; intros y; discriminate.
  - destruct L as [L D]. destruct (live_use _ _ _ _ R L) as (d & U1 & U2 & N & J). rewrite U1, U2. cbn [bind].
    destruct (counter_eqb c d) eqn:Q; [left|right; auto]. exists (Cref (n + i)). repeat split; auto; try congruence; cbn [src_in names]; try lia; intros y; discriminate.
  - destruct L as [L D]. destruct (live_use _ _ _ _ R L) as (d & U1 & U2 & N & J). rewrite U1, U2. cbn [bind].
    destruct (counter_eqb c d) eqn:Q; [left|right; auto]. apply counter_eqb_eq in Q. subst d.
    exists (Rref (n + i)). repeat split; auto; try congruence; cbn [src_in names]; try lia; intros y [= <-]; eauto.
Qed.

Lemma run1_step G w e o : Rel G w e -> legal n k w e o ->
  exists w' e' r, run1 s_exec abandon n w o = Ok (w', r) /\ run1 p_exec p_forget n e o = Ok (e', r) /\
    Rel (fun d => (if failed r then [] else overwritten n d w o) ++ G d) w' e'.
Proof.
  intros R L.
  assert (CON : forall j c o', target o = Some j -> (j < k)%nat -> call_ok (n + k) o' -> (forall s v, allowed s v o') ->
    (forall i t, i <> j -> nth_error (slots w) i = Some t -> held t <> Some c -> ~ touches o' (n + i)) ->
    exists w' e' r, construct s_exec abandon n w j c o' = Ok (w', r) /\ construct p_exec p_forget n e j c o' = Ok (e', r) /\
      Rel (fun d => (if failed r then [] else overwritten n d w o) ++ G d) w' e').
  { intros j c o' Tg J C A T. destruct (construct_step G w e j c o' R J C A T) as (w' & r & E1 & E2 & R').
    exists w', (built e j c o'), r. refine (conj E1 (conj E2 _)). eapply Rel_ext; [|exact R']. intros d. cbn beta. unfold overwritten, gone. rewrite Tg. reflexivity. }
  assert (SLOT : forall j c o', target o = None -> nth_error (slots w) j = Some (Slot (Some c) (Some c)) -> (j < k)%nat ->
    call_ok (n + k) o' -> allowed (store c w) (store c e) o' ->
    (forall y, touches o' y -> y = (n + j)%nat \/ exists i, y = (n + i)%nat /\ nth_error (slots w) i = Some (Slot (Some c) (Some c))) ->
    exists w' e' r, on s_exec w c o' = Ok (w', r) /\ on p_exec e c o' = Ok (e', r) /\
      Rel (fun d => (if failed r then [] else overwritten n d w o) ++ G d) w' e').
  { intros j c o' Tg N J C A T. destruct (call_on_slot G w e j c o' R N J C A T) as (w' & E1 & E2 & R').
    eexists _, _, _. refine (conj E1 (conj E2 _)). apply Rel_same; assumption. }
  assert (ARG : forall j v mk, target o = None -> live w j -> legal_arg w j v ->
    (forall u, src_in (n + k) u -> (n + j < n + k)%nat -> call_ok (n + k) (mk u)) ->
    (forall s x u, ~ names u (n + j) -> (forall z, u <> Lref z) -> allowed s x (mk u)) ->
    (forall u y, touches (mk u) y -> y = (n + j)%nat \/ u = Rref y) ->
    exists w' e' r, with_arg s_exec n w j v mk = Ok (w', r) /\ with_arg p_exec n e j v mk = Ok (e', r) /\
      Rel (fun d => (if failed r then [] else overwritten n d w o) ++ G d) w' e').
  { intros j v mk Tg Lj La C A T. unfold with_arg. destruct (live_use _ _ _ _ R Lj) as (c & U1 & U2 & N & J). rewrite U1, U2. cbn [bind].
    destruct (arg_step G w e j c v R La) as [(u & A1 & A2 & Su & Nu & Lu & Ru)|[A1 A2]]; rewrite A1, A2; cbn [bind].
    - apply (SLOT j); auto. { apply C; [exact Su|lia]. } intros y Ty. destruct (T u y Ty) as [Q|Q]; [auto|right; auto].
    - eexists _, _, _. refine (conj eq_refl (conj eq_refl _)). apply Rel_same; assumption. }
  destruct o as [c o|j c f|j i|j i|j|j i q|j q v|j q v|j q|j|j m|c j x mv|c x j]; cbn [legal run1] in *.
  - destruct L as [C A]. destruct (on_step G w e c o R) as (w' & E1 & E2 & R'); [eapply call_ok_le; [|exact C]; lia|exact A| |].
    { intros j t Nj Hj Tj. assert (n + j < n)%nat; [|lia]. clear - C Tj.
      destruct o as [x f|x y|x y|x|x y r|x k v|x k v|x k|x v|x v|x|x|x|x z v]; cbn [call_ok touches] in *;
        repeat match goal with H : _ /\ _ |- _ => destruct H end; try (subst; assumption);
        (destruct Tj as [<-|Tj]; [assumption|]; first [subst; assumption|destruct v; try contradiction; subst; assumption]). }
    eexists _, _, _. refine (conj E1 (conj E2 _)). apply Rel_same; [reflexivity|exact R'].
  - destruct L as [J F]. apply CON; [reflexivity|exact J| | |].
    + cbn [call_ok]. split; [lia|exact F].
    + intros s v. split; [exact Logic.I|exact Logic.I].
    + intros i t D _ _. cbn [touches]. lia.
  - destruct L as (J & Li & D). destruct (live_use _ _ _ _ R Li) as (c & U1 & U2 & N & J'). rewrite U1, U2. cbn [bind].
    destruct (Nat.eqb_spec j i); [contradiction|]. apply CON; [reflexivity|exact J| | |].
    + cbn [call_ok]. lia.
    + intros s v. split; exact Logic.I.
    + intros i' t D' _ _. cbn [touches]. lia.
  - destruct L as (J & Li & D). destruct (live_use _ _ _ _ R Li) as (c & U1 & U2 & N & J'). rewrite U1, U2. cbn [bind].
    destruct (Nat.eqb_spec j i); [contradiction|]. apply CON; [reflexivity|exact J| | |].
    + cbn [call_ok]. lia.
    + intros s v. split; exact Logic.I.
    + intros i' t D' Ni' Hi'. cbn [touches]. intros [Q|Q]; [lia|]. assert (i = i') by lia. subst i'. rewrite N in Ni'. injection Ni' as <-. cbn [held] in Hi'. congruence.
  - destruct (live_use _ _ _ _ R L) as (c & U1 & U2 & N & J). rewrite U1, U2. cbn [bind].
    destruct (call_on_slot G w e j c (O_destroy (n + j)) R N J) as (w' & E1 & E2 & R').
    { cbn [call_ok]. lia. } { split; exact Logic.I. } { cbn [touches]. auto. }
    rewrite E1, E2. cbn [bind]. eexists _, _, _. refine (conj eq_refl (conj eq_refl _)). apply Rel_same; [reflexivity|].
    destruct R' as [A B C]. split.
    + cbn [set_slot slots]. rewrite A. reflexivity.
    + cbn [set_slot slots]. rewrite list_set_length. exact B.
    + intros d. rewrite !store_slot. cbn [set_slot slots]. apply R1_slots; [apply C|]. right. destruct (counter_dec d c) as [->|D].
      * rewrite store_same. cbn [v_exec fst]. apply val_set_self. rewrite (r_size _ _ _ _ _ (l_one _ _ _ R c)). lia.
      * rewrite store_other by exact D. apply (r_null _ _ _ _ _ (l_one _ _ _ R d) j _ N). cbn [held]. congruence.
  - destruct L as (J & Li & D & Q). destruct (live_use _ _ _ _ R Li) as (c & U1 & U2 & N & J'). rewrite U1, U2. cbn [bind].
    destruct (Nat.eqb_spec j i); [contradiction|]. apply CON; [reflexivity|exact J| | |].
    + cbn [call_ok]. split; [lia|]. split; [lia|]. destruct q; exact Q.
    + intros s v. split; exact Logic.I.
    + intros i' t D' _ _. cbn [touches]. lia.
  - destruct L as [Lj La]. apply ARG; [reflexivity|exact Lj|exact La| | |].
    + intros u Su B. cbn [call_ok]. auto.
    + intros s x u Nu Lu. split; [exact Nu|]. destruct u; try exact Logic.I. destruct (Lu y eq_refl).
    + intros u y. cbn [touches]. intros [<-|H]; auto. destruct u; try contradiction. subst. auto.
  - destruct L as [Lj La]. apply ARG; [reflexivity|exact Lj|exact La| | |].
    + intros u Su B. cbn [call_ok]. auto.
    + intros s x u Nu Lu. split; [exact Nu|exact Logic.I].
    + intros u y. cbn [touches]. intros [<-|H]; auto. destruct u; try contradiction. subst. auto.
  - destruct (live_use _ _ _ _ R L) as (c & U1 & U2 & N & J). rewrite U1, U2. cbn [bind]. apply (SLOT j); [reflexivity|exact N|exact J| | |].
    + cbn [call_ok]. lia.
    + split; exact Logic.I.
    + cbn [touches]. auto.
  - destruct L as [L Al]. destruct (live_use _ _ _ _ R L) as (c & U1 & U2 & N & J). rewrite U1, U2. cbn [bind]. apply (SLOT j); [reflexivity|exact N|exact J| | |].
    + cbn [call_ok]. lia.
    + split; [exact Logic.I|apply Al].
    + cbn [touches]. auto.
  - destruct L as [L Al]. destruct (live_use _ _ _ _ R L) as (c & U1 & U2 & N & J). rewrite U1, U2. cbn [bind]. apply (SLOT j); [reflexivity|exact N|exact J| | |].
    + cbn [call_ok src_in]. split; [lia|]. discriminate.
    + split; [|exact Logic.I]. split; [exact (fun f => f)|apply Al].
    + cbn [touches]. auto.
  - destruct L as [J X]. apply CON; [reflexivity|exact J| | |].
    + destruct mv; cbn [call_ok]; lia.
    + intros s v. destruct mv; split; exact Logic.I.
    + intros i t D _ _. destruct mv; cbn [touches]; lia.
  - destruct L as [X Lt]. unfold slot_at. rewrite <- (l_slots _ _ _ R). destruct (nth_error (slots w) j) as [[[d|] h]|] eqn:N; try contradiction.
    cbn [bind tag]. destruct (counter_eqb c d) eqn:Q.
    + apply counter_eqb_eq in Q. destruct (live_use _ _ _ _ R (Lt Q)) as (c' & U1 & U2 & N' & J). rewrite U1, U2. cbn [bind].
      rewrite N in N'. injection N' as -> ->. subst c'.
      destruct (on_step G w e c (O_copy x (n + j)) R) as (w' & E1 & E2 & R').
      { cbn [call_ok]. lia. } { split; exact Logic.I. } { intros i t _ _. cbn [touches]. lia. }
      eexists _, _, _. refine (conj E1 (conj E2 _)). apply Rel_same; [reflexivity|exact R'].
    + eexists _, _, _. refine (conj eq_refl (conj eq_refl _)). apply Rel_same; [reflexivity|exact R].
Qed.

Lemma Rel_run p : forall G w e, Rel G w e -> all_legal n k w e p ->
  exists w' e' l, run s_exec abandon n w p = Ok (w', l) /\ run p_exec p_forget n e p = Ok (e', l) /\
    Rel (fun d => lost n d w p ++ G d) w' e'.
Proof.
  induction p as [|o p IH]; intros G w e R A; cbn [run all_legal lost] in *.
  - eexists _, _, _. refine (conj eq_refl (conj eq_refl R)).
  - destruct A as [L A]. destruct (run1_step G w e o R L) as (w1 & e1 & r & E1 & E2 & R1'). rewrite E1, E2 in *. cbn [bind].
    destruct (IH _ _ _ R1' A) as (w2 & e2 & l & F1 & F2 & R2). rewrite F1, F2. cbn [bind].
    eexists _, _, _. refine (conj eq_refl (conj eq_refl _)). eapply Rel_ext; [|exact R2]. intros c. cbn beta. rewrite app_assoc. reflexivity.
Qed.
End Rel.

Lemma val_repeat m x : val (repeat VNull m) x = VNull.
Proof. unfold val. revert x. induction m as [|m IH]; intros [|x]; cbn; auto. Qed.
Lemma Rel_init n k : Rel n k (fun _ => []) (fresh_world n k) (plain_world n k).
Proof.
  split.
  - reflexivity.
  - apply repeat_length.
  - intros c. assert (R : R1 n k [] (init (n + k)) (repeat VNull (n + k)) (repeat (Slot None None) k) c).
    { pose proof (Inv_init (n + k)) as II. pose proof (Inv_len _ _ _ II) as LL. split.
      - exact LL.
      - apply repeat_length.
      - exists []. unfold more. rewrite !app_nil_r. destruct (init (n + k)); exact II.
      - intros j t _ _. apply val_repeat. }
    destruct c; exact R.
Qed.
Lemma legal_run n k p : legal_program n k p ->
  exists w e l, w_run n k p = Ok (w, l) /\ p_run n k p = Ok (e, l) /\ Rel n k (fun c => lost n c (fresh_world n k) p) w e.
Proof.
  intros L. destruct (Rel_run n k p _ _ _ (Rel_init n k) L) as (w & e & l & E1 & E2 & R). exists w, e, l. refine (conj E1 (conj E2 _)).
  eapply Rel_ext; [|exact R]. intros c. cbn beta. apply app_nil_r.
Qed.

Lemma Rel_observes n k G w e c x : Rel n k G w e -> (x < n + k)%nat -> observes (store c w) x (val (store c e) x).
Proof.
  intros R L. destruct (l_one _ _ _ _ _ R c) as [LE Z [eg II] _].
  destruct (L_get _ _ _ x II) as (h & N & _ & Sh); [rewrite app_length; lia|]. exists h. unfold more in N. cbn [vars heap] in *.
  rewrite nth_error_app1 in N by lia. rewrite val_app in Sh by lia. auto.
Qed.
Lemma Rel_counted n k G w e c : Rel n k G w e -> counted w c (G c).
Proof.
  intros R. destruct (l_one _ _ _ _ _ R c) as [LE Z [eg [[W1 W2] F]] _]. intros a m d E. unfold more in W1. cbn [heap vars app] in W1.
  destruct (W1 a m d E) as [Q P]. rewrite nref_app in Q. split; lia.
Qed.
Lemma Rel_alive n k G w e c h : Rel n k G w e -> In h (vars (store c w) ++ G c) -> exists v, shows (heap (store c w)) h v.
Proof.
  intros R I. destruct (l_one _ _ _ _ _ R c) as [LE Z [eg [[W1 W2] F]] _]. apply W2. unfold more. cbn [vars app]. apply in_or_app. left. exact I.
Qed.
