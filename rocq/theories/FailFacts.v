(** Lemmas for C70. *)

From Coq Require Import ZArith List Bool Lia.
From Verif Require Import Base BaseFacts Keys Wire Spec SpecOps HeapOps Store StoreSpec StoreFacts StoreSteps StoreRun Fail SpecFail.
Import ListNotations.
Open Scope Z_scope.

(** ** What is not refused is done as before *)
Lemma copy_nodes_done hs : forall m cs made m' cs',
  copy_nodes m cs hs made = Ok (m', cs', true) -> inc_all cs hs = Ok cs'.
Proof.
  induction hs as [|h hs IH]; intros m cs made m' cs' E; cbn [copy_nodes inc_all] in *.
  - apply Ok_inj in E. congruence.
  - destruct (ask m) as [[] m1]; apply bind_Ok in E; destruct E as (cs1 & E1 & E).
    + rewrite E1. cbn [bind]. eapply IH; exact E.
    + apply Ok_inj in E. discriminate.
Qed.
Lemma copy_kids_done m cs c m' cs' : copy_kids m cs c = Ok (m', cs', true) -> inc_all cs (kids c) = Ok cs'.
Proof.
  destruct c as [fs|vs]; cbn [copy_kids kids]; [apply copy_nodes_done|].
  destruct (ask m) as [[] m1]; intros E; [|apply Ok_inj in E; discriminate].
  apply bind_Ok in E. destruct E as (cs1 & E1 & E). apply Ok_inj in E. congruence.
Qed.
Lemma cow_done_over over p m cs h m' cs' h' l : cow_may_over over p m cs h = Ok (m', cs', Some h', l) -> copy_on_write_over over cs h = Ok (cs', h') /\ l = [].
Proof.
  intros E. unfold copy_on_write_over.
  destruct h as [|z|d|b|t|a|a]; cbn [cow_may_over] in E;
    try (apply Ok_inj in E; injection E as <- <- <- <-; split; [destruct (over <? _); reflexivity|reflexivity]).
  all: destruct (over <? refcount cs _); [|apply Ok_inj in E; injection E as <- <- <- <-; auto].
  all: destruct (cell_at cs a) as [[n c]|]; [|discriminate].
  all: destruct (ask m) as [[] m1]; cbn [negb] in E; [|apply Ok_inj in E; discriminate].
  all: apply bind_Ok in E; destruct E as ([[m2 cs1] ok] & E1 & E); destruct ok; cbn [negb] in E; [|apply Ok_inj in E; discriminate].
  all: apply copy_kids_done in E1; rewrite E1; cbn [bind].
  all: destruct (ask m2) as [[] m3].
  all: try (destruct p; [apply bind_Ok in E; destruct E as (cs2 & E2 & E)|]; apply Ok_inj in E; discriminate).
  all: cbn [alloc] in *; apply bind_Ok in E; destruct E as (cs3 & E3 & E); apply Ok_inj in E; injection E as <- <- <- <-.
  all: rewrite E3; auto.
Qed.
Lemma cow_done p m cs h m' cs' h' l : cow_may p m cs h = Ok (m', cs', Some h', l) -> copy_on_write cs h = Ok (cs', h') /\ l = [].
Proof. apply cow_done_over. Qed.

Lemma may_done m n s rest m' s' a l : may m n s rest = Ok (m', s', Some a, l) -> rest = Ok (s', a) /\ l = [].
Proof.
  unfold may. destruct (ask_n n m) as [[] m1]; intros E; [|apply Ok_inj in E; discriminate].
  apply bind_Ok in E. destruct E as ([s1 b] & E1 & E). apply Ok_inj in E. injection E as <- <- <- <-. auto.
Qed.
Lemma after_cow_done p m s x n rest m' s' a l : after_cow p m s x n rest = Ok (m', s', Some a, l) ->
  ('(s1, h) <- unshare s x ;; rest s1 h) = Ok (s', a) /\ l = [].
Proof.
  unfold after_cow, unshare. intros E. apply bind_Ok in E. destruct E as (h & G & E). rewrite G. cbn [bind].
  apply bind_Ok in E. destruct E as ([[[m1 cs] o] l1] & E1 & E). destruct o as [h'|]; [|apply Ok_inj in E; discriminate].
  apply cow_done in E1. destruct E1 as [E1 _]. rewrite E1. cbn [bind]. eapply may_done; exact E.
Qed.
Lemma exec_done p m s o m' s' a l : m_exec p m s o = Ok (m', s', Some a, l) -> s_exec s o = Ok (s', a) /\ l = [].
Proof.
  destruct o as [x f|x y|x y|x|x y r|x k v|x k v|x k|x v|x v|x|x|x|x n v]; cbn [m_exec]; intros E;
    try (apply may_done in E; exact E); try (apply after_cow_done in E; exact E).
  - unfold m_erase in E. destruct k; try (apply may_done in E; exact E); apply after_cow_done in E; exact E.
  - cbn [s_exec]. unfold s_push_back. apply bind_Ok in E. destruct E as (n & S0 & E). rewrite S0. cbn [bind].
    destruct n as [n|]; [apply after_cow_done in E; exact E|].
    apply may_done in E. unfold s_push_back in E. rewrite S0 in E. exact E.
  - cbn [s_exec]. unfold s_pop_back. apply bind_Ok in E. destruct E as (n & S0 & E). rewrite S0. cbn [bind].
    destruct n as [n|]; [apply after_cow_done in E; exact E|].
    apply may_done in E. unfold s_pop_back in E. rewrite S0 in E. exact E.
Qed.

(** ** With memory for everything nothing differs *)
Lemma ask_n_nil n : ask_n n [] = (true, []).
Proof. induction n; [reflexivity|exact IHn]. Qed.
Lemma copy_nodes_nil hs : forall cs made, copy_nodes [] cs hs made = (cs1 <- inc_all cs hs ;; Ok ([], cs1, true)).
Proof.
  induction hs as [|h hs IH]; intros cs made; cbn [copy_nodes inc_all ask]; [reflexivity|].
  destruct (inc cs h); cbn [bind]; auto.
Qed.
Lemma cow_nil_over over p cs h : cow_may_over over p [] cs h = ('(cs1, h1) <- copy_on_write_over over cs h ;; Ok ([], cs1, Some h1, [])).
Proof.
  unfold copy_on_write_over. destruct h as [|z|d|b|t|a|a]; cbn [cow_may_over];
    try (destruct (over <? _); reflexivity).
  all: destruct (over <? refcount cs _); [|reflexivity].
  all: destruct (cell_at cs a) as [[n c]|]; [|reflexivity]. all: cbn [ask negb].
  all: replace (copy_kids [] cs c) with (cs1 <- inc_all cs (kids c) ;; Ok ([] : memory, cs1, true))
    by (destruct c; cbn [copy_kids kids ask]; rewrite ?copy_nodes_nil; reflexivity).
  all: destruct (inc_all cs (kids c)) as [cs1| | | |]; cbn [bind negb ask alloc]; try reflexivity.
  all: destruct (drop _ _); reflexivity.
Qed.
Lemma cow_nil p cs h : cow_may p [] cs h = ('(cs1, h1) <- copy_on_write cs h ;; Ok ([], cs1, Some h1, [])).
Proof. apply cow_nil_over. Qed.
Definition some_of (r : res (state * ans)) : res aftermath := '(s, a) <- r ;; Ok ([] : memory, s, Some a, [] : list cell).
Lemma may_nil n s rest : may [] n s rest = some_of rest.
Proof. unfold may. rewrite ask_n_nil. reflexivity. Qed.
Lemma after_cow_nil p s x n rest : after_cow p [] s x n rest = some_of ('(s1, h) <- unshare s x ;; rest s1 h).
Proof.
  unfold after_cow, unshare. destruct (get_var s x) as [h| | | |]; cbn [bind]; try reflexivity. rewrite cow_nil.
  destruct (copy_on_write (heap s) h) as [[cs h']| | | |]; cbn [bind]; try reflexivity. rewrite may_nil. reflexivity.
Qed.
Lemma exec_nil p s o : m_exec p [] s o = some_of (s_exec s o).
Proof.
  destruct o as [x f|x y|x y|x|x y r|x k v|x k v|x k|x v|x v|x|x|x|x n v]; cbn [m_exec];
    try apply may_nil; try apply after_cow_nil.
  - unfold m_erase. destruct k; try apply may_nil; apply after_cow_nil.
  - cbn [s_exec]. unfold s_push_back. destruct (s_size s x) as [[n|]| | | |]; cbn [bind]; try reflexivity; apply after_cow_nil.
  - cbn [s_exec]. unfold s_pop_back. destruct (s_size s x) as [[n|]| | | |]; cbn [bind]; try reflexivity; apply after_cow_nil.
Qed.

(** ** A refused call *)
Lemma copy_nodes_ok hs : forall m cs made roots, wf cs (made ++ roots) ->
  (forall h, In h hs -> In h (roots ++ all_kids cs)) ->
  exists m' cs' ok, copy_nodes m cs hs made = Ok (m', cs', ok) /\
    if ok then wf cs' (rev hs ++ made ++ roots) /\ sub cs cs'
    else wf cs' roots /\ (forall h v, In h roots -> shows cs h v -> shows cs' h v).
Proof.
  induction hs as [|h hs IH]; intros m cs made roots W I; cbn [copy_nodes rev].
  - eexists _, _, _. split; [reflexivity|]. split; [exact W|apply sub_refl].
  - destruct (ask m) as [[] m1].
    + destruct (inc_ok cs (made ++ roots) h W) as (cs1 & -> & W1 & S1 & S1' & K1).
      { rewrite <- app_assoc. apply in_or_app. right. apply I. left. reflexivity. }
      cbn [bind]. destruct (IH m1 cs1 (h :: made) roots W1) as (m2 & cs2 & ok & E2 & R2).
      { intros y J. rewrite K1. apply I. right. exact J. }
      exists m2, cs2, ok. split; [exact E2|]. destruct ok.
      * destruct R2 as [W2 S2]. split; [|eapply sub_trans; eassumption]. rewrite <- app_assoc. exact W2.
      * destruct R2 as [W2 F2]. split; [exact W2|]. intros y v J Sh. apply F2; [exact J|]. eapply shows_sub; eassumption.
    + unfold drop. destruct (drop_ok (length made + length (all_kids cs)) cs made roots W ltac:(lia)) as (cs1 & E1 & W1 & _ & F1 & _).
      rewrite E1. cbn [bind]. eexists _, _, _. split; [reflexivity|]. exact (conj W1 F1).
Qed.
Lemma copy_kids_ok c m cs roots : wf cs roots -> (forall h, In h (kids c) -> In h (roots ++ all_kids cs)) ->
  exists m' cs' ok, copy_kids m cs c = Ok (m', cs', ok) /\
    if ok then wf cs' (kids c ++ roots) /\ sub cs cs'
    else wf cs' roots /\ (forall h v, In h roots -> shows cs h v -> shows cs' h v).
Proof.
  intros W I. destruct c as [fs|vs]; cbn [copy_kids kids] in *.
  - destruct (copy_nodes_ok (map snd fs) m cs [] roots W I) as (m' & cs' & ok & E & R). exists m', cs', ok. split; [exact E|].
    destruct ok; [|exact R]. destruct R as [R S]. split; [|exact S]. eapply wf_meq; [|exact R]. cbn [app].
    intros h. rewrite !cnt_app. f_equal. clear. induction (map snd fs) as [|y r IH]; [reflexivity|].
    cbn [rev]. rewrite cnt_app, IH, (cnt_cons h y r). lia.
  - destruct (ask m) as [[] m1].
    + destruct (inc_all_ok vs cs roots W I) as (cs1 & E1 & W1 & S1 & _). rewrite E1. cbn [bind].
      eexists _, _, _. split; [reflexivity|]. exact (conj W1 S1).
    + eexists _, _, _. split; [reflexivity|]. split; [exact W|auto].
Qed.

Lemma keep s e t t' cs : Inv s e t -> wf cs (t' ++ vars s) ->
  (forall h v, In h (vars s) -> shows (heap s) h v -> shows cs h v) -> Inv (St cs (vars s)) e t'.
Proof.
  intros [W F] W' K. split; [exact W'|]. cbn [heap vars]. apply Forall2_nth_intro; [exact (Forall2_length F)|].
  intros i h v Hi Vi. apply K; [eapply nth_error_In; exact Hi|]. pose proof (Forall2_nth _ _ _ i F) as Q. rewrite Hi, Vi in Q. exact Q.
Qed.

Definition lost_ok (p : counter) (l : list cell) : Prop := (p = Std_shared -> l = []) /\ (length l <= 1)%nat.
Lemma lost_nil p : lost_ok p [].
Proof. split; auto. Qed.

Lemma cow_ok_over over p m s e t x h : Inv s e t -> 1 <= over -> nth_error (vars s) x = Some h ->
  exists m' cs' o l, cow_may_over over p m (heap s) h = Ok (m', cs', o, l) /\
    match o with
    | Some h' => l = []
    | None => Inv (St cs' (vars s)) e (flat_map kids l ++ t) /\ lost_ok p l
    end.
Proof.
  intros I OV N.
  assert (Lx : (x < length e)%nat).
  { rewrite <- (Inv_len _ _ _ I). apply nth_error_Some. congruence. }
  destruct (L_cow s e x t over I Lx OV) as (h0 & csd & hd & N0 & D & _). rewrite N in N0. injection N0 as <-.
  destruct (L_get _ _ _ _ I Lx) as (h0 & N0 & _ & Sh). rewrite N in N0. injection N0 as <-.
  assert (GO : forall a, href h = Some a -> (h = HObj a \/ h = HArr a) ->
    exists m' cs' o l, cow_may_over over p m (heap s) h = Ok (m', cs', o, l) /\
    match o with
    | Some h' => l = []
    | None => Inv (St cs' (vars s)) e (flat_map kids l ++ t) /\ lost_ok p l
    end).
  { intros a Ea Ha. destruct (shows_cell _ _ _ _ Sh Ea) as (n & c & C & H & CS).
    assert (UN : cow_may_over over p m (heap s) h =
      if over <? refcount (heap s) h then
        (let '(g, m1) := ask m in
            if negb g then Ok (m1, heap s, None, [])
            else
              '(m2, cs1, ok) <- copy_kids m1 (heap s) c ;;
              if negb ok then Ok (m2, cs1, None, [])
              else
                let '(g, m3) := ask m2 in
                if g then
                  let '(cs2, a') := alloc cs1 c in
                  cs3 <- drop cs2 [h] ;;
                  Ok (m3, cs3, Some (match h with HObj _ => HObj a' | _ => HArr a' end), [])
                else
                  match p with
                  | Std_shared => cs2 <- drop cs1 (kids c) ;; Ok (m3, cs2, None, [])
                  | Dart_unsafe => Ok (m3, cs1, None, [c])
                  end)
      else Ok (m, heap s, Some h, [])).
    { destruct Ha as [-> | ->]; cbn [cow_may_over]; rewrite C; reflexivity. }
    rewrite UN. destruct (over <? refcount (heap s) h) eqn:RC; [|eexists _, _, _, _; split; [reflexivity|reflexivity]].
    pose proof I as [W F].
    destruct (ask m) as [[] m1]; cbn [negb].
    2: { eexists _, _, _, _. split; [reflexivity|]. cbn [flat_map app]. split; [destruct s; exact I|apply lost_nil]. }
    destruct (copy_kids_ok c m1 (heap s) (t ++ vars s) W) as (m2 & cs1 & ok & E1 & R1).
    { intros y J. apply in_or_app. right. eapply kids_in; eassumption. }
    rewrite E1. cbn [bind]. destruct ok; cbn [negb].
    2: { eexists _, _, _, _. split; [reflexivity|]. cbn [flat_map app]. split; [|apply lost_nil].
         destruct R1 as [R1 R2]. exact (keep s e t t cs1 I R1 (fun y v J => R2 y v (in_or_app _ _ _ (or_intror J)))). }
    destruct R1 as [W1 S1].
    assert (SH1 : forall h v, In h (vars s) -> shows (heap s) h v -> shows cs1 h v).
    { intros y v _ Sy. eapply shows_sub; eassumption. }
    destruct (ask m2) as [[] m3].
    - cbn [alloc].
      assert (Q : exists cs3, drop (cs1 ++ [Some (1, c)]) [h] = Ok cs3).
      { apply copy_kids_done in E1. unfold copy_on_write_over in D. rewrite RC in D.
        destruct Ha as [-> | ->]; rewrite C, E1 in D; cbn [bind alloc] in D;
          apply bind_Ok in D; destruct D as (cs3 & D & _); eauto. }
      destruct Q as (cs3 & Q). rewrite Q. cbn [bind]. eexists _, _, _, _. split; reflexivity.
    - destruct p.
      + unfold drop. destruct (drop_ok (length (kids c) + length (all_kids cs1)) cs1 (kids c) (t ++ vars s) W1 ltac:(lia)) as (cs2 & E2 & W2 & _ & F2 & _).
        rewrite E2. cbn [bind]. eexists _, _, _, _. split; [reflexivity|]. cbn [flat_map app]. split; [|apply lost_nil].
        apply (keep s e t t cs2 I W2). intros y v J Sy. apply F2; [apply in_or_app; right; exact J|]. apply SH1; assumption.
      + eexists _, _, _, _. split; [reflexivity|]. cbn [flat_map app]. rewrite app_nil_r. split.
        * apply (keep s e t (kids c ++ t) cs1 I); [rewrite <- app_assoc; exact W1|exact SH1].
        * split; [discriminate|cbn; lia]. }
  destruct h as [|z|d|b|u|a|a]; try (eexists _, _, _, _; split; [reflexivity|reflexivity]); apply (GO a); auto.
Qed.

Lemma cow_ok p m s e x h : Inv s e [] -> nth_error (vars s) x = Some h ->
  exists m' cs' o l, cow_may p m (heap s) h = Ok (m', cs', o, l) /\
    match o with
    | Some h' => l = []
    | None => Inv (St cs' (vars s)) e (flat_map kids l) /\ lost_ok p l
    end.
Proof.
  intros I N. destruct (cow_ok_over 1 p m s e [] x h I ltac:(lia) N) as (m' & cs' & o & l & E & Q).
  rewrite app_nil_r in Q. exists m', cs', o, l. split; [exact E|exact Q].
Qed.

(** What a call leaves, refused or not. *)
Definition leaves (p : counter) (s : state) (e : env) (o : res (state * ans)) (r : res aftermath) : Prop :=
  exists m' s' a l, r = Ok (m', s', a, l) /\
    match a with
    | Some b => o = Ok (s', b) /\ l = []
    | None => Inv s' e (flat_map kids l) /\ length (vars s') = length (vars s) /\ lost_ok p l
    end.

Lemma may_ok p m n s e rest s' a : Inv s e [] -> rest = Ok (s', a) -> leaves p s e rest (may m n s rest).
Proof.
  intros I R. unfold may. destruct (ask_n n m) as [[] m1].
  - rewrite R. cbn [bind]. eexists _, _, _, _. split; [reflexivity|]. split; reflexivity.
  - eexists _, _, _, _. split; [reflexivity|]. cbn [flat_map]. split; [exact I|]. split; [reflexivity|apply lost_nil].
Qed.
Lemma after_cow_ok p m n s e x rest s' a : Inv s e [] -> (x < length e)%nat ->
  ('(s1, h) <- unshare s x ;; rest s1 h) = Ok (s', a) ->
  leaves p s e ('(s1, h) <- unshare s x ;; rest s1 h) (after_cow p m s x n rest).
Proof.
  intros I L R. destruct (L_get _ _ _ _ I L) as (h & N & G & Sh).
  destruct (cow_ok p m s e x h I N) as (m1 & cs & o & l & E & O).
  unfold after_cow. rewrite G. cbn [bind]. rewrite E. cbn [bind]. destruct o as [h'|].
  - apply cow_done in E. destruct E as [E ->].
    destruct (L_unshare _ _ _ I L) as (s1 & h1 & E1 & I1 & _).
    assert (U : unshare s x = Ok (St cs (list_set x h' (vars s)), h')).
    { unfold unshare. rewrite G. cbn [bind]. rewrite E. reflexivity. }
    rewrite U in E1. apply Ok_inj in E1. injection E1 as <- <-. rewrite U in *. cbn [bind] in *.
    edestruct (may_ok p m1 (n (St cs (list_set x h' (vars s))) h') _ e _ _ _ I1 R) as (m2 & s2 & b & l2 & E2 & Q).
    exists m2, s2, b, l2. split; [exact E2|]. destruct b; [exact Q|]. destruct Q as (Q1 & Q2 & Q3). split; [exact Q1|].
    split; [|exact Q3]. rewrite Q2. cbn [vars]. apply list_set_length.
  - destruct O as [O1 O2]. eexists _, _, _, _. split; [reflexivity|]. cbn [vars]. split; [exact O1|]. split; [reflexivity|exact O2].
Qed.

Lemma call_x (e : env) o : call_ok (length e) o ->
  match o with O_insert x _ _ | O_set x _ _ | O_erase x _ | O_push_front x _ | O_push_back x _ | O_pop_front x | O_pop_back x => (x < length e)%nat | _ => True end.
Proof. destruct o; cbn [call_ok]; tauto. Qed.

Lemma exec_leaves p m s e o : Inv s e [] -> call_ok (length e) o -> storable s o ->
  leaves p s e (s_exec s o) (m_exec p m s o).
Proof.
  intros I CO St. destruct (step s e o I CO St) as (s' & e' & E & _). pose proof (call_x e o CO) as Lx.
  destruct o as [x f|x y|x y|x|x y r|x k v|x k v|x k|x v|x v|x|x|x|x n v]; cbn [m_exec];
    try (eapply may_ok; [exact I|exact E]); try (apply (after_cow_ok _ _ _ _ _ _ _ _ _ I Lx E)).
  - unfold m_erase. destruct k; try (eapply may_ok; [exact I|exact E]); apply (after_cow_ok _ _ _ _ _ _ _ _ _ I Lx E).
  - rewrite (S_size s e x [] I Lx). cbn [bind].
    assert (SZ : s_exec s (O_push_back x v) = match h_size (val e x) with Ok n => s_insert s x (VInt n) v | _ => s_push_back s x v end).
    { cbn [s_exec]. unfold s_push_back. rewrite (S_size s e x [] I Lx). destruct (h_size (val e x)); reflexivity. }
    rewrite SZ in *. destruct (h_size (val e x)); try (eapply may_ok; [exact I|exact E]).
    apply (after_cow_ok _ _ _ _ _ _ _ _ _ I Lx E).
  - rewrite (S_size s e x [] I Lx). cbn [bind].
    assert (SZ : s_exec s (O_pop_back x) = match h_size (val e x) with Ok n => s_erase_idx s x ((n - 1) mod 2 ^ 64) | _ => s_pop_back s x end).
    { cbn [s_exec]. unfold s_pop_back. rewrite (S_size s e x [] I Lx). destruct (h_size (val e x)); reflexivity. }
    rewrite SZ in *. destruct (h_size (val e x)); try (eapply may_ok; [exact I|exact E]).
    apply (after_cow_ok _ _ _ _ _ _ _ _ _ I Lx E).
Qed.

(** ** Histories *)
Lemma m_run_storable os : forall m s e, Inv s e [] -> Forall (call_ok (length e)) os -> m_storable Std_shared m s os ->
  exists m' s' e' outs, m_run Std_shared m s os = Ok (m', s', outs, []) /\ Inv s' e' [] /\ length e' = length e.
Proof.
  induction os as [|o os IH]; intros m s e I CO A; cbn [m_run].
  - exists m, s, e, []. auto.
  - inversion CO as [|? ? C1 C2]; subst. cbn [m_storable] in A. destruct A as [A1 A2].
    destruct (exec_leaves Std_shared m s e o I C1 A1) as (m1 & s1 & a & l & E & Q). rewrite E in *. cbn [bind].
    assert (N : exists e1, Inv s1 e1 [] /\ length e1 = length e /\ l = []).
    { destruct a as [b|].
      - destruct Q as [Q ->]. destruct (step s e o I C1 A1) as (s2 & e2 & E2 & I2 & L2 & _). rewrite E2 in Q.
        apply Ok_inj in Q. injection Q as -> _. eauto.
      - destruct Q as (Q1 & _ & Q3 & _). rewrite (Q3 eq_refl) in *. eauto. }
    destruct N as (e1 & I1 & L1 & ->).
    destruct (IH m1 s1 e1 I1) as (m2 & s2 & e2 & outs & E2 & I2 & L2). { rewrite L1. exact C2. } { exact A2. }
    rewrite E2. cbn [bind app]. eexists m2, s2, e2, _. split; [reflexivity|]. split; [exact I2|congruence].
Qed.

Lemma m_run_allowed os : forall m s e, Inv s e [] -> Forall (call_ok (length e)) os -> m_allowed Std_shared m s e os ->
  exists m' s' outs, m_run Std_shared m s os = Ok (m', s', outs, []) /\ length outs = length os /\
    Inv s' (fst (v_run e (answered os outs))) [] /\ snd (v_run e (answered os outs)) = answers outs /\
    length (fst (v_run e (answered os outs))) = length e.
Proof.
  induction os as [|o os IH]; intros m s e I CO A; cbn [m_run].
  - exists m, s, []. cbn. auto.
  - inversion CO as [|? ? C1 C2]; subst. cbn [m_allowed] in A. destruct A as [A1 A2].
    destruct (exec_leaves Std_shared m s e o I C1 (proj1 A1)) as (m1 & s1 & a & l & E & Q). rewrite E in *. cbn [bind].
    destruct a as [b|].
    + destruct Q as [Q ->]. destruct (step s e o I C1 (proj1 A1)) as (s2 & e2 & E2 & I2 & L2 & V). rewrite E2 in Q.
      apply Ok_inj in Q. injection Q as -> Qb. specialize (V A1). subst e2.
      destruct (IH m1 s1 _ I2) as (m3 & s3 & outs & E3 & L3 & I3 & Q3 & L4). { rewrite L2. exact C2. } { exact A2. }
      rewrite E3. cbn [bind app]. exists m3, s3, (Some b :: outs). split; [reflexivity|].
      cbn [answered answers v_run length]. destruct (v_exec e o) as [e1 a1] eqn:VE. cbn [fst snd] in *. subst a1.
      destruct (v_run e1 (answered os outs)) as [e3 l3]. cbn [fst snd] in *. split; [congruence|]. split; [exact I3|]. split; congruence.
    + destruct Q as (Q1 & _ & Q3 & _). rewrite (Q3 eq_refl) in *. cbn [flat_map] in Q1.
      destruct (IH m1 s1 e Q1 C2 A2) as (m3 & s3 & outs & E3 & L3 & I3 & Q4 & L4).
      rewrite E3. cbn [bind app]. exists m3, s3, (None :: outs). split; [reflexivity|].
      cbn [answered answers length]. auto.
Qed.
