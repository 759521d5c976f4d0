(** Programs with wrappers follow the machine of SpecWrap.v. *)

From Coq Require Import ZArith List Bool Lia.
From Verif Require Import Base BaseFacts Keys Dec SpecDec DecFacts Wire Read Spec Buf BufFacts HeapOps SpecOps HeapRun SpecPacket Packet PacketRun
  Ordered SpecConv Conv ConvNum Float SpecArith Arith ArithFacts PropsArith SpecWrap Wrap WrapFacts WrapTypes.
Import ListNotations.
Open Scope Z_scope.

Definition same (w : kind * packet) (a : kind * pstate) : Prop := fst w = fst a /\ stands (snd w) (snd a).
Definition mirrors (s : pstate_w) (t : wstate) : Prop :=
  Forall2 same (fst s) (fst t) /\ Forall2 stands (snd s) (snd t).

Lemma stands_type p x : stands p x -> p_type p = vtype (fst x).
Proof.
  intros (_ & _ & P). destruct p as [v|bs m e].
  - subst x. destruct v; reflexivity.
  - destruct P as [_ R]. exact (represents_type _ _ _ _ R).
Qed.
Lemma stands_moved p x : stands p x -> stands (p_moved p) (gone x).
Proof.
  intros (_ & _ & P). split; [constructor; exact I|]. split; [constructor; exact I|].
  destruct p as [v|bs m e]; cbn [p_moved].
  - subst x. reflexivity.
  - split; [apply P|]. apply rep_null_elem.
Qed.
Lemma stands_heap v : heap_value v -> good_all v -> stands (PHeap v) (v, false).
Proof. intros H G. split; [exact H|]. split; [exact G|]. reflexivity. Qed.
Lemma stands_null : stands (PHeap VNull) (VNull, false).
Proof. apply stands_heap; constructor; exact I. Qed.
Lemma stands_scalar p x t : stands p x -> scalar_type t = true -> p_scalar t p = h_scalar t (fst x).
Proof.
  intros (_ & _ & P) S. destruct p as [v|bs m e]; cbn [p_scalar].
  - subst x. reflexivity.
  - destruct P as [_ R]. exact (fin_scalar _ _ _ _ R t S).
Qed.
Lemma vtype_h v : vtype v = h_type v.
Proof. destruct v; reflexivity. Qed.

(** Calls answered with nothing or an exception. *)
Definition plain (b : pans) : Prop := b = P_ans A_unit \/ exists e, b = P_ans (A_err e).
Lemma become_plain p r b : snd (p_become p r) = b -> plain b ->
  (exists q, r = Ok q /\ b = P_ans A_unit) \/ (exists e, r = Throw e /\ b = P_ans (A_err e)).
Proof.
  unfold p_become. intros <- [H|(e & H)]; destruct r; cbn [snd] in *; try discriminate; eauto.
Qed.

Lemma finalize_plain m x n b x' : pstep m x (Finalize n) b x' -> plain b.
Proof.
  destruct x as [v fin]. cbn [pstep]. unfold plain.
  destruct v; try (destruct fin; intros [_ ->]; eauto). intros [[_ ->]|(_ & _ & _ & ->)]; eauto.
Qed.
Lemma definalize_plain m x b x' : pstep m x Definalize b x' -> plain b.
Proof. destruct x as [v fin]. cbn [pstep]. intros [_ ->]. left. reflexivity. Qed.
Lemma into_plain m x k b x' : pstep m x (Into k) b x' -> plain b.
Proof. destruct x as [v fin]. cbn [pstep]. unfold plain. destruct v; intros [_ ->]; eauto. Qed.
Lemma into_idx_plain m x i b x' : pstep m x (Into_idx i) b x' -> plain b.
Proof. destruct x as [v fin]. cbn [pstep]. unfold plain. destruct v; intros [_ ->]; eauto. Qed.

Lemma ask_ok k q p x : stands p x -> of_kind k (vtype (fst x)) -> w_ask k q p = Ok (truth q (fst x)).
Proof.
  intros S K. pose proof (stands_type p x S) as T. pose proof (stands_scalar p x T_boolean S eq_refl) as B.
  unfold w_ask. rewrite T, B. destruct (fst x); destruct k; cbn [vtype of_kind] in K; try discriminate;
    try (destruct K; discriminate); destruct q; reflexivity.
Qed.

Lemma worth_as v d : worth v d -> as_dbl v d.
Proof. destruct v; exact (fun x => x). Qed.
Lemma operand_number n : number_ok n -> operand_ok (operand_of n).
Proof. destruct n; exact (fun x => x). Qed.
Lemma operand_dbl n d : operand_worth (operand_of n) d -> number_dbl n d.
Proof. destruct n; exact (fun x => x). Qed.
Lemma number_kind v : is_number v <-> of_kind KNumber (vtype v).
Proof. destruct v; cbn; intuition discriminate. Qed.
Lemma not_numeric p x : stands p x -> ~ of_kind KNumber (vtype (fst x)) -> p_numeric p = Throw type_error.
Proof.
  intros S N. unfold p_numeric. rewrite (stands_type p x S). destruct (fst x); try reflexivity; destruct N; cbn; auto.
Qed.
Lemma numeric_spec p x : stands p x -> is_number (fst x) -> exists d, p_numeric p = Ok d /\ as_dbl (fst x) d.
Proof.
  intros S N. destruct x as [v fin]. destruct (numeric_ok p v fin S N) as (d & E & W & _). exists d. auto using worth_as.
Qed.
Lemma is_number_dec v : is_number v \/ ~ is_number v.
Proof. destruct v; cbn; tauto. Qed.

Lemma number_made n : number_ok n -> worth_number n (w_number n) /\ heap_value (w_number n) /\ good_all (w_number n).
Proof.
  destruct n as [z|f|d]; cbn [w_number worth_number number_ok]; intros H.
  - destruct (conv64 z) as [R C]. split; [|split; [|constructor; exact I]].
    + exists (conv int64 z). split; [reflexivity|]. split; [exact R|].
      apply Z.mod_divide in C; [|lia]. apply Z.mod_divide; [lia|].
      replace (z - conv int64 z) with (- (conv int64 z - z)) by lia. now apply Z.divide_opp_r.
    + constructor. exact R.
  - pose proof (widen_range f H) as R. destruct (widen_fields f H) as (_ & S & _).
    split; [|split; [|constructor; exact I]].
    + exists (widen f). split; [reflexivity|]. split; [exact R|]. split; [now apply denote_widen|exact S].
    + constructor. exact R.
  - split; [reflexivity|]. split; constructor; try exact H. exact I.
Qed.

Lemma wrap_spec k mv p x : stands p x ->
  (of_kind k (vtype (fst x)) -> exists q, fst (w_wrap k mv p) = Ok q /\ stands q (kept k x)) /\
  (~ of_kind k (vtype (fst x)) -> fst (w_wrap k mv p) = Throw type_error).
Proof.
  intros S. rewrite <- (stands_type p x S). pose proof (is_a_spec k p) as A. unfold w_wrap. split; intros H.
  - apply A in H. destruct k; rewrite H; cbn [fst kept]; eexists; (split; [reflexivity|]); try exact S. apply stands_null.
  - destruct (is_a k p) eqn:E; [tauto|]. destruct k; reflexivity.
Qed.
Lemma wrap_left k p x : stands p x ->
  stands (snd (w_wrap k true p)) (if (if is_a k p then negb (kind_eqb k KNull) else takes_first k) then gone x else x).
Proof.
  intros S. pose proof (stands_moved p x S) as M. unfold w_wrap.
  destruct k; destruct (is_a _ p); cbn [snd kind_eqb takes_first negb]; assumption.
Qed.
Lemma of_kind_dec k t : of_kind k t \/ ~ of_kind k t.
Proof. destruct k, t; cbn; intuition discriminate. Qed.

Lemma put_same {A} (l : list A) i x : nth_error l i = Some x -> put i x l = l.
Proof. revert i. induction l as [|y l IH]; intros [|i]; cbn; try discriminate; intros E; [congruence|]. f_equal. auto. Qed.

(** Appending keeps a string shorter than 4 GiB (C02). *)
Definition short_step (s : pstate_w) (c : wcall) : Prop :=
  match c with
  | Append i app => forall k p u, nth_error (fst s) i = Some (k, p) -> p_scalar T_string p = Ok (VStr u) -> zlen u + zlen app < 2 ^ 32
  | _ => True
  end.

Theorem wrap_step s t c : mirrors s t -> wcall_ok to_dart c -> short_step s c ->
  exists t', wstep run_op to_dart t c (snd (w_call s c)) t' /\ mirrors (fst (w_call s c)) t'.
Proof.
  intros M OK SH. destruct s as [ws vs]. destruct t as [aws avs]. pose proof M as M0. destruct M0 as [MW MV]. cbn [fst snd] in MW, MV.
  assert (STUCK : exists t', (W_static = W_static /\ t' = (aws, avs)) /\ mirrors (ws, vs) t') by (eexists; split; [split; reflexivity|exact M]).
  assert (MADE : forall k q y, stands q y -> mirrors (ws ++ [(k, q)], vs) (aws ++ [(k, y)], avs)).
  { intros k q y H. split; [|exact MV]. cbn [fst]. apply side_app; [exact MW|]. split; [reflexivity|exact H]. }
  assert (PUT : forall i k q y, stands q y -> mirrors (put i (k, q) ws, vs) (put i (k, y) aws, avs)).
  { intros i k q y H. split; [|exact MV]. cbn [fst]. apply side_put; [exact MW|]. split; [reflexivity|exact H]. }
  assert (VMADE : forall q y, stands q y -> mirrors (ws, vs ++ [q]) (aws, avs ++ [y])).
  { intros q y H. split; [exact MW|]. cbn [snd]. apply side_app; [exact MV|exact H]. }
  assert (VAR : forall i, match nth_error vs i with
      | Some p => exists x, nth_error avs i = Some x /\ stands p x
      | None => nth_error avs i = None end).
  { intros i. destruct (nth_error vs i) as [p|] eqn:E; [|apply (side_none_r _ _ _ MV _ E)].
    destruct (side_nth_l _ _ _ MV _ _ E) as (x & N & S). eauto. }
  assert (WRAP : forall i, match nth_error ws i with
      | Some (k, p) => exists x, nth_error aws i = Some (k, x) /\ stands p x
      | None => nth_error aws i = None end).
  { intros i. destruct (nth_error ws i) as [[k p]|] eqn:E; [|apply (side_none_r _ _ _ MW _ E)].
    destruct (side_nth_l _ _ _ MW _ _ E) as ([k' x] & N & F & S). cbn [fst snd] in *. subst k'. eauto. }
  destruct c; cbn [w_call];
    try (specialize (VAR i); destruct (nth_error vs i) as [p|] eqn:Nv;
         [destruct VAR as (x & Na & S)|cbn [wstep]; rewrite VAR; exact STUCK]);
    try (specialize (WRAP i) as WRAPi; destruct (nth_error ws i) as [[kk p]|] eqn:Nw;
         [destruct WRAPi as (y & Na & S)|cbn [wstep]; rewrite WRAPi; exact STUCK]).
  - destruct OK as [H G]. eexists. split; [split; reflexivity|]. apply VMADE. now apply stands_heap.
  - destruct (step_ok p x c S OK) as (x' & St & S'). destruct (p_call p c) as [q b]. cbn [fst snd] in *.
    exists (aws, put i x' avs). cbn [wstep]. rewrite Na. split; [exists b, x'; auto|]. split; [exact MW|].
    cbn [snd]. now apply side_put.
  - eexists. split; [split; reflexivity|]. apply MADE. apply stands_heap; constructor; cbn; auto; constructor.
  - eexists. split; [split; reflexivity|]. apply MADE. apply stands_heap; constructor; cbn; auto; constructor.
  - eexists. split; [split; reflexivity|]. apply MADE. apply stands_heap; constructor; [|exact I].
    cbn [heap_node]. rewrite zlen_app. exact OK.
  - destruct (number_made n OK) as (W & H & G). eexists. split; [exists (w_number n); split; [exact W|split; reflexivity]|].
    apply MADE. now apply stands_heap.
  - eexists. split; [split; reflexivity|]. apply MADE. apply stands_heap; constructor; cbn; auto.
  - eexists. split; [split; reflexivity|]. apply MADE. apply stands_null.
  - destruct (wrap_spec k false p x S) as [A B]. destruct (w_wrap k false p) as [r u]. cbn [fst snd] in *.
    cbn [wstep]. rewrite Na. destruct (of_kind_dec k (vtype (fst x))) as [K|K].
    + destruct (A K) as (q & -> & Sq). cbn [loud fst snd]. eexists. split; [split; [intros _; split; reflexivity|contradiction]|].
      now apply MADE.
    + rewrite (B K). cbn [loud fst snd]. eexists. split; [split; [contradiction|intros _; split; reflexivity]|]. exact M.
  - destruct (wrap_spec k true p x S) as [A B]. pose proof (wrap_left k p x S) as L. pose proof (is_a_spec k p) as IA.
    rewrite (stands_type p x S) in IA.
    destruct (w_wrap k true p) as [r u]. cbn [fst snd] in *.
    cbn [wstep]. rewrite Na. destruct (of_kind_dec k (vtype (fst x))) as [K|K].
    + rewrite (proj2 IA K) in L. destruct (A K) as (q & -> & Sq). cbn [loud fst snd]. eexists.
      split; [split; [intros _; split; reflexivity|contradiction]|]. split; [now apply (MADE k q (kept k x))|].
      cbn [snd]. destruct (kind_eqb k KNull); cbn [negb] in L.
      * rewrite <- (put_same avs i x Na). now apply side_put.
      * now apply side_put.
    + destruct (is_a k p); [tauto|]. rewrite (B K). cbn [loud fst snd]. eexists.
      split; [split; [contradiction|intros _; split; reflexivity]|]. split; [exact MW|].
      cbn [snd]. destruct (takes_first k).
      * now apply side_put.
      * rewrite <- (put_same avs i x Na). now apply side_put.
  - eexists. cbn [wstep]. rewrite Na. split; [split; reflexivity|]. now apply MADE.
  - eexists. cbn [wstep]. rewrite Na. split; [split; reflexivity|]. split; [|exact MV]. cbn [fst].
    apply side_app; [|split; [reflexivity|exact S]]. apply side_put; [exact MW|]. split; [reflexivity|now apply stands_moved].
  - cbn [wstep]. rewrite Na. destruct (wrap_spec kk false p y S) as [A B].
    assert (D : exists t' : wstate,
      ((kk = KNull \/ of_kind kk (vtype (fst y)) -> snd (quiet (ws, vs) (fst (w_wrap kk false p)) (fun q => (ws ++ [(kk, q)], vs, W_made))) = W_made /\
          t' = (aws ++ [(kk, kept kk y)], avs)) /\
       (kk <> KNull -> ~ of_kind kk (vtype (fst y)) -> snd (quiet (ws, vs) (fst (w_wrap kk false p)) (fun q => (ws ++ [(kk, q)], vs, W_made))) = W_terminate /\
          t' = (aws, avs))) /\
      mirrors (fst (quiet (ws, vs) (fst (w_wrap kk false p)) (fun q => (ws ++ [(kk, q)], vs, W_made)))) t' \/ kk = KNull).
    { destruct (of_kind_dec kk (vtype (fst y))) as [K|K].
      - destruct (A K) as (q & -> & Sq). cbn [quiet fst snd]. eexists. left. split; [split; [intros _; split; reflexivity|contradiction]|].
        now apply MADE.
      - rewrite (B K). cbn [quiet fst snd].
        assert (N : kk = KNull \/ kk <> KNull) by (destruct kk; auto; right; discriminate). destruct N as [N|N]; [exists (aws, avs); right; exact N|].
        eexists. left. split; [split; [intros [X|X]; contradiction|intros _ _; split; reflexivity]|]. exact M. }
    destruct kk; try (destruct D as (t' & [D|D]); [|discriminate D]; exists t'; destruct (w_wrap _ false p); exact D).
    eexists. split; [split; [intros _; split; reflexivity|congruence]|]. apply MADE. apply stands_null.
  - cbn [wstep]. rewrite Na.
    assert (D : exists t' : wstate, (exists b x', pstep run_op y (match addr with Some n => Finalize n | None => Definalize end) b x' /\
        ((b = P_ans A_unit /\ snd (loud (ws, vs) (match addr with Some n => p_finalize n p | None => p_definalize p end) (fun q => (ws ++ [(kk, q)], vs, W_made))) = W_made /\
            t' = (aws ++ [(kk, x')], avs)) \/
         (exists e, b = P_ans (A_err e) /\ snd (loud (ws, vs) (match addr with Some n => p_finalize n p | None => p_definalize p end) (fun q => (ws ++ [(kk, q)], vs, W_made))) = W_throw e /\
            t' = (aws, avs)))) /\
      mirrors (fst (loud (ws, vs) (match addr with Some n => p_finalize n p | None => p_definalize p end) (fun q => (ws ++ [(kk, q)], vs, W_made)))) t').
    { set (r := match addr with Some n => p_finalize n p | None => p_definalize p end).
      assert (X : exists x', pstep run_op y (match addr with Some n => Finalize n | None => Definalize end) (snd (p_become p r)) x' /\
                  stands (fst (p_become p r)) x').
      { unfold r. destruct addr as [n|].
        - exact (step_ok p y (Finalize n) S OK).
        - exact (step_ok p y Definalize S I). }
      destruct X as (x' & St & S').
      assert (P : plain (snd (p_become p r))) by (destruct addr; [eapply finalize_plain|eapply definalize_plain]; exact St).
      destruct (become_plain p r _ eq_refl P) as [(q & E & Eb)|(e & E & Eb)]; rewrite Eb in St; rewrite E in S' |- *;
        cbn [p_become loud fst snd] in *.
      - eexists. split; [exists (P_ans A_unit), x'; split; [exact St|]; left; split; [reflexivity|split; reflexivity]|]. now apply MADE.
      - eexists. split; [exists (P_ans (A_err e)), x'; split; [exact St|]; right; exists e; split; [reflexivity|split; reflexivity]|]. exact M. }
    destruct kk; try exact D. cbn [kind_eqb]. eexists. split; [split; reflexivity|]. apply MADE. apply stands_null.
  - cbn [wstep]. rewrite Na. specialize (WRAP j) as WRAPj. destruct (nth_error ws j) as [[k' q]|]; [|rewrite WRAPj; exact STUCK].
    destruct WRAPj as (z & Nz & Sz). rewrite Nz. destruct (kind_eqb kk k'); [|exact STUCK].
    eexists. split; [split; reflexivity|]. now apply PUT.
  - cbn [wstep]. rewrite Na. specialize (WRAP j) as WRAPj. destruct (nth_error ws j) as [[k' q]|]; [|rewrite WRAPj; exact STUCK].
    destruct WRAPj as (z & Nz & Sz). rewrite Nz. destruct (kind_eqb kk k'); [|exact STUCK].
    destruct (Nat.eqb i j); eexists; (split; [split; reflexivity|]); [exact M|].
    split; [|exact MV]. cbn [fst]. apply side_put; [now apply PUT|]. split; [reflexivity|now apply stands_moved].
  - cbn [wstep]. rewrite Na. destruct (accepts kk t); [|exact STUCK].
    assert (D : exists t' : wstate, match to_dart t x with
         | Ok v => snd (loud (ws, vs) (to_dart t x) (fun v => (put i (kk, PHeap v) ws, vs, W_done))) = W_done /\ t' = (put i (kk, (v, false)) aws, avs)
         | Throw e => snd (loud (ws, vs) (to_dart t x) (fun v => (put i (kk, PHeap v) ws, vs, W_done))) = W_throw e /\ t' = (aws, avs)
         | _ => snd (loud (ws, vs) (to_dart t x) (fun v => (put i (kk, PHeap v) ws, vs, W_done))) = W_bad /\ t' = (aws, avs)
         end /\ mirrors (fst (loud (ws, vs) (to_dart t x) (fun v => (put i (kk, PHeap v) ws, vs, W_done)))) t').
    { cbn [wcall_ok] in OK. destruct (to_dart t x) as [v|e| | |]; cbn [loud fst snd]; eexists; (split; [split; reflexivity|]); try exact M.
      apply PUT. apply stands_heap; apply OK. }
    destruct kk; try exact D. cbn [kind_eqb]. eexists. split; [split; reflexivity|]. exact M.
  - cbn [wstep]. rewrite Na. destruct (has_member kk c); [|exact STUCK].
    destruct (step_ok p y c S OK) as (x' & St & S'). destruct (p_call p c) as [q b]. cbn [fst snd] in *.
    eexists. split; [exists b, x'; split; [exact St|]; split; reflexivity|]. now apply PUT.
  - cbn [wstep]. rewrite Na. unfold quiet. eexists. split; [split; [reflexivity|]|].
    + intros K. rewrite (ask_ok _ q p y S K). reflexivity.
    + destruct (w_ask kk q p); exact M.
  - cbn [wstep]. rewrite Na. destruct (kind_eqb kk KNumber); [|exact STUCK].
    exists (aws, avs). destruct (is_number_dec (fst y)) as [N|N].
    + destruct (numeric_spec p y S N) as (d & E & W). rewrite E. cbn [quiet fst snd]. split; [|exact M]. split; [reflexivity|]. left. eauto.
    + rewrite number_kind in N. rewrite (not_numeric p y S N). cbn [quiet fst snd]. split; [|exact M]. split; [reflexivity|]. right. auto.
  - cbn [wstep]. rewrite Na. destruct (kind_eqb kk KString); [|exact STUCK].
    specialize (SH kk p). cbn [fst] in SH. unfold w_append. rewrite (stands_scalar p y T_string S eq_refl) in *. unfold h_scalar in *.
    destruct (fst y) as [| |u| | | |] eqn:Ey; cbn [h_type utype_eqb bind quiet fst snd] in *; eexists; (split; [split; reflexivity|]); try exact M.
    apply PUT. apply stands_heap; constructor; [|exact I]. cbn [heap_node]. rewrite zlen_app. apply (SH u Nw eq_refl).
  - cbn [wstep]. rewrite Na. destruct (kind_eqb kk KNumber); [|exact STUCK]. destruct y as [v fin]. cbn [fst snd] in *.
    destruct (is_number_dec v) as [N|N].
    + destruct fin.
      * rewrite (c39_update_finalized_refuted o p v _ S N (operand_number n OK)). cbn [quiet fst snd].
        eexists. split; [split; reflexivity|]. exact M.
      * destruct (c39_update o p v _ S N (operand_number n OK)) as (d & d' & r & W & W' & IE & E & Sr). rewrite E. cbn [quiet fst snd].
        eexists. split; [left; exists d, d', r; split; [now apply worth_as|]; split; [now apply operand_dbl|]; split; [exact IE|]; split; reflexivity|].
        now apply PUT.
    + rewrite number_kind in N. unfold n_update, n_op. rewrite (not_numeric p (v, fin) S N). cbn [bind quiet fst snd].
      exists (aws, avs). split; [|exact M]. destruct fin; [split; reflexivity|]. right. auto.
  - cbn [wstep]. rewrite Na. eexists. split; [split; reflexivity|]. apply VMADE. destruct kk; try exact S. apply stands_null.
  - cbn [wstep]. rewrite Na.
    assert (D : kk <> KNull -> mirrors (put i (kk, p_moved p) ws, vs ++ [p]) (put i (kk, gone y) aws, avs ++ [y])).
    { intros _. split; cbn [fst snd].
      - apply side_put; [exact MW|]. split; [reflexivity|now apply stands_moved].
      - now apply side_app. }
    destruct kk; cbn [kind_eqb kept]; eexists; (split; [split; reflexivity|]); try (apply D; discriminate).
    apply VMADE. apply stands_null.
  - cbn [wstep]. rewrite Na. destruct (step_ok p y (Into key) S I) as (x' & St & S'). cbn [p_call] in St, S'.
    destruct (become_plain p (p_get p key) _ eq_refl (into_plain _ _ _ _ _ St)) as [(q & E & Eb)|(e & E & Eb)]; rewrite Eb in St; rewrite E in S' |- *;
      cbn [p_become loud fst snd] in *.
    + eexists. split; [exists (P_ans A_unit), x'; split; [exact St|]; left; split; [reflexivity|split; reflexivity]|]. now apply PUT.
    + eexists. split; [exists (P_ans (A_err e)), x'; split; [exact St|]; right; exists e; split; [reflexivity|split; reflexivity]|]. exact M.
  - cbn [wstep]. rewrite Na. destruct (step_ok p y (Into_idx n) S OK) as (x' & St & S'). cbn [p_call] in St, S'.
    destruct (become_plain p (p_get_idx p n) _ eq_refl (into_idx_plain _ _ _ _ _ St)) as [(q & E & Eb)|(e & E & Eb)]; rewrite Eb in St; rewrite E in S' |- *;
      cbn [p_become loud fst snd] in *.
    + eexists. split; [exists (P_ans A_unit), x'; split; [exact St|]; left; split; [reflexivity|split; reflexivity]|]. now apply PUT.
    + eexists. split; [exists (P_ans (A_err e)), x'; split; [exact St|]; right; exists e; split; [reflexivity|split; reflexivity]|]. exact M.
Qed.

Fixpoint short (s : pstate_w) (cs : list wcall) : Prop :=
  match cs with
  | [] => True
  | c :: r => short_step s c /\ short (fst (w_call s c)) r
  end.

Theorem wrap_run cs : forall s t, mirrors s t -> Forall (wcall_ok to_dart) cs -> short s cs ->
  exists t', wsteps run_op to_dart t cs (snd (w_run s cs)) t' /\ mirrors (fst (w_run s cs)) t'.
Proof.
  induction cs as [|c cs IH]; intros s t M F SH; cbn [w_run].
  - exists t. split; [constructor|exact M].
  - apply Forall_cons_iff in F. destruct F as [F1 F2]. destruct SH as [SH1 SH2].
    destruct (wrap_step s t c M F1 SH1) as (t1 & St & M1). destruct (w_call s c) as [s1 a]. cbn [fst snd] in *.
    destruct (IH s1 t1 M1 F2 SH2) as (t2 & St2 & M2). destruct (w_run s1 cs) as [s2 xs]. cbn [fst snd] in *.
    exists t2. split; [econstructor; eassumption|exact M2].
Qed.

Lemma short_app s cs ds : short s (cs ++ ds) -> short s cs /\ short (fst (w_run s cs)) ds.
Proof.
  revert s. induction cs as [|c cs IH]; intros s; cbn [app short w_run fst]; [auto|].
  destruct (w_call s c) as [s1 a]. cbn [fst]. intros [A B]. destruct (IH _ B) as [C D].
  destruct (w_run s1 cs) as [s2 xs]. auto.
Qed.
