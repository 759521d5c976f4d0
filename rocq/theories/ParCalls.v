(** Every call of Par.v, run between other threads' accesses, returns what
    StoreSpec.v says. *)

From Coq Require Import ZArith List Bool Lia ZifyBool ZifyNat ZifyN.
From Verif Require Import Base BaseFacts Keys Wire Spec SpecOps HeapOps HeapFacts Store StoreSpec StoreFacts StoreSteps StoreRun Par SpecPar ParFacts ParWp.
Import ListNotations.
Open Scope Z_scope.

Section Looking.
  Context (acq : bool).

  Lemma pair_found c fs fv k : Forall2 (pair_shows c) fs fv ->
    match map_find k fv with
    | Some i => exists w m, map_find k fs = Some i /\ nth_error fv i = Some w /\ nth_error fs i = Some m /\ shows c (snd m) (snd w) /\ In (snd m) (map snd fs)
    | None => map_find k fs = None
    end.
  Proof using.
    intros F. rewrite (same_find k fs fv (pair_keys _ _ _ F)). destruct (map_find k fv) as [i|] eqn:E; [|reflexivity].
    destruct (map_find_lt _ _ _ E) as (w & Nw). pose proof (Forall2_nth _ _ _ i F) as Q. rewrite Nw in Q.
    destruct (nth_error fs i) as [m|] eqn:Nm; [|contradiction]. exists w, m. destruct Q as [Q1 Q2]. repeat split; auto.
    apply in_map. eapply nth_error_In; exact Nm.
  Qed.
  Lemma elem_found c ms mv i : Forall2 (shows c) ms mv -> (i < length mv)%nat ->
    exists w m, nth_error mv i = Some w /\ nth_error ms i = Some m /\ shows c m w /\ In m ms.
  Proof using.
    intros F L. pose proof (Forall2_nth _ _ _ i F) as Q.
    destruct (nth_error mv i) as [w|] eqn:Nw; [|apply nth_error_None in Nw; lia].
    destruct (nth_error ms i) as [m|] eqn:Nm; [|contradiction]. exists w, m. repeat split; auto. eapply nth_error_In; exact Nm.
  Qed.

  Lemma wp_member Q vs e h v r k c sy hand V : At c hand vs e [] -> shows c h v -> (href h <> None -> In h hand) ->
    match r with R_get_idx i | R_at_idx i => 0 <= i | _ => True end ->
    (forall c1 sy1 V1, At c1 hand vs e [] ->
       match v_read v r with
       | Ok w => forall m, shows c1 m w -> href m = None \/ reach c1 hand m -> wp acq (k (inr m)) c1 sy1 hand V1 Q
       | Throw er => wp acq (k (inl er)) c1 sy1 hand V1 Q
       | _ => True
       end) ->
    wp acq (p_member h r k) c sy hand V Q.
  Proof using.
    intros A Sh J P H.
    assert (KEY : forall key er, v_read v r = h_fields v (fun fs => match map_find key fs with
        | Some i => match nth_error fs i with Some (_, x) => Ok x | None => Oob end
        | None => match er with Some er => Throw er | None => Ok VNull end end) ->
      wp acq (p_fields h (fun f => match f with None => k (inl type_error) | Some (_, fs) =>
        match map_find key fs with
        | Some j => match nth_error fs j with Some (_, m) => k (inr m) | None => Stuck end
        | None => match er with Some er => k (inl er) | None => k (inr HNull) end end end)) c sy hand V Q).
    { intros key er E. apply (wp_fields acq Q vs e [] h v); auto.
      - intros c1 sy1 V1 a fs fv -> -> A1 _ _ S1 F1. specialize (H c1 sy1 V1 A1). rewrite E in H. cbn [h_fields] in H.
        pose proof (pair_found c1 fs fv key F1) as PF. destruct (map_find key fv) as [i|].
        + destruct PF as ([kw w] & [km m] & -> & E1 & -> & Sw & Im). rewrite E1 in H. cbn [snd] in *. apply H; [exact Sw|].
          right. eapply Sees_kid; [exact S1|exact Im].
        + rewrite PF. destruct er; [exact H|]. apply H; [constructor|auto].
      - intros NO _. specialize (H c sy V A). rewrite E in H. destruct v; try exact H. destruct (NO fs eq_refl). }
    assert (ELS : forall (f : list value -> res value) (g : list hval -> option hval),
      v_read v r = h_elements v f ->
      (forall c1 a ms mv, v = VArr mv -> Sees c1 hand a (CArr ms) -> Forall2 (shows c1) ms mv -> exists m w, g ms = Some m /\ f mv = Ok w /\ shows c1 m w /\ (href m = None \/ reach c1 hand m)) ->
      wp acq (p_elements h (fun f => match f with None => k (inl type_error) | Some (_, ms) =>
        match g ms with Some m => k (inr m) | None => Stuck end end)) c sy hand V Q).
    { intros f g E G. apply (wp_elements acq Q vs e [] h v); auto.
      - intros c1 sy1 V1 a ms mv -> -> A1 _ _ S1 F1. specialize (H c1 sy1 V1 A1). rewrite E in H. cbn [h_elements] in H.
        destruct (G c1 a ms mv eq_refl S1 F1) as (m & w & -> & Ew & Sw & R). rewrite Ew in H. apply H; assumption.
      - intros NO _. specialize (H c sy V A). rewrite E in H. destruct v; try exact H. destruct (NO vs0 eq_refl). }
    destruct r as [key|key|i|i| |].
    - exact (KEY key None eq_refl).
    - exact (KEY key (Some out_of_range) eq_refl).
    - cbn [p_member]. apply (wp_elements acq Q vs e [] h v); auto.
      + intros c1 sy1 V1 a ms mv -> -> A1 _ _ S1 F1. specialize (H c1 sy1 V1 A1). cbn [v_read h_get_idx h_elements h_size bind] in H.
        rewrite (Forall2_zlen _ _ _ F1). destruct (i <? zlen mv) eqn:Li.
        * destruct (elem_found c1 ms mv (Z.to_nat i) F1) as (w & m & E1 & -> & Sw & Im); [unfold zlen in Li; lia|]. rewrite E1 in H.
          apply H; [exact Sw|]. right. eapply Sees_kid; [exact S1|exact Im].
        * apply H; [constructor|auto].
      + intros NO _. specialize (H c sy V A). cbn [v_read] in H. destruct v; try exact H. destruct (NO vs0 eq_refl).
    - cbn [p_member]. destruct h as [|z|z|z|s|a|a]; inversion Sh; subst; cbn [v_read h_at_idx h_size bind h_elements] in H; try (apply (H c sy V A)).
      + specialize (H c sy V A). destruct (i <? zlen s); exact H.
      + apply (wp_fields acq Q vs e [] (HObj a) (VObj vs0)); auto.
        * intros c1 sy1 V1 b fs0 fv E Eh A1 _ _ S1 F1. injection E as <-. specialize (H c1 sy1 V1 A1). rewrite (Forall2_zlen _ _ _ F1).
          destruct (i <? zlen vs0); exact H.
        * intros NO _. destruct (NO vs0 eq_refl).
      + apply (wp_elements acq Q vs e [] (HArr a) (VArr vs0)); auto.
        * intros c1 sy1 V1 b ms0 mv E Eh A1 _ _ S1 F1. injection E as <-. specialize (H c1 sy1 V1 A1). rewrite (Forall2_zlen _ _ _ F1).
          destruct (i <? zlen vs0) eqn:Li; [|exact H].
          destruct (elem_found c1 ms0 vs0 (Z.to_nat i) F1) as (w & m & E1 & -> & Sw & Im); [unfold zlen in Li; lia|]. rewrite E1 in H.
          apply H; [exact Sw|]. right. eapply Sees_kid; [exact S1|exact Im].
        * intros NO _. destruct (NO vs0 eq_refl).
    - cbn [p_member]. apply (wp_elements acq Q vs e [] h v); auto.
      + intros c1 sy1 V1 a ms mv -> -> A1 _ _ S1 F1. specialize (H c1 sy1 V1 A1). cbn [v_read h_front h_elements] in H.
        inversion F1 as [|m w ms' mv' Sw F2]; subst; [apply H; [constructor|auto]|]. apply H; [exact Sw|]. right.
        eapply Sees_kid; [exact S1|left; reflexivity].
      + intros NO _. specialize (H c sy V A). cbn [v_read] in H. destruct v; try exact H. destruct (NO vs0 eq_refl).
    - cbn [p_member]. apply (wp_elements acq Q vs e [] h v); auto.
      + intros c1 sy1 V1 a ms mv -> -> A1 _ _ S1 F1. specialize (H c1 sy1 V1 A1). cbn [v_read h_back h_elements] in H.
        destruct ms as [|m0 ms]; [inversion F1; subst; apply H; [constructor|auto]|].
        destruct (elem_found c1 (m0 :: ms) mv (length mv - 1) F1) as (w & m & E1 & E2 & Sw & Im).
        { inversion F1; subst. cbn [length]. lia. }
        rewrite (Forall2_length F1), E2. rewrite E1 in H. destruct mv; [inversion F1|]. apply H; [exact Sw|]. right. eapply Sees_kid; [exact S1|exact Im].
      + intros NO _. specialize (H c sy V A). cbn [v_read] in H. destruct v; try exact H. destruct (NO vs0 eq_refl).
  Qed.

  Lemma v_read_total v r : match v_read v r with Ok _ | Throw _ => True | _ => False end \/
    match r with R_get_idx i | R_at_idx i => i < 0 | _ => False end.
  Proof using.
    destruct v, r; cbn; auto; unfold h_at_idx, h_get_idx, h_back; cbn; auto.
    all: try (match goal with |- context [map_find ?k ?f] => destruct (map_find k f) eqn:E; [apply map_find_lt in E; destruct E as ([? ?] & ->)|] end; auto).
    all: try (match goal with |- context [if ?b then _ else _] => destruct b eqn:B end; auto).
    1-2: destruct (Z_lt_le_dec i 0); [auto|]; left; destruct (nth_error vs (Z.to_nat i)) eqn:E; auto; apply nth_error_None in E; unfold zlen in B; lia.
    { destruct vs; auto. }
    left. match goal with |- context [nth_error ?m ?i] => destruct (nth_error m i) eqn:E; auto; apply nth_error_None in E; cbn [length] in E; lia end.
  Qed.

  Lemma wp_load c sy hand V vs e x y r : At c hand vs e [] -> call_ok (length e) (O_read x y r) ->
    wp acq (p_load vs x y r) c sy hand V (Post (v_exec e (O_read x y r))).
  Proof using.
    intros A (Lx & Ly & P). unfold p_load. destruct (At_get _ _ _ _ _ _ A Ly) as (h & N & Sh & J). apply (wp_get _ _ _ _ _ _ _ _ _ h N).
    apply (wp_member _ vs e h (val e y)); auto. intros c1 sy1 V1 A1. cbn [v_exec].
    pose proof (v_read_total (val e y) r) as T. assert (T' : match v_read (val e y) r with Ok _ | Throw _ => True | _ => False end).
    { destruct T as [T|T]; [exact T|]. destruct r; try contradiction; lia. }
    destruct (v_read (val e y) r) as [w|er| | |]; try contradiction; cbn [settle].
    - intros m Sm [R|R].
      + unfold p_inc. rewrite R. eapply wp_overwrite; [apply At_scalar; [exact A1|exact R]|exact Sm|exact Lx|reflexivity].
      + apply (wp_inc acq _ vs e []); [exact A1|exact R|]. intros c2 sy2 V2 hand2 A2 _ _ S2.
        eapply wp_overwrite; [exact A2|apply (S2 m w); assumption|exact Lx|reflexivity].
    - eapply wp_ret; [exact A1|reflexivity].
  Qed.

  Lemma wp_copy_op c sy hand V vs e x y : At c hand vs e [] -> (x < length e)%nat -> (y < length e)%nat ->
    wp acq (p_copy vs (Cref y) (fun vs h => p_overwrite vs x h)) c sy hand V (Post (v_exec e (O_copy x y))).
  Proof using.
    intros A Lx Ly. apply (wp_p_copy acq _ vs e []); [exact A|exact Ly|]. intros c1 sy1 V1 hand1 hv A1 S1 _.
    eapply wp_overwrite; [exact A1|exact S1|exact Lx|reflexivity].
  Qed.
  Lemma wp_move_op c sy hand V vs e x y : At c hand vs e [] -> (x < length e)%nat -> (y < length e)%nat -> x <> y ->
    wp acq (p_move vs (Rref y) (fun vs h => p_overwrite vs x h)) c sy hand V (Post (list_set x (val e y) (list_set y VNull e), A_unit)).
  Proof using.
    intros A Lx Ly Nxy. cbn [p_move]. apply (wp_p_move acq _ vs e y (fun vs h => p_overwrite vs x h)); auto. intros vs1 hv A1 S1 _.
    eapply wp_overwrite; [exact A1|exact S1|rewrite list_set_length; exact Lx|reflexivity].
  Qed.

  Lemma wp_looks c sy hand V vs e o : At c hand vs e [] -> call_ok (length e) o -> looks o = true ->
    wp acq (p_exec vs o) c sy hand V (Post (v_exec e o)).
  Proof using.
    intros A CO LK. destruct o as [x f|x y|x y|x|x y r| | | | | | | | | ]; try discriminate LK; cbn [p_exec].
    - apply wp_make; assumption.
    - destruct CO. apply wp_copy_op; assumption.
    - destruct CO. cbn [v_exec]. destruct (Nat.eqb_spec x y) as [->|N]; [eapply wp_ret; [exact A|reflexivity]|apply wp_move_op; assumption].
    - eapply wp_overwrite; [apply At_scalar; [exact A|reflexivity]|constructor|exact CO|reflexivity].
    - apply wp_load; assumption.
  Qed.
End Looking.

(** ** Calls that change a container: the count must be read with acquire *)
Lemma own_at c1 sy1 V1 hand1 vs1 x h c2 sy2 V2 : nth_error vs1 x = Some h ->
  (forall a, href h = Some a -> exists d, h = handle d a /\ Own c1 sy1 hand1 V1 vs1 x a d) ->
  rely hand1 c1 sy1 c2 sy2 -> vle V1 V2 ->
  forall a d0, href h = Some a -> Sees c2 hand1 a d0 -> Own c2 sy2 hand1 V2 vs1 x a d0.
Proof.
  intros N O Y L a d0 E S. destruct (O a E) as (d & Eh & (O1 & O2)). pose proof (Excl_rely _ _ _ _ _ _ _ _ _ O2 Y L) as X.
  assert (d0 = d) as ->. { destruct S as (n & ? & _ & _ & C). destruct X as (C' & _). congruence. }
  split; [exact O1|exact X].
Qed.

Lemma val_set_other e x y v : x <> y -> val (list_set y v e) x = val e x.
Proof.
  intros N. unfold val. revert x y N. induction e as [|w e IH]; intros [|x] [|y] N; cbn; auto; try congruence.
Qed.
Lemma val_taken mv v e x : ~ names v x -> val (taken mv v e) x = val e x.
Proof. intros N. destruct v as [l|y|y|y], mv; cbn [taken names] in *; auto; apply val_set_other; congruence. Qed.
Lemma taken_len mv v e : length (taken mv v e) = length e.
Proof. destruct v as [l|y|y|y], mv; cbn [taken]; rewrite ?list_set_length; reflexivity. Qed.

Lemma wp_insert c sy hand V vs e x k v : At c hand vs e [] -> (x < length e)%nat -> src_in (length e) v -> ~ names v x ->
  wp true (p_insert vs x k v) c sy hand V (Post (w_insert e x k v)).
Proof.
  intros A L Si NM. unfold p_insert. apply (wp_unshare _ vs e); [exact A|exact L|]. clear c sy V hand vs A.
  intros c sy V hand vs h A N Sh O. unfold w_insert.
  assert (J : href h <> None -> In h hand).
  { intros E. eapply var_in; [apply A| |exact E]. eapply nth_error_In. exact N. }
  assert (RET : forall er, (Throw er : res value) = result (h_insert (val e x) k (src_value e v)) -> forall c sy V, At c hand vs e [] -> wp true (Ret vs (A_err er)) c sy hand V (Post
     (settle e x (if overwrites (val e x) k then match val e x with VObj _ => taken true v e | _ => emptied e v end else e)
        (result (h_insert (val e x) k (src_value e v)))))).
  { intros er <- c0 sy0 V0 A0. eapply wp_ret; [exact A0|reflexivity]. }
  destruct k; try (apply RET; [reflexivity|exact A]).
  - cbn [h_insert] in *. destruct (65535 <? zlen s); [apply RET; [reflexivity|exact A]|].
    apply (wp_fields true _ vs e [] h (val e x)); auto.
    + intros c1 sy1 V1 a fs fv EV Eh A1 Y1 L1 S1 F1. subst h.
      pose proof (own_at _ _ _ _ _ _ _ _ _ _ N O Y1 L1 a (CObj fs) eq_refl S1) as Ow. clear RET O.
      rewrite EV. cbn [h_fields overwrites h_has_key]. rewrite <- (same_find s fs fv (pair_keys _ _ _ F1)).
      rewrite <- (same_lower s fs fv (pair_keys _ _ _ F1)).
      destruct (map_find s fs) as [j|] eqn:MF; cbn [result bind settle].
      * destruct (map_find_lt _ _ _ MF) as ([k old] & NJ).
        apply (wp_take true _ true vs e v x a (CObj fs)); auto. intros c2 sy2 V2 hand2 vs2 hv A2 Shv Ow2.
        destruct (own_fields _ _ _ _ _ _ _ _ _ _ A2 ltac:(rewrite taken_len; exact L) Ow2) as (fv2 & EV2 & F2).
        rewrite val_taken, EV in EV2 by exact NM. injection EV2 as <-.
        pose proof (Forall2_nth _ _ _ j F2) as Q. rewrite NJ in Q. destruct (nth_error fv j) as [[k' w]|]; [|contradiction].
        destruct Q as [Q _]. cbn in Q. subst k'.
        eapply wp_assign_field; [exact A2|exact Ow2|exact F2|exact Shv|exact NJ|reflexivity].
      * apply (wp_take true _ false vs e v x a (CObj fs)); auto. intros c2 sy2 V2 hand2 vs2 hv A2 Shv Ow2.
        replace (taken false v e) with e in A2 by (destruct v; reflexivity).
        destruct (own_fields _ _ _ _ _ _ _ _ _ _ A2 L Ow2) as (fv2 & EV2 & F2). rewrite EV in EV2. injection EV2 as <-.
        eapply wp_insert_field; [exact A2|exact Ow2|exact F2|exact Shv|apply lower_le|reflexivity].
    + intros NO _. apply RET; [|exact A]. destruct (val e x); try reflexivity. destruct (NO fs eq_refl).
  - cbn [h_insert] in *. apply (wp_elements true _ vs e [] h (val e x)); auto.
    + intros c1 sy1 V1 a ms mv EV Eh A1 Y1 L1 S1 F1. subst h.
      pose proof (own_at _ _ _ _ _ _ _ _ _ _ N O Y1 L1 a (CArr ms) eq_refl S1) as Ow. clear O.
      rewrite EV in *. cbn [h_elements overwrites] in *. rewrite <- (Forall2_zlen _ _ _ F1) in *. destruct (zlen ms <? z mod 2 ^ 64) eqn:Lt.
      * apply RET; [reflexivity|exact A1].
      * cbn [result bind settle].
        apply (wp_forward true _ vs e v x a (CArr ms)); auto. intros c2 sy2 V2 hand2 vs2 hv A2 Shv Ow2.
        destruct (own_elements _ _ _ _ _ _ _ _ _ _ A2 ltac:(rewrite emptied_as, taken_len; exact L) Ow2) as (mv2 & EV2 & F2).
        rewrite emptied_as, val_taken, EV in EV2 by exact NM. injection EV2 as <-.
        eapply wp_insert_elem; [exact A2|exact Ow2|exact F2|exact Shv| |reflexivity].
        pose proof (mod_nonneg z). unfold zlen in Lt. lia.
    + intros NO _. apply RET; [|exact A]. destruct (val e x); try reflexivity. destruct (NO vs0 eq_refl).
Qed.

Lemma wp_set c sy hand V vs e x k v : At c hand vs e [] -> (x < length e)%nat -> src_in (length e) v -> ~ names v x ->
  wp true (p_set vs x k v) c sy hand V (Post (v_exec e (O_set x k v))).
Proof.
  intros A L Si NM. unfold p_set. apply (wp_unshare _ vs e); [exact A|exact L|]. clear c sy V hand vs A.
  intros c sy V hand vs h A N Sh O. cbn [v_exec].
  assert (J : href h <> None -> In h hand).
  { intros E. eapply var_in; [apply A| |exact E]. eapply nth_error_In. exact N. }
  assert (RET : forall er, (Throw er : res value) = result (h_set (val e x) k (src_value e v)) -> forall c sy V, At c hand vs e [] -> wp true (Ret vs (A_err er)) c sy hand V (Post
     (settle e x (emptied e v) (result (h_set (val e x) k (src_value e v)))))).
  { intros er <- c0 sy0 V0 A0. eapply wp_ret; [exact A0|reflexivity]. }
  destruct k; try (apply RET; [reflexivity|exact A]).
  - cbn [h_set] in *. destruct (65535 <? zlen s); [apply RET; [reflexivity|exact A]|].
    apply (wp_fields true _ vs e [] h (val e x)); auto.
    + intros c1 sy1 V1 a fs fv EV Eh A1 Y1 L1 S1 F1. subst h.
      pose proof (own_at _ _ _ _ _ _ _ _ _ _ N O Y1 L1 a (CObj fs) eq_refl S1) as Ow. clear O.
      rewrite EV in *. cbn [h_fields] in *. rewrite <- (same_find s fs fv (pair_keys _ _ _ F1)) in *.
      destruct (map_find s fs) as [j|] eqn:MF; cbn [result bind settle] in *.
      * destruct (map_find_lt _ _ _ MF) as ([k old] & NJ).
        apply (wp_forward true _ vs e v x a (CObj fs)); auto. intros c2 sy2 V2 hand2 vs2 hv A2 Shv Ow2.
        destruct (own_fields _ _ _ _ _ _ _ _ _ _ A2 ltac:(rewrite emptied_as, taken_len; exact L) Ow2) as (fv2 & EV2 & F2).
        rewrite emptied_as, val_taken, EV in EV2 by exact NM. injection EV2 as <-.
        pose proof (Forall2_nth _ _ _ j F2) as Q. rewrite NJ in Q. destruct (nth_error fv j) as [[k' w]|]; [|contradiction].
        destruct Q as [Q _]. cbn in Q. subst k'.
        eapply wp_assign_field; [exact A2|exact Ow2|exact F2|exact Shv|exact NJ|reflexivity].
      * apply RET; [reflexivity|exact A1].
    + intros NO _. apply RET; [|exact A]. destruct (val e x); try reflexivity. destruct (NO fs eq_refl).
  - cbn [h_set] in *. apply (wp_elements true _ vs e [] h (val e x)); auto.
    + intros c1 sy1 V1 a ms mv EV Eh A1 Y1 L1 S1 F1. subst h.
      pose proof (own_at _ _ _ _ _ _ _ _ _ _ N O Y1 L1 a (CArr ms) eq_refl S1) as Ow. clear O.
      rewrite EV in *. cbn [h_elements] in *. rewrite <- (Forall2_zlen _ _ _ F1) in *. destruct (zlen ms <=? z mod 2 ^ 64) eqn:Lt.
      * apply RET; [reflexivity|exact A1].
      * cbn [result bind settle].
        apply (wp_forward true _ vs e v x a (CArr ms)); auto. intros c2 sy2 V2 hand2 vs2 hv A2 Shv Ow2.
        destruct (own_elements _ _ _ _ _ _ _ _ _ _ A2 ltac:(rewrite emptied_as, taken_len; exact L) Ow2) as (mv2 & EV2 & F2).
        rewrite emptied_as, val_taken, EV in EV2 by exact NM. injection EV2 as <-.
        destruct (nth_error ms (Z.to_nat (z mod 2 ^ 64))) as [old|] eqn:NJ.
        2: { apply nth_error_None in NJ. pose proof (mod_nonneg z). unfold zlen in Lt. lia. }
        eapply wp_assign_elem; [exact A2|exact Ow2|exact F2|exact Shv|exact NJ|reflexivity].
    + intros NO _. apply RET; [|exact A]. destruct (val e x); try reflexivity. destruct (NO vs0 eq_refl).
Qed.

Lemma wp_erase_key c sy hand V vs e x key : At c hand vs e [] -> (x < length e)%nat ->
  wp true (p_erase_key vs x key) c sy hand V (Post (settle e x e (result (h_erase_key (val e x) key)))).
Proof.
  intros A L. unfold p_erase_key. apply (wp_unshare _ vs e); [exact A|exact L|]. clear c sy V hand vs A.
  intros c sy V hand vs h A N Sh O. unfold h_erase_key.
  assert (J : href h <> None -> In h hand).
  { intros E. eapply var_in; [apply A| |exact E]. eapply nth_error_In. exact N. }
  apply (wp_fields true _ vs e [] h (val e x)); auto.
  - intros c1 sy1 V1 a fs fv EV Eh A1 Y1 L1 S1 F1. subst h.
    pose proof (own_at _ _ _ _ _ _ _ _ _ _ N O Y1 L1 a (CObj fs) eq_refl S1) as Ow. clear O.
    rewrite EV. cbn [h_fields]. rewrite <- (same_find key fs fv (pair_keys _ _ _ F1)).
    destruct (map_find key fs) as [j|] eqn:MF; cbn [result bind settle].
    + destruct (map_find_lt _ _ _ MF) as ([k old] & NJ). rewrite NJ.
      eapply wp_erase_field; [exact A1|exact Ow|exact F1|exact NJ|reflexivity].
    + eapply wp_ret; [exact A1|]. rewrite <- EV, list_set_id. reflexivity.
  - intros NO _. eapply wp_ret; [exact A|]. destruct (val e x); try reflexivity. destruct (NO fs eq_refl).
Qed.
Lemma wp_erase_idx c sy hand V vs e x pos : At c hand vs e [] -> (x < length e)%nat -> 0 <= pos ->
  wp true (p_erase_idx vs x pos) c sy hand V (Post (settle e x e (result (h_erase_idx (val e x) pos)))).
Proof.
  intros A L P. unfold p_erase_idx. apply (wp_unshare _ vs e); [exact A|exact L|]. clear c sy V hand vs A.
  intros c sy V hand vs h A N Sh O. unfold h_erase_idx.
  assert (J : href h <> None -> In h hand).
  { intros E. eapply var_in; [apply A| |exact E]. eapply nth_error_In. exact N. }
  apply (wp_elements true _ vs e [] h (val e x)); auto.
  - intros c1 sy1 V1 a ms mv EV Eh A1 Y1 L1 S1 F1. subst h.
    pose proof (own_at _ _ _ _ _ _ _ _ _ _ N O Y1 L1 a (CArr ms) eq_refl S1) as Ow. clear O.
    rewrite EV. cbn [h_elements]. rewrite <- (Forall2_zlen _ _ _ F1). destruct (zlen ms <=? pos) eqn:Lt; cbn [result bind settle].
    + eapply wp_ret; [exact A1|]. rewrite <- EV, list_set_id. reflexivity.
    + destruct (nth_error ms (Z.to_nat pos)) as [old|] eqn:NJ.
      2: { apply nth_error_None in NJ. unfold zlen in Lt. lia. }
      eapply wp_erase_elem; [exact A1|exact Ow|exact F1|exact NJ|reflexivity].
  - intros NO _. eapply wp_ret; [exact A|]. destruct (val e x); try reflexivity. destruct (NO vs0 eq_refl).
Qed.

Lemma wp_size acq Q c sy hand V vs e x k : At c hand vs e [] -> (x < length e)%nat ->
  (forall c1 sy1 V1, At c1 hand vs e [] -> wp acq (k (match h_size (val e x) with Ok n => Some n | _ => None end)) c1 sy1 hand V1 Q) ->
  wp acq (p_size vs x k) c sy hand V Q.
Proof.
  intros A L H. destruct (At_get _ _ _ _ _ _ A L) as (h & N & Sh & J). unfold p_size. apply (wp_get _ _ _ _ _ _ _ _ _ h N).
  destruct Sh as [| | | | |a n fs fv C F|a n ms mv C F]; cbn [h_size] in H; try (apply H; exact A).
  - assert (Jh : In (HObj a) hand) by (apply J; discriminate).
    apply (wp_read acq Q vs e []) with (d := CObj fs); [exact A|exists n, (HObj a); auto|]. intros c1 sy1 V1 A1 _ _ _.
    rewrite (Forall2_zlen _ _ _ F). apply H. exact A1.
  - assert (Jh : In (HArr a) hand) by (apply J; discriminate).
    apply (wp_read acq Q vs e []) with (d := CArr ms); [exact A|exists n, (HArr a); auto|]. intros c1 sy1 V1 A1 _ _ _.
    rewrite (Forall2_zlen _ _ _ F). apply H. exact A1.
Qed.

Lemma wp_exec acq c sy hand V vs e o : At c hand vs e [] -> call_ok (length e) o -> polite e o -> acq = true \/ looks o = true ->
  wp acq (p_exec vs o) c sy hand V (Post (v_exec e o)).
Proof.
  intros A CO PO AL. destruct (looks o) eqn:LK; [apply wp_looks; assumption|]. destruct AL as [->|AL]; [|discriminate].
  assert (INS : forall x k v, (x < length e)%nat -> src_in (length e) v -> ~ names v x ->
    match v with Lref _ => match val e x with VObj _ => overwrites (val e x) k = false | _ => True end | _ => True end ->
    forall c sy V, At c hand vs e [] -> wp true (p_insert vs x k v) c sy hand V (Post (v_insert e x k v))).
  { intros x k v L Si NM G c0 sy0 V0 A0. pose proof (wp_insert c0 sy0 hand V0 vs e x k v A0 L Si NM) as H.
    rewrite (w_insert_env _ _ _ _ G) in H. exact H. }
  destruct o as [x f|x y|x y|x|x y r|x k v|x k v|x k|x v|x v|x|x|x|x n v]; try discriminate LK; cbn [call_ok polite p_exec] in *.
  - destruct PO as [NM G]. apply INS; tauto.
  - apply wp_set; tauto.
  - cbn [v_exec]. unfold p_erase, h_erase. destruct k; try (eapply wp_ret; [exact A|reflexivity]).
    + apply wp_erase_key; assumption.
    + apply wp_erase_idx; [assumption|assumption|apply mod_nonneg].
  - apply INS; try tauto. destruct v; auto. destruct (val e x); auto.
  - cbn [v_exec]. unfold p_push_back. apply (wp_size _ _ _ _ _ _ _ e); [exact A|tauto|]. intros c1 sy1 V1 A1.
    destruct (h_size (val e x)) as [n|er| | |]; try (eapply wp_ret; [exact A1|reflexivity]).
    apply INS; try tauto. destruct v; auto. destruct (val e x); auto.
  - cbn [v_exec]. unfold h_pop_front. apply wp_erase_idx; [assumption|assumption|lia].
  - cbn [v_exec]. unfold p_pop_back, h_pop_back. apply (wp_size _ _ _ _ _ _ _ e); [exact A|tauto|]. intros c1 sy1 V1 A1.
    destruct (h_size (val e x)) as [n|er| | |] eqn:HS; cbn [bind].
    + apply wp_erase_idx; [assumption|assumption|apply mod_nonneg].
    + eapply wp_ret; [exact A1|]. destruct (val e x); try discriminate HS; injection HS as <-; reflexivity.
    + destruct (val e x); discriminate HS.
    + destruct (val e x); discriminate HS.
    + destruct (val e x); discriminate HS.
  - contradiction.
  - contradiction.
Qed.
