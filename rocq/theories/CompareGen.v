(** Comparing packets through their public interface (generic_compare). *)

From Coq Require Import ZArith List Bool Lia Sorted.
From Verif Require Import Base BaseFacts Keys Dec Wire Read Buf Enc Spec SpecDec ReadFacts Lookup BufFacts Canon HeapOps HeapFacts
  NestedFacts Packet PacketRun SpecCmp Compare CompareFacts CompareBuf.
Import ListNotations.
Open Scope Z_scope.

(** The packet [p], in either form, has the value [v]. *)
Definition denotes (p : packet) (v : value) : Prop :=
  heap_value v /\ good_all v /\
  match p with PHeap w => w = v | PBuf bs m e => represents bs m e v end.

Lemma d_type p v : denotes p v -> p_type p = vtype v.
Proof. intros (_ & _ & D). destruct p; cbn [p_type]; [subst; destruct v; reflexivity|]. rewrite (T _ _ _ _ D). destruct v; reflexivity. Qed.
Lemma d_size p v : denotes p v -> p_size p = h_size v.
Proof. intros (_ & _ & D). destruct p; [subst; reflexivity|]. apply (p_size_eq _ _ _ _ D). Qed.

Lemma d_field fs k x : heap_value (VObj fs) -> good_all (VObj fs) -> In (k, x) fs -> heap_value x /\ good_all x.
Proof. intros H G I. split; [apply (heap_field _ _ _ H I)|apply (good_all_field _ _ _ G I)]. Qed.

Lemma d_deref p fs i k x : denotes p (VObj fs) -> nth_error fs i = Some (k, x) ->
  exists q, p_deref p (Z.of_nat i) = Ok q /\ denotes q x /\ is_finalized q = is_finalized p.
Proof.
  intros (H & G & D) N. pose proof (nth_error_In _ _ N) as I. destruct (d_field _ _ _ H G I) as [Hx Gx]. destruct p as [v|bs m e].
  - subst v. unfold p_deref, visit. cbn [h_deref]. rewrite Nat2Z.id, N. cbn [bind]. eexists. split; [reflexivity|]. split; [|reflexivity].
    split; [assumption|]. split; [assumption|reflexivity].
  - unfold p_deref, visit. destruct (b_deref_spec bs m e _ (Z.of_nat i) x D) as (e' & -> & R); [lia| |].
    { rewrite Nat2Z.id. cbn [members]. rewrite nth_error_map, N. reflexivity. }
    cbn [bind]. eexists. split; [reflexivity|]. split; [|reflexivity]. split; [assumption|]. split; assumption.
Qed.
Lemma d_deref_key p fs i k x : denotes p (VObj fs) -> nth_error fs i = Some (k, x) ->
  exists q, p_deref_key p (Z.of_nat i) = Ok q /\ p_scalar T_string q = Ok (VStr k).
Proof.
  intros (H & G & D) N. destruct p as [v|bs m e].
  - subst v. unfold p_deref_key, visit. cbn [h_deref_key]. rewrite Nat2Z.id, N. cbn [bind]. eexists. split; reflexivity.
  - unfold p_deref_key, visit. destruct (b_deref_key_spec bs m e fs (Z.of_nat i) k x D) as (p & -> & R); [lia| |].
    { rewrite Nat2Z.id. assumption. }
    cbn [bind]. eexists. split; [reflexivity|]. cbn [p_scalar]. unfold b_scalar. cbn. exact R.
Qed.
Lemma d_get p fs k : denotes p (VObj fs) ->
  exists q, p_get p k = Ok q /\ denotes q (match lookup k fs with Some x => x | None => VNull end) /\ is_finalized q = is_finalized p.
Proof.
  intros (H & G & D). destruct p as [v|bs m e].
  - subst v. unfold p_get, visit. rewrite h_get_spec by (apply heap_sorted; assumption). cbn [bind].
    eexists. split; [reflexivity|]. split; [|reflexivity]. split; [apply heap_lookup; assumption|]. split; [apply good_all_lookup; assumption|reflexivity].
  - unfold p_get, visit. destruct (b_get_spec bs m e fs k D (good_all_keys _ G)) as (e' & -> & R). cbn [bind].
    eexists. split; [reflexivity|]. split; [|reflexivity]. split; [apply heap_lookup; assumption|]. split; [apply good_all_lookup; assumption|assumption].
Qed.
Lemma d_get_idx p vs i x : denotes p (VArr vs) -> nth_error vs i = Some x ->
  exists q, p_get_idx p (Z.of_nat i) = Ok q /\ denotes q x /\ is_finalized q = is_finalized p.
Proof.
  intros (H & G & D) N. pose proof (nth_error_In _ _ N) as I. pose proof (heap_elem _ _ H I) as Hx. pose proof (good_elem _ _ G I) as Gx.
  destruct p as [v|bs m e].
  - subst v. unfold p_get_idx, visit. cbn [h_get_idx h_elements h_size bind].
    assert (L : (i < length vs)%nat) by (apply nth_error_Some; congruence).
    replace (Z.of_nat i <? zlen vs) with true by (symmetry; apply Z.ltb_lt; unfold zlen; lia). rewrite Nat2Z.id, N. cbn [bind].
    eexists. split; [reflexivity|]. split; [|reflexivity]. split; [assumption|]. split; [assumption|reflexivity].
  - unfold p_get_idx, visit. destruct (b_get_idx_spec bs m e vs (Z.of_nat i) D) as (e' & -> & R); [lia|]. rewrite Nat2Z.id, N in R. cbn [bind].
    eexists. split; [reflexivity|]. split; [|reflexivity]. split; [assumption|]. split; assumption.
Qed.
Lemma d_scalar p v : denotes p v -> is_aggregate v = false -> v <> VNull -> p_scalar (vtype v) p = Ok v.
Proof.
  intros (H & G & D) A N. assert (U : utype_eqb (vtype v) (vtype v) = true) by (apply utype_eqb_eq; reflexivity).
  destruct p as [w|bs m e]; cbn [p_scalar].
  - subst w. unfold h_scalar. replace (h_type v) with (vtype v) by (destruct v; reflexivity). rewrite U. reflexivity.
  - rewrite (b_scalar_spec _ _ _ _ _ D A N), U. reflexivity.
Qed.

(** The loop. *)
Lemma all_from_spec f n : forall i, (forall j, (j < n)%nat -> exists q, f (i + Z.of_nat j) = Ok q) ->
  exists r, all_from f i n = Ok r /\ (r = true <-> forall j, (j < n)%nat -> f (i + Z.of_nat j) = Ok true).
Proof.
  induction n as [|n IH]; intros i H; cbn [all_from].
  - exists true. split; [reflexivity|]. split; [intros _ j L; lia|reflexivity].
  - destruct (H 0%nat) as [q E]; [lia|]. rewrite Z.add_0_r in E. rewrite E. cbn [bind]. destruct q.
    + destruct (IH (i + 1)) as (r & E' & Q).
      { intros j L. destruct (H (S j)) as [q' E']; [lia|]. exists q'. rewrite <- E'. f_equal. lia. }
      exists r. split; [exact E'|]. rewrite Q. split; intros A j L.
      * destruct j as [|j]; [rewrite Z.add_0_r; exact E|]. rewrite <- (A j) by lia. f_equal. lia.
      * rewrite <- (A (S j)) by lia. f_equal. lia.
    + exists false. split; [reflexivity|]. split; [discriminate|]. intros A. specialize (A 0%nat). rewrite Z.add_0_r, E in A.
      assert (X : Ok false = Ok true) by (apply A; lia). discriminate X.
Qed.

(** Which operand's null members can mislead the comparison: the one iterated. *)
Definition null_safe (p q : packet) (v w : value) : Prop :=
  (no_null_members v /\ no_null_members w) \/
  (is_finalized p = true /\ is_finalized q = false /\ no_null_members w) \/
  (is_finalized p = false /\ is_finalized q = true /\ no_null_members v).

Lemma nn_field fs k x : no_null_members (VObj fs) -> In (k, x) fs -> no_null_members x /\ x <> VNull.
Proof.
  intros H I. inversion H as [? N F| | | | | |]; subst. rewrite Forall_forall in F. split; [apply (F _ I)|].
  intros ->. apply N. apply (in_map snd _ _ I).
Qed.
Lemma nn_elem vs x : no_null_members (VArr vs) -> In x vs -> no_null_members x.
Proof. intros H I. inversion H as [|? _ F| | | | |]; subst. rewrite Forall_forall in F. exact (F _ I). Qed.
Lemma nn_lookup fs k : no_null_members (VObj fs) -> no_null_members (match lookup k fs with Some x => x | None => VNull end).
Proof.
  intros G. destruct (lookup k fs) eqn:E; [|constructor; exact I]. apply lookup_in in E. apply (nn_field _ _ _ G E).
Qed.

Lemma content_null v : content_eq v VNull <-> v = VNull.
Proof. split; [intros C; inversion C; reflexivity|intros ->; constructor]. Qed.

(** Every member of one object found equal in the other, of the same size. *)
Lemma members_found fs gs : StronglySorted key_lt (map fst fs) -> StronglySorted key_lt (map fst gs) -> zlen fs = zlen gs ->
  (forall k x, In (k, x) gs -> x <> VNull) ->
  ((forall k x, In (k, x) gs -> content_eq x (match lookup k fs with Some y => y | None => VNull end)) <->
   content_eq (VObj gs) (VObj fs)).
Proof.
  intros SF SG L NN. split.
  - intros A.
    assert (B : forall k x, In (k, x) gs -> exists y, lookup k fs = Some y /\ content_eq x y).
    { intros k x I. specialize (A k x I). destruct (lookup k fs) as [y|]; [eauto|]. apply content_null in A. destruct (NN k x I A). }
    assert (K : incl (map fst gs) (map fst fs)).
    { intros k I. apply in_map_iff in I. destruct I as ([k' x] & <- & I). destruct (B k' x I) as (y & E & _).
      destruct (in_dec (list_eq_dec Byte.byte_eq_dec) k' (map fst fs)) as [|N]; [assumption|]. apply lookup_none_in in N.
      cbn [fst] in *. congruence. }
    assert (K' : incl (map fst fs) (map fst gs)).
    { apply NoDup_length_incl; [apply sorted_nodup; assumption| |assumption]. rewrite !map_length. unfold zlen in L. lia. }
    constructor.
    + intros k x E. apply B. apply lookup_in. assumption.
    + intros k E. apply lookup_none_in in E. apply lookup_none_in. intros I. apply E. apply K'. assumption.
  - intros C k x I. inversion C as [? ? A _| | | | | |]; subst.
    destruct (A k x) as (y & E & X); [apply sorted_in_lookup; assumption|]. rewrite E. exact X.
Qed.

Lemma content_size fs gs : StronglySorted key_lt (map fst fs) -> StronglySorted key_lt (map fst gs) ->
  content_eq (VObj fs) (VObj gs) -> zlen fs = zlen gs.
Proof. intros A B C. apply content_obj in C; try assumption. apply (forall2_zlen _ _ _ C). Qed.

Lemma content_vtype v w : content_eq v w -> vtype v = vtype w.
Proof. intros C. inversion C; reflexivity. Qed.

(** One level, the operands already in the order they are looked at. *)
Definition gstep (n : nat) (l r : packet) : res bool :=
  if negb (utype_eqb (p_type l) (p_type r)) then Ok false
  else
    match p_type l with
    | T_object =>
        k <- p_size l ;; k' <- p_size r ;;
        if negb (k =? k') then Ok false
        else all_from (fun i =>
          x <- p_deref r i ;; ke <- p_deref_key r i ;;
          kv <- p_scalar T_string ke ;; k <- value_strv kv ;;
          y <- p_get l k ;; gcmp n x y) 0 (Z.to_nat k')
    | T_array =>
        k <- p_size l ;; k' <- p_size r ;;
        if negb (k =? k') then Ok false
        else all_from (fun i =>
          x <- p_get_idx l i ;; y <- p_get_idx r i ;; gcmp n x y) 0 (Z.to_nat k)
    | T_null => Ok true
    | t =>
        x <- p_scalar t l ;; y <- p_scalar t r ;;
        Ok (match x, y with
            | VStr a, VStr b => if list_eq_dec Byte.byte_eq_dec a b then true else false
            | VInt a, VInt b => a =? b
            | VDec a, VDec b => ieee_eqb a b
            | VBool a, VBool b => Bool.eqb a b
            | _, _ => false
            end)
    end.
Lemma gcmp_step n p q : gcmp (S n) p q = if is_finalized p then gstep n p q else gstep n q p.
Proof. unfold gstep. cbn [gcmp]. destruct (is_finalized p); reflexivity. Qed.

Definition ordered_safe (l r : packet) (v w : value) : Prop :=
  (no_null_members v /\ no_null_members w) \/
  (is_finalized l = true /\ is_finalized r = false /\ no_null_members w).

Lemma nth_zlen {A} (l : list A) n j : zlen l = n -> (j < Z.to_nat n)%nat -> exists x, nth_error l j = Some x.
Proof.
  intros <- L. destruct (nth_error l j) eqn:E; [eauto|]. apply nth_error_None in E. unfold zlen in L. lia.
Qed.

Lemma gstep_spec n
  (IH : forall p q v w, denotes p v -> denotes q w -> (depth v < n)%nat -> (depth w < n)%nat ->
    exists r, gcmp n p q = Ok r /\ (null_safe p q v w -> (r = true <-> content_eq v w)))
  l r v w : denotes l v -> denotes r w -> (depth v < S n)%nat -> (depth w < S n)%nat ->
  exists c, gstep n l r = Ok c /\ (ordered_safe l r v w -> (c = true <-> content_eq v w)).
Proof.
  intros DL DR LV LW. unfold gstep. rewrite (d_type _ _ DL), (d_type _ _ DR).
  destruct (utype_eqb (vtype v) (vtype w)) eqn:U; cbn [negb].
  2:{ exists false. split; [reflexivity|]. intros _. split; [discriminate|]. intros C. apply content_vtype, utype_eqb_eq in C. congruence. }
  apply utype_eqb_eq in U.
  assert (SC : is_aggregate v = false -> v <> VNull -> exists c,
    (x <- p_scalar (vtype v) l ;; y <- p_scalar (vtype v) r ;;
        Ok (match x, y with
            | VStr a, VStr b => if list_eq_dec Byte.byte_eq_dec a b then true else false
            | VInt a, VInt b => a =? b
            | VDec a, VDec b => ieee_eqb a b
            | VBool a, VBool b => Bool.eqb a b
            | _, _ => false
            end)) = Ok c /\ (ordered_safe l r v w -> (c = true <-> content_eq v w))).
  { intros A N. assert (A' : is_aggregate w = false /\ w <> VNull) by (destruct v, w; try discriminate U; try discriminate A; try congruence; split; try reflexivity; discriminate).
    rewrite (d_scalar _ _ DL A N). cbn [bind]. rewrite U, (d_scalar _ _ DR (proj1 A') (proj2 A')). cbn [bind].
    eexists. split; [reflexivity|]. intros _. destruct DL as (HV & _), DR as (HW & _).
    destruct v as [| |s|z|d|b|], w as [| |s'|z'|d'|b'|]; try discriminate U; try discriminate A; try congruence.
    - destruct (list_eq_dec Byte.byte_eq_dec s s') as [->|X]; split; intros E; try discriminate; try constructor; inversion E; subst; congruence.
    - rewrite Z.eqb_eq. split; [intros ->; constructor|intros C; inversion C; reflexivity].
    - inversion HV as [| | | |? R| |]; subst. inversion HW as [| | | |? R'| |]; subst.
      rewrite (ieee_denote _ _ R R'). split; [intros []; constructor; assumption|intros C; inversion C; auto].
    - rewrite eqb_true_iff. split; [intros ->; constructor|intros C; inversion C; reflexivity]. }
  destruct v as [fs|vs|s|z|d|b|]; destruct w as [gs|ws|s'|z'|d'|b'|]; try discriminate U;
    try (apply SC; [reflexivity|discriminate]); clear SC; cbn [vtype].
  - rewrite (d_size _ _ DL), (d_size _ _ DR). cbn [h_size bind].
    pose proof (heap_sorted _ (proj1 DL)) as SF. pose proof (heap_sorted _ (proj1 DR)) as SG.
    destruct (Z.eqb_spec (zlen fs) (zlen gs)) as [E|NE]; cbn [negb].
    2:{ exists false. split; [reflexivity|]. intros _. split; [discriminate|]. intros C. apply content_size in C; congruence. }
    match goal with |- exists c, all_from ?f 0 _ = _ /\ _ => set (F := f) end.
    assert (ST : forall j k x, nth_error gs j = Some (k, x) ->
      let y := match lookup k fs with Some y => y | None => VNull end in
      exists c, F (Z.of_nat j) = Ok c /\ (ordered_safe l r (VObj fs) (VObj gs) -> (c = true <-> content_eq x y))).
    { intros j k x N y. destruct (d_deref r gs j k x DR N) as (px & EX & DX & FX).
      destruct (d_deref_key r gs j k x DR N) as (pk & EK & SK). destruct (d_get l fs k DL) as (py & EY & DY & FY).
      pose proof (nth_error_In _ _ N) as I.
      destruct (IH px py x y DX DY) as (c & EC & QC).
      { pose proof (depth_obj gs (k, x) I). cbn [snd] in *. lia. }
      { unfold y. destruct (lookup k fs) as [y'|] eqn:LK; [|pose proof (depth_obj gs (k, x) I); cbn [depth snd] in *; lia]. apply lookup_in in LK. pose proof (depth_obj fs (k, y') LK). cbn [snd] in *. lia. }
      exists c. split.
      - unfold F. rewrite EX, EK. cbn [bind]. rewrite SK. cbn [bind value_strv]. rewrite EY. exact EC.
      - intros OS. apply QC. destruct OS as [[N1 N2]|(F1 & F2 & N2)].
        + left. split; [apply (nn_field _ _ _ N2 I)|apply nn_lookup; assumption].
        + right. right. split; [congruence|]. split; [congruence|]. apply (nn_field _ _ _ N2 I). }
    destruct (all_from_spec F (Z.to_nat (zlen gs)) 0) as (c & EC & QC).
    { intros j L. destruct (nth_zlen gs _ j eq_refl L) as [[k x] N]. destruct (ST j k x N) as (c & EC & _). eauto. }
    exists c. split; [exact EC|]. intros OS. rewrite QC.
    assert (NN : no_null_members (VObj gs)) by (destruct OS as [[_ ?]|(_ & _ & ?)]; assumption).
    assert (SYM : content_eq (VObj fs) (VObj gs) <-> content_eq (VObj gs) (VObj fs))
      by (split; apply content_sym; (apply DL || apply DR)).
    rewrite SYM, <- (members_found fs gs SF SG E (fun k x I => proj2 (nn_field _ _ _ NN I))). split.
    + intros A k x I. apply In_nth_error in I. destruct I as [j N]. destruct (ST j k x N) as (c' & EC' & QC').
      apply (QC' OS). assert (X : F (0 + Z.of_nat j) = Ok true).
      { apply A. assert ((j < length gs)%nat) by (apply nth_error_Some; congruence). unfold zlen. lia. }
      cbn [Z.add] in X. rewrite EC' in X. apply Ok_inj in X. exact X.
    + intros A j L. destruct (nth_zlen gs _ j eq_refl L) as [[k x] N]. destruct (ST j k x N) as (c' & EC' & QC').
      cbn [Z.add]. rewrite EC'. f_equal. apply (QC' OS). apply A. apply (nth_error_In _ _ N).
  - rewrite (d_size _ _ DL), (d_size _ _ DR). cbn [h_size bind].
    assert (CA : content_eq (VArr vs) (VArr ws) <-> Forall2 content_eq vs ws).
    { split; [intros C; inversion C; assumption|constructor; assumption]. }
    destruct (Z.eqb_spec (zlen vs) (zlen ws)) as [E|NE]; cbn [negb].
    2:{ exists false. split; [reflexivity|]. intros _. split; [discriminate|]. intros C. apply CA, forall2_zlen in C. congruence. }
    match goal with |- exists c, all_from ?f 0 _ = _ /\ _ => set (F := f) end.
    assert (ST : forall j x y, nth_error vs j = Some x -> nth_error ws j = Some y ->
      exists c, F (Z.of_nat j) = Ok c /\ (ordered_safe l r (VArr vs) (VArr ws) -> (c = true <-> content_eq x y))).
    { intros j x y N N'. destruct (d_get_idx l vs j x DL N) as (px & EX & DX & FX). destruct (d_get_idx r ws j y DR N') as (py & EY & DY & FY).
      pose proof (nth_error_In _ _ N) as I. pose proof (nth_error_In _ _ N') as I'.
      destruct (IH px py x y DX DY) as (c & EC & QC).
      { pose proof (depth_arr vs x I). lia. } { pose proof (depth_arr ws y I'). lia. }
      exists c. split; [unfold F; rewrite EX; cbn [bind]; rewrite EY; exact EC|].
      intros OS. apply QC. destruct OS as [[N1 N2]|(F1 & F2 & N2)].
      - left. split; [apply (nn_elem _ _ N1 I)|apply (nn_elem _ _ N2 I')].
      - right. left. split; [congruence|]. split; [congruence|]. apply (nn_elem _ _ N2 I'). }
    destruct (all_from_spec F (Z.to_nat (zlen vs)) 0) as (c & EC & QC).
    { intros j L. destruct (nth_zlen vs _ j eq_refl L) as [x N]. destruct (nth_zlen ws _ j (eq_sym E) L) as [y N'].
      destruct (ST j x y N N') as (c & EC & _). eauto. }
    exists c. split; [exact EC|]. intros OS. rewrite QC, CA.
    assert (FA : Forall2 content_eq vs ws <-> forall j x y, nth_error vs j = Some x -> nth_error ws j = Some y -> content_eq x y).
    { clear - E. revert ws E. induction vs as [|x vs IHv]; intros [|y ws] E; rewrite ?zlen_cons in E;
        try (pose proof (zlen_nonneg vs); change (zlen (@nil value)) with 0 in E; lia);
        try (pose proof (zlen_nonneg ws); change (zlen (@nil value)) with 0 in E; lia).
      - split; [intros _ [|j]; discriminate|constructor].
      - split.
        + intros F [|j] a b A B; inversion F; subst; cbn in A, B; [congruence|]. apply (proj1 (IHv ws ltac:(lia)) H4 j); assumption.
        + intros A. constructor; [apply (A 0%nat); reflexivity|]. apply IHv; [lia|]. intros j. apply (A (S j)). }
    rewrite FA. split.
    + intros A j x y N N'. destruct (ST j x y N N') as (c' & EC' & QC'). apply (QC' OS).
      assert (X : F (0 + Z.of_nat j) = Ok true).
      { apply A. assert ((j < length vs)%nat) by (apply nth_error_Some; congruence). unfold zlen. lia. }
      cbn [Z.add] in X. rewrite EC' in X. apply Ok_inj in X. exact X.
    + intros A j L. destruct (nth_zlen vs _ j eq_refl L) as [x N]. destruct (nth_zlen ws _ j (eq_sym E) L) as [y N'].
      destruct (ST j x y N N') as (c' & EC' & QC'). cbn [Z.add]. rewrite EC'. f_equal. apply (QC' OS). apply (A j); assumption.
  - exists true. split; [reflexivity|]. intros _. split; [constructor|reflexivity].
Qed.

Theorem gcmp_spec n : forall p q v w, denotes p v -> denotes q w -> (depth v < n)%nat -> (depth w < n)%nat ->
  exists r, gcmp n p q = Ok r /\ (null_safe p q v w -> (r = true <-> content_eq v w)).
Proof.
  induction n as [|n IH]; intros p q v w DP DQ LV LW; [lia|]. rewrite gcmp_step. destruct (is_finalized p) eqn:F.
  - destruct (gstep_spec n IH p q v w DP DQ LV LW) as (c & E & Q). exists c. split; [exact E|]. intros NS. apply Q.
    destruct NS as [?|[(_ & ? & ?)|(? & _)]]; [left; assumption|right; auto|congruence].
  - destruct (gstep_spec n IH q p w v DQ DP LW LV) as (c & E & Q). exists c. split; [exact E|]. intros NS. rewrite Q.
    + split; apply content_sym; (apply DP || apply DQ).
    + destruct NS as [[? ?]|[(? & _)|(_ & ? & ?)]]; [left; auto|congruence|right; auto].
Qed.
