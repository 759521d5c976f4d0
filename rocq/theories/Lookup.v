(** Key lookup in a finalized object. *)

From Coq Require Import ZArith List Lia Bool Sorted.
From Coq Require Import ZifyBool ZifyNat ZifyN.
From Verif Require Import Base BaseFacts Keys KeysFacts Dec Wire Read Enc EncSize Spec ReadFacts.
Import ListNotations.
Open Scope Z_scope.

Lemma split_idx {A} (l : list A) i : 0 <= i < zlen l -> exists a x b, l = a ++ x :: b /\ zlen a = i.
Proof.
  intros H. destruct (split_at l i) as (a & b & -> & L); [lia|].
  rewrite zlen_app in H. destruct b as [|x b]; [change (zlen (@nil A)) with 0 in H; lia|]. eauto.
Qed.

Lemma split_order {A} (a c : list A) x b y d :
  a ++ x :: b = c ++ y :: d -> zlen a < zlen c -> exists e, c = a ++ x :: e /\ b = e ++ y :: d.
Proof.
  revert c. induction a as [|z a IH]; intros c E L.
  - destruct c as [|w c]; [change (zlen (@nil A)) with 0 in L; lia|].
    cbn [app] in E. injection E as -> ->. exists c. auto.
  - destruct c as [|w c]; [rewrite zlen_cons in L; change (zlen (@nil A)) with 0 in L; zlia|].
    cbn [app] in E. injection E as -> E. rewrite !zlen_cons in L.
    destruct (IH c E) as (e & -> & ->); [lia|]. exists e. auto.
Qed.
Lemma split_same {A} (a c : list A) x b y d :
  a ++ x :: b = c ++ y :: d -> zlen a = zlen c -> a = c /\ x = y /\ b = d.
Proof.
  revert c. induction a as [|z a IH]; intros [|w c] E L; rewrite ?zlen_cons in L.
  - cbn [app] in E. injection E as -> ->. auto.
  - change (zlen (@nil A)) with 0 in L. zlia.
  - change (zlen (@nil A)) with 0 in L. zlia.
  - cbn [app] in E. injection E as -> E. destruct (IH c E) as (-> & -> & ->); [lia|auto].
Qed.

Lemma sorted_order {A} (f1 c : list (str * A)) k x b k' y d :
  StronglySorted key_lt (map fst (f1 ++ (k, x) :: b)) ->
  f1 ++ (k, x) :: b = c ++ (k', y) :: d -> zlen f1 < zlen c -> key_lt k k'.
Proof.
  intros S E L. destruct (split_order _ _ _ _ _ _ E L) as (e & -> & ->).
  clear E L. induction f1 as [|[k0 x0] f1 IH]; cbn [app map fst] in S.
  - apply StronglySorted_inv in S. destruct S as [_ S]. rewrite Forall_forall in S. apply S.
    rewrite map_app. apply in_or_app. right. left. reflexivity.
  - apply StronglySorted_inv in S. destruct S as [S _]. auto.
Qed.

Lemma lookup_in {A} k (fs : list (str * A)) x : lookup k fs = Some x -> In (k, x) fs.
Proof.
  induction fs as [|[k' y] r IH]; cbn [lookup]; [discriminate|].
  destruct (list_eq_dec _ k k') as [-> | N]; intros H; [injection H as ->; left; reflexivity|right; auto].
Qed.
Lemma lookup_none {A} k (fs : list (str * A)) : lookup k fs = None <-> ~ In k (map fst fs).
Proof.
  induction fs as [|[k' y] r IH]; cbn [lookup map fst]; [split; auto|].
  destruct (list_eq_dec _ k k') as [-> | N].
  - split; [discriminate|intros H; destruct H; left; reflexivity].
  - rewrite IH. split; intros H; [intros [H' | H']; [congruence|auto]|].
    intros H'. apply H. right. assumption.
Qed.
Lemma lookup_mid {A} k (f1 : list (str * A)) x f2 :
  StronglySorted key_lt (map fst (f1 ++ (k, x) :: f2)) -> lookup k (f1 ++ (k, x) :: f2) = Some x.
Proof.
  intros S. destruct (lookup k (f1 ++ (k, x) :: f2)) as [y|] eqn:E.
  - apply lookup_in in E. apply in_split in E. destruct E as (c & d & E).
    destruct (Z.lt_trichotomy (zlen f1) (zlen c)) as [G | [G | G]].
    + destruct (key_lt_irrefl k). exact (sorted_order _ _ _ _ _ _ _ _ S E G).
    + destruct (split_same _ _ _ _ _ _ E G) as (_ & H & _). congruence.
    + destruct (key_lt_irrefl k). rewrite E in S. symmetry in E.
      exact (sorted_order _ _ _ _ _ _ _ _ S E G).
  - apply lookup_none in E. destruct E. rewrite map_app. apply in_or_app. right. left. reflexivity.
Qed.

Section Search.
  Variables (m : mem) (o : Z) (fs : list (str * value)) (key : str).
  Hypothesis H : holds m o (enc (VObj fs)).
  Hypothesis HS : esize (VObj fs) < 2 ^ 32.
  Hypothesis HK : Forall (fun kv => zlen (fst kv) <= 65535) fs.

  Definition found_at (r : Z * Z * Z) : Prop :=
    exists f1 x f2, fs = f1 ++ (key, x) :: f2 /\
      r = (zlen f1, entry_type (raw_type_of x), o + kpos (opos (zlen fs) f1)).

  Lemma probe_step f1 k x f2 fuel low high :
    fs = f1 ++ (k, x) :: f2 -> Z.quot (low + high) 2 = zlen f1 -> low <= high ->
    get_key_loop (S fuel) m o key low high =
    if probe k key =? 0 then
      Ok (Some (zlen f1, entry_type (raw_type_of x), o + kpos (opos (zlen fs) f1)))
    else if 0 <? probe k key then get_key_loop fuel m o key (zlen f1 + 1) high
    else get_key_loop fuel m o key low (zlen f1 - 1).
  Proof.
    intros E M L. cbn [get_key_loop]. replace (high <? low) with false by lia. rewrite M.
    pose proof (obj_slot m o f1 k x f2) as SL. rewrite <- E in SL. destruct (SL H) as (He & Hk & _). clear SL.
    pose proof (obj_slot_bounds f1 k x f2) as B. rewrite <- E in B. cbv zeta in B.
    destruct (obj_entry_read _ _ _ _ _ _ He) as (_ & _ & ->).
    { pose proof (esize_nonneg x). pose proof (zlen_nonneg fs). pose proof (zlen_nonneg (enc_str k)). lia. }
    { apply raw_type_range. }
    cbn [bind e_off e_type].
    assert (KL : zlen k <= 65535).
    { rewrite Forall_forall in HK. apply (HK (k, x)). rewrite E. apply in_elt. }
    rewrite (rd_key_spec _ _ _ Hk KL). unfold probe.
    change (prefix_compare (mk_entry_raw (kpos (opos (zlen fs) f1)) (entry_type (raw_type_of x))
              (prefix_len (cstr k)) (prefix_bytes (cstr k))) key)
      with (prefix_compare (mk_entry 0 0 k) key).
    destruct (negb (- prefix_compare (mk_entry 0 0 k) key =? 0)) eqn:C; cbn [bind]; [reflexivity|].
    reflexivity.
  Qed.

  Lemma loop_spec fuel low high :
    0 <= low -> high < zlen fs -> high - low + 1 <= Z.of_nat fuel ->
    (exists r, get_key_loop fuel m o key low high = Ok (Some r) /\ found_at r) \/
    (get_key_loop fuel m o key low high = Ok None /\
     (StronglySorted key_lt (map fst fs) -> Forall (fun kv => good_key (fst kv)) fs ->
      forall f1 x f2, fs = f1 ++ (key, x) :: f2 -> low <= zlen f1 <= high -> False)).
  Proof.
    revert low high. induction fuel as [|fuel IH]; intros low high HL HH HF.
    - right. cbn [get_key_loop]. replace (high <? low) with true by lia. split; [reflexivity|lia].
    - destruct (Z.lt_ge_cases high low) as [G | G].
      { right. cbn [get_key_loop]. replace (high <? low) with true by lia. split; [reflexivity|lia]. }
      assert (Q : Z.quot (low + high) 2 = (low + high) / 2) by (apply Z.quot_div_nonneg; lia).
      assert (R : low <= (low + high) / 2 <= high).
      { split; [apply Z.div_le_lower_bound; lia|apply Z.div_le_upper_bound; lia]. }
      destruct (split_idx fs ((low + high) / 2)) as (f1 & [k x] & f2 & E & L); [lia|].
      rewrite (probe_step f1 k x f2) by (assumption || lia).
      destruct (probe k key =? 0) eqn:P0.
      { left. eexists. split; [reflexivity|]. assert (key = k) by (apply probe_zero; lia). subst k.
        exists f1, x, f2. auto. }
      destruct (0 <? probe k key) eqn:P1.
      + destruct (IH (zlen f1 + 1) high) as [IH' | [IH1 IH2]]; [lia..|left; assumption|].
        right. split; [assumption|]. intros S GK c y d E' B.
        destruct (Z.le_gt_cases (zlen f1 + 1) (zlen c)) as [C | C]; [apply (IH2 S GK c y d E'); lia|].
        rewrite Forall_forall in GK.
        assert (G1 : good_key k) by (apply (GK (k, x)); rewrite E; apply in_elt).
        assert (G2 : good_key key) by (apply (GK (key, y)); rewrite E'; apply in_elt).
        destruct (probe_good k key G1 G2) as (_ & PL & PE).
        destruct (Z.eq_dec (zlen f1) (zlen c)) as [D | D].
        * rewrite E in E'. destruct (split_same _ _ _ _ _ _ E' D) as (_ & X & _). injection X as -> _.
          rewrite PE in P1 by reflexivity. lia.
        * rewrite E' in S. rewrite E' in E.
          assert (key_lt key k) by (refine (sorted_order _ _ _ _ _ _ _ _ S E _); lia).
          apply PL in H0. lia.
      + destruct (IH low (zlen f1 - 1)) as [IH' | [IH1 IH2]]; [lia..|left; assumption|].
        right. split; [assumption|]. intros S GK c y d E' B.
        destruct (Z.le_gt_cases (zlen c) (zlen f1 - 1)) as [C | C]; [apply (IH2 S GK c y d E'); lia|].
        rewrite Forall_forall in GK.
        assert (G1 : good_key k) by (apply (GK (k, x)); rewrite E; apply in_elt).
        assert (G2 : good_key key) by (apply (GK (key, y)); rewrite E'; apply in_elt).
        destruct (probe_good k key G1 G2) as (PL & _ & PE).
        destruct (Z.eq_dec (zlen f1) (zlen c)) as [D | D].
        * rewrite E in E'. destruct (split_same _ _ _ _ _ _ E' D) as (_ & X & _). injection X as -> _.
          rewrite PE in P0 by reflexivity. lia.
        * rewrite E in S. rewrite E in E'.
          assert (key_lt k key) by (refine (sorted_order _ _ _ _ _ _ _ _ S E' _); lia).
          apply PL in H0. lia.
  Qed.

  Lemma count_small : 0 <= zlen fs < 2 ^ 31.
  Proof.
    pose proof (align_up_ge (8 + 8 * zlen fs + zlen (enc_body enc fs (8 + 8 * zlen fs))) 8 ltac:(lia)) as G.
    rewrite <- esize_obj in G. zlia.
  Qed.

  Lemma get_key_spec :
    StronglySorted key_lt (map fst fs) -> Forall (fun kv => good_key (fst kv)) fs ->
    (exists r, get_key m o key = Ok (Some r) /\ found_at r) \/
    (get_key m o key = Ok None /\ lookup key fs = None).
  Proof.
    intros S GK. unfold get_key. destruct (obj_header m o fs H HS) as (_ & ->). cbn [bind].
    pose proof count_small. rewrite to_signed_small by (cbn; lia).
    destruct (loop_spec (Z.to_nat (zlen fs)) 0 (zlen fs - 1)) as [A | [A B]]; [lia..|left; assumption|].
    right. split; [assumption|]. apply lookup_none. intros I. apply in_map_iff in I.
    destruct I as ([k x] & E & I). cbn [fst] in E. subst k.
    apply in_split in I. destruct I as (f1 & f2 & E). apply (B S GK f1 x f2 E).
    rewrite E, zlen_app, zlen_cons. zlia.
  Qed.

  (** Whatever the keys look like, a match is never a different key. *)
  Lemma get_key_sound :
    (exists r, get_key m o key = Ok (Some r) /\ found_at r) \/ get_key m o key = Ok None.
  Proof.
    unfold get_key. destruct (obj_header m o fs H HS) as (_ & ->). cbn [bind].
    pose proof count_small. rewrite to_signed_small by (cbn; lia).
    destruct (loop_spec (Z.to_nat (zlen fs)) 0 (zlen fs - 1)) as [A | [A B]]; [lia..|left; assumption|].
    right. assumption.
  Qed.
End Search.

(** The value an element handed out by a lookup denotes (a null pointer reads as
    null: buffer.h's default element). *)
Definition elem_value (fuel : nat) (bs : Z) (m : mem) (e : elem) : res value :=
  match snd e with
  | None => Ok VNull
  | Some p => read_value fuel bs m (fst e) p
  end.

Lemma entry_type_null v : (entry_type (raw_type_of v) =? R_null) = true -> v = VNull.
Proof.
  destruct v; cbn; auto; unfold identify_string, identify_integer, identify_decimal;
    repeat match goal with |- context [if ?b then _ else _] => destruct b end; discriminate.
Qed.

Theorem get_value_spec bs m o fs key fuel absent :
  holds m o (enc (VObj fs)) -> plain (VObj fs) -> fits (VObj fs) -> (bs + o) mod 8 = 0 ->
  StronglySorted key_lt (map fst fs) -> Forall (fun kv => good_key (fst kv)) fs ->
  (depth (VObj fs) <= fuel)%nat ->
  match lookup key fs with
  | Some x => exists e, get_value_impl bs m o key absent = Ok e /\ elem_value fuel bs m e = Ok x
  | None => get_value_impl bs m o key absent = absent
  end.
Proof.
  intros H P F A S GK D.
  inversion P as [? _ PF| | | | | |]; subst.
  pose proof F as F'. apply fits_obj in F'. destruct F' as [FF FS].
  assert (HK : Forall (fun kv : str * value => zlen (fst kv) <= 65535) fs).
  { rewrite Forall_forall in *. intros kv I. apply (PF kv I). }
  unfold get_value_impl.
  destruct (get_key_spec m o fs key H FS HK S GK) as [(r & -> & f1 & x & f2 & E & ->) | (-> & ->)];
    cbn [bind]; [|reflexivity].
  assert (I : In (key, x) fs) by (rewrite E; apply in_elt).
  replace (lookup key fs) with (Some x) by (rewrite E in S |- *; symmetry; apply lookup_mid; assumption).
  pose proof (obj_slot m o f1 key x f2) as SL. rewrite <- E in SL. destruct (SL H) as (_ & Hk & Hv). clear SL.
  destruct (entry_type (raw_type_of x) =? R_null) eqn:N.
  { apply entry_type_null in N. subst x. eexists. split; [reflexivity|]. reflexivity. }
  rewrite Forall_forall in PF, FF. destruct (PF _ I) as [PK PX]. destruct (FF _ I) as [_ FX]. cbn [fst snd] in *.
  rewrite (key_sizeof _ _ _ Hk PK). cbn [bind]. eexists. split; [reflexivity|].
  rewrite <- Z.add_assoc, align_ptr_at by assumption. rewrite entry_type_align.
  fold (al x). fold (vpos (opos (zlen fs) f1) key x). cbn [elem_value fst snd].
  apply read_enc; [assumption..| |right; reflexivity|].
  - apply mod8_vpos; [assumption|apply align_up_mod_al].
  - pose proof (depth_obj fs _ I). cbn [snd] in *. lia.
Qed.

Theorem has_key_spec m o fs key :
  holds m o (enc (VObj fs)) -> plain (VObj fs) -> fits (VObj fs) ->
  StronglySorted key_lt (map fst fs) -> Forall (fun kv => good_key (fst kv)) fs ->
  has_key m o key = Ok (match lookup key fs with Some _ => true | None => false end).
Proof.
  intros H P F S GK.
  inversion P as [? _ PF| | | | | |]; subst. apply fits_obj in F. destruct F as [_ FS].
  assert (HK : Forall (fun kv : str * value => zlen (fst kv) <= 65535) fs).
  { rewrite Forall_forall in *. intros kv I. apply (PF kv I). }
  unfold has_key.
  destruct (get_key_spec m o fs key H FS HK S GK) as [(r & -> & f1 & x & f2 & E & ->) | (-> & ->)];
    cbn [bind]; [|reflexivity].
  replace (lookup key fs) with (Some x) by (rewrite E in S |- *; symmetry; apply lookup_mid; assumption).
  reflexivity.
Qed.
