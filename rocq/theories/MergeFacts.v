(** What merging and projecting finalized objects visits and writes. *)

From Coq Require Import ZArith List Lia Bool Sorted.
From Coq Require Import ZifyBool ZifyNat ZifyN.
From Verif Require Import Base BaseFacts Keys KeysFacts Dec Wire Read Buf Merge Enc EncSize Spec ReadFacts Lookup
  BufFacts Canon HeapFacts.
Import ListNotations.
Open Scope Z_scope.

(** ** Finalized pairs *)

(** A pair together with the bytes that hold its value. *)
Record item : Type := mk_item { i_key : str; i_val : value; i_bytes : list byte }.
Definition kv (it : item) : str * value := (i_key it, i_val it).

Definition item_ok (it : item) : Prop :=
  zlen (i_key it) <= 65535 /\ matches (enc (i_val it)) (i_bytes it).

Definition piece_ok (p : piece) (it : item) : Prop :=
  item_ok it /\
  rd_strv (p_mem p) 2 (p_key p) = Ok (i_key it) /\
  find_sizeof (p_mem p) R_string (p_key p) = Ok (zlen (enc_str (i_key it))) /\
  rd (p_mem p) (p_key p) (zlen (enc_str (i_key it))) = Ok (enc_str (i_key it)) /\
  p_type p = entry_type (raw_type_of (i_val it)) /\
  find_sizeof (p_mem p) (p_type p) (p_val p) = Ok (esize (i_val it)) /\
  rd (p_mem p) (p_val p) (esize (i_val it)) = Ok (i_bytes it).

Definition src_items (s : source) (its : list item) : Prop :=
  agg_count (s_mem s) (s_off s) = Ok (zlen its) /\
  rd_le (s_mem s) (s_off s) 4 = Ok (esize (VObj (map kv its))) /\
  forall l1 it l2, its = l1 ++ it :: l2 ->
    src_key s (zlen l1) = Ok (i_key it) /\
    exists p, src_piece s (zlen l1) = Ok p /\ piece_ok p it.

(** find_sizeof of a represented element. *)
Lemma sizeof_spec m o v t :
  holds m o (enc v) -> fits v -> node_ok v ->
  (t = raw_type_of v \/ t = entry_type (raw_type_of v)) -> find_sizeof m t o = Ok (esize v).
Proof.
  intros H F N T. destruct v as [fs|vs|s|z|d|b|].
  - assert (t = R_object) by (destruct T; assumption). subst t.
    rewrite find_sizeof_obj. apply (obj_header m o fs H). apply fits_obj in F. apply F.
  - assert (t = R_array) by (destruct T; assumption). subst t.
    rewrite find_sizeof_arr. apply (arr_header m o vs H). apply fits_arr in F. apply F.
  - cbn [enc] in H. cbn [fits] in F. unfold esize. cbn [enc]. rewrite zlen_sb.
    assert (T' : (t = R_big_string /\ 65535 < zlen s) \/
                 ((t = R_string \/ t = R_small_string) /\ zlen s <= 65535)).
    { cbn [raw_type_of] in T. unfold identify_string in T.
      destruct (65535 <? zlen s) eqn:E1; [left|right].
      - split; [destruct T; assumption|lia].
      - split; [|lia]. destruct (sso_bytes <? zlen s); destruct T; auto. }
    unfold enc_str in H. rewrite !sb_app in H. apply holds_app in H. destruct H as [H1 _].
    rewrite zlen_enc_str. unfold str_w in *. destruct T' as [[-> L] | [TT L]].
    + replace (65535 <? zlen s) with true in * by lia.
      change (find_sizeof m R_big_string o) with (len <- rd_le m o 4 ;; Ok (4 + len + 1)).
      rewrite (holds_rd_le_small _ _ _ _ H1) by (cbn in *; zlia). reflexivity.
    + replace (65535 <? zlen s) with false in * by lia.
      replace (find_sizeof m t o) with (len <- rd_le m o 2 ;; Ok (2 + len + 1))
        by (destruct TT; subst t; reflexivity).
      rewrite (holds_rd_le_small _ _ _ _ H1) by (cbn in *; zlia). reflexivity.
  - assert (E : t = identify_integer z).
    { destruct T as [-> | ->]; [reflexivity|]. cbn [raw_type_of]. unfold identify_integer.
      destruct ((2147483647 <? z) || (z <? -2147483648)); [reflexivity|].
      destruct ((32767 <? z) || (z <? -32768)); reflexivity. }
    subst t. unfold esize. cbn [enc]. rewrite zlen_sb, zlen_le_enc. unfold identify_integer.
    destruct ((2147483647 <? z) || (z <? -2147483648)); [reflexivity|].
    destruct ((32767 <? z) || (z <? -32768)); reflexivity.
  - assert (E : t = identify_decimal d).
    { destruct T as [-> | ->]; [reflexivity|]. cbn [raw_type_of]. unfold identify_decimal.
      destruct (fits_single d); reflexivity. }
    subst t. unfold esize. cbn [enc]. rewrite zlen_sb. unfold identify_decimal.
    destruct (fits_single d); rewrite zlen_le_enc; reflexivity.
  - assert (t = R_boolean) by (destruct T; assumption). subst t. reflexivity.
  - assert (t = R_null) by (destruct T; assumption). subst t. reflexivity.
Qed.

(** ** The pairs of a finalized object *)

(** Memory holding a pattern, with the bytes at the places the pattern leaves
    open described by [Q]. *)
Section Holding.
  Variable Q : pat -> list byte -> Prop.
  Hypothesis Qapp : forall p q bs, Q (p ++ q) bs -> exists b1 b2, bs = b1 ++ b2 /\ Q p b1 /\ Q q b2.
  Hypothesis Qmatch : forall p bs, Q p bs -> matches p bs.

  Definition holdsQ (m : mem) (o : Z) (p : pat) : Prop :=
    exists pre bs post, m = pre ++ bs ++ post /\ zlen pre = o /\ Q p bs.

  Lemma holdsQ_holds m o p : holdsQ m o p -> holds m o p.
  Proof. intros (pre & bs & post & A & B & C). exists pre, bs, post. auto. Qed.

  Lemma holdsQ_app m o p q : holdsQ m o (p ++ q) -> holdsQ m o p /\ holdsQ m (o + zlen p) q.
  Proof.
    intros (pre & bs & post & -> & <- & H).
    destruct (Qapp _ _ _ H) as (b1 & b2 & -> & H1 & H2). split.
    - exists pre, b1, (b2 ++ post). rewrite <- app_assoc. auto.
    - exists (pre ++ b1), b2, post. rewrite <- !app_assoc, zlen_app.
      rewrite (matches_len p b1) by auto. auto.
  Qed.

  Lemma holdsQ_copy m o p : holdsQ m o p -> exists bytes, rd m o (zlen p) = Ok bytes /\ Q p bytes.
  Proof.
    intros (pre & bs & post & -> & <- & M). exists bs. split; [|assumption].
    apply rd_app; [reflexivity|]. apply matches_len. auto.
  Qed.

  Lemma objQ_slot m o fs1 k x fs2 :
    let fs := fs1 ++ (k, x) :: fs2 in
    let pos := opos (zlen fs) fs1 in
    holdsQ m o (enc (VObj fs)) -> holdsQ m (o + vpos pos k x) (enc x).
  Proof.
    intros fs pos H. cbn [enc] in H.
    apply holdsQ_app in H. destruct H as [H1 H]. rewrite zlen_sb, zlen_le_enc in H.
    apply holdsQ_app in H. destruct H as [H2 H]. rewrite zlen_sb, zlen_le_enc in H.
    apply holdsQ_app in H. destruct H as [He H]. rewrite zlen_enc_entries in H.
    apply holdsQ_app in H. destruct H as [Hb _].
    unfold fs at 2 in Hb. rewrite enc_body_app in Hb.
    fold (opos (zlen fs) fs1) in Hb. fold pos in Hb. cbn [enc_body] in Hb.
    apply holdsQ_app in Hb. destruct Hb as [_ Hb].
    apply holdsQ_app in Hb. destruct Hb as [Hb _].
    unfold seg in Hb.
    apply holdsQ_app in Hb. destruct Hb as [_ Hb].
    apply holdsQ_app in Hb. destruct Hb as [Hk Hb].
    apply holdsQ_app in Hb. destruct Hb as [_ Hb].
    pose proof (kpos_ge pos). pose proof (vpos_ge pos k x).
    rewrite zlen_sb, !zlen_gap in Hb by lia.
    assert (E : o + Z.of_nat 4 + Z.of_nat 4 + 8 * zlen fs +
      zlen (enc_body enc fs1 (8 + 8 * zlen fs)) = o + pos) by (unfold pos, opos; lia).
    rewrite E in Hb.
    replace (o + vpos pos k x) with (o + pos + (kpos pos - pos) + zlen (enc_str k) +
      (vpos pos k x - (kpos pos + zlen (enc_str k)))) by lia. assumption.
  Qed.

  Lemma pieces_of bs m o fs :
    holdsQ m o (enc (VObj fs)) -> heap_value (VObj fs) -> fits (VObj fs) -> (bs + o) mod 8 = 0 ->
    forall f1 f2, fs = f1 ++ f2 ->
    exists its, map kv its = f2 /\ Forall (fun it => Q (enc (i_val it)) (i_bytes it)) its /\
      forall l1 it l2, its = l1 ++ it :: l2 ->
        src_key (mk_source bs m o) (zlen f1 + zlen l1) = Ok (i_key it) /\
        exists p, src_piece (mk_source bs m o) (zlen f1 + zlen l1) = Ok p /\ piece_ok p it.
  Proof.
    intros HQ HV F A f1 f2. revert f1. induction f2 as [|[k x] f2 IH]; intros f1 E.
    - exists []. split; [reflexivity|]. split; [constructor|]. intros l1 it l2 C. destruct l1; discriminate.
    - destruct (IH (f1 ++ [(k, x)])) as (its & M & FQ & R); [rewrite <- app_assoc; exact E|].
      pose proof (holdsQ_holds _ _ _ HQ) as H.
      pose proof (proj2 (proj1 (fits_obj fs) F)) as S.
      assert (I : In (k, x) fs) by (rewrite E; apply in_elt).
      destruct (heap_field _ _ _ HV I) as [KL HX]. pose proof (fits_field _ _ _ F I) as FX.
      pose proof (objQ_slot m o f1 k x f2) as SQ. cbv zeta in SQ. rewrite <- E in SQ.
      destruct (holdsQ_copy _ _ _ (SQ HQ)) as (vb & RV & QV).
      pose proof (obj_slot m o f1 k x f2) as SL. cbv zeta in SL. rewrite <- E in SL. destruct (SL H) as (_ & Hk & Hv).
      pose proof (load_key_spec m o f1 k x f2) as LK. cbv zeta in LK. rewrite <- E in LK. specialize (LK H S).
      pose proof (load_value_spec bs m o f1 k x f2) as LV. cbv zeta in LV. rewrite <- E in LV. specialize (LV H S KL A).
      exists (mk_item k x vb :: its). split; [cbn [map kv i_key i_val]; rewrite M; reflexivity|].
      split; [constructor; [exact QV|exact FQ]|].
      intros l1 it l2 C. destruct l1 as [|it0 l1]; cbn [app] in C; injection C as <- C.
      + subst l2. rewrite zlen_nil, Z.add_0_r. unfold src_key, src_piece. cbn [s_mem s_off s_bs].
        rewrite LK. cbn [bind]. rewrite LV. cbn [bind i_key].
        pose proof (rd_key_spec _ _ _ Hk KL) as RK.
        split; [exact RK|]. eexists. split; [reflexivity|].
        unfold piece_ok. cbn [p_mem p_key p_type p_val i_key i_val i_bytes].
        split; [split; [exact KL|apply Qmatch; exact QV]|]. split; [exact RK|].
        split; [apply key_sizeof; assumption|]. split; [apply holds_rd; exact Hk|]. split; [reflexivity|].
        split; [|exact RV].
        apply sizeof_spec; auto. exact (every_node _ _ _ (heap_plain _ HX)).
      + destruct (R l1 it l2 C) as (R1 & R2). rewrite zlen_app, zlen_cons, zlen_nil in R1, R2.
        rewrite zlen_cons. replace (zlen f1 + (1 + zlen l1)) with (zlen f1 + (1 + 0) + zlen l1) by lia. auto.
  Qed.

  Lemma source_items bs m o fs :
    holdsQ m o (enc (VObj fs)) -> heap_value (VObj fs) -> fits (VObj fs) -> (bs + o) mod 8 = 0 ->
    exists its, map kv its = fs /\ src_items (mk_source bs m o) its /\
      Forall (fun it => Q (enc (i_val it)) (i_bytes it)) its.
  Proof.
    intros HQ HV F A. destruct (pieces_of bs m o fs HQ HV F A [] fs eq_refl) as (its & M & FQ & R).
    exists its. split; [exact M|]. split; [|exact FQ].
    pose proof (proj2 (proj1 (fits_obj fs) F)) as S.
    destruct (obj_header m o fs (holdsQ_holds _ _ _ HQ) S) as [HB HC].
    split; [|split].
    - cbn [s_mem s_off]. rewrite HC, <- M, zlen_map. reflexivity.
    - cbn [s_mem s_off]. rewrite M. exact HB.
    - intros l1 it l2 C. apply (R l1 it l2 C).
  Qed.
End Holding.

(** Any bytes, or zeros, at the open places. *)
Lemma matches_split p q bs : matches (p ++ q) bs -> exists b1 b2, bs = b1 ++ b2 /\ matches p b1 /\ matches q b2.
Proof.
  intros H. apply Forall2_app_inv_l in H. destruct H as (b1 & b2 & H1 & H2 & ->). eauto.
Qed.
Definition filled (p : pat) (bs : list byte) : Prop := bs = fill p.
Lemma filled_split p q bs : filled (p ++ q) bs -> exists b1 b2, bs = b1 ++ b2 /\ filled p b1 /\ filled q b2.
Proof. unfold filled. intros ->. rewrite fill_app. eauto. Qed.
Lemma filled_matches p bs : filled p bs -> matches p bs.
Proof. intros ->. apply matches_fill. Qed.

(** ** The walk over both objects is a sorted union *)

Fixpoint munion (rb : list item) {struct rb} : list item -> list item :=
  fix inner (ri : list item) {struct ri} : list item :=
    match rb, ri with
    | [], _ => ri
    | _, [] => rb
    | b :: rb', i :: ri' =>
        if dart_ltb (i_key b) (i_key i) then b :: munion rb' ri
        else if dart_ltb (i_key i) (i_key b) then i :: inner ri'
        else i :: munion rb' ri'
    end.

Lemma munion_nil_l ri : munion [] ri = ri.
Proof. destruct ri; reflexivity. Qed.
Lemma munion_nil_r rb : munion rb [] = rb.
Proof. destruct rb; reflexivity. Qed.
Lemma munion_cons b rb i ri : munion (b :: rb) (i :: ri) =
  if dart_ltb (i_key b) (i_key i) then b :: munion rb (i :: ri)
  else if dart_ltb (i_key i) (i_key b) then i :: munion (b :: rb) ri
  else i :: munion rb ri.
Proof. reflexivity. Qed.

Definition sortedi (l : list item) : Prop := StronglySorted key_lt (map i_key l).
Lemma sortedi_tail it l : sortedi (it :: l) -> sortedi l.
Proof. intros H. apply StronglySorted_inv in H. apply H. Qed.
Lemma sortedi_head it l x : sortedi (it :: l) -> In x l -> key_lt (i_key it) (i_key x).
Proof.
  intros H I. apply StronglySorted_inv in H. destruct H as [_ H]. rewrite Forall_forall in H.
  apply H. apply in_map. assumption.
Qed.
Lemma sortedi_fst l : map fst (map kv l) = map i_key l.
Proof. rewrite map_map. reflexivity. Qed.

(** Dropping a base key equal to the next incoming one changes nothing. *)
Lemma munion_drop d rb i ri :
  sortedi (d :: rb) -> dart_ltb (i_key d) (i_key i) = false -> dart_ltb (i_key i) (i_key d) = false ->
  munion (d :: rb) (i :: ri) = munion rb (i :: ri).
Proof.
  intros S E1 E2. rewrite munion_cons, E1, E2.
  destruct rb as [|b rb]; [rewrite !munion_nil_l; reflexivity|].
  rewrite munion_cons.
  assert (KL : key_lt (i_key i) (i_key b)).
  { assert (i_key d = i_key i).
    { apply dart_ltb_false in E1, E2. destruct (key_lt_total (i_key d) (i_key i)) as [?|[?|?]]; tauto. }
    rewrite <- H. apply (sortedi_head d (b :: rb)); [assumption|left; reflexivity]. }
  replace (dart_ltb (i_key b) (i_key i)) with false
    by (symmetry; apply dart_ltb_false, key_lt_asym; assumption).
  replace (dart_ltb (i_key i) (i_key b)) with true by (symmetry; apply dart_ltb_key_lt; assumption).
  reflexivity.
Qed.

Section Walk.
  Variables (sb si : source) (ib ii : list item).
  Hypothesis Hb : src_items sb ib.
  Hypothesis Hi : src_items si ii.

  Lemma at_split s its l1 it l2 : src_items s its -> its = l1 ++ it :: l2 ->
    src_key s (zlen l1) = Ok (i_key it) /\ exists p, src_piece s (zlen l1) = Ok p /\ piece_ok p it.
  Proof. intros (_ & _ & H). apply H. Qed.

  Lemma merge_base_spec i ri : forall rb lb, ib = lb ++ rb -> sortedi rb ->
    exists ps a lb' rb',
      merge_base sb (i_key i) (length rb) (zlen lb) = Ok (ps, zlen lb') /\
      Forall2 piece_ok ps a /\ ib = lb' ++ rb' /\ sortedi rb' /\
      munion rb (i :: ri) = a ++ munion rb' (i :: ri) /\
      match rb' with [] => True | b :: _ => dart_ltb (i_key b) (i_key i) = false end.
  Proof.
    induction rb as [|b rb IH]; intros lb E S; cbn [length merge_base].
    - exists [], [], lb, []. split; [reflexivity|]. split; [constructor|]. auto.
    - destruct (at_split sb ib lb b rb Hb E) as (-> & p & EP & PO). cbn [bind].
      destruct (dart_ltb (i_key b) (i_key i)) eqn:C.
      + rewrite EP. cbn [bind].
        destruct (IH (lb ++ [b])) as (ps & a & lb' & rb' & E1 & F1 & E2 & S2 & U & Hd).
        { rewrite <- app_assoc. exact E. } { eapply sortedi_tail; eassumption. }
        rewrite zlen_app, zlen_cons, zlen_nil in E1. replace (zlen lb + (1 + 0)) with (zlen lb + 1) in E1 by lia.
        rewrite E1. cbn [bind]. exists (p :: ps), (b :: a), lb', rb'.
        split; [reflexivity|]. split; [constructor; assumption|]. split; [assumption|]. split; [assumption|].
        split; [|assumption]. rewrite munion_cons, C, U. reflexivity.
      + destruct (dart_ltb (i_key i) (i_key b)) eqn:C2; cbn [negb].
        * exists [], [], lb, (b :: rb). split; [reflexivity|]. split; [constructor|]. auto.
        * exists [], [], (lb ++ [b]), rb. split.
          { do 2 f_equal. rewrite zlen_app, zlen_cons, zlen_nil. lia. }
          split; [constructor|]. split; [rewrite <- app_assoc; exact E|].
          split; [eapply sortedi_tail; eassumption|]. split; [apply munion_drop; assumption|].
          destruct rb as [|b' rb]; [exact I|].
          apply dart_ltb_false. apply key_lt_asym.
          assert (i_key b = i_key i) as <-.
          { apply dart_ltb_false in C, C2. destruct (key_lt_total (i_key b) (i_key i)) as [?|[?|?]]; tauto. }
          apply (sortedi_head b (b' :: rb)); [assumption|left; reflexivity].
  Qed.

  Lemma merge_in_spec : forall ri li lb rb, ii = li ++ ri -> ib = lb ++ rb -> sortedi rb -> sortedi ri ->
    exists ps a lb' rb' li' ri',
      merge_in sb si (zlen ib) (length ri) (zlen lb) (zlen li) = Ok (ps, zlen lb', zlen li') /\
      Forall2 piece_ok ps a /\ ib = lb' ++ rb' /\ ii = li' ++ ri' /\ sortedi rb' /\ sortedi ri' /\
      munion rb ri = a ++ munion rb' ri' /\ (length ri' <= length ri)%nat /\
      (match ri, rb with
       | i :: _, b :: _ => dart_ltb (i_key b) (i_key i) = false
       | _, _ => True end -> ri <> [] -> (length ri' < length ri)%nat).
  Proof.
    induction ri as [|i ri IH]; intros li lb rb Ei Eb Sb Si; cbn [length merge_in].
    - exists [], [], lb, rb, li, []. split; [reflexivity|]. split; [constructor|].
      repeat (split; [assumption|]). split; [reflexivity|]. split; [cbn [length]; lia|]. congruence.
    - destruct (at_split si ii li i ri Hi Ei) as (-> & p & EP & PO). cbn [bind].
      assert (Step : forall lb1 rb1, ib = lb1 ++ rb1 -> sortedi rb1 ->
        munion rb (i :: ri) = i :: munion rb1 ri ->
        exists ps a lb' rb' li' ri',
          (p0 <- src_piece si (zlen li) ;;
           '(ps0, bi', ii') <- merge_in sb si (zlen ib) (length ri) (zlen lb1) (zlen li + 1) ;;
           Ok (p0 :: ps0, bi', ii')) = Ok (ps, zlen lb', zlen li') /\
          Forall2 piece_ok ps a /\ ib = lb' ++ rb' /\ ii = li' ++ ri' /\ sortedi rb' /\ sortedi ri' /\
          munion rb (i :: ri) = a ++ munion rb' ri' /\ (length ri' < S (length ri))%nat).
      { intros lb1 rb1 E1 S1 U. rewrite EP. cbn [bind].
        destruct (IH (li ++ [i]) lb1 rb1) as (ps & a & lb' & rb' & li' & ri' & E2 & F2 & E3 & E4 & S3 & S4 & U2 & L & _);
          [rewrite <- app_assoc; exact Ei|exact E1|exact S1|eapply sortedi_tail; eassumption|].
        rewrite zlen_app, zlen_cons, zlen_nil in E2. replace (zlen li + (1 + 0)) with (zlen li + 1) in E2 by lia.
        rewrite E2. cbn [bind]. exists (p :: ps), (i :: a), lb', rb', li', ri'.
        split; [reflexivity|]. split; [constructor; assumption|]. repeat (split; [assumption|]).
        split; [rewrite U, U2; reflexivity|lia]. }
      destruct rb as [|b rb].
      + replace (zlen lb =? zlen ib) with true by (rewrite Eb, app_nil_r; lia).
        destruct (Step lb [] Eb Sb) as (ps & a & lb' & rb' & li' & ri' & E2 & F2 & E3 & E4 & S3 & S4 & U2 & L);
          [rewrite !munion_nil_l; reflexivity|].
        exists ps, a, lb', rb', li', ri'. repeat (split; [assumption|]). split; [lia|auto].
      + replace (zlen lb =? zlen ib) with false by (rewrite Eb, zlen_app, zlen_cons; zlia).
        destruct (at_split sb ib lb b rb Hb Eb) as (-> & _). cbn [bind].
        destruct (dart_ltb (i_key b) (i_key i)) eqn:C; cbn [negb].
        * exists [], [], lb, (b :: rb), li, (i :: ri). split; [reflexivity|]. split; [constructor|].
          repeat (split; [assumption|]). split; [reflexivity|]. split; [cbn [length]; lia|]. congruence.
        * destruct (dart_ltb (i_key i) (i_key b)) eqn:C2; cbn [negb].
          -- destruct (Step lb (b :: rb) Eb Sb) as (ps & a & lb' & rb' & li' & ri' & E2 & F2 & E3 & E4 & S3 & S4 & U2 & L);
               [rewrite munion_cons, C, C2; reflexivity|].
             exists ps, a, lb', rb', li', ri'. repeat (split; [assumption|]). split; [lia|auto].
          -- destruct (Step (lb ++ [b]) rb) as (ps & a & lb' & rb' & li' & ri' & E2 & F2 & E3 & E4 & S3 & S4 & U2 & L);
               [rewrite <- app_assoc; exact Eb|eapply sortedi_tail; eassumption|rewrite munion_cons, C, C2; reflexivity|].
             rewrite zlen_app, zlen_cons, zlen_nil in E2. replace (zlen lb + (1 + 0)) with (zlen lb + 1) in E2 by lia.
             exists ps, a, lb', rb', li', ri'. repeat (split; [assumption|]). split; [lia|auto].
  Qed.

  Lemma rest_spec : forall rb lb, ib = lb ++ rb ->
    exists ps, for_each (src_piece sb) (zlen lb) (length rb) = Ok ps /\ Forall2 piece_ok ps rb.
  Proof.
    induction rb as [|b rb IH]; intros lb E; cbn [length for_each].
    - exists []. split; [reflexivity|constructor].
    - destruct (at_split sb ib lb b rb Hb E) as (_ & p & -> & PO). cbn [bind].
      destruct (IH (lb ++ [b])) as (ps & E1 & F1); [rewrite <- app_assoc; exact E|].
      rewrite zlen_app, zlen_cons, zlen_nil in E1. replace (zlen lb + (1 + 0)) with (zlen lb + 1) in E1 by lia.
      rewrite E1. cbn [bind]. exists (p :: ps). split; [reflexivity|constructor; assumption].
  Qed.

  Lemma merge_loop_spec : forall fuel ri li lb rb, ii = li ++ ri -> ib = lb ++ rb -> sortedi rb -> sortedi ri ->
    (length ri <= fuel)%nat ->
    exists ps, merge_loop fuel sb si (zlen ib) (zlen ii) (zlen lb) (zlen li) = Ok ps /\
               Forall2 piece_ok ps (munion rb ri).
  Proof.
    induction fuel as [|fuel IH]; intros ri li lb rb Ei Eb Sb Si L.
    - destruct ri as [|? ri]; [|cbn [length] in L; lia].
      cbn [merge_loop]. replace (zlen li =? zlen ii) with true by (rewrite Ei, app_nil_r; lia).
      destruct (rest_spec rb lb Eb) as (ps & E & F). exists ps. unfold merge_rest.
      replace (Z.to_nat (zlen ib - zlen lb)) with (length rb) by (rewrite Eb, zlen_app; unfold zlen; lia).
      rewrite munion_nil_r. auto.
    - cbn [merge_loop]. destruct ri as [|i ri].
      + replace (zlen li =? zlen ii) with true by (rewrite Ei, app_nil_r; lia).
        destruct (rest_spec rb lb Eb) as (ps & E & F). exists ps. unfold merge_rest.
        replace (Z.to_nat (zlen ib - zlen lb)) with (length rb) by (rewrite Eb, zlen_app; unfold zlen; lia).
        rewrite munion_nil_r. auto.
      + replace (zlen li =? zlen ii) with false by (rewrite Ei, zlen_app, zlen_cons; zlia).
        destruct (at_split si ii li i ri Hi Ei) as (-> & _). cbn [bind].
        replace (Z.to_nat (zlen ib - zlen lb)) with (length rb) by (rewrite Eb, zlen_app; unfold zlen; lia).
        destruct (merge_base_spec i ri rb lb Eb Sb) as (ps1 & a1 & lb1 & rb1 & -> & F1 & Eb1 & Sb1 & U1 & Hd).
        cbn [bind].
        replace (Z.to_nat (zlen ii - zlen li)) with (length (i :: ri)) by (rewrite Ei, zlen_app; unfold zlen; lia).
        destruct (merge_in_spec (i :: ri) li lb1 rb1 Ei Eb1 Sb1 Si)
          as (ps2 & a2 & lb2 & rb2 & li2 & ri2 & -> & F2 & Eb2 & Ei2 & Sb2 & Si2 & U2 & _ & LT).
        cbn [bind].
        assert (length ri2 < length (i :: ri))%nat by (apply LT; [destruct rb1; auto|discriminate]).
        destruct (IH ri2 li2 lb2 rb2 Ei2 Eb2 Sb2 Si2) as (ps3 & -> & F3); [cbn [length] in *; lia|].
        cbn [bind]. exists (ps1 ++ ps2 ++ ps3). split; [reflexivity|].
        rewrite U1, U2. apply Forall2_app; [assumption|]. apply Forall2_app; assumption.
  Qed.

  Theorem each_unique_pair_spec : sortedi ib -> sortedi ii ->
    exists ps, each_unique_pair sb si = Ok ps /\ Forall2 piece_ok ps (munion ib ii).
  Proof.
    intros Sb Si. unfold each_unique_pair.
    destruct Hb as (-> & _). destruct Hi as (-> & _). cbn [bind].
    apply (merge_loop_spec _ ii [] [] ib); auto. unfold zlen. lia.
  Qed.
End Walk.

(** ** munion as a map *)
Lemma munion_in x : forall rb ri, In x (munion rb ri) -> In x rb \/ In x ri.
Proof.
  induction rb as [|b rb IHb]; intros ri; [rewrite munion_nil_l; auto|].
  induction ri as [|i ri IHi]; [rewrite munion_nil_r; auto|]. rewrite munion_cons.
  destruct (dart_ltb (i_key b) (i_key i)); [|destruct (dart_ltb (i_key i) (i_key b))].
  - intros [<-|H]; [left; left; reflexivity|]. apply IHb in H. cbn [In] in *. tauto.
  - intros [<-|H]; [right; left; reflexivity|]. apply IHi in H. cbn [In] in *. tauto.
  - intros [<-|H]; [right; left; reflexivity|]. apply IHb in H. cbn [In] in *. tauto.
Qed.

Lemma munion_Forall (P : item -> Prop) rb ri : Forall P rb -> Forall P ri -> Forall P (munion rb ri).
Proof. rewrite !Forall_forall. intros A B x I. apply munion_in in I. destruct I; auto. Qed.

Lemma munion_sorted : forall rb ri, sortedi rb -> sortedi ri -> sortedi (munion rb ri).
Proof.
  assert (Cons : forall x l, sortedi l -> (forall y, In y l -> key_lt (i_key x) (i_key y)) -> sortedi (x :: l)).
  { intros x l S H. unfold sortedi. cbn [map]. constructor; [exact S|].
    rewrite Forall_forall. intros k I. apply in_map_iff in I. destruct I as (y & <- & I). auto. }
  induction rb as [|b rb IHb]; intros ri Sb Si; [rewrite munion_nil_l; assumption|].
  induction ri as [|i ri IHi]; [rewrite munion_nil_r; assumption|]. rewrite munion_cons.
  pose proof (sortedi_tail _ _ Sb) as Sb'. pose proof (sortedi_tail _ _ Si) as Si'.
  destruct (dart_ltb (i_key b) (i_key i)) eqn:C; [|destruct (dart_ltb (i_key i) (i_key b)) eqn:C2].
  - apply dart_ltb_key_lt in C. apply Cons; [apply IHb; assumption|].
    intros y I. apply munion_in in I. destruct I as [I | [<-|I]].
    + eapply sortedi_head; eassumption.
    + assumption.
    + eapply key_lt_trans; [exact C|]. eapply sortedi_head; eassumption.
  - apply dart_ltb_key_lt in C2. apply Cons; [apply IHi; assumption|].
    intros y I. apply munion_in in I. destruct I as [[<-|I] | I].
    + assumption.
    + eapply key_lt_trans; [exact C2|]. eapply sortedi_head; eassumption.
    + eapply sortedi_head; eassumption.
  - assert (E : i_key b = i_key i).
    { apply dart_ltb_false in C, C2. destruct (key_lt_total (i_key b) (i_key i)) as [?|[?|?]]; tauto. }
    apply Cons; [apply IHb; assumption|].
    intros y I. apply munion_in in I. destruct I as [I | I]; [rewrite <- E|]; eapply sortedi_head; eassumption.
Qed.

Lemma lookup_kv k it l : lookup k (map kv (it :: l)) =
  if list_eq_dec Byte.byte_eq_dec k (i_key it) then Some (i_val it) else lookup k (map kv l).
Proof. reflexivity. Qed.

Lemma munion_lookup k : forall rb ri, sortedi rb -> sortedi ri ->
  lookup k (map kv (munion rb ri)) =
  match lookup k (map kv ri) with Some x => Some x | None => lookup k (map kv rb) end.
Proof.
  induction rb as [|b rb IHb]; intros ri Sb Si.
  { rewrite munion_nil_l. cbn [map lookup]. destruct (lookup k (map kv ri)); reflexivity. }
  induction ri as [|i ri IHi]; [rewrite munion_nil_r; reflexivity|]. rewrite munion_cons.
  pose proof (sortedi_tail _ _ Sb) as Sb'. pose proof (sortedi_tail _ _ Si) as Si'.
  assert (NB : i_key b = k -> lookup k (map kv rb) = None).
  { intros <-. apply lookup_none. rewrite sortedi_fst. intros I. apply in_map_iff in I. destruct I as (y & E & I).
    apply (sortedi_head _ _ _ Sb) in I. rewrite E in I. exact (key_lt_irrefl _ I). }
  destruct (dart_ltb (i_key b) (i_key i)) eqn:C; [|destruct (dart_ltb (i_key i) (i_key b)) eqn:C2].
  - apply dart_ltb_key_lt in C. rewrite !(lookup_kv k b). rewrite (IHb _ Sb' Si).
    destruct (list_eq_dec Byte.byte_eq_dec k (i_key b)) as [->|N]; [|reflexivity].
    assert (L : lookup (i_key b) (map kv (i :: ri)) = None).
    { apply lookup_none. rewrite sortedi_fst.
      intros I. apply in_map_iff in I. destruct I as (y & E & [<-|I]).
      - rewrite E in C. exact (key_lt_irrefl _ C).
      - apply (sortedi_head _ _ _ Si) in I. rewrite E in I. exact (key_lt_asym _ _ C I). }
    rewrite L. reflexivity.
  - rewrite !(lookup_kv k i), (IHi Si').
    destruct (list_eq_dec Byte.byte_eq_dec k (i_key i)); reflexivity.
  - assert (E : i_key b = i_key i).
    { apply dart_ltb_false in C, C2. destruct (key_lt_total (i_key b) (i_key i)) as [?|[?|?]]; tauto. }
    rewrite !(lookup_kv k i), (lookup_kv k b), (IHb _ Sb' Si'), E.
    destruct (list_eq_dec Byte.byte_eq_dec k (i_key i)); reflexivity.
Qed.

Lemma munion_len : forall rb ri, zlen (munion rb ri) <= zlen rb + zlen ri.
Proof.
  induction rb as [|b rb IHb]; intros ri; [rewrite munion_nil_l, zlen_nil; lia|].
  induction ri as [|i ri IHi]; [rewrite munion_nil_r, zlen_nil; lia|]. rewrite munion_cons.
  destruct (dart_ltb (i_key b) (i_key i)); [|destruct (dart_ltb (i_key i) (i_key b))].
  - specialize (IHb (i :: ri)). rewrite !zlen_cons in *. lia.
  - rewrite !zlen_cons in *. lia.
  - specialize (IHb ri). rewrite !zlen_cons in *. lia.
Qed.

(** ** The walk of project *)

Definition wanted (keys : list str) (it : item) : bool :=
  existsb (fun k => if list_eq_dec Byte.byte_eq_dec k (i_key it) then true else false) keys.
Lemma wanted_in keys it : wanted keys it = true <-> In (i_key it) keys.
Proof.
  unfold wanted. rewrite existsb_exists. split.
  - intros (k & I & E). destruct (list_eq_dec Byte.byte_eq_dec k (i_key it)); [subst; assumption|discriminate].
  - intros I. exists (i_key it). split; [assumption|]. destruct (list_eq_dec Byte.byte_eq_dec (i_key it) (i_key it)); congruence.
Qed.

(** Requested keys after sorting; the same key may be asked for twice. *)
Definition key_le (a b : str) : Prop := ~ key_lt b a.
Definition weakly_sorted (keys : list str) : Prop := StronglySorted key_le keys.

Lemma filter_none {A} (f : A -> bool) l : (forall x, In x l -> f x = false) -> filter f l = [].
Proof.
  induction l as [|x l IH]; intros H; cbn [filter]; [reflexivity|].
  rewrite (H x) by (left; reflexivity). apply IH. intros; apply H; right; assumption.
Qed.

Section Projecting.
  Variables (s : source) (its : list item).
  Hypothesis Hs : src_items s its.

  Lemma project_one_spec k : forall rb lb, its = lb ++ rb -> sortedi rb ->
    exists ps a d lb' rb',
      project_one s k (length rb) (zlen lb) = Ok (ps, zlen lb') /\ Forall2 piece_ok ps d /\
      its = lb' ++ rb' /\ rb = a ++ d ++ rb' /\
      (forall x, In x a -> key_lt (i_key x) k) /\ (forall x, In x d -> i_key x = k) /\
      (forall x, In x rb' -> key_lt k (i_key x)).
  Proof.
    induction rb as [|b rb IH]; intros lb E S; cbn [length project_one].
    - exists [], [], [], lb, []. split; [reflexivity|]. split; [constructor|]. split; [assumption|].
      split; [reflexivity|]. repeat split; intros x [].
    - destruct (at_split s its lb b rb Hs E) as (-> & p & EP & PO). cbn [bind].
      destruct (IH (lb ++ [b])) as (ps & a & d & lb' & rb' & E1 & F1 & E2 & E3 & A & D & R).
      { rewrite <- app_assoc. exact E. } { eapply sortedi_tail; eassumption. }
      rewrite zlen_app, zlen_cons, zlen_nil in E1. replace (zlen lb + (1 + 0)) with (zlen lb + 1) in E1 by lia.
      destruct (dart_ltb (i_key b) k) eqn:C.
      + rewrite E1. exists ps, (b :: a), d, lb', rb'. split; [reflexivity|]. split; [assumption|]. split; [assumption|].
        split; [rewrite E3; reflexivity|]. split; [|auto].
        intros x [<-|I]; [apply dart_ltb_key_lt; assumption|auto].
      + destruct (dart_ltb k (i_key b)) eqn:C2; cbn [negb].
        * apply dart_ltb_key_lt in C2. exists [], [], [], lb, (b :: rb). split; [reflexivity|]. split; [constructor|].
          split; [assumption|]. split; [reflexivity|]. split; [intros x []|]. split; [intros x []|].
          intros x [<-|I]; [assumption|]. eapply key_lt_trans; [exact C2|]. eapply sortedi_head; eassumption.
        * assert (EK : i_key b = k).
          { apply dart_ltb_false in C, C2. destruct (key_lt_total (i_key b) k) as [?|[?|?]]; tauto. }
          rewrite EP. cbn [bind]. rewrite E1. cbn [bind].
          assert (a = []) as ->.
          { destruct a as [|x a]; [reflexivity|]. exfalso.
            apply (key_lt_asym (i_key x) k (A x (or_introl eq_refl))). rewrite <- EK.
            apply (sortedi_head b rb); [assumption|]. rewrite E3. left; reflexivity. }
          exists (p :: ps), [], (b :: d), lb', rb'. split; [reflexivity|]. split; [constructor; assumption|].
          split; [assumption|]. split; [rewrite E3; reflexivity|]. split; [intros x []|]. split; [|assumption].
          intros x [<-|I]; auto.
  Qed.

  Lemma project_loop_spec : forall keys lb rb, its = lb ++ rb -> sortedi rb -> weakly_sorted keys ->
    exists ps, project_loop s (zlen its) keys (zlen lb) = Ok ps /\
               Forall2 piece_ok ps (filter (wanted keys) rb).
  Proof.
    induction keys as [|k keys IH]; intros lb rb E S K; cbn [project_loop].
    - exists []. split; [reflexivity|]. rewrite filter_none; [constructor|]. reflexivity.
    - replace (Z.to_nat (zlen its - zlen lb)) with (length rb) by (rewrite E, zlen_app; unfold zlen; lia).
      destruct (project_one_spec k rb lb E S) as (ps & a & d & lb' & rb' & -> & F & E2 & E3 & A & D & R).
      cbn [bind]. apply StronglySorted_inv in K. destruct K as [K HK]. rewrite Forall_forall in HK.
      assert (S' : sortedi rb').
      { unfold sortedi in *. rewrite E3, !map_app in S. apply sorted_app in S. destruct S as (_ & S & _).
        apply sorted_app in S. tauto. }
      destruct (IH lb' rb' E2 S' K) as (ps2 & -> & F2). cbn [bind]. exists (ps ++ ps2). split; [reflexivity|].
      assert (EF : filter (wanted (k :: keys)) rb = d ++ filter (wanted keys) rb').
      { rewrite E3, !filter_app. rewrite (filter_none _ a). cbn [app]. f_equal.
        - clear - D. induction d as [|x d IHd]; [reflexivity|]. cbn [filter].
          replace (wanted (k :: keys) x) with true.
          + f_equal. apply IHd. intros; apply D; right; assumption.
          + symmetry. apply wanted_in. left. symmetry. apply D. left; reflexivity.
        - apply filter_ext_in. intros x I. specialize (R x I). apply eq_iff_eq_true. rewrite !wanted_in. split.
          + intros [Ek|]; [|assumption]. rewrite <- Ek in R. destruct (key_lt_irrefl _ R).
          + right. assumption.
        - intros x I. specialize (A x I). destruct (wanted (k :: keys) x) eqn:W; [|reflexivity]. exfalso.
          apply wanted_in in W. destruct W as [Ek|W]; [rewrite <- Ek in A; exact (key_lt_irrefl _ A)|].
          exact (HK _ W A). }
      rewrite EF. apply Forall2_app; assumption.
  Qed.

  Theorem project_each_pair_spec keys : sortedi its -> weakly_sorted keys ->
    exists ps, project_each_pair s keys = Ok ps /\ Forall2 piece_ok ps (filter (wanted keys) its).
  Proof.
    intros S K. unfold project_each_pair. destruct Hs as (-> & _). cbn [bind].
    apply (project_loop_spec keys [] its); auto.
  Qed.
End Projecting.

(** Sorting as the library does it. *)
Section SortBy.
  Context {A : Type} (key : A -> str).
  Let le (a b : A) : Prop := key_le (key a) (key b).
  Lemma sort_insert_in x y l : In y (sort_insert key x l) <-> y = x \/ In y l.
  Proof.
    induction l as [|z l IH]; cbn [sort_insert].
    - split; intros [H|H]; cbn [In] in *; auto.
    - destruct (dart_ltb (key z) (key x)); cbn [In]; [rewrite IH|]; intuition congruence.
  Qed.
  Lemma sort_insert_len x l : zlen (sort_insert key x l) = 1 + zlen l.
  Proof.
    induction l as [|z l IH]; cbn [sort_insert]; [reflexivity|].
    destruct (dart_ltb (key z) (key x)); rewrite !zlen_cons, ?IH; lia.
  Qed.
  Lemma sort_by_len l : zlen (sort_by key l) = zlen l.
  Proof. induction l as [|x l IH]; cbn [sort_by]; [reflexivity|]. rewrite sort_insert_len, zlen_cons, IH. lia. Qed.
  Lemma sort_by_in y l : In y (sort_by key l) <-> In y l.
  Proof.
    induction l as [|x l IH]; cbn [sort_by]; [reflexivity|]. rewrite sort_insert_in, IH. cbn [In]. intuition congruence.
  Qed.
  Lemma key_le_trans a b c : key_le a b -> key_le b c -> key_le a c.
  Proof.
    unfold key_le. intros H1 H2 H. destruct (key_lt_total a b) as [L|[->|L]]; [|tauto..].
    apply H2. eapply key_lt_trans; eassumption.
  Qed.
  Lemma sort_by_sorted l : StronglySorted le (sort_by key l).
  Proof.
    induction l as [|x l IH]; cbn [sort_by]; [constructor|].
    induction IH as [|y l' IH' IH2 F]; cbn [sort_insert]; [constructor; constructor|].
    destruct (dart_ltb (key y) (key x)) eqn:C.
    - constructor; [assumption|]. rewrite Forall_forall in *. intros z I. apply sort_insert_in in I.
      destruct I as [->|I]; [|auto]. apply dart_ltb_key_lt in C. unfold le, key_le. apply key_lt_asym. assumption.
    - apply dart_ltb_false in C. constructor; [constructor; assumption|]. constructor; [exact C|].
      rewrite Forall_forall in *. intros z I. eapply key_le_trans; [exact C|]. apply F. assumption.
  Qed.
End SortBy.
