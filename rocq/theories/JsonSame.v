(** Parsing into a buffer writes what finalizing the parsed heap writes. *)

From Coq Require Import ZArith List Bool Lia Sorted Permutation.
From Coq Require Import ZifyBool ZifyNat ZifyN.
From Verif Require Import Base BaseFacts Keys KeysFacts Dec Wire Read Buf HeapOps Spec Enc EncSize ReadFacts Lookup BufFacts Canon HeapFacts
  Merge MergeFacts MakeFacts SpecJson Json JsonFacts JsonLower.
Import ListNotations.
Open Scope Z_scope.

Lemma in_lookup {A} k x (l : list (str * A)) : NoDup (map fst l) -> In (k, x) l -> lookup k l = Some x.
Proof.
  induction l as [|[j y] r IH]; intros N J; [destruct J|]. inversion N as [|? ? X N']; subst. cbn [lookup fst] in *.
  destruct (list_eq_dec Byte.byte_eq_dec k j) as [->|C].
  - destruct J as [J|J]; [congruence|]. exfalso. apply X. apply (in_map fst) in J. exact J.
  - destruct J as [J|J]; [congruence|]. auto.
Qed.

(** ** The parsed value is a heap value *)
Lemma jval_heap d : document d -> shortb d = true -> small_integers d -> heap_value (jval d).
Proof.
  induction d using jdoc_ind'; intros D S M; cbn [jval].
  - destruct (doc_members ms D) as [DM _]. cbn [shortb] in S. rewrite forallb_forall in S. rewrite Forall_forall in H, DM.
    inversion M as [? _ F| |? X]; subst; [|destruct X]. rewrite Forall_forall in F.
    set (kvs := map (fun kv => (fst kv, jval (snd kv))) ms).
    assert (K : Forall (fun kv => zlen (fst kv) <= 65535) kvs).
    { apply Forall_forall. intros kv J. apply in_map_iff in J. destruct J as (kd & <- & J). specialize (S kd J).
      apply andb_prop in S. apply Z.leb_le. apply S. }
    destruct (put_all_lookup kvs K []) as [SS Q]; [constructor|].
    constructor; [exact SS|]. apply Forall_forall. intros [k x] J.
    assert (L : lookup k (put_all kvs []) = Some x).
    { apply in_lookup; [apply sorted_nodup; exact SS|exact J]. }
    rewrite Q in L. match type of L with match ?t with _ => _ end = _ => destruct t eqn:E end; [|discriminate]. injection L as ->.
    apply lookup_in' in E. apply in_rev in E. apply in_map_iff in E. destruct E as ([k' d] & E & J'). cbn [fst snd] in E; injection E as E1 E2; subst k x.
    specialize (S _ J'). apply andb_prop in S. destruct S as [S1 S2]. split; [apply Z.leb_le; exact S1|].
    apply (H _ J'); [apply (DM _ J')|exact S2|apply (F _ J')].
  - destruct (doc_elements ds D) as [DM _]. cbn [shortb] in S. rewrite forallb_forall in S. rewrite Forall_forall in H, DM.
    inversion M as [|? _ F|? X]; subst; [|destruct X]. rewrite Forall_forall in F.
    constructor; [exact I|]. apply Forall_forall. intros x J. apply in_map_iff in J. destruct J as (d & <- & J). apply (H _ J); [apply (DM _ J)|apply (S _ J)|apply (F _ J)].
  - pose proof (doc_leaf _ D) as N. destruct d; try (exfalso; apply H; exact I); cbn [jval]; cbn [doc_node] in N.
    + constructor. exact N.
    + constructor. exact N.
    + inversion M as [| |? _ L]; destruct L.
    + constructor. exact N.
    + constructor. exact I.
    + constructor. exact I.
Qed.

(** ** Documents both parsers agree on *)
Definition clean (d : jdoc) : Prop := short_keys d /\ small_integers d /\ distinct_keys d.

Lemma clean_members ms : clean (JObj ms) ->
  NoDup (map fst ms) /\ Forall (fun kv => zlen (fst kv) <= 65535) ms /\ Forall (fun kv => clean (snd kv)) ms.
Proof.
  intros (A & B & C). inversion A as [? _ FA| |? X]; subst; [|destruct X]. inversion B as [? _ FB| |? X]; subst; [|destruct X].
  inversion C as [? N FC| |? X]; subst; [|destruct X]. rewrite !Forall_forall in *. split; [exact N|]. split.
  - intros kv J. apply (FA kv J).
  - intros kv J. split; [apply (FA kv J)|]. split; [apply (FB kv J)|apply (FC kv J)].
Qed.
Lemma clean_elements ds : clean (JArr ds) -> Forall clean ds.
Proof.
  intros (A & B & C). inversion A as [|? _ FA|? X]; subst; [|destruct X]. inversion B as [|? _ FB|? X]; subst; [|destruct X].
  inversion C as [|? N FC|? X]; subst; [|destruct X]. rewrite !Forall_forall in *.
  intros x J. split; [apply FA; assumption|]. split; [apply FB; assumption|apply FC; assumption].
Qed.

Definition fields (ms : list (str * jdoc)) : list (str * value) := map (fun kv => (fst kv, jval (snd kv))) ms.
Lemma fields_keys ms : map fst (fields ms) = map fst ms.
Proof. unfold fields. rewrite map_map. reflexivity. Qed.

(** However they are sorted, distinct members come out one way. *)
Lemma sorted_value ms ms' : Forall (fun kv => zlen (fst kv) <= 65535) ms -> NoDup (map fst ms) ->
  Permutation ms ms' -> StronglySorted key_le (map fst ms') -> jval (JObj ms) = VObj (fields ms').
Proof.
  intros K N P S. cbn [jval]. fold (fields ms). f_equal.
  assert (KF : Forall (fun kv => zlen (fst kv) <= 65535) (fields ms)).
  { apply Forall_forall. rewrite Forall_forall in K. intros kv J. apply in_map_iff in J. destruct J as (kd & <- & J). apply (K _ J). }
  destruct (put_all_lookup (fields ms) KF []) as [SS Q]; [constructor|].
  assert (N' : NoDup (map fst ms')) by (eapply Permutation_NoDup; [apply Permutation_map; exact P|assumption]).
  apply sorted_ext; [exact SS|rewrite fields_keys; apply weak_strict; assumption|].
  intros k. rewrite Q. cbn [lookup].
  assert (PR : Permutation (rev (fields ms)) (fields ms')).
  { eapply Permutation_trans; [apply Permutation_sym, Permutation_rev|]. apply Permutation_map. assumption. }
  rewrite <- (lookup_perm _ _ PR).
  - match goal with |- match ?t with _ => _ end = _ => destruct t eqn:E end; unfold str in *; rewrite E; reflexivity.
  - rewrite map_rev, fields_keys. eapply Permutation_NoDup; [apply Permutation_rev|assumption].
Qed.

Lemma identify_jval d : small_integers d -> json_identify d = raw_type_of (jval d).
Proof. intros S. destruct d; try reflexivity. inversion S as [| |? _ L]; destruct L. Qed.

Section Same.
  Variable sorter : forall A, list (str * A) -> list (str * A).
  Hypothesis sorter_perm : forall A (l : list (str * A)), Permutation l (sorter A l).
  Hypothesis sorter_sorts : forall A (l : list (str * A)), StronglySorted key_le (map fst (sorter A l)).

  Lemma members_layout o ms : Forall (fun kv => small_integers (snd kv) /\ forall m o, json_lower sorter (snd kv) m o = layout m o (jval (snd kv))) ms ->
    forall m offset i, lower_members o (map (fun kv => (fst kv, act sorter (snd kv))) ms) m offset i = layout_fields layout o (fields ms) m offset i.
  Proof.
    induction 1 as [|[k d] r [S E] F IH]; intros m offset i; [reflexivity|]. cbn [map fst snd fields lower_members layout_fields] in *.
    unfold act at 1. cbn iota. rewrite (identify_jval d S). destruct (wr m _ _); cbn [bind]; try reflexivity.
    destruct (layout_str _ _ _) as [[m1 n1]| | | |]; cbn [bind]; try reflexivity. rewrite E.
    destruct (layout m1 _ _) as [[m2 n2]| | | |]; cbn [bind]; try reflexivity. apply IH.
  Qed.
  Lemma elements_layout o ds : Forall (fun x => small_integers x /\ forall m o, json_lower sorter x m o = layout m o (jval x)) ds ->
    forall m offset i, lower_elements o (map (act sorter) ds) m offset i = layout_elems layout o (map jval ds) m offset i.
  Proof.
    induction 1 as [|d r [S E] F IH]; intros m offset i; [reflexivity|]. cbn [map lower_elements layout_elems] in *.
    unfold act at 1. cbn iota. rewrite (identify_jval d S). destruct (wr m _ _); cbn [bind]; try reflexivity. rewrite E.
    destruct (layout _ _ _) as [[m2 n2]| | | |]; cbn [bind]; try reflexivity. apply IH.
  Qed.

  Theorem lower_layout d : clean d -> forall m o, json_lower sorter d m o = layout m o (jval d).
  Proof.
    induction d using jdoc_ind'; intros C m o.
    - destruct (clean_members ms C) as (N & K & CM). rewrite lower_obj.
      destruct (sorted_members sorter sorter_perm (act sorter) ms) as (ms' & P & E). rewrite E.
      assert (SO : StronglySorted key_le (map fst ms')).
      { pose proof (sorter_sorts _ (map (fun kv => (fst kv, act sorter (snd kv))) ms)) as S. rewrite E, map_map in S. exact S. }
      rewrite (sorted_value ms ms' K N P SO). cbn [layout].
      assert (ZL : zlen (fields ms') = zlen ms) by (unfold fields; rewrite zlen_map; unfold zlen; rewrite (Permutation_length P); reflexivity).
      rewrite ZL. destruct (wr_le m (o + 4) 4 (zlen ms)) as [m1| | | |]; cbn [bind]; try reflexivity.
      rewrite members_layout; [reflexivity|]. eapply Permutation_Forall; [exact P|]. rewrite Forall_forall in *.
      intros kv J. split; [apply (CM kv J)|]. apply H; auto.
    - pose proof (clean_elements ds C) as CM. rewrite lower_arr. cbn [jval layout]. rewrite zlen_map.
      destruct (wr_le m (o + 4) 4 (zlen ds)) as [m1| | | |]; cbn [bind]; try reflexivity.
      rewrite elements_layout; [reflexivity|]. rewrite Forall_forall in *. intros x J. split; [apply (CM x J)|]. apply H; auto.
    - destruct d; try (exfalso; apply H; exact I); try reflexivity.
      destruct C as (_ & B & _). inversion B as [| |? _ L]; destruct L.
  Qed.
End Same.

(** ** The room bounds the encoding *)
Lemma body_bound ms : Forall (fun kv => esize (jval (snd kv)) <= jsize (snd kv)) ms ->
  forall pos b, pos <= b -> b mod 8 = 0 ->
    pos + zlen (enc_body enc (fields ms) pos) <= b + sumf (fun kv => msize kv - 8) ms.
Proof.
  induction 1 as [|[k x] r E F IH]; intros pos b L M.
  - cbn. lia.
  - cbn [fields map enc_body fst snd]. rewrite zlen_app, sumf_cons. fold (fields r). unfold msize at 1. cbn [fst snd] in *.
    pose proof (pad8_bounds (zlen (enc_str k))) as [P1 P2]. pose proof (pad8_bounds (jsize x)) as [P3 P4].
    assert (G : pos + zlen (seg enc pos k (jval x)) <= b + pad8 (zlen (enc_str k)) + pad8 (jsize x)).
    { rewrite zlen_seg. fold (esize (jval x)). unfold vpos, kpos.
      destruct (align_below pos 2 b) as [G1 G2]; [right; left; reflexivity|assumption..|].
      destruct (align_below (align_up pos 2 + zlen (enc_str k)) (al (jval x)) (b + pad8 (zlen (enc_str k)))) as [G3 G4];
        [apply al_pow2|lia|rewrite Z.add_mod, M, P2 by lia; reflexivity|]. lia. }
    specialize (IH (pos + zlen (seg enc pos k (jval x))) (b + pad8 (zlen (enc_str k)) + pad8 (jsize x)) G).
    rewrite Z.add_mod, (Z.add_mod b), M, P2, P4 in IH by lia. specialize (IH eq_refl). lia.
Qed.
Lemma abody_bound ds : Forall (fun x => esize (jval x) <= jsize x) ds ->
  forall pos b, pos <= b -> b mod 8 = 0 ->
    pos + zlen (enc_abody enc (map jval ds) pos) <= b + sumf (fun x => asize x - 8) ds.
Proof.
  induction 1 as [|x r E F IH]; intros pos b L M.
  - cbn. lia.
  - cbn [map enc_abody]. rewrite zlen_app, sumf_cons. unfold asize at 1. pose proof (pad8_bounds (jsize x)) as [P3 P4].
    assert (G : pos + zlen (aseg enc pos (jval x)) <= b + pad8 (jsize x)).
    { rewrite zlen_aseg. fold (esize (jval x)). unfold apos.
      destruct (align_below pos (al (jval x)) b) as [G1 G2]; [apply al_pow2|assumption..|]. lia. }
    specialize (IH (pos + zlen (aseg enc pos (jval x))) (b + pad8 (jsize x)) G).
    rewrite Z.add_mod, M, P4 in IH by lia. specialize (IH eq_refl). lia.
Qed.

Lemma member_size ms kv : In kv ms -> msize kv <= sumf msize ms.
Proof.
  assert (NN : forall l, 0 <= sumf msize l).
  { intros l. apply sumf_nonneg. apply Forall_forall. intros [k d] _. unfold msize. cbn [fst snd].
    pose proof (pad8_bounds (zlen (enc_str k))). pose proof (pad8_bounds (jsize d)). pose proof (jsize_nonneg d). pose proof (zlen_nonneg (enc_str k)). lia. }
  induction ms as [|x r IH]; intros J; [destruct J|]. rewrite sumf_cons. destruct J as [->|J].
  - specialize (NN r). lia.
  - specialize (IH J). assert (0 <= msize x) by (specialize (NN [x]); rewrite sumf_cons in NN; change (sumf msize []) with 0 in NN; lia). lia.
Qed.
Lemma element_size ds x : In x ds -> asize x <= sumf asize ds.
Proof.
  assert (NN : forall l, 0 <= sumf asize l).
  { intros l. apply sumf_nonneg. apply Forall_forall. intros d _. unfold asize.
    pose proof (pad8_bounds (jsize d)). pose proof (jsize_nonneg d). lia. }
  induction ds as [|y r IH]; intros J; [destruct J|]. rewrite sumf_cons. destruct J as [->|J].
  - specialize (NN r). lia.
  - specialize (IH J). assert (0 <= asize y) by (specialize (NN [y]); rewrite sumf_cons in NN; change (sumf asize []) with 0 in NN; lia). lia.
Qed.

Lemma sorted_exists (ms : list (str * jdoc)) : exists ms', Permutation ms ms' /\ StronglySorted key_le (map fst ms').
Proof.
  exists (sort_by fst ms). split; [apply Permutation_sym, sort_keys_perm|].
  pose proof (sort_by_sorted (fst : str * jdoc -> str) ms) as H.
  induction H as [|x l S IH F]; cbn [map]; constructor; [assumption|].
  rewrite Forall_forall in *. intros k J. apply in_map_iff in J. destruct J as (y & <- & J). apply F. assumption.
Qed.

Theorem jval_size d : clean d -> esize (jval d) <= jsize d.
Proof.
  induction d using jdoc_ind'; intros C.
  - destruct (clean_members ms C) as (N & K & CM). destruct (sorted_exists ms) as (ms' & P & SO).
    rewrite (sorted_value ms ms' K N P SO), esize_obj, jsize_obj, (sumf_perm msize _ _ P), sumf_minus.
    assert (ZL : zlen (fields ms') = zlen ms') by (unfold fields; apply zlen_map). rewrite ZL.
    assert (M8 : (8 + 8 * zlen ms') mod 8 = 0) by (rewrite <- (Z.mod_unique _ 8 (1 + zlen ms') 0); lia).
    assert (F : Forall (fun kv => esize (jval (snd kv)) <= jsize (snd kv)) ms').
    { eapply Permutation_Forall; [exact P|]. rewrite Forall_forall in *. intros kv J. apply H; auto. }
    pose proof (body_bound ms' F (8 + 8 * zlen ms') (8 + 8 * zlen ms') ltac:(lia) M8) as B.
    apply (align_below _ 8) in B; [lia|right; right; right; reflexivity|].
    rewrite Z.add_mod, M8 by lia. rewrite (sumf_mod (fun kv => msize kv - 8)); [reflexivity|].
    apply Forall_forall. intros kv _. unfold msize. pose proof (pad8_bounds (zlen (enc_str (fst kv)))) as [_ P1].
    pose proof (pad8_bounds (jsize (snd kv))) as [_ P2]. replace (8 + _ + _ - 8) with (pad8 (zlen (enc_str (fst kv))) + pad8 (jsize (snd kv))) by lia.
    rewrite Z.add_mod, P1, P2 by lia. reflexivity.
  - pose proof (clean_elements ds C) as CM. cbn [jval]. rewrite esize_arr, jsize_arr, sumf_minus, zlen_map.
    assert (M8 : (8 + 8 * zlen ds) mod 8 = 0) by (rewrite <- (Z.mod_unique _ 8 (1 + zlen ds) 0); lia).
    assert (F : Forall (fun x => esize (jval x) <= jsize x) ds).
    { rewrite Forall_forall in *. intros x J. apply H; auto. }
    pose proof (abody_bound ds F (8 + 8 * zlen ds) (8 + 8 * zlen ds) ltac:(lia) M8). lia.
  - destruct d; try (exfalso; apply H; exact I); unfold esize; cbn [jval enc jsize]; rewrite ?zlen_sb, ?zlen_le_enc; try lia.
    + repeat match goal with |- context [if ?b then _ else _] => destruct b end; lia.
    + destruct C as (_ & B & _). inversion B as [| |? _ L]; destruct L.
    + destruct (fits_single d); rewrite zlen_le_enc; lia.
    + discriminate.
Qed.

Theorem jval_fits d : document d -> clean d -> jsize d < 2 ^ 32 -> fits (jval d).
Proof.
  induction d using jdoc_ind'; intros D C L.
  - pose proof (jval_size _ C) as SZ. destruct (clean_members ms C) as (N & K & CM). destruct (sorted_exists ms) as (ms' & P & SO).
    rewrite (sorted_value ms ms' K N P SO) in *. apply fits_obj. split; [|lia]. destruct (doc_members ms D) as [DM _].
    apply Forall_forall. intros kv J. apply in_map_iff in J. destruct J as ([k d] & <- & J). apply (Permutation_in _ (Permutation_sym P)) in J.
    rewrite Forall_forall in *. split; [specialize (K _ J); cbn [fst] in *; lia|]. apply (H _ J); [apply (DM _ J)|apply (CM _ J)|].
    rewrite jsize_obj in L. pose proof (member_size ms _ J) as MS. unfold msize in MS at 1. cbn [fst snd] in *.
    pose proof (pad8_bounds (zlen (enc_str k))). pose proof (pad8_bounds (jsize d)). pose proof (zlen_nonneg (enc_str k)). lia.
  - pose proof (jval_size _ C) as SZ. pose proof (clean_elements ds C) as CM. destruct (doc_elements ds D) as [DM _]. cbn [jval] in *.
    apply fits_arr. split; [|lia]. apply Forall_forall. intros x J. apply in_map_iff in J. destruct J as (d & <- & J).
    rewrite Forall_forall in *. apply (H _ J); [apply (DM _ J)|apply (CM _ J)|].
    rewrite jsize_arr in L. pose proof (element_size ds _ J) as MS. unfold asize in MS at 1. pose proof (pad8_bounds (jsize d)). lia.
  - pose proof (doc_leaf _ D) as N. destruct d; try (exfalso; apply H; exact I); cbn [jval fits]; try exact I. exact N.
Qed.

(** ** Reading the buffer back *)
Lemma sorts_perm sorter : sorts_members sorter -> forall A (l : list (str * A)), Permutation l (sorter A l).
Proof. intros S A l. apply S. Qed.
Lemma sorts_sorted sorter : sorts_members sorter -> forall A (l : list (str * A)), StronglySorted key_le (map fst (sorter A l)).
Proof. intros S A l. apply S. Qed.

Theorem buffer_represents sorter block ms bs : sorts_members sorter -> document (JObj ms) -> clean (JObj ms) ->
  jsize (JObj ms) < 2 ^ 32 -> jsize (JObj ms) <= zlen block -> bs mod 8 = 0 ->
  exists m, buffer_from_json sorter block (JObj ms) = Ok m /\ represents bs m root (jval (JObj ms)) /\ zlen m = zlen block.
Proof.
  intros S D C L B A. unfold buffer_from_json.
  rewrite (lower_layout sorter (sorts_perm _ S) (sorts_sorted _ S) _ C).
  pose proof (jval_fits _ D C L) as F. pose proof (jval_size _ C) as SZ. set (v := jval (JObj ms)) in *.
  assert (AL : al v = 8) by reflexivity.
  destruct (split_at block (esize v)) as (old & post & -> & LO); [pose proof (esize_nonneg v); lia|].
  pose proof (layout_spec v F [] old post) as LS. rewrite AL in LS. specialize (LS eq_refl LO). cbn [app] in LS.
  change (zlen (@nil byte)) with 0 in LS. rewrite LS. cbn [bind].
  eexists. split; [reflexivity|]. split.
  - split; [apply jval_heap; [assumption|apply shortb_spec; apply C|apply C]|]. unfold root. cbn [fst snd].
    split; [|split; [assumption|split; [rewrite Z.add_0_r; exact A|left; reflexivity]]].
    exists [], (overlay (enc v) old), post. split; [reflexivity|]. split; [reflexivity|]. apply matches_overlay. exact LO.
  - rewrite !zlen_app, overlay_len; [|exact LO]. fold (esize v). lia.
Qed.
