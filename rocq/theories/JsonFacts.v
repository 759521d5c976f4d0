(** The event-driven parser: events of a document build the document's value. *)

From Coq Require Import ZArith List Bool Lia Sorted.
From Coq Require Import ZifyBool ZifyNat ZifyN.
From Verif Require Import Base BaseFacts Keys KeysFacts Dec Wire Read Buf HeapOps Spec Lookup Canon HeapFacts SpecJson Json.
Import ListNotations.
Open Scope Z_scope.

(** ** Induction over documents *)
Section DocInd.
  Variable P : jdoc -> Prop.
  Hypothesis HObj : forall ms, Forall (fun kv => P (snd kv)) ms -> P (JObj ms).
  Hypothesis HArr : forall ds, Forall P ds -> P (JArr ds).
  Hypothesis HLeaf : forall d, ~ is_container d -> P d.
  Fixpoint jdoc_ind' (d : jdoc) : P d :=
    match d with
    | JObj ms => HObj ms ((fix go (ms : list (str * jdoc)) : Forall (fun kv => P (snd kv)) ms :=
        match ms with
        | [] => Forall_nil _
        | kv :: r => Forall_cons kv (jdoc_ind' (snd kv)) (go r)
        end) ms)
    | JArr ds => HArr ds ((fix go (ds : list jdoc) : Forall P ds :=
        match ds with
        | [] => Forall_nil _
        | x :: r => Forall_cons x (jdoc_ind' x) (go r)
        end) ds)
    | JStr s => HLeaf (JStr s) (fun f => f)
    | JInt z => HLeaf (JInt z) (fun f => f)
    | JUint z => HLeaf (JUint z) (fun f => f)
    | JDec d => HLeaf (JDec d) (fun f => f)
    | JBool b => HLeaf (JBool b) (fun f => f)
    | JNull => HLeaf JNull (fun f => f)
    end.
End DocInd.

(** ** The value built *)
Definition put (k : str) (x : value) (fs : list (str * value)) : list (str * value) :=
  match h_insert (VObj fs) (VStr k) x with Ok (VObj fs', _) => fs' | _ => fs end.
Definition put_all (kvs fs : list (str * value)) : list (str * value) :=
  fold_left (fun fs kv => put (fst kv) (snd kv) fs) kvs fs.

Fixpoint jval (d : jdoc) : value :=
  match d with
  | JObj ms => VObj (put_all (map (fun kv => (fst kv, jval (snd kv))) ms) [])
  | JArr ds => VArr (map jval ds)
  | JStr s => VStr s
  | JInt z => VInt z
  | JUint z => VInt (to_signed 64 z)
  | JDec d => VDec d
  | JBool b => VBool b
  | JNull => VNull
  end.

Fixpoint shortb (d : jdoc) : bool :=
  match d with
  | JObj ms => forallb (fun kv => (zlen (fst kv) <=? 65535) && shortb (snd kv)) ms
  | JArr ds => forallb shortb ds
  | _ => true
  end.

Lemma shortb_spec d : shortb d = true <-> short_keys d.
Proof.
  induction d using jdoc_ind'; cbn [shortb].
  - rewrite forallb_forall. rewrite Forall_forall in H. split.
    + intros A. constructor; [exact I|]. apply Forall_forall. intros kv J. specialize (A kv J). apply andb_prop in A. destruct A as [A B].
      split; [apply Z.leb_le; exact A|]. apply H; assumption.
    + intros A kv J. inversion A as [? _ F| |? L]; subst; [|destruct L]. rewrite Forall_forall in F. destruct (F kv J) as [K Q].
      apply andb_true_intro. split; [apply Z.leb_le; exact K|]. apply H; assumption.
  - rewrite forallb_forall. rewrite Forall_forall in H. split.
    + intros A. constructor; [exact I|]. apply Forall_forall. intros x J. apply H; auto.
    + intros A x J. inversion A as [|? _ F|? L]; subst; [|destruct L]. rewrite Forall_forall in F. apply H; [assumption|apply F; assumption].
  - destruct d; try (exfalso; apply H; exact I); split; try reflexivity; intros _; constructor 3; exact I.
Qed.

(** Where a value can go: under a key of the current object, or behind the
    elements of the current array. *)
Inductive slot : Type := In_obj (k : str) (fs : list (str * value)) | In_arr (vs : list value).
Definition slot_ok (s : slot) : Prop :=
  match s with In_obj k fs => StronglySorted key_lt (map fst fs) | In_arr vs => zlen vs < 2 ^ 32 end.
Definition slot_key (s : slot) : value := match s with In_obj k _ => VStr k | In_arr _ => VNull end.
Definition slot_obj (s : slot) : value := match s with In_obj _ fs => VObj fs | In_arr vs => VArr vs end.
Definition slot_short (s : slot) : bool := match s with In_obj k _ => zlen k <=? 65535 | In_arr _ => true end.
Definition slot_fill (s : slot) (x : value) : value :=
  match s with In_obj k fs => VObj (put k x fs) | In_arr vs => VArr (vs ++ [x]) end.

Lemma put_ok k x fs : StronglySorted key_lt (map fst fs) -> zlen k <= 65535 ->
  exists i, h_insert (VObj fs) (VStr k) x = Ok (VObj (put k x fs), i) /\ StronglySorted key_lt (map fst (put k x fs)) /\
    forall j, lookup j (put k x fs) = if list_eq_dec Byte.byte_eq_dec j k then Some x else lookup j fs.
Proof.
  intros S L. destruct (h_insert_spec fs S k x L) as (fs' & i & E & S' & Q & _). unfold put. rewrite E. exists i.
  split; [reflexivity|]. split; assumption.
Qed.
Lemma insert_long v k x : 65535 < zlen k -> h_insert v (VStr k) x = Throw invalid_argument.
Proof. intros L. cbn [h_insert]. replace (65535 <? zlen k) with true by lia. reflexivity. Qed.
Lemma push_ok vs x : zlen vs < 2 ^ 32 -> h_push_back (VArr vs) x = Ok (VArr (vs ++ [x])).
Proof.
  intros L. unfold h_push_back. cbn [h_size bind h_insert h_elements]. pose proof (zlen_nonneg vs).
  rewrite Z.mod_small by lia. replace (zlen vs <? zlen vs) with false by lia. cbn [bind].
  replace (Z.to_nat (zlen vs)) with (length vs) by (unfold zlen; lia).
  pose proof (list_insert_mid vs x []) as E. rewrite app_nil_r in E. rewrite E. reflexivity.
Qed.

Lemma embed_spec s x ks os : slot_ok s ->
  embed x (mk_parser (slot_key s) (slot_obj s) ks os) =
    if slot_short s then Ok (mk_parser VNull (slot_fill s x) ks os) else Throw invalid_argument.
Proof.
  intros OK. destruct s as [k fs|vs]; unfold embed; cbn [slot_key slot_obj slot_short slot_fill curr_obj curr_key key_stack obj_stack slot_ok] in *.
  - destruct (zlen k <=? 65535) eqn:L.
    + destruct (put_ok k x fs OK) as (i & -> & _); [lia|]. reflexivity.
    + rewrite insert_long by lia. reflexivity.
  - rewrite push_ok by assumption. reflexivity.
Qed.

(** Closing an aggregate that was opened in a slot. *)
Definition slot_keys (s : slot) (ks : list value) : list value := match s with In_obj k _ => VStr k :: ks | In_arr _ => ks end.
Lemma start_spec s o ks os : start o (mk_parser (slot_key s) (slot_obj s) ks os) =
  mk_parser VNull o (slot_keys s ks) (slot_obj s :: os).
Proof. destruct s; reflexivity. Qed.
Lemma end_spec s x ks os : slot_ok s ->
  end_aggregate (mk_parser VNull x (slot_keys s ks) (slot_obj s :: os)) =
    if slot_short s then Ok (mk_parser VNull (slot_fill s x) ks os) else Throw invalid_argument.
Proof.
  intros OK. destruct s as [k fs|vs]; unfold end_aggregate;
    cbn [slot_keys slot_obj slot_short slot_fill curr_obj curr_key key_stack obj_stack slot_ok] in *.
  - destruct (zlen k <=? 65535) eqn:L.
    + destruct (put_ok k x fs OK) as (i & -> & _); [lia|]. reflexivity.
    + rewrite insert_long by lia. reflexivity.
  - rewrite push_ok by assumption. reflexivity.
Qed.

Lemma run_app a b p : run_events (a ++ b) p = (q <- run_events a p ;; run_events b q).
Proof.
  revert p. induction a as [|e a IH]; intros p; [reflexivity|]. cbn [app run_events]. destruct (handle e p); cbn [bind]; auto.
Qed.

(** The members of an object, the elements of an array. *)
Definition obj_events (ms : list (str * jdoc)) : list event := flat_map (fun kv => EKey (fst kv) :: events (snd kv)) ms.
Definition arr_events (ds : list jdoc) : list event := flat_map events ds.
Lemma events_obj ms : events (JObj ms) = EStartObject :: obj_events ms ++ [EEndObject].
Proof.
  cbn [events]. f_equal. induction ms as [|[k x] r IH]; [reflexivity|]. unfold obj_events. cbn [flat_map fst snd app].
  rewrite <- app_assoc. f_equal. f_equal. exact IH.
Qed.
Lemma events_arr ds : events (JArr ds) = EStartArray :: arr_events ds ++ [EEndArray].
Proof.
  cbn [events]. f_equal. induction ds as [|x r IH]; [reflexivity|]. unfold arr_events. cbn [flat_map].
  rewrite <- app_assoc. f_equal. exact IH.
Qed.

Definition builds (d : jdoc) : Prop := forall s ks os, slot_ok s ->
  run_events (events d) (mk_parser (slot_key s) (slot_obj s) ks os) =
    if shortb d && slot_short s then Ok (mk_parser VNull (slot_fill s (jval d)) ks os) else Throw invalid_argument.

Lemma put_sorted k x fs : StronglySorted key_lt (map fst fs) -> StronglySorted key_lt (map fst (put k x fs)).
Proof.
  intros S. destruct (Z_le_gt_dec (zlen k) 65535) as [L|L]; [destruct (put_ok k x fs S L) as (i & _ & ? & _); assumption|].
  unfold put. rewrite insert_long by lia. assumption.
Qed.

Lemma build_obj ms : Forall (fun kv => builds (snd kv)) ms -> forall fs ks os, StronglySorted key_lt (map fst fs) ->
  run_events (obj_events ms) (mk_parser VNull (VObj fs) ks os) =
    if forallb (fun kv => (zlen (fst kv) <=? 65535) && shortb (snd kv)) ms
    then Ok (mk_parser VNull (VObj (put_all (map (fun kv => (fst kv, jval (snd kv))) ms) fs)) ks os)
    else Throw invalid_argument.
Proof.
  induction 1 as [|[k x] r B F IH]; intros fs ks os S; [reflexivity|]. unfold obj_events. cbn [flat_map fst snd app run_events].
  cbn [handle bind curr_obj key_stack obj_stack]. rewrite run_app.
  cbn [snd] in B. pose proof (B (In_obj k fs) ks os S) as E. cbn [slot_key slot_obj slot_short slot_fill] in E.
  rewrite E. cbn [forallb fst snd map put_all fold_left]. rewrite (andb_comm (zlen k <=? 65535)).
  destruct (shortb x && (zlen k <=? 65535)); [|reflexivity]. cbn [andb bind]. fold (obj_events r).
  rewrite IH by (apply put_sorted; assumption). reflexivity.
Qed.
Lemma build_arr ds : Forall builds ds -> forall vs ks os, zlen vs + zlen ds < 2 ^ 32 ->
  run_events (arr_events ds) (mk_parser VNull (VArr vs) ks os) =
    if forallb shortb ds then Ok (mk_parser VNull (VArr (vs ++ map jval ds)) ks os) else Throw invalid_argument.
Proof.
  induction 1 as [|x r B F IH]; intros vs ks os L.
  - cbn. rewrite app_nil_r. reflexivity.
  - unfold arr_events. cbn [flat_map]. rewrite run_app. rewrite zlen_cons in L. pose proof (zlen_nonneg r).
    pose proof (B (In_arr vs) ks os) as E. cbn [slot_key slot_obj slot_short slot_fill slot_ok] in E.
    rewrite E by lia. cbn [forallb map]. rewrite andb_true_r. destruct (shortb x); [|reflexivity]. cbn [andb bind]. fold (arr_events r).
    rewrite IH by (rewrite zlen_app, zlen_cons, zlen_nil; lia). rewrite <- app_assoc. reflexivity.
Qed.

Lemma doc_members ms : document (JObj ms) -> Forall (fun kv => document (snd kv)) ms /\ zlen ms < 2 ^ 32.
Proof.
  intros D. inversion D as [? L F| |? X]; subst; [|destruct X]. split; [|exact L]. apply Forall_forall. rewrite Forall_forall in F.
  intros kv J. apply F. assumption.
Qed.
Lemma doc_elements ds : document (JArr ds) -> Forall document ds /\ zlen ds < 2 ^ 32.
Proof. intros D. inversion D as [|? L F|? X]; subst; [|destruct X]. split; [exact F|exact L]. Qed.
Lemma doc_leaf d : document d -> doc_node d.
Proof. intros D. inversion D; assumption. Qed.

Lemma int_event_spec z p : - 2 ^ 63 <= z < 2 ^ 64 -> handle (int_event z) p = embed (VInt (to_signed 64 z)) p.
Proof.
  intros R. unfold int_event.
  assert (S : z < 2 ^ 63 -> to_signed 64 z = z) by (intros; apply to_signed_small; lia).
  destruct (z <? 0) eqn:N.
  - destruct (- 2 ^ 31 <=? z); cbn [handle]; rewrite S by lia; reflexivity.
  - destruct (z <? 2 ^ 32) eqn:M; cbn [handle]; [|reflexivity]. rewrite S by lia. reflexivity.
Qed.

Lemma builds_all d : document d -> builds d.
Proof.
  induction d using jdoc_ind'; intros D s ks os OK.
  - destruct (doc_members ms D) as [DM L].
    assert (B : Forall (fun kv => builds (snd kv)) ms).
    { rewrite Forall_forall in *. intros kv J. apply H; auto. }
    rewrite events_obj. cbn [run_events handle bind]. rewrite start_spec, run_app, build_obj by (auto; constructor).
    cbn [shortb]. match goal with |- context [forallb ?f ms] => destruct (forallb f ms) end; [|reflexivity]. cbn [andb bind run_events handle]. rewrite end_spec by assumption.
    destruct (slot_short s); reflexivity.
  - destruct (doc_elements ds D) as [DM L].
    assert (B : Forall builds ds).
    { rewrite Forall_forall in *. intros x J. apply H; auto. }
    rewrite events_arr. cbn [run_events handle bind]. rewrite start_spec, run_app, build_arr by (auto; rewrite zlen_nil; lia).
    cbn [shortb]. match goal with |- context [forallb ?f ds] => destruct (forallb f ds) end; [|reflexivity]. cbn [andb bind run_events handle]. rewrite end_spec by assumption.
    destruct (slot_short s); reflexivity.
  - pose proof (doc_leaf _ D) as N.
    destruct d; try (exfalso; apply H; exact I); cbn [doc_node] in N; cbn [events run_events shortb andb jval].
    + cbn [handle]. rewrite embed_spec by assumption. destruct (slot_short s); reflexivity.
    + rewrite int_event_spec by lia. rewrite embed_spec by assumption. rewrite to_signed_small by lia. destruct (slot_short s); reflexivity.
    + rewrite int_event_spec by lia. rewrite embed_spec by assumption. destruct (slot_short s); reflexivity.
    + cbn [handle]. rewrite embed_spec by assumption. destruct (slot_short s); reflexivity.
    + cbn [handle]. rewrite embed_spec by assumption. destruct (slot_short s); reflexivity.
    + cbn [handle]. rewrite embed_spec by assumption. destruct (slot_short s); reflexivity.
Qed.

Theorem heap_from_json_spec d : document d -> is_container d ->
  heap_from_json d = if shortb d then Ok (jval d) else Throw invalid_argument.
Proof.
  intros D C. unfold heap_from_json, heap_of_events. destruct d; try destruct C.
  - destruct (doc_members ms D) as [DM L].
    assert (B : Forall (fun kv => builds (snd kv)) ms).
    { rewrite Forall_forall in *. intros kv J. apply builds_all; auto. }
    rewrite events_obj. cbn [run_events handle bind]. unfold start, new_parser. cbn [curr_key curr_obj truthy key_stack obj_stack].
    rewrite run_app, build_obj by (auto; constructor). cbn [shortb jval]. match goal with |- context [forallb ?f ms] => destruct (forallb f ms) end; reflexivity.
  - destruct (doc_elements ds D) as [DM L].
    assert (B : Forall builds ds).
    { rewrite Forall_forall in *. intros kv J. apply builds_all; auto. }
    rewrite events_arr. cbn [run_events handle bind]. unfold start, new_parser. cbn [curr_key curr_obj truthy key_stack obj_stack].
    rewrite run_app, build_arr by (auto; rewrite zlen_nil; lia). cbn [shortb jval]. match goal with |- context [forallb ?f ds] => destruct (forallb f ds) end; reflexivity.
Qed.

Lemma scalar_root d : ~ is_container d -> document d -> heap_from_json d = Throw type_error.
Proof.
  intros C D. pose proof (doc_leaf _ D) as N. destruct d; try (exfalso; apply C; exact I); try reflexivity;
    unfold heap_from_json, heap_of_events; cbn [events run_events]; cbn [doc_node] in N; rewrite int_event_spec by lia; reflexivity.
Qed.

(** ** The value means the document *)
Lemma put_all_lookup kvs : Forall (fun kv => zlen (fst kv) <= 65535) kvs -> forall fs, StronglySorted key_lt (map fst fs) ->
  StronglySorted key_lt (map fst (put_all kvs fs)) /\
  forall k, lookup k (put_all kvs fs) = match lookup k (rev kvs) with Some x => Some x | None => lookup k fs end.
Proof.
  induction 1 as [|[k x] r L F IH]; intros fs S; [split; [assumption|reflexivity]|]. cbn [put_all fold_left fst snd] in *.
  fold (put_all r (put k x fs)). destruct (put_ok k x fs S L) as (i & _ & S' & Q). destruct (IH _ S') as [S2 Q2].
  split; [assumption|]. intros j. rewrite Q2. cbn [rev]. rewrite lookup_app. destruct (lookup j (rev r)); [reflexivity|].
  cbn [lookup]. rewrite Q. destruct (list_eq_dec Byte.byte_eq_dec j k); reflexivity.
Qed.

Lemma lookup_map {A B} (f : A -> B) k (l : list (str * A)) :
  lookup k (map (fun kv => (fst kv, f (snd kv))) l) = option_map f (lookup k l).
Proof.
  induction l as [|[j x] r IH]; [reflexivity|]. cbn [map lookup fst snd]. destruct (list_eq_dec Byte.byte_eq_dec k j); auto.
Qed.
Lemma lookup_in' {A} k (l : list (str * A)) x : lookup k l = Some x -> In (k, x) l.
Proof.
  induction l as [|[j y] r IH]; cbn [lookup]; [discriminate|]. destruct (list_eq_dec Byte.byte_eq_dec k j) as [->|].
  - intros E. left. congruence.
  - intros E. right. auto.
Qed.

Lemma jval_means d : shortb d = true -> small_integers d -> means d (jval d).
Proof.
  induction d using jdoc_ind'; intros S M; cbn [jval].
  - cbn [shortb] in S. rewrite forallb_forall in S. rewrite Forall_forall in H.
    inversion M as [? _ F| |? X]; subst; [|destruct X]. rewrite Forall_forall in F.
    set (kvs := map (fun kv => (fst kv, jval (snd kv))) ms).
    assert (K : Forall (fun kv => zlen (fst kv) <= 65535) kvs).
    { apply Forall_forall. intros kv J. apply in_map_iff in J. destruct J as (kd & <- & J). specialize (S kd J). apply andb_prop in S. apply Z.leb_le. apply S. }
    destruct (put_all_lookup kvs K []) as [SS Q]; [constructor|].
    assert (R : forall k, lookup k (put_all kvs []) = option_map jval (last_member k ms)).
    { intros k. rewrite Q. unfold kvs. rewrite <- map_rev, lookup_map. unfold last_member. destruct (lookup k (rev ms)); reflexivity. }
    constructor; [assumption| |].
    + intros k. rewrite R. destruct (last_member k ms); cbn; split; congruence.
    + intros k d v E V. rewrite R, E in V. cbn [option_map] in V. injection V as <-.
      apply lookup_in' in E. apply in_rev in E. specialize (S _ E). apply andb_prop in S. apply (H _ E); [tauto|apply (F _ E)].
  - cbn [shortb] in S. rewrite forallb_forall in S. rewrite Forall_forall in H.
    inversion M as [|? _ F|? X]; subst; [|destruct X]. rewrite Forall_forall in F. constructor.
    induction ds as [|x r IH]; [constructor|]. constructor.
    + apply H; [left; reflexivity|apply S; left; reflexivity|apply F; left; reflexivity].
    + apply IH; intros; [apply H|apply S| |apply F]; try (right; assumption); try assumption.
      constructor; [exact I|]. apply Forall_forall. intros y J. apply F. right. assumption.
  - destruct d; try (exfalso; apply H; exact I); try (constructor; fail). inversion M as [| |? _ L]; destruct L.
Qed.

(** Meaning is unique. *)
Lemma means_unique d v : means d v -> forall w, means d w -> v = w.
Proof.
  revert v. induction d using jdoc_ind'; intros v A w B.
  - inversion A as [? fs S1 D1 V1| | | | | |]; subst. inversion B as [? gs S2 D2 V2| | | | | |]; subst. f_equal.
    rewrite Forall_forall in H.
    assert (Q : forall k, lookup k fs = lookup k gs).
    { intros k. destruct (last_member k ms) as [d|] eqn:E.
      - destruct (lookup k fs) as [x|] eqn:X; [|apply D1 in X; congruence].
        destruct (lookup k gs) as [y|] eqn:Y; [|apply D2 in Y; congruence]. f_equal.
        assert (J : In (k, d) ms) by (apply in_rev; apply lookup_in'; exact E). apply (H _ J); [apply (V1 k)|apply (V2 k)]; assumption.
      - rewrite (proj1 (D1 k) E), (proj1 (D2 k) E). reflexivity. }
    apply sorted_ext; assumption.
  - inversion A as [|? vs V1| | | | |]; subst. inversion B as [|? ws V2| | | | |]; subst. f_equal. clear A B.
    rewrite Forall_forall in H. revert ws V2. induction V1 as [|d v ds vs M F IH]; intros ws V2; inversion V2; subst; [reflexivity|]. f_equal.
    + apply (H d); [left; reflexivity|assumption..].
    + apply IH; [intros; apply (H x); [right|..]; assumption|assumption].
  - destruct d; try (exfalso; apply H; exact I); inversion A; subst; inversion B; reflexivity.
Qed.

(** ** The other parser *)
Lemma sajson_events d : document d -> small_integers d -> forall p, sajson_lower d p = run_events (events d) p.
Proof.
  induction d using jdoc_ind'; intros D SI p.
  - destruct (doc_members ms D) as [DM _]. inversion SI as [? _ SM| |? X]; subst; [|destruct X].
    rewrite events_obj. cbn [sajson_lower run_events]. change (handle EStartObject p) with (Ok (start (VObj []) p)). cbn [bind].
    rewrite run_app. cbn [run_events]. clear D SI. generalize (start (VObj []) p). clear p.
    induction ms as [|[k x] r IH]; intros p.
    + cbn. destruct (end_aggregate p); reflexivity.
    + inversion H as [|? ? Hx Hr]; subst. inversion DM as [|? ? Dx Dr]; subst. inversion SM as [|? ? Sx Sr]; subst. destruct Sx as [_ Sx].
      unfold obj_events. cbn [flat_map fst snd app run_events bind handle] in *. rewrite Hx by assumption.
      rewrite run_app. fold (obj_events r). destruct (run_events (events x) _); cbn [bind]; try reflexivity. apply IH; assumption.
  - destruct (doc_elements ds D) as [DM _]. inversion SI as [|? _ SM|? X]; subst; [|destruct X].
    rewrite events_arr. cbn [sajson_lower run_events]. change (handle EStartArray p) with (Ok (start (VArr []) p)). cbn [bind].
    rewrite run_app. cbn [run_events]. clear D SI. generalize (start (VArr []) p). clear p.
    induction ds as [|x r IH]; intros p.
    + cbn. destruct (end_aggregate p); reflexivity.
    + inversion H as [|? ? Hx Hr]; subst. inversion DM as [|? ? Dx Dr]; subst. inversion SM as [|? ? Sx Sr]; subst.
      unfold arr_events. cbn [flat_map]. rewrite Hx by assumption.
      rewrite run_app. fold (arr_events r). destruct (run_events (events x) _); cbn [bind]; try reflexivity. apply IH; assumption.
  - pose proof (doc_leaf _ D) as N. destruct d; try (exfalso; apply H; exact I); cbn [sajson_lower events run_events]; cbn [doc_node] in N.
    2: { rewrite int_event_spec by lia. rewrite to_signed_small by lia. cbn [handle]. destruct (embed _ p); reflexivity. }
    2: { inversion SI as [| |? ? L]; destruct L. }
    all: match goal with |- ?a = _ => destruct a; reflexivity end.
Qed.
