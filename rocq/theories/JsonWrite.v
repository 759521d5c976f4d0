(** Serialization: the events written are those of a document with the value
    written, and reading them back gives the value. *)

From Coq Require Import ZArith List Bool Lia Sorted.
From Coq Require Import ZifyBool ZifyNat ZifyN.
From Verif Require Import Base BaseFacts Keys Dec Wire Read Buf Enc Spec SpecDec ReadFacts Lookup BufFacts Canon HeapOps HeapFacts
  NestedFacts Packet PacketRun SpecCmp Compare CompareFacts CompareBuf SpecJson Json JsonFacts.
Import ListNotations.
Open Scope Z_scope.

(** The packet [p], in either form, has the value [v]. *)
Definition shows (p : packet) (v : value) : Prop :=
  heap_value v /\ match p with PHeap w => w = v | PBuf bs m e => represents bs m e v end.

Lemma s_type p v : shows p v -> p_type p = vtype v.
Proof. intros (_ & D). destruct p; cbn [p_type]; [subst; destruct v; reflexivity|]. rewrite (T _ _ _ _ D). destruct v; reflexivity. Qed.
Lemma s_size p v : shows p v -> p_size p = h_size v.
Proof. intros (_ & D). destruct p; [subst; reflexivity|]. apply (p_size_eq _ _ _ _ D). Qed.
Lemma s_deref p v i x : shows p v -> nth_error (members v) i = Some x -> exists q, p_deref p (Z.of_nat i) = Ok q /\ shows q x.
Proof.
  intros (H & D) N.
  assert (Hx : heap_value x).
  { destruct v; cbn [members] in N; try (destruct i; discriminate).
    - rewrite nth_error_map in N. destruct (nth_error fs i) as [[k y]|] eqn:E; [|discriminate]. injection N as <-.
      apply nth_error_In in E. apply (heap_field _ _ _ H E).
    - apply nth_error_In in N. apply (heap_elem _ _ H N). }
  destruct p as [w|bs m e].
  - subst w. unfold p_deref, visit. destruct v; cbn [members h_deref] in *; try (destruct i; discriminate); rewrite Nat2Z.id.
    + rewrite nth_error_map in N. destruct (nth_error fs i) as [[k y]|]; [|discriminate]. injection N as <-. cbn [bind].
      eexists. split; [reflexivity|]. split; [assumption|reflexivity].
    + rewrite N. cbn [bind]. eexists. split; [reflexivity|]. split; [assumption|reflexivity].
  - unfold p_deref, visit. destruct (b_deref_spec bs m e _ (Z.of_nat i) x D) as (e' & -> & R); [lia|rewrite Nat2Z.id; assumption|].
    cbn [bind]. eexists. split; [reflexivity|]. split; assumption.
Qed.
Lemma s_deref_key p fs i k x : shows p (VObj fs) -> nth_error fs i = Some (k, x) ->
  exists q, p_deref_key p (Z.of_nat i) = Ok q /\ p_scalar T_string q = Ok (VStr k).
Proof.
  intros (H & D) N. destruct p as [v|bs m e].
  - subst v. unfold p_deref_key, visit. cbn [h_deref_key]. rewrite Nat2Z.id, N. cbn [bind]. eexists. split; reflexivity.
  - unfold p_deref_key, visit. destruct (b_deref_key_spec bs m e fs (Z.of_nat i) k x D) as (p & -> & R); [lia| |].
    { rewrite Nat2Z.id. assumption. }
    cbn [bind]. eexists. split; [reflexivity|]. cbn [p_scalar]. unfold b_scalar. cbn. exact R.
Qed.
Lemma s_scalar p v : shows p v -> is_aggregate v = false -> v <> VNull -> p_scalar (vtype v) p = Ok v.
Proof.
  intros (H & D) A N. assert (U : utype_eqb (vtype v) (vtype v) = true) by (apply utype_eqb_eq; reflexivity).
  destruct p as [w|bs m e]; cbn [p_scalar].
  - subst w. unfold h_scalar. replace (h_type v) with (vtype v) by (destruct v; reflexivity). rewrite U. reflexivity.
  - rewrite (b_scalar_spec _ _ _ _ _ D A N), U. reflexivity.
Qed.

(** ** What is written *)
Fixpoint says (v : value) : jdoc :=
  match v with
  | VObj fs => JObj (map (fun kv => (fst kv, says (snd kv))) fs)
  | VArr vs => JArr (map says vs)
  | VStr s => JStr s
  | VInt z => JInt z
  | VDec d => JDec d
  | VBool b => JBool b
  | VNull => JNull
  end.
Fixpoint tokens (v : value) : list event :=
  match v with
  | VObj fs => EStartObject :: flat_map (fun kv => EKey (fst kv) :: tokens (snd kv)) fs ++ [EEndObject]
  | VArr vs => EStartArray :: flat_map tokens vs ++ [EEndArray]
  | VStr s => [EString s]
  | VInt z => [EInt64 z]
  | VDec d => [EDouble d]
  | VBool b => [EBool b]
  | VNull => [ENull]
  end.

Lemma concat_spec {A B} (f : Z -> res (list B)) (g : A -> list B) (l : list A) : forall i,
  (forall j x, nth_error l j = Some x -> f (i + Z.of_nat j) = Ok (g x)) -> concat_from f i (length l) = Ok (flat_map g l).
Proof.
  induction l as [|x l IH]; intros i H; [reflexivity|]. cbn [length concat_from flat_map].
  pose proof (H 0%nat x eq_refl) as E. rewrite Z.add_0_r in E. rewrite E. cbn [bind]. rewrite IH; [reflexivity|].
  intros j y N. rewrite <- (H (S j) y N). f_equal. lia.
Qed.

Theorem serialize_spec v : forall n p, (depth v < n)%nat -> shows p v -> json_serialize n p = Ok (tokens v).
Proof.
  induction v as [fs IH|vs IH|s|z|d|b|] using value_ind'; intros n p L D; (destruct n as [|n]; [lia|]); cbn [json_serialize];
    rewrite (s_type _ _ D); cbn [vtype].
  - rewrite (s_size _ _ D). cbn [h_size bind]. rewrite Forall_forall in IH.
    replace (Z.to_nat (zlen fs)) with (length fs) by (unfold zlen; lia).
    rewrite (concat_spec _ (fun kv => EKey (fst kv) :: tokens (snd kv)) fs 0); [reflexivity|].
    intros j [k x] N. destruct (s_deref_key _ _ _ _ _ D N) as (q & E & S). cbn [Z.add]. rewrite E. cbn [bind]. rewrite S. cbn [bind value_strv].
    destruct (s_deref p (VObj fs) j x D) as (r & E' & R); [cbn [members]; rewrite nth_error_map, N; reflexivity|].
    rewrite E'. cbn [bind fst snd]. pose proof (nth_error_In _ _ N) as J. rewrite (IH _ J n r); [reflexivity| |exact R].
    pose proof (depth_obj fs _ J). cbn [snd] in *. lia.
  - rewrite (s_size _ _ D). cbn [h_size bind]. rewrite Forall_forall in IH.
    replace (Z.to_nat (zlen vs)) with (length vs) by (unfold zlen; lia).
    rewrite (concat_spec _ tokens vs 0); [reflexivity|].
    intros j x N. cbn [Z.add].
    destruct (s_deref p (VArr vs) j x D) as (r & E' & R); [exact N|].
    rewrite E'. cbn [bind]. pose proof (nth_error_In _ _ N) as J. rewrite (IH _ J n r); [reflexivity| |exact R].
    pose proof (depth_arr vs x J). lia.
  - pose proof (s_scalar _ _ D eq_refl) as S. cbn [vtype] in S. rewrite S by discriminate. reflexivity.
  - pose proof (s_scalar _ _ D eq_refl) as S. cbn [vtype] in S. rewrite S by discriminate. reflexivity.
  - pose proof (s_scalar _ _ D eq_refl) as S. cbn [vtype] in S. rewrite S by discriminate. reflexivity.
  - pose proof (s_scalar _ _ D eq_refl) as S. cbn [vtype] in S. rewrite S by discriminate. reflexivity.
  - reflexivity.
Qed.

Lemma read_back_app a b : read_back (a ++ b) =
  match read_back a, read_back b with Some x, Some y => Some (x ++ y) | _, _ => None end.
Proof.
  induction a as [|e a IH]; cbn [app read_back]; [destruct (read_back b); reflexivity|]. rewrite IH.
  destruct (reread e), (read_back a), (read_back b); reflexivity.
Qed.
Lemma reread_tokens v : finite_decimals v -> read_back (tokens v) = Some (events (says v)).
Proof.
  induction v as [fs IH|vs IH|s|z|d|b|] using value_ind'; intros H; try reflexivity.
  - inversion H as [? _ F| | | | | |]; subst.
    cbn [says]. rewrite events_obj. cbn [tokens read_back reread]. rewrite read_back_app. cbn [read_back reread].
    replace (read_back (flat_map (fun kv => EKey (fst kv) :: tokens (snd kv)) fs)) with (Some (obj_events (map (fun kv => (fst kv, says (snd kv))) fs))); [reflexivity|].
    clear H. symmetry. induction IH as [|[k x] r E G IH]; [reflexivity|]. inversion F as [|? ? [_ Hx] F']; subst.
    unfold obj_events in *. cbn [flat_map map fst snd app read_back reread] in *. rewrite read_back_app, (E Hx), (IH F'). reflexivity.
  - inversion H as [|? _ F| | | | |]; subst.
    cbn [says]. rewrite events_arr. cbn [tokens read_back reread]. rewrite read_back_app. cbn [read_back reread].
    replace (read_back (flat_map tokens vs)) with (Some (arr_events (map says vs))); [reflexivity|].
    clear H. symmetry. induction IH as [|x r E G IH]; [reflexivity|]. inversion F as [|? ? Hx F']; subst.
    unfold arr_events in *. cbn [flat_map map] in *. rewrite read_back_app, (E Hx), (IH F'). reflexivity.
  - inversion H as [| | | |? [k E]| |]; subst. cbn. unfold denote64 in E. destruct (d_exp d =? 2047); [|reflexivity].
    destruct (d_man d =? 0); discriminate.
Qed.

(** The document says the value. *)
Lemma lookup_rev {A} (l : list (str * A)) k : NoDup (map fst l) -> lookup k (rev l) = lookup k l.
Proof.
  induction l as [|[j x] r IH]; intros N; [reflexivity|]. inversion N as [|? ? X N']; subst. cbn [rev]. rewrite lookup_app, IH by assumption.
  cbn [lookup]. destruct (list_eq_dec Byte.byte_eq_dec k j) as [->|].
  - replace (lookup j r) with (@None A); [reflexivity|]. symmetry. apply lookup_none. exact X.
  - destruct (lookup k r); reflexivity.
Qed.

Lemma says_means v : heap_value v -> means (says v) v.
Proof.
  induction v as [fs IH|vs IH|s|z|d|b|] using value_ind'; intros H; cbn [says]; try (constructor; fail).
  - rewrite Forall_forall in IH. pose proof (heap_sorted _ H) as S.
    assert (Q : forall k, last_member k (map (fun kv => (fst kv, says (snd kv))) fs) = option_map says (lookup k fs)).
    { intros k. unfold last_member. rewrite lookup_rev, lookup_map; [reflexivity|]. rewrite map_map. apply sorted_nodup. exact S. }
    constructor; [exact S| |].
    + intros k. rewrite Q. destruct (lookup k fs); cbn; split; congruence.
    + intros k d v E V. rewrite Q, V in E. cbn [option_map] in E. injection E as <-. apply lookup_in' in V. apply (IH _ V).
      apply (heap_field _ _ _ H V).
  - rewrite Forall_forall in IH. constructor. induction vs as [|x r IHr]; [constructor|]. constructor.
    + apply IH; [left; reflexivity|]. apply (heap_elem _ _ H). left. reflexivity.
    + apply IHr; [intros; apply IH; [right|]; assumption|]. constructor; [exact I|]. inversion H as [|? _ F| | | | |]; subst.
      inversion F; assumption.
Qed.

Lemma says_small v : small_integers (says v).
Proof.
  induction v as [fs IH|vs IH|s|z|d|b|] using value_ind'; cbn [says]; try (constructor 3; exact I).
  - constructor; [exact I|]. apply Forall_forall. rewrite Forall_forall in IH. intros kv J. apply in_map_iff in J.
    destruct J as (kx & <- & J). split; [exact I|]. apply (IH _ J).
  - constructor; [exact I|]. apply Forall_forall. rewrite Forall_forall in IH. intros x J. apply in_map_iff in J.
    destruct J as (y & <- & J). apply (IH _ J).
Qed.
Lemma says_short v : heap_value v -> short_keys (says v).
Proof.
  induction v as [fs IH|vs IH|s|z|d|b|] using value_ind'; intros H; cbn [says]; try (constructor 3; exact I).
  - constructor; [exact I|]. apply Forall_forall. rewrite Forall_forall in IH. intros kv J. apply in_map_iff in J.
    destruct J as ([k x] & <- & J). destruct (heap_field _ _ _ H J). split; [assumption|]. apply (IH _ J). assumption.
  - constructor; [exact I|]. apply Forall_forall. rewrite Forall_forall in IH. intros x J. apply in_map_iff in J.
    destruct J as (y & <- & J). apply (IH _ J). apply (heap_elem _ _ H J).
Qed.
Lemma says_distinct v : heap_value v -> distinct_keys (says v).
Proof.
  induction v as [fs IH|vs IH|s|z|d|b|] using value_ind'; intros H; cbn [says]; try (constructor 3; exact I).
  - constructor; [rewrite map_map; apply sorted_nodup; apply (heap_sorted _ H)|]. apply Forall_forall. rewrite Forall_forall in IH. intros kv J.
    apply in_map_iff in J. destruct J as ([k x] & <- & J). destruct (heap_field _ _ _ H J). split; [exact I|]. apply (IH _ J). assumption.
  - constructor; [exact I|]. apply Forall_forall. rewrite Forall_forall in IH. intros x J. apply in_map_iff in J.
    destruct J as (y & <- & J). apply (IH _ J). apply (heap_elem _ _ H J).
Qed.
Lemma says_document v : heap_value v -> countable v -> document (says v).
Proof.
  induction v as [fs IH|vs IH|s|z|d|b|] using value_ind'; intros H C; cbn [says].
  - inversion C as [? L F| | | | | |]; subst. rewrite Forall_forall in F, IH.
    constructor; [cbn [doc_node]; rewrite zlen_map; exact L|]. apply Forall_forall. intros kv J.
    apply in_map_iff in J. destruct J as ([k x] & <- & J). destruct (heap_field _ _ _ H J) as [K Hx]. cbn [fst snd]. split; [lia|].
    apply (IH _ J); [exact Hx|apply (F _ J)].
  - inversion C as [|? L F| | | | |]; subst. rewrite Forall_forall in F, IH.
    constructor; [cbn [doc_node]; rewrite zlen_map; exact L|]. apply Forall_forall. intros x J.
    apply in_map_iff in J. destruct J as (y & <- & J). apply (IH _ J); [apply (heap_elem _ _ H J)|apply (F _ J)].
  - constructor 3; [exact I|]. inversion H; assumption.
  - constructor 3; [exact I|]. inversion H; assumption.
  - constructor 3; [exact I|]. inversion H; assumption.
  - constructor 3; exact I.
  - constructor 3; exact I.
Qed.
