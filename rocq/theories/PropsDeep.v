(** C66: how many nested calls serializing, making mutable, destroying and parsing take. *)

From Coq Require Import ZArith List Bool Lia String Sorted.
From Coq Require Import ZifyBool ZifyNat.
From Coq Require Import Strings.Byte.
From Verif Require Import Base BaseFacts Keys Dec Wire Read Buf HeapOps HeapFacts Enc EncSize Spec SpecOps ReadFacts BufFacts Canon Demo
  NestedFacts SpecCost Depth Packet SpecJson Json JsonFacts JsonWrite Text TextRead SpecText SpecDeep Deep DeepFacts ValidFacts ValidEnc PacketFacts SpecPacket PropsWire PropsValid PropsDepth.
From Verif Require JsonSame Store StoreSpec StoreFacts StoreSteps StoreRun PackHold PackHoldFacts DeepStore.
Import ListNotations.
Open Scope string_scope.
Open Scope list_scope.
Open Scope Z_scope.

(** ** Serializing, in either form: as many nested calls as levels, with one fewer the stack is
    exhausted; with more nothing changes *)
Theorem c66_serialize p v f : shows p v ->
  ((levels v <= f)%nat -> json_serialize f p = Ok (tokens v)) /\ ((f < levels v)%nat -> json_serialize f p = Fuel).
Proof.
  intros D. rewrite (serialize_given v f p D). split; intros L.
  - replace (levels v <=? f)%nat with true by lia. reflexivity.
  - replace (levels v <=? f)%nat with false by lia. reflexivity.
Qed.
Print Assumptions c66_serialize.

(** ** Making a mutable value from a buffer, or from any part of one *)
Theorem c66_from_buffer bs m e v f : represents bs m e v ->
  ((levels v <= f)%nat -> from_buffer f bs m e = Ok v) /\ ((f < levels v)%nat -> from_buffer f bs m e = Fuel).
Proof.
  intros R. rewrite (from_buffer_given v f bs m e R). split; intros L.
  - replace (levels v <=? f)%nat with true by lia. reflexivity.
  - replace (levels v <=? f)%nat with false by lia. reflexivity.
Qed.
Print Assumptions c66_from_buffer.

(** The demo object of C07: four levels, in both forms. *)
Example c66_example :
  match finalize demo_nonnull with
  | Ok m => levels demo_nonnull = 4%nat /\
            json_serialize 4 (PHeap demo_nonnull) = Ok (tokens demo_nonnull) /\ json_serialize 3 (PHeap demo_nonnull) = Fuel /\
            json_serialize 4 (PBuf 0 m root) = Ok (tokens demo_nonnull) /\ json_serialize 3 (PBuf 0 m root) = Fuel /\
            from_buffer 4 0 m root = Ok demo_nonnull /\ from_buffer 3 0 m root = Fuel
  | _ => False
  end.
Proof. vm_compute. refine (conj _ (conj _ (conj _ (conj _ (conj _ (conj _ _)))))); reflexivity. Qed.

(** ** Parsing *)

(** A document takes as many as it has levels. *)
Theorem c66_parse rd t d f : json_document rd t d ->
  ((jlevels d <= f)%nat -> parse_within rd f t = Some d) /\ ((f < jlevels d)%nat -> parse_within rd f t = None).
Proof.
  intros J. rewrite (parse_given rd f t d J). split; intros L.
  - replace (jlevels d <=? f)%nat with true by lia. reflexivity.
  - replace (jlevels d <=? f)%nat with false by lia. reflexivity.
Qed.
Print Assumptions c66_parse.

(** Whatever the text, half its length is enough, and then it is read as without any limit. *)
Theorem c66_parse_bound rd t f : zlen t + 1 <= 2 * Z.of_nat f -> parse_within rd f t = read_text rd t.
Proof.
  intros L. destruct (read_text rd t) as [d|] eqn:R.
  - apply read_text_spec in R. apply (c66_parse rd t d f R). pose proof (parse_size rd t d R). lia.
  - destruct (parse_within rd f t) as [d|] eqn:P; [|reflexivity]. apply parse_only, read_text_spec in P. congruence.
Qed.
Print Assumptions c66_parse_bound.

(** Too little stack never makes anything else of a text. *)
Theorem c66_parse_sound rd t f d : parse_within rd f t = Some d -> json_document rd t d.
Proof. apply parse_only. Qed.
Print Assumptions c66_parse_sound.

(** The value a document means has no more levels than the document. *)
Lemma member_levels_in k d ms : In (k, d) ms -> (jlevels d <= member_levels ms)%nat.
Proof. induction ms as [|[k' d'] r IH]; intros []; cbn [member_levels]; [injection H as -> ->; lia|specialize (IH H); lia]. Qed.
Lemma means_levels v : forall d, means d v -> (levels v <= jlevels d)%nat.
Proof.
  induction v as [fs IH|vs IH|s|z|e|b|] using value_ind'; intros d M; inversion M; subst; try (cbn [jlevels levels]; lia).
  - rewrite levels_obj, jlevels_obj. apply le_n_S. rewrite Forall_forall in IH.
    assert (G : forall k x, In (k, x) fs -> (levels x <= member_levels ms)%nat).
    { intros k x I. assert (LK : lookup k fs = Some x) by (apply JsonSame.in_lookup; [apply sorted_nodup; assumption|exact I]).
      destruct (last_member k ms) as [d|] eqn:E; [|match goal with H : forall k, _ <-> _ |- _ => apply H in E; congruence end].
      pose proof (IH _ I d ltac:(eauto)) as Q. cbn [snd] in Q. unfold last_member in E. apply lookup_in' in E. apply in_rev in E.
      pose proof (member_levels_in _ _ _ E). lia. }
    clear - G. induction fs as [|[k x] r IHr]; cbn [pair_levels]; [lia|]. apply Nat.max_lub; [apply (G k x); left; reflexivity|].
    apply IHr. intros k' x' I. apply (G k' x'). right. exact I.
  - rewrite levels_arr, jlevels_arr. apply le_n_S. match goal with H : Forall2 means _ _ |- _ => rename H into F end. clear M.
    revert IH. induction F as [|d v ds vs Hm F IHF]; intros IH; [cbn; lia|]. inversion IH; subst. cbn [elem_levels element_levels]. 
    specialize (H1 d Hm). specialize (IHF H2). lia.
Qed.
(** So half the length of a text is enough to serialize, to make mutable again and to destroy what was parsed. *)
Theorem c66_parsed rd t d v : json_document rd t d -> means d v ->
  (levels v <= jlevels d)%nat /\ 2 * Z.of_nat (levels v) <= zlen t + 1.
Proof. intros J M. pose proof (means_levels v d M). pose proof (parse_size rd t d J). split; lia. Qed.
Print Assumptions c66_parsed.

Example c66_parse_example :
  let t := lit "{""a"": [1, {""b"": []}]} " in
  parse_within (fun _ => 0) 4 t = Some (JObj [(b "a", JArr [JInt 1; JObj [(b "b", JArr [])]])]) /\ parse_within (fun _ => 0) 3 t = None /\
  read_text (fun _ => 0) t = parse_within (fun _ => 0) 4 t /\ parse_within (fun _ => 0) 9 (lit "[1, 2") = None.
Proof. vm_compute. refine (conj _ (conj _ (conj _ _))); reflexivity. Qed.

(** ** Destroying *)
Section Destroying.
Import Store StoreSpec StoreFacts StoreSteps StoreRun PackHold PackHoldFacts DeepStore.

(** Whatever calls were made, destroying a variable with as many nested calls as what it
    shows has levels does all there is to do. *)
Theorem c66_destroy n os e answers :
  Forall (call_ok n) os -> all_allowed (init n) (repeat VNull n) os -> v_run (repeat VNull n) os = (e, answers) ->
  exists s, s_run (init n) os = Ok (s, answers) /\
    forall x h f, nth_error (vars s) x = Some h -> (levels (val e x) <= f)%nat ->
      exists cs, release f (heap s) h = Ok cs /\ s_destroy s x = Ok (St cs (list_set x HNull (vars s)), A_unit).
Proof.
  intros C A V. destruct (run_allowed os (init n) (repeat VNull n) (Inv_init n)) as (s & E & I & L).
  { rewrite repeat_length. exact C. } { exact A. }
  rewrite V in E, I, L. cbn [fst snd] in *. exists s. split; [exact E|]. intros x h f N LV.
  assert (Lx : (x < List.length e)%nat).
  { rewrite <- (Inv_len _ _ _ I). apply nth_error_Some. congruence. }
  destruct (L_get s e [] x I Lx) as (h' & N' & G & Sh). rewrite N in N'. injection N' as <-.
  destruct I as [W _]. cbn [app] in W.
  assert (W' : wf (heap s) (h :: list_set x HNull (vars s))).
  { eapply wf_meq; [|apply (proj2 (wf_scalar (heap s) HNull (vars s) eq_refl) W)]. intros y. symmetry. apply set_meq. exact N. }
  destruct (release_enough (heap s) f (heap s) h (val e x)) as [NF _]; [intros a k c X; eauto|exact Sh|exact LV|].
  pose proof (release_is_drop f (heap s) h _ W' NF) as D.
  destruct (drop_ok (List.length [h] + List.length (all_kids (heap s))) (heap s) [h] _ W') as (cs & E' & _); [cbn [List.length]; lia|].
  exists cs. unfold drop in D. rewrite E' in D. split; [exact D|].
  unfold s_destroy, overwrite, drop_s, drop. rewrite G. cbn [bind set_var heap vars]. rewrite E'. reflexivity.
Qed.

(** A value built afresh takes exactly as many: with one fewer the stack is exhausted; with
    enough, its cells are gone and all others are as they were. *)
Theorem c66_destroy_exact cs v cs' h f : build cs v = (cs', h) ->
  ((levels v <= f)%nat -> exists cs'', release f cs' h = Ok cs'' /\
     (forall a, (a < List.length cs)%nat -> cell_at cs'' a = cell_at cs a) /\ (forall a, (List.length cs <= a)%nat -> cell_at cs'' a = None)) /\
  ((f < levels v)%nat -> release f cs' h = Fuel).
Proof.
  intros B. pose proof (release_exact v cs cs' h cs' f B (fun a _ => eq_refl)) as X. split; intros L.
  - replace (levels v <=? f)%nat with true in X by lia. destruct X as (cs2 & E & W & Z0). exists cs2. split; [exact E|].
    destruct (build_grows v cs cs' h B) as [G1 G2]. split; intros a Ha.
    + rewrite W by lia. apply G2. exact Ha.
    + destruct (Nat.lt_ge_cases a (List.length cs')); [apply Z0; lia|]. rewrite W by lia. unfold cell_at.
      replace (nth_error cs' a) with (@None (option (Z * cell))); [reflexivity|]. symmetry. apply nth_error_None. lia.
  - replace (levels v <=? f)%nat with false in X by lia. exact X.
Qed.

(** A handle that is not the last takes one call, however deep the value. *)
Theorem c66_destroy_shared cs h a n c f : href h = Some a -> cell_at cs a = Some (n, c) -> 1 < n ->
  release (S f) cs h = Ok (list_set a (Some (n - 1, c)) cs).
Proof. intros H C N. cbn [release]. rewrite H, C. replace (n =? 1) with false by lia. reflexivity. Qed.

Example c66_destroy_example :
  let '(cs, h) := build [] demo in
  levels demo = 4%nat /\ release 3 cs h = Fuel /\ release 4 cs h = drop cs [h] /\
  match inc cs h with Ok cs2 => release 1 cs2 h = Ok cs | _ => False end.
Proof. vm_compute. refine (conj _ (conj _ (conj _ _))); reflexivity. Qed.
End Destroying.
Print Assumptions c66_destroy.
Print Assumptions c66_destroy_exact.
Print Assumptions c66_destroy_shared.

(** ** No fixed stack is enough.
    A text of [2 * n + 2] brackets is a document of [n + 1] levels: with [n] nested calls it is
    not parsed, and the value it stands for can be neither serialized nor destroyed; the buffer
    of an object holding it, at most 48 bytes a level, cannot be made mutable. *)
Fixpoint pit (n : nat) : str := match n with O => [x5b; x5d] | S n' => x5b :: pit n' ++ [x5d] end.
Fixpoint pit_doc (n : nat) : jdoc := match n with O => JArr [] | S n' => JArr [pit_doc n'] end.

Lemma pit_len n : zlen (pit n) = 2 * Z.of_nat n + 2.
Proof. induction n as [|n IH]; [reflexivity|]. cbn [pit]. rewrite zlen_cons, zlen_app, IH. change (zlen [x5d]) with 1. lia. Qed.
Lemma pit_strict rd n : strict rd (pit n) (pit_doc n).
Proof.
  induction n as [|n IH]; cbn [pit pit_doc]; [apply (strict_no_elements rd []); constructor|].
  apply strict_array. pose proof (strict_element rd [] (pit n) (pit_doc n) [] ltac:(constructor) IH ltac:(constructor)) as X.
  rewrite app_nil_r in X. exact X.
Qed.
Lemma pit_levels n : jlevels (pit_doc n) = S n.
Proof. induction n as [|n IH]; [reflexivity|]. cbn [pit_doc]. rewrite jlevels_arr. cbn [element_levels]. rewrite IH. lia. Qed.
Lemma pit_document n : document (pit_doc n).
Proof. induction n as [|n IH]; cbn [pit_doc]; constructor; cbn; auto; lia. Qed.
Lemma pit_value n : heap_from_json (pit_doc n) = Ok (well n).
Proof.
  rewrite heap_from_json_spec; [|apply pit_document|destruct n; exact Logic.I].
  assert (A : shortb (pit_doc n) = true) by (induction n as [|n IH]; [reflexivity|]; cbn [pit_doc shortb forallb]; rewrite IH; reflexivity).
  rewrite A. f_equal. clear A. induction n as [|n IH]; [reflexivity|]. cbn [pit_doc jval map well]. rewrite IH. reflexivity.
Qed.

Theorem c66_fixed_refuted rd n f : (f <= n)%nat ->
  zlen (pit n) = 2 * Z.of_nat n + 2 /\ heap_of_text rd (pit n) = Ok (well n) /\
  parse_within rd f (pit n) = None /\
  json_serialize f (PHeap (well n)) = Fuel /\
  Deep.release f (fst (PackHold.build [] (well n))) (snd (PackHold.build [] (well n))) = Fuel /\
  (Z.of_nat n < 2 ^ 26 -> exists m, finalize (VObj [([], well n)]) = Ok m /\ zlen m <= 48 * Z.of_nat n + 88 /\
     json_serialize f (PBuf 0 m root) = Fuel /\ from_buffer f 0 m root = Fuel).
Proof.
  intros L. pose proof (well_levels n) as WL.
  assert (J : json_document rd (pit n) (pit_doc n)).
  { exists [], (pit n), []. refine (conj _ (conj (pit_strict rd n) (conj _ _))); [constructor|constructor|]. left. cbn [app]. symmetry. apply app_nil_r. }
  assert (HV : heap_value (well n)) by (apply well_every; intros vs; exact Logic.I).
  refine (conj (pit_len n) (conj _ (conj _ (conj _ (conj _ _))))).
  - unfold heap_of_text. rewrite (proj2 (read_text_spec rd _ _) J). apply pit_value.
  - apply (c66_parse rd _ _ f J). rewrite pit_levels. lia.
  - apply (c66_serialize (PHeap (well n)) (well n) f); [split; [exact HV|reflexivity]|lia].
  - destruct (PackHold.build [] (well n)) as [cs h] eqn:B. cbn [fst snd]. apply (c66_destroy_exact [] (well n) cs h f B). lia.
  - intros S. set (fs := [([], well n)] : list (str * value)).
    assert (H : heap_value (VObj fs)).
    { constructor; [cbn; repeat constructor|]. constructor; [|constructor]. split; [cbn; lia|exact HV]. }
    assert (R : room (VObj fs) = 88 + 48 * Z.of_nat n).
    { cbn [fs room fold_right fst snd]. rewrite well_room. change (zlen (@nil Byte.byte)) with 0. lia. }
    destruct (upper_bound_room (VObj fs) ltac:(rewrite R; lia)) as (u & U & Bd).
    destruct (small_objects_finalize fs H ltac:(rewrite R; lia)) as [m F].
    destruct (finalize_root fs m 0 H F eq_refl) as (RP & _ & U'). rewrite U in U'. injection U' as ->.
    assert (LV : levels (VObj fs) = (n + 2)%nat).
    { subst fs. rewrite levels_obj. cbn [pair_levels]. rewrite well_levels. lia. }
    exists m. refine (conj F (conj _ (conj _ _))); [lia| |].
    + apply (c66_serialize (PBuf 0 m root) (VObj fs) f); [split; [exact H|exact RP]|lia].
    + apply (c66_from_buffer 0 m root (VObj fs) f RP). lia.
Qed.
Print Assumptions c66_fixed_refuted.

Example c66_fixed_example :
  parse_within (fun _ => 0) 101 (pit 100) = Some (pit_doc 100) /\ parse_within (fun _ => 0) 100 (pit 100) = None /\
  json_serialize 101 (PHeap (well 100)) = Ok (tokens (well 100)) /\ json_serialize 100 (PHeap (well 100)) = Fuel.
Proof. vm_compute. refine (conj _ (conj _ (conj _ _))); reflexivity. Qed.
