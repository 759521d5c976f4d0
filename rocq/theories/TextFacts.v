(** Reading what was written; zero bytes; the texts of the grammar with extensions;
    what the C functions leave in a variable. *)

From Coq Require Import ZArith List Bool Lia String Sorted.
From Coq Require Import ZifyBool ZifyNat ZifyN.
From Verif Require Import Base BaseFacts Keys KeysFacts Dec Wire Read Buf Enc Spec SpecDec ReadFacts BufFacts Canon HeapOps HeapFacts Packet SpecJson SpecText
  SpecCmp Compare Json JsonFacts JsonWrite SpecPacket SpecWrap Wrap SpecAbi Abi WrapTypes Text TextRead TextWrite.
Import ListNotations.
Open Scope list_scope.
Open Scope Z_scope.

(** ** Values with other decimals *)
Lemma keys_redec f (fs : list (str * value)) : map fst (map (fun kv => (fst kv, redec f (snd kv))) fs) = map fst fs.
Proof. rewrite map_map. apply map_ext. reflexivity. Qed.
Lemma redec_heap f v : (forall d, 0 <= f d < 2 ^ 64) -> heap_value v -> heap_value (redec f v).
Proof.
  intros B. induction v as [fs IH|vs IH| | | | |] using value_ind'; intros H; try exact H.
  - inversion H as [? L F| | | | | |]; subst. cbn [redec]. apply every_obj; [cbn [heap_node]; rewrite keys_redec; exact L|].
    apply Forall_map. rewrite Forall_forall in *. intros kv J. destruct (F kv J) as [K X]. split; [exact K|]. apply (IH kv J X).
  - inversion H as [|? L F| | | | |]; subst. cbn [redec]. apply every_arr; [exact Logic.I|].
    apply Forall_map. rewrite Forall_forall in *. intros x J. apply (IH x J). apply F, J.
  - cbn [redec]. apply every_dec. apply B.
Qed.
Lemma redec_countable f v : countable v -> countable (redec f v).
Proof.
  induction v as [fs IH|vs IH| | | | |] using value_ind'; intros H; try exact H.
  - inversion H as [? L F| | | | | |]; subst. cbn [redec]. apply every_obj; [unfold zlen in *; rewrite map_length; exact L|].
    apply Forall_map. rewrite Forall_forall in *. intros kv J. destruct (F kv J) as [K X]. split; [exact K|]. apply (IH kv J X).
  - inversion H as [|? L F| | | | |]; subst. cbn [redec]. apply every_arr; [unfold zlen in *; rewrite map_length; exact L|].
    apply Forall_map. rewrite Forall_forall in *. intros x J. apply (IH x J). apply F, J.
  - cbn [redec]. apply every_dec. exact Logic.I.
Qed.
Lemma redec_faithful dt rd v : faithful rd dt -> heap_value v -> finite_decimals v -> redec (again dt rd) v = v.
Proof.
  intros B. induction v as [fs IH|vs IH| | | | |] using value_ind'; intros H F; try reflexivity.
  - inversion H as [? _ G| | | | | |]; subst. inversion F as [? _ D| | | | | |]; subst. cbn [redec]. f_equal.
    rewrite Forall_forall in *. transitivity (map (fun kv : str * value => kv) fs); [|apply map_id].
    apply map_ext_in. intros [k x] J. cbn [fst snd]. f_equal. apply (IH _ J); [apply (G _ J)|apply (D _ J)].
  - inversion H as [|? _ G| | | | |]; subst. inversion F as [|? _ D| | | | |]; subst. cbn [redec]. f_equal.
    rewrite Forall_forall in *. transitivity (map (fun x : value => x) vs); [|apply map_id].
    apply map_ext_in. intros x J. apply (IH _ J); [apply (G _ J)|apply (D _ J)].
  - inversion H as [| | | |? R| |]; subst. inversion F as [| | | |? D| |]; subst. destruct D as [k D]. cbn [redec]. f_equal. apply (B d k); assumption.
Qed.
Lemma says_of v : of_value v (says v).
Proof.
  induction v as [fs IH|vs IH| | | | |] using value_ind'; try constructor.
  - induction fs as [|kv fs IHf]; [constructor|]. inversion IH; subst. constructor; [split; [reflexivity|assumption]|apply IHf; assumption].
  - induction vs as [|x vs IHv]; [constructor|]. inversion IH; subst. constructor; [assumption|apply IHv; assumption].
Qed.
Lemma of_says v : forall d, of_value v d -> d = says v.
Proof.
  induction v as [fs IH|vs IH| | | | |] using value_ind'; intros e H; inversion H; subst; try reflexivity.
  - cbn [says]. f_equal. clear H. match goal with A : Forall2 _ _ _ |- _ => revert IH; induction A as [|kv [k m] ? ? [E1 E2] ? IHA]; intros IH; [reflexivity|] end.
    inversion IH; subst. cbn [map fst snd] in *. f_equal; [f_equal; auto|auto].
  - cbn [says]. f_equal. clear H. match goal with A : Forall2 _ _ _ |- _ => revert IH; induction A as [|x d ? ? E ? IHA]; intros IH; [reflexivity|] end.
    inversion IH; subst. cbn [map]. f_equal; auto.
Qed.

(** ** Zero bytes *)
Definition nozero (t : str) : Prop := Forall (fun c => c <> x00) t.
Lemma nozero_in t : nozero t -> ~ In x00 t.
Proof. intros F J. unfold nozero in F. rewrite Forall_forall in F. exact (F _ J eq_refl). Qed.
Lemma nozero_app a c : nozero a -> nozero c -> nozero (a ++ c).
Proof. intros A B. apply Forall_app. split; assumption. Qed.
Lemma white_nozero w : white w -> nozero w.
Proof. intros W. eapply Forall_impl; [|exact W]. intros c J ->. cbn in J. intuition discriminate. Qed.
Lemma number_nozero t : Forall (fun c => numberb c = true) t -> nozero t.
Proof. intros W. eapply Forall_impl; [|exact W]. intros c J ->. discriminate J. Qed.
Lemma hex_nozero h z : hex4 h z -> nozero h.
Proof.
  intros (a & c & d & e & x & y & u & v & -> & A & B & C & D & _).
  repeat constructor; intros ->; discriminate.
Qed.
Lemma chars_nozero t s : chars t s -> nozero t.
Proof.
  induction 1 as [|c t s _ _ P _ IH|e c t s E _ IH|h z t s X _ _ IH|h l y z t s X Y _ _ _ IH]; [constructor| | | |].
  - constructor; [intros ->; cbn in P; lia|exact IH].
  - constructor; [discriminate|]. constructor; [intros ->; discriminate E|exact IH].
  - constructor; [discriminate|]. constructor; [discriminate|]. apply nozero_app; [apply hex_nozero in X; exact X|exact IH].
  - constructor; [discriminate|]. constructor; [discriminate|]. apply nozero_app; [apply hex_nozero in X; exact X|].
    constructor; [discriminate|]. constructor; [discriminate|]. apply nozero_app; [apply hex_nozero in Y; exact Y|exact IH].
Qed.
Lemma string_nozero t s : string_text t s -> nozero t.
Proof. intros (c & -> & C). constructor; [discriminate|]. apply nozero_app; [apply chars_nozero in C; exact C|]. repeat constructor; discriminate. Qed.
Lemma double_nozero t : double_text t -> nozero t.
Proof. intros D. apply number_nozero. apply (numeric_chars (fun _ => 0) t (JDec 0)). apply (numeric_double (fun _ => 0)). exact D. Qed.
Ltac nz := repeat first [apply nozero_app | constructor; [discriminate|] | assumption | apply white_nozero; assumption | eapply string_nozero; eassumption | apply Forall_nil].
Lemma strict_nozero rd : (forall t d, strict rd t d -> nozero t) /\ (forall t ms, strict_members rd t ms -> nozero t) /\
  (forall t ds, strict_elements rd t ds -> nozero t).
Proof.
  apply (strict_mut rd (fun t d _ => nozero t) (fun t ms _ => nozero t) (fun t ds _ => nozero t)); intros; cbn [app]; nz.
  - eapply number_nozero, int_text_number. eassumption.
  - eapply number_nozero, int_text_number. eassumption.
  - eapply number_nozero, int_text_number. eassumption.
  - apply double_nozero. assumption.
Qed.
Lemma split_zero t : (nozero t /\ cstr t = t) \/ exists r, t = cstr t ++ x00 :: r /\ nozero (cstr t).
Proof.
  induction t as [|c t IH]; [left; split; [constructor|reflexivity]|]. cbn [cstr]. destruct (byte_eqb_spec c x00) as [->|N].
  - right. exists t. split; [reflexivity|constructor].
  - destruct IH as [[A B]|(r & A & B)].
    + left. split; [constructor; assumption|f_equal; assumption].
    + right. exists r. split; [cbn [app]; f_equal; exact A|constructor; assumption].
Qed.
Lemma document_cstr rd t d : json_document rd (cstr t) d <-> json_document rd t d.
Proof.
  split; intros (w1 & u & w2 & A & B & C & D); exists w1, u, w2; (split; [exact A|]); (split; [exact B|]); (split; [exact C|]).
  - destruct (split_zero t) as [[N E]|(r & E & N)]; [rewrite <- E; exact D|].
    destruct D as [D|[x D]]; [right; exists r; rewrite E, D; repeat (progress (rewrite <- ?app_assoc; cbn [app])); reflexivity|].
    destruct (nozero_in _ N). rewrite D. rewrite !in_app_iff. right. right. right. left. reflexivity.
  - assert (N : nozero (w1 ++ u ++ w2)).
    { apply nozero_app; [apply white_nozero; exact A|]. apply nozero_app; [apply (proj1 (strict_nozero rd) _ _ B)|apply white_nozero; exact C]. }
    left. destruct D as [->|[x ->]]; [apply cstr_all, nozero_in, N|].
    replace (w1 ++ u ++ w2 ++ x00 :: x) with ((w1 ++ u ++ w2) ++ x00 :: x) by (rewrite <- !app_assoc; reflexivity).
    apply cstr_stop, nozero_in, N.
Qed.
Lemma cstr_zero t : cstr (t ++ [x00]) = cstr t.
Proof. induction t as [|c t IH]; [reflexivity|]. cbn [app cstr]. rewrite IH. reflexivity. Qed.
Lemma read_iff rd a c : (forall d, json_document rd a d <-> json_document rd c d) -> read_text rd a = read_text rd c.
Proof.
  intros H. destruct (read_text rd a) as [d|] eqn:A.
  - symmetry. apply read_text_spec, H, read_text_spec, A.
  - destruct (read_text rd c) as [d|] eqn:C; [|reflexivity]. apply read_text_spec, H, read_text_spec in C. congruence.
Qed.

(** ** The grammar with extensions has these texts, too *)
Lemma white_blank w : white w -> blank w.
Proof. induction 1; constructor; assumption. Qed.
Lemma strict_doc rd (G : gives_doubles rd) : (forall t d, strict rd t d -> doc_text t d) /\ (forall t ms, strict_members rd t ms -> members_text t ms) /\
  (forall t ds, strict_elements rd t ds -> elements_text t ds).
Proof.
  apply (strict_mut rd (fun t d _ => doc_text t d) (fun t ms _ => members_text t ms) (fun t ds _ => elements_text t ds)); intros.
  - apply text_object, members_none, white_blank. assumption.
  - apply text_object. assumption.
  - apply text_array, elements_none, white_blank. assumption.
  - apply text_array. assumption.
  - apply text_string. assumption.
  - apply text_number, num_int; assumption.
  - apply text_number, num_uint; assumption.
  - apply text_number. eapply num_huge; [eassumption|assumption|exact (G _)].
  - match goal with X : double_text _ |- _ => destruct X as (i & z & f & e & I1 & F1 & E1 & N1 & ->) end. apply text_number. eapply num_dec; try eassumption. exact (G _).
  - apply text_true.
  - apply text_false.
  - apply text_null.
  - apply members_one; try (apply white_blank); assumption.
  - apply members_more; try (apply white_blank); assumption.
  - apply elements_one; try (apply white_blank); assumption.
  - apply elements_more; try (apply white_blank); assumption.
Qed.
Lemma document_text rd t d : gives_doubles rd -> json_document rd t d -> json_text t d.
Proof.
  intros G (w1 & u & w2 & A & B & C & D). apply (proj1 (strict_doc rd G)) in B. apply white_blank in A.
  destruct D as [->|[r ->]]; [exists w1, u, w2|exists w1, u, (w2 ++ x00 :: r)]; auto.
Qed.

(** ** The C functions *)
Definition rc_id (n : counter) : Z := match n with Safe => 1 | Unsafe => 2 end.
Lemma rc_switch_id {R} (c : R) n k : rc_switch c (rc_id n) k = k n.
Proof. destruct n; reflexivity. Qed.
Lemma nth_put {A} (l : list A) i x y : nth_error l i = Some y -> nth_error (put i x l) i = Some x.
Proof. intros E. rewrite (put_nth _ _ _ _ _ E), Nat.eqb_refl. reflexivity. Qed.
Lemma put_put {A} (l : list A) i x y : put i x (put i y l) = put i x l.
Proof. revert i. induction l as [|a l IH]; intros [|i]; cbn; try reflexivity. f_equal. apply IH. Qed.

Lemma init_new s i d n v0 : nth_error s i = Some v0 -> v_type v0 = d ->
  init s i d (rc_id n) = (put i (mkvar d (Some (p_id d, rc_id n)) (Some (d, n, fresh d))) s, Code no_error).
Proof.
  intros E T. unfold init, set_tags. rewrite E, T. unfold construct. rewrite (nth_put _ _ _ _ E). cbn [v_tags].
  rewrite rc_switch_id. unfold place_new. rewrite (nth_put _ _ _ _ E). cbn [v_type].
  replace (fits d d) with true by (destruct d; reflexivity). unfold set_obj. rewrite (nth_put _ _ _ _ E). cbn [v_type v_tags err_handler].
  rewrite put_put. reflexivity.
Qed.
Lemma init_unknown s i d rc v0 : nth_error s i = Some v0 -> v_type v0 = d -> rc <> 1 -> rc <> 2 ->
  init s i d rc = (put i (mkvar d (Some (p_id d, rc)) (v_obj v0)) s, Code client_code).
Proof.
  intros E T A B. unfold init, set_tags. rewrite E, T. unfold construct. rewrite (nth_put _ _ _ _ E). cbn [v_tags].
  assert (W : forall R (c : R) k, rc_switch c rc k = c).
  { intros R c k. unfold rc_switch. destruct rc as [|[p|[p|p|]|]|]; try reflexivity; lia. }
  rewrite W. reflexivity.
Qed.
Lemma unwrap_new s i d n q k : nth_error s i = Some (mkvar d (Some (p_id d, rc_id n)) (Some (d, n, q))) -> unwrap_as d s i k = k q.
Proof.
  intros E. unfold unwrap_as. rewrite E. cbn [v_tags]. rewrite rc_switch_id. unfold seen. cbn [v_obj].
  replace (form_eqb d d) with true by (destruct d; reflexivity). replace (counter_eqb n n) with true by (destruct n; reflexivity). reflexivity.
Qed.
Lemma strlen_stop t r : ~ In x00 t -> c_strlen (t ++ x00 :: r) = Ok (zlen t).
Proof.
  induction t as [|c t IH]; intros N; [reflexivity|]. cbn [app c_strlen]. rewrite byte_eqb_neq; [|intros ->; apply N; left; reflexivity].
  rewrite IH; [|intros J; apply N; right; exact J]. cbn [bind]. unfold zlen. cbn [List.length]. f_equal. lia.
Qed.
Lemma view_prefix t r : c_view (t ++ r) (zlen t) = Ok t.
Proof.
  unfold c_view. replace (zlen t <=? zlen (t ++ r)) with true by (unfold zlen; rewrite app_length; lia). f_equal.
  unfold zlen. rewrite Nat2Z.id, firstn_app, Nat.sub_diag, firstn_all. cbn [firstn]. apply app_nil_r.
Qed.

(** ** Documents of texts *)
Lemma utf8_len z : zlen (utf8 z) <= 4 /\ (z < 65536 -> zlen (utf8 z) <= 3).
Proof. unfold utf8. destruct (z <? 128), (z <? 2048), (z <? 65536) eqn:E; cbn [zlen List.length]; unfold zlen; cbn [List.length]; lia. Qed.
Lemma hex_range c x : hex c = Some x -> 0 <= x < 16.
Proof.
  unfold hex. destruct ((48 <=? b2z c) && (b2z c <=? 57)) eqn:A; [intros E; injection E as <-; lia|].
  destruct ((65 <=? b2z c) && (b2z c <=? 70)) eqn:B; [intros E; injection E as <-; lia|].
  destruct ((97 <=? b2z c) && (b2z c <=? 102)) eqn:C; [intros E; injection E as <-; lia|discriminate].
Qed.
Lemma hex4_range h z : hex4 h z -> zlen h = 4 /\ z < 65536.
Proof.
  intros (a & c & d & e & x & y & u & v & -> & A & B & C & D & ->). apply hex_range in A, B, C, D. split; [reflexivity|lia].
Qed.
Lemma chars_len t s : chars t s -> zlen s <= zlen t.
Proof.
  induction 1 as [|c t s _ _ P _ IH|e c t s E _ IH|h z t s X _ _ IH|h l y z t s X Y _ _ _ IH]; [reflexivity| | | |].
  - rewrite !zlen_cons. lia.
  - rewrite !zlen_cons. lia.
  - destruct (hex4_range _ _ X) as [L R]. pose proof (proj2 (utf8_len z) R). rewrite !zlen_app. change (zlen (lit "\u"%string)) with 2. lia.
  - destruct (hex4_range _ _ X) as [L _], (hex4_range _ _ Y) as [L' _].
    pose proof (proj1 (utf8_len (65536 + (y - 55296) * 1024 + (z - 56320)))). rewrite !zlen_app. change (zlen (lit "\u"%string)) with 2. lia.
Qed.
Lemma string_len t s : string_text t s -> zlen s < zlen t.
Proof. intros (c & -> & C). apply chars_len in C. rewrite zlen_cons, zlen_app. change (zlen [quote]) with 1. lia. Qed.
Lemma strict_document rd (G : gives_doubles rd) :
  (forall t d, strict rd t d -> zlen t < 2 ^ 32 -> document d) /\
  (forall t ms, strict_members rd t ms -> zlen t < 2 ^ 32 -> zlen ms <= zlen t /\ Forall (fun kv => zlen (fst kv) < 2 ^ 32 /\ document (snd kv)) ms) /\
  (forall t ds, strict_elements rd t ds -> zlen t < 2 ^ 32 -> zlen ds <= zlen t + 1 /\ Forall document ds).
Proof.
  apply (strict_mut rd (fun t d _ => zlen t < 2 ^ 32 -> document d)
    (fun t ms _ => zlen t < 2 ^ 32 -> zlen ms <= zlen t /\ Forall (fun kv => zlen (fst kv) < 2 ^ 32 /\ document (snd kv)) ms)
    (fun t ds _ => zlen t < 2 ^ 32 -> zlen ds <= zlen t + 1 /\ Forall document ds)).
  - intros w W L. apply everyj_obj; [reflexivity|constructor].
  - intros t ms M IH L. rewrite zlen_cons, zlen_app in L. change (zlen [x7d]) with 1 in L. destruct IH as [A B]; [lia|].
    apply everyj_obj; [cbn [doc_node]; lia|exact B].
  - intros w W L. apply everyj_arr; [reflexivity|constructor].
  - intros t ds M IH L. rewrite zlen_cons, zlen_app in L. change (zlen [x5d]) with 1 in L. destruct IH as [A B]; [lia|].
    apply everyj_arr; [cbn [doc_node]; lia|exact B].
  - intros t s T L. apply string_len in T. apply everyj_leaf; [exact Logic.I|]. cbn [doc_node]. lia.
  - intros t z T R L. apply everyj_leaf; [exact Logic.I|]. cbn [doc_node]. exact R.
  - intros t z T R L. apply everyj_leaf; [exact Logic.I|]. cbn [doc_node]. exact R.
  - intros t z T R L. apply everyj_leaf; [exact Logic.I|]. cbn [doc_node]. exact (G _).
  - intros t T L. apply everyj_leaf; [exact Logic.I|]. cbn [doc_node]. exact (G _).
  - intros _. apply everyj_leaf; exact Logic.I.
  - intros _. apply everyj_leaf; exact Logic.I.
  - intros _. apply everyj_leaf; exact Logic.I.
  - intros w1 kt k w2 w3 t d w4 W1 K W2 W3 T IH W4 L. apply string_len in K. repeat rewrite ?zlen_app, ?zlen_cons in L. repeat rewrite ?zlen_app, ?zlen_cons.
    pose proof (zlen_nonneg w1). pose proof (zlen_nonneg w2). pose proof (zlen_nonneg w3). pose proof (zlen_nonneg w4). pose proof (zlen_nonneg t). pose proof (zlen_nonneg k).
    change (zlen (@nil (str * jdoc))) with 0; split; [lia|]. constructor; [split; [cbn [fst]; lia|apply IH; lia]|constructor].
  - intros w1 kt k w2 w3 t d w4 r ms W1 K W2 W3 T IH W4 M IHm L. apply string_len in K. repeat rewrite ?zlen_app, ?zlen_cons in L. repeat rewrite ?zlen_app, ?zlen_cons.
    pose proof (zlen_nonneg w1). pose proof (zlen_nonneg w2). pose proof (zlen_nonneg w3). pose proof (zlen_nonneg w4). pose proof (zlen_nonneg t). pose proof (zlen_nonneg r). pose proof (zlen_nonneg k).
    destruct IHm as [A B]; [lia|]. split; [lia|]. constructor; [split; [cbn [fst]; lia|apply IH; lia]|exact B].
  - intros w1 t d w2 W1 T IH W2 L. repeat rewrite ?zlen_app, ?zlen_cons in L. repeat rewrite ?zlen_app, ?zlen_cons. pose proof (zlen_nonneg w1). pose proof (zlen_nonneg w2). pose proof (zlen_nonneg t).
    change (zlen (@nil jdoc)) with 0; split; [lia|]. constructor; [apply IH; lia|constructor].
  - intros w1 t d w2 r ds W1 T IH W2 M IHm L. repeat rewrite ?zlen_app, ?zlen_cons in L. repeat rewrite ?zlen_app, ?zlen_cons.
    pose proof (zlen_nonneg w1). pose proof (zlen_nonneg w2). pose proof (zlen_nonneg t). pose proof (zlen_nonneg r).
    destruct IHm as [A B]; [lia|]. split; [lia|]. constructor; [apply IH; lia|exact B].
Qed.
Lemma text_document rd t d : gives_doubles rd -> zlen t < 2 ^ 32 -> json_document rd t d -> document d.
Proof.
  intros G L (w1 & u & w2 & A & B & C & D). apply (proj1 (strict_document rd G) u d B).
  pose proof (zlen_nonneg w1). pose proof (zlen_nonneg w2).
  destruct D as [->|[r ->]]; rewrite !zlen_app in L; [lia|]. pose proof (zlen_nonneg (x00 :: r)). lia.
Qed.
