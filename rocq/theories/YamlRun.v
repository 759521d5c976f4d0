(** Facts: the state machine turns the events of a document with scalar keys into its
    value, or throws. *)

From Coq Require Import ZArith List Bool String Lia Sorted ZifyBool.
From Verif Require Import Base BaseFacts Keys KeysFacts Wire Spec SpecDec HeapOps HeapFacts SpecJson Json JsonFacts MergeTop SpecYaml Yaml YamlNum YamlFacts.
Import Init.Byte.
Import ListNotations.
Open Scope Z_scope.

Section NodeInd.
  Variable P : ynode -> Prop.
  Hypothesis HScalar : forall q s, P (YScalar q s).
  Hypothesis HAlias : P YAlias.
  Hypothesis HMap : forall ps, Forall (fun p => P (snd p)) ps -> P (YMap ps).
  Hypothesis HSeq : forall xs, Forall P xs -> P (YSeq xs).
  Fixpoint ynode_ind' (n : ynode) : P n :=
    match n with
    | YScalar q s => HScalar q s
    | YAlias => HAlias
    | YMap ps => HMap ps ((fix go (ps : list (ynode * ynode)) : Forall (fun p => P (snd p)) ps :=
        match ps with
        | [] => Forall_nil _
        | p :: r => Forall_cons p (ynode_ind' (snd p)) (go r)
        end) ps)
    | YSeq xs => HSeq xs ((fix go (xs : list ynode) : Forall P xs :=
        match xs with
        | [] => Forall_nil _
        | x :: r => Forall_cons x (ynode_ind' x) (go r)
        end) xs)
    end.
End NodeInd.

Section Run.
  Variable rt : Z -> Z -> bool.

  Definition ykey (n : ynode) : str := match n with YScalar _ k => k | _ => [] end.
  Fixpoint yval (n : ynode) : value :=
    match n with
    | YScalar _ s => parse_scalar rt s
    | YAlias => VNull
    | YMap ps => VObj (put_all (map (fun p => (ykey (fst p), yval (snd p))) ps) [])
    | YSeq xs => VArr (map yval xs)
    end.
  Definition short (k : str) : bool := zlen k <=? 65535.
  Fixpoint cleanb (n : ynode) : bool :=
    match n with
    | YScalar _ _ => true
    | YAlias => false
    | YMap ps => forallb (fun p => short (ykey (fst p)) && cleanb (snd p)) ps
    | YSeq xs => forallb cleanb xs
    end.

  Fixpoint y_run (es : list yevent) (p : yparser) : res yparser :=
    match es with
    | [] => Ok p
    | e :: r => p' <- y_event rt e p ;; y_run r p'
    end.
  Lemma y_run_app a : forall b p, y_run (a ++ b) p = (p' <- y_run a p ;; y_run b p').
  Proof.
    induction a as [|e a IH]; intros b p; [reflexivity|]. cbn [app y_run]. destruct (y_event rt e p); cbn [bind]; [apply IH|reflexivity..].
  Qed.
  Definition inner (e : yevent) : Prop := match e with Stream_end | Document_end => False | _ => True end.
  Lemma y_loop_app a : Forall inner a -> forall b p, y_loop rt (a ++ b) p = (p' <- y_run a p ;; y_loop rt b p').
  Proof.
    induction 1 as [|e a I A IH]; intros b p; [reflexivity|]. cbn [app y_run y_loop]. destruct (y_event rt e p) as [p'| | | |]; cbn [bind]; try reflexivity.
    rewrite <- IH. destruct e; try reflexivity; destruct I.
  Qed.
  (** ** One node, wherever it stands *)

  Inductive place := Under (k : str) (fs : list (str * value)) | Behind (vs : list value).
  Definition before (c : place) (S : list parse_state) (K O : list value) : yparser :=
    match c with
    | Under k fs => mk_yparser (VStr k) (VObj fs) P_mapping_value S K O
    | Behind vs => mk_yparser VNull (VArr vs) P_sequence_value S K O
    end.
  Definition after (c : place) (x : value) (S : list parse_state) (K O : list value) : yparser :=
    match c with
    | Under k fs => mk_yparser VNull (VObj (put k x fs)) P_mapping_key S K O
    | Behind vs => mk_yparser VNull (VArr (vs ++ [x])) P_sequence_value S K O
    end.
  Definition place_ok (c : place) : Prop :=
    match c with
    | Under k fs => StronglySorted key_lt (map fst fs)
    | Behind vs => zlen vs < 2 ^ 32
    end.
  Definition place_short (c : place) : bool := match c with Under k _ => short k | Behind _ => true end.
  Definition place_state (c : place) : parse_state := match c with Under _ _ => P_mapping_value | Behind _ => P_sequence_value end.
  Definition place_keys (c : place) (K : list value) : list value := match c with Under k _ => VStr k :: K | Behind _ => K end.
  Definition place_obj (c : place) : value := match c with Under _ fs => VObj fs | Behind vs => VArr vs end.

  Definition ends_as (ok : bool) (p : yparser) (r : res yparser) : Prop := if ok then r = Ok p else exists e, r = Throw e.

  Lemma begin_place c o s S K O : y_begin o s (before c S K O) = mk_yparser VNull o s (place_state c :: S) (place_keys c K) (place_obj c :: O).
  Proof. destruct c; reflexivity. Qed.
  Lemma end_place c x st S K O : place_ok c ->
    ends_as (place_short c) (after c x S K O) (y_end (mk_yparser VNull x st (place_state c :: S) (place_keys c K) (place_obj c :: O))).
  Proof.
    intros P. destruct c as [k fs|vs]; cbn [place_state place_keys place_obj place_short place_ok after] in *; unfold y_end; cbn [y_objs y_keys y_obj y_states y_key].
    - unfold short, ends_as. destruct (zlen k <=? 65535) eqn:L.
      + destruct (put_ok k x fs P ltac:(lia)) as (i & E & _). rewrite E. reflexivity.
      + rewrite insert_long by lia. cbn [bind]. eexists. reflexivity.
    - rewrite push_ok by assumption. reflexivity.
  Qed.
  Lemma scalar_place c s S K O : place_ok c -> ends_as (place_short c) (after c (parse_scalar rt s) S K O) (y_scalar rt s (before c S K O)).
  Proof.
    intros P. destruct c as [k fs|vs]; cbn [place_short place_ok after before] in *; unfold y_scalar; cbn [y_objs y_keys y_obj y_states y_key y_state].
    - unfold short, ends_as. destruct (zlen k <=? 65535) eqn:L.
      + destruct (put_ok k (parse_scalar rt s) fs P ltac:(lia)) as (i & E & _). rewrite E. reflexivity.
      + rewrite insert_long by lia. cbn [bind]. eexists. reflexivity.
    - rewrite push_ok by assumption. reflexivity.
  Qed.

  (** a step that fails ends the run *)
  Lemma ends_bind a b p q r (f : yparser -> res yparser) : ends_as a p r -> ends_as b q (f p) -> ends_as (a && b) q (p' <- r ;; f p').
  Proof.
    intros A B. destruct a; cbn [andb ends_as] in *.
    - rewrite A. exact B.
    - destruct A as [e ->]. exists e. reflexivity.
  Qed.
  Lemma ends_bind' a p q r (f : yparser -> res yparser) : ends_as a p r -> f p = Ok q -> ends_as a q (p' <- r ;; f p').
  Proof. intros A B. rewrite <- (andb_true_r a). eapply ends_bind; [exact A|exact B]. Qed.

  Definition node_ends (n : ynode) : Prop :=
    forall c S K O, place_ok c -> ends_as (cleanb n && place_short c) (after c (yval n) S K O) (y_run (node_events n) (before c S K O)).

  Lemma pairs_run ps : Forall (fun p => node_ends (snd p)) ps -> Forall (fun p => exists q k, fst p = YScalar q k) ps ->
    forall fs S K O, StronglySorted key_lt (map fst fs) ->
      ends_as (forallb (fun p => short (ykey (fst p)) && cleanb (snd p)) ps)
        (mk_yparser VNull (VObj (put_all (map (fun p => (ykey (fst p), yval (snd p))) ps) fs)) P_mapping_key S K O)
        (y_run (flat_map (fun p => match p with (k, x) => node_events k ++ node_events x end) ps) (mk_yparser VNull (VObj fs) P_mapping_key S K O)).
  Proof.
    induction 1 as [|[kn x] ps H F IH]; intros KS fs S K O SS; [reflexivity|]. inversion KS as [|? ? [q [k E]] KS']; subst. cbn [fst snd] in *. subst kn.
    cbn [flat_map forallb map fst snd ykey]. cbn [node_events app].
    cbn [y_run y_event]. unfold y_scalar at 1. cbn [y_state y_obj y_states y_keys y_objs bind].
    rewrite y_run_app.
    change (mk_yparser (VStr k) (VObj fs) P_mapping_value S K O) with (before (Under k fs) S K O).
    rewrite (andb_comm (short k)).
    eapply ends_bind; [apply (H (Under k fs)); exact SS|]. cbn [after].
    unfold put_all. cbn [fold_left fst snd]. fold (put_all (map (fun p => (ykey (fst p), yval (snd p))) ps) (put k (yval x) fs)).
    apply IH; [assumption|].
    destruct (zlen k <=? 65535) eqn:L.
    - destruct (put_ok k (yval x) fs SS ltac:(lia)) as (i & _ & SS' & _). exact SS'.
    - unfold put. rewrite insert_long by lia. exact SS.
  Qed.
  Lemma elements_run xs : Forall node_ends xs -> forall vs S K O, zlen vs + zlen xs <= 2 ^ 32 ->
    ends_as (forallb cleanb xs) (mk_yparser VNull (VArr (vs ++ map yval xs)) P_sequence_value S K O)
      (y_run (flat_map node_events xs) (mk_yparser VNull (VArr vs) P_sequence_value S K O)).
  Proof.
    induction 1 as [|x xs H F IH]; intros vs S K O L.
    - cbn [map forallb ends_as flat_map y_run]. now rewrite app_nil_r.
    - rewrite zlen_cons in L. pose proof (zlen_nonneg xs). cbn [flat_map forallb map]. rewrite y_run_app.
      change (mk_yparser VNull (VArr vs) P_sequence_value S K O) with (before (Behind vs) S K O).
      pose proof (H (Behind vs) S K O ltac:(cbn [place_ok]; lia)) as HX. cbn [place_short] in HX. rewrite andb_true_r in HX.
      eapply ends_bind; [exact HX|]. cbn [after]. replace (vs ++ yval x :: map yval xs) with ((vs ++ [yval x]) ++ map yval xs) by (rewrite <- app_assoc; reflexivity).
      apply IH. rewrite zlen_app. change (zlen [yval x]) with 1. lia.
  Qed.

  Lemma node_run n : scalar_keys n -> node_ends n.
  Proof.
    induction n as [q s| |ps F|xs F] using ynode_ind'; intros SK c S K O P.
    - cbn [node_events y_run y_event cleanb andb yval]. pose proof (scalar_place c s S K O P) as H.
      eapply ends_bind'; [exact H|reflexivity].
    - cbn [node_events y_run y_event cleanb andb]. exists parse_error. reflexivity.
    - inversion SK as [| | |? X]; subst. cbn [node_events app y_run y_event bind]. rewrite begin_place, y_run_app.
      eapply ends_bind.
      + apply pairs_run; [|eapply Forall_impl; [|exact X]; cbn beta; intros p Q; tauto|constructor].
        rewrite Forall_forall in *. intros p J. apply F; [assumption|]. apply (X p J).
      + cbn [y_run y_event]. eapply ends_bind'; [apply end_place; exact P|reflexivity].
    - inversion SK as [| |? L X|]; subst. cbn [node_events app y_run y_event bind]. rewrite begin_place, y_run_app.
      eapply ends_bind.
      + apply (elements_run xs) with (vs := []); [|rewrite zlen_nil; lia].
        rewrite Forall_forall in *. intros p J. apply F; [assumption|]. apply (X p J).
      + cbn [y_run y_event app]. eapply ends_bind'; [apply end_place; exact P|reflexivity].
  Qed.

  (** ** The root *)

  Definition aggregateb (n : ynode) : bool := match n with YMap _ | YSeq _ => true | _ => false end.
  Lemma root_run n : scalar_keys n ->
    ends_as (aggregateb n && cleanb n) (mk_yparser VNull (yval n) P_scalar [] [] []) (y_run (node_events n) y_initial).
  Proof.
    intros SK. destruct n as [q s| |ps|xs]; cbn [aggregateb andb].
    - exists parse_error. reflexivity.
    - exists parse_error. reflexivity.
    - inversion SK as [| | |? X]; subst. cbn [node_events app y_run y_event bind]. rewrite y_run_app.
      rewrite <- (andb_true_r (cleanb _)). eapply ends_bind.
      + apply pairs_run; [|eapply Forall_impl; [|exact X]; cbn beta; intros p Q; tauto|constructor].
        eapply Forall_impl; [|exact X]. cbn beta. intros p Q. apply node_run. tauto.
      + reflexivity.
    - inversion SK as [| |? L X|]; subst. cbn [node_events app y_run y_event bind]. rewrite y_run_app.
      rewrite <- (andb_true_r (cleanb _)). eapply ends_bind.
      + apply (elements_run xs) with (vs := []); [|rewrite zlen_nil; lia].
        eapply Forall_impl; [|exact X]. apply node_run.
      + reflexivity.
  Qed.

  Lemma events_inner n : scalar_keys n -> Forall inner (node_events n).
  Proof.
    induction n as [q s| |ps F|xs F] using ynode_ind'; intros SK; cbn [node_events].
    - constructor; [exact I|constructor].
    - constructor; [exact I|constructor].
    - inversion SK as [| | |? X]; subst.
      apply Forall_app. split; [constructor; [exact I|constructor]|]. apply Forall_app. split; [|constructor; [exact I|constructor]].
      apply Forall_flat_map. rewrite Forall_forall in *. intros [k x] J. destruct (X _ J) as [(q & k' & E) Y]. cbn [fst snd] in *. subst k.
      apply Forall_app. split; [constructor; [exact I|constructor]|]. apply (F _ J). exact Y.
    - inversion SK as [| |? L X|]; subst.
      apply Forall_app. split; [constructor; [exact I|constructor]|]. apply Forall_app. split; [|constructor; [exact I|constructor]].
      apply Forall_flat_map. rewrite Forall_forall in *. intros x J. apply (F _ J). apply (X _ J).
  Qed.

  Definition opening (n : ynode) : list yevent := [Stream_start; Document_start] ++ node_events n.
  Lemma opening_run n : y_run (opening n) y_initial = y_run (node_events n) y_initial.
  Proof. reflexivity. Qed.
  Lemma opening_inner n : scalar_keys n -> Forall inner (opening n).
  Proof. intros SK. constructor; [exact I|]. constructor; [exact I|]. now apply events_inner. Qed.

  Theorem document_run n rest : scalar_keys n ->
    if aggregateb n && cleanb n then from_yaml rt (document_events n ++ rest) = Ok (yval n)
    else exists e, from_yaml rt (document_events n ++ rest) = Throw e.
  Proof.
    intros SK. unfold from_yaml, document_events. rewrite <- !app_assoc.
    change ([Stream_start; Document_start] ++ node_events n ++ [Document_end] ++ rest) with (opening n ++ Document_end :: rest).
    rewrite y_loop_app by now apply opening_inner. rewrite opening_run.
    pose proof (root_run n SK) as R. destruct (aggregateb n && cleanb n) eqn:A; cbn [ends_as] in R.
    - rewrite R. cbn [bind y_loop y_event y_obj]. destruct n; try discriminate; reflexivity.
    - destruct R as [e ->]. exists e. reflexivity.
  Qed.

  (** Input that breaks off *)
  Theorem prefix_run n es r : scalar_keys n -> opening n = es ++ r -> exists e, from_yaml rt es = Throw e.
  Proof.
    intros SK E. pose proof (opening_inner n SK) as I. rewrite E in I. apply Forall_app in I. destruct I as [I _].
    unfold from_yaml. rewrite <- (app_nil_r es). rewrite y_loop_app by assumption.
    pose proof (root_run n SK) as R. rewrite <- opening_run, E, y_run_app in R.
    destruct (y_run es y_initial) as [p|e| | |]; cbn [bind] in *.
    - exists parse_error. reflexivity.
    - exists e. reflexivity.
    - destruct (aggregateb n && cleanb n); cbn [ends_as] in R; [discriminate|destruct R as [e R]; discriminate].
    - destruct (aggregateb n && cleanb n); cbn [ends_as] in R; [discriminate|destruct R as [e R]; discriminate].
    - destruct (aggregateb n && cleanb n); cbn [ends_as] in R; [discriminate|destruct R as [e R]; discriminate].
  Qed.

  (** ** The value is the meaning *)

  Lemma supported_keys n : supported n -> scalar_keys n.
  Proof.
    induction n as [q s| |ps F|xs F] using ynode_ind'; intros SP; try (constructor; fail).
    - inversion SP as [| | |? X]; subst. constructor. rewrite Forall_forall in *. intros p J. destruct (X p J) as [(q & k & E & _) Y].
      split; [exists q, k; assumption|apply (F p J Y)].
    - inversion SP as [| |? L X|]; subst. constructor; [assumption|]. rewrite Forall_forall in *. intros x J. apply (F x J). apply (X x J).
  Qed.
  Lemma supported_clean n : supported n -> cleanb n = true.
  Proof.
    induction n as [q s| |ps F|xs F] using ynode_ind'; intros SP; try reflexivity; cbn [cleanb].
    - inversion SP.
    - inversion SP as [| | |? X]; subst. apply forallb_forall. rewrite Forall_forall in *. intros p J. destruct (X p J) as [(q & k & E & L) Y].
      rewrite E. cbn [ykey]. unfold short. rewrite (F p J Y). lia.
    - inversion SP as [| |? L X|]; subst. apply forallb_forall. rewrite Forall_forall in *. intros x J. apply (F x J). apply (X x J).
  Qed.
  Lemma clean_iff n : scalar_keys n -> (cleanb n = true <-> clean n).
  Proof.
    induction n as [q s| |ps F|xs F] using ynode_ind'; intros SK; cbn [cleanb].
    - split; [constructor|reflexivity].
    - split; [discriminate|intros C; inversion C].
    - inversion SK as [| | |? X]; subst. rewrite forallb_forall. rewrite Forall_forall in *. split.
      + intros H. constructor. apply Forall_forall. intros p J. specialize (H p J). apply andb_prop in H. destruct H as [H1 H2]. split.
        * intros q k E. rewrite E in H1. unfold short in H1. cbn [ykey] in H1. lia.
        * apply (F p J); [apply (X p J)|assumption].
      + intros C p J. inversion C as [| |? Y]; subst. rewrite Forall_forall in Y. destruct (Y p J) as [Y1 Y2]. destruct (X p J) as [(q & k & E) X2].
        rewrite E. cbn [ykey]. apply andb_true_intro. split; [unfold short; specialize (Y1 q k E); lia|]. now apply (F p J).
    - inversion SK as [| |? L X|]; subst. rewrite forallb_forall. rewrite Forall_forall in *. split.
      + intros H. constructor. apply Forall_forall. intros x J. apply (F x J); [apply (X x J)|apply (H x J)].
      + intros C x J. inversion C as [|? Y|]; subst. rewrite Forall_forall in Y. apply (F x J); [apply (X x J)|apply (Y x J)].
  Qed.

  Lemma yval_means n : supported n -> ymeans n (yval n).
  Proof.
    induction n as [q s| |ps F|xs F] using ynode_ind'; intros SP; cbn [yval].
    - inversion SP as [? N|? N U| |]; subst.
      + constructor. now apply parse_scalar_value.
      + rewrite (U _ (parse_scalar_value rt s N)). constructor.
    - inversion SP.
    - inversion SP as [| | |? X]; subst. rewrite Forall_forall in F, X.
      set (ms := map (fun p => (ykey (fst p), snd p)) ps).
      assert (KV : map (fun p => (ykey (fst p), yval (snd p))) ps = map (fun kv => (fst kv, yval (snd kv))) ms).
      { unfold ms. rewrite map_map. reflexivity. }
      rewrite KV. set (kvs := map (fun kv => (fst kv, yval (snd kv))) ms).
      assert (K : Forall (fun kv => zlen (fst kv) <= 65535) kvs).
      { apply Forall_forall. intros kv J. apply in_map_iff in J. destruct J as (kd & <- & J). apply in_map_iff in J. destruct J as (p & <- & J).
        destruct (X p J) as [(q & k & E & L) _]. cbn [fst]. rewrite E. exact L. }
      destruct (put_all_lookup kvs K []) as [SS Q]; [constructor|].
      assert (R : forall k, lookup k (put_all kvs []) = option_map yval (last_member k ms)).
      { intros k. rewrite Q. unfold kvs. rewrite <- map_rev, lookup_map. unfold last_member. destruct (lookup k (rev ms)); reflexivity. }
      apply (ymeans_map ps ms); [|assumption| |].
      + assert (X' : Forall (fun p => exists q k, fst p = YScalar q k) ps).
        { apply Forall_forall. intros p J. destruct (X p J) as [(q & k & E & _) _]. exists q, k. exact E. }
        unfold ms. clear - X'. induction X' as [|p ps (q & k & E) X' IH]; cbn [map]; [constructor|].
        constructor; [|assumption]. cbn [fst snd]. split; [|reflexivity]. exists q. rewrite E. reflexivity.
      + intros k. rewrite R. destruct (last_member k ms); cbn; split; congruence.
      + intros k n v E V. rewrite R, E in V. cbn [option_map] in V. injection V as <-.
        apply lookup_in' in E. apply in_rev in E. apply in_map_iff in E. destruct E as (p & E & J). injection E as _ <-.
        apply (F p J). apply (X p J).
    - inversion SP as [| |? L X|]; subst. constructor. rewrite Forall_forall in F, X. clear L SP.
      induction xs as [|x xs IH]; cbn [map]; constructor.
      + apply F; [left; reflexivity|]. apply X. left. reflexivity.
      + apply IH; intros; [apply F; [right|]|apply X; right]; assumption.
  Qed.
End Run.

Lemma scalar_heap s v : zlen s < 2 ^ 32 -> scalar_value s v -> heap_value v.
Proof.
  intros L V. destruct V as [| | |t z H R|t neg num den d H T R|t N1 N2 N3 N4 N5].
  - constructor. exact I.
  - constructor. exact I.
  - constructor. exact I.
  - constructor. exact R.
  - constructor. apply R.
  - constructor. exact L.
Qed.
Lemma means_heap n : supported n -> storable n -> forall v, ymeans n v -> heap_value v.
Proof.
  induction n as [q s| |ps F|xs F] using ynode_ind'; intros SP ST v M.
  - inversion ST as [? ? L| |]; subst. inversion M as [? ? SV|?| |]; subst; [now apply (scalar_heap s)|]. constructor. exact L.
  - inversion SP.
  - inversion SP as [| | |? X]; subst. inversion ST as [| |? Y]; subst. inversion M as [| | |? ms fs A SS D V]; subst.
    rewrite Forall_forall in F, X, Y. constructor; [exact SS|]. apply Forall_forall. intros [k x] J.
    pose proof (in_lookup fs k x SS J) as L. destruct (last_member k ms) as [n|] eqn:E; [|apply D in E; congruence].
    pose proof (V k n x E L) as Mx. apply lookup_in' in E. apply in_rev in E.
    assert (P : exists p, In p ps /\ (exists q, fst p = YScalar q k) /\ snd p = n).
    { clear - A E. induction A as [|p m ps ms [(q & H1) H2] A IH]; [destruct E|]. destruct E as [->|E].
      - exists p. split; [left; reflexivity|]. split; [exists q; exact H1|exact H2].
      - destruct (IH E) as (p' & J & R). exists p'. split; [right; exact J|exact R]. }
    destruct P as (p & Jp & (q & Ek) & <-). destruct (X p Jp) as [(q' & k' & Ek' & Lk) Sp]. rewrite Ek in Ek'. injection Ek' as _ ->. split; [exact Lk|].
    cbn [snd]. apply (F p Jp Sp (Y p Jp) x Mx).
  - inversion SP as [| |? L X|]; subst. inversion ST as [|? Y|]; subst. inversion M as [| |? vs A|]; subst.
    constructor; [exact I|]. clear - F X Y A. induction A as [|x v xs vs H A IH]; constructor.
    + apply (Forall_inv F); [exact (Forall_inv X)|exact (Forall_inv Y)|exact H].
    + apply IH; [exact (Forall_inv_tail F)|exact (Forall_inv_tail X)|exact (Forall_inv_tail Y)].
Qed.
