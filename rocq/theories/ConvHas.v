(** What is read as a type is a value of the type. *)

From Coq Require Import ZArith List Bool Lia Sorting.Sorted Sorting.Permutation.
From Verif Require Import Base BaseFacts Keys Dec Wire Enc Spec SpecDec Ordered HeapFacts BufFacts SpecConv SpecHas Float SpecArith FloatFacts Float32
  Conv ConvBase ConvNum ConvRead ConvEmplace.
Import ListNotations.
Open Scope Z_scope.

(** ** Insertion keeps the arrangement *)
Section Put.
  Context {A : Type} (key : A -> cval) (D : cval -> Prop).

  Lemma put_ordered lt multi (x : A) l : proper (Ordered lt) D -> D (key x) -> Forall (fun y => D (key y)) l ->
    (multi = true \/ Forall (fun y => equiv (Ordered lt) (key x) (key y) = false) l) ->
    StronglySorted (fun p q => lt (key q) (key p) = false /\ (multi = false -> lt (key p) (key q) = true)) l ->
    StronglySorted (fun p q => lt (key q) (key p) = false /\ (multi = false -> lt (key p) (key q) = true)) (emplace_at key lt x l).
  Proof.
    intros (irr & tr & ntr) Dx. induction l as [|y l IH]; intros DL NE S; cbn [emplace_at].
    - constructor; constructor.
    - apply Forall_cons_iff in DL. destruct DL as [Dy DL]. apply StronglySorted_inv in S. destruct S as [S F].
      destruct (lt (key x) (key y)) eqn:E.
      + constructor; [constructor; auto|]. constructor.
        * split; auto. destruct (lt (key y) (key x)) eqn:E'; auto. rewrite <- (irr (key x)) by auto. symmetry. apply (tr _ (key y)); auto.
        * rewrite Forall_forall in *. intros z Hz. destruct (F z Hz) as [F1 F2]. split.
          -- destruct (lt (key z) (key x)) eqn:E'; auto. rewrite <- F1. symmetry. apply (tr _ (key x)); auto.
          -- intros M. apply (tr _ (key y)); auto.
      + constructor.
        * apply IH; auto. destruct NE as [NE|NE]; auto. right. apply Forall_cons_iff in NE. tauto.
        * eapply Permutation_Forall; [apply emplace_at_perm|]. constructor; auto. split; auto. intros M.
          destruct NE as [NE|NE]; [congruence|]. apply Forall_cons_iff in NE. destruct NE as [NE _]. cbn [equiv] in NE.
          rewrite E in NE. cbn in NE. destruct (lt (key y) (key x)); auto; discriminate.
  Qed.

  (** Equal ones next to each other. *)
  Section Hash.
    Context (keq : cval -> cval -> bool).
    Inductive blocks : list A -> Prop :=
    | blocks_nil : blocks []
    | blocks_cons x p q : blocks (p ++ q) -> Forall (fun y => keq (key x) (key y) = true) p ->
        Forall (fun y => keq (key x) (key y) = false) q -> blocks (x :: p ++ q).

    Hypothesis kr : forall x, D x -> keq x x = true.
    Hypothesis ks : forall x y, D x -> D y -> keq x y = true -> keq y x = true.
    Hypothesis kt : forall x y z, D x -> D y -> D z -> keq x y = true -> keq y z = true -> keq x z = true.

    Lemma hashed_skip (x : A) p q : Forall (fun y => keq (key x) (key y) = false) p ->
      emplace_hashed key keq x (p ++ q) = p ++ emplace_hashed key keq x q.
    Proof. induction 1 as [|y p Hy _ IH]; cbn [emplace_hashed app]; auto. rewrite Hy, IH. reflexivity. Qed.
    Lemma hashed_after (x : A) p q : p <> [] -> Forall (fun y => keq (key x) (key y) = true) p ->
      Forall (fun y => keq (key x) (key y) = false) q -> emplace_hashed key keq x (p ++ q) = p ++ x :: q.
    Proof.
      intros NE F G. induction F as [|y p Hy F IH]; [congruence|]. cbn [emplace_hashed app]. rewrite Hy. cbn [andb].
      destruct p as [|z p].
      - cbn [app]. replace (existsb (fun z => keq (key x) (key z)) q) with false; [reflexivity|].
        symmetry. apply not_true_iff_false. intros X. apply existsb_exists in X. destruct X as (z & Hz & X).
        rewrite Forall_forall in G. rewrite G in X; auto. discriminate.
      - apply Forall_cons_iff in F. destruct F as [Hz F]. cbn [app existsb]. rewrite Hz. cbn [orb negb].
        f_equal. apply IH. discriminate.
    Qed.

    Lemma keq_cong x y z : D x -> D y -> D z -> keq x y = true -> keq x z = keq y z.
    Proof.
      intros Dx Dy Dz E. destruct (keq x z) eqn:A1, (keq y z) eqn:A2; auto.
      - rewrite <- A2. symmetry. apply (kt y x z); auto.
      - rewrite <- A1. apply (kt x y z); auto.
    Qed.

    Lemma put_hashed (x : A) l : D (key x) -> Forall (fun y => D (key y)) l -> blocks l -> blocks (emplace_hashed key keq x l).
    Proof.
      intros Dx DL B. induction B as [|y p q B IH F G].
      - apply (blocks_cons x [] []); constructor.
      - apply Forall_cons_iff in DL. destruct DL as [Dy DL]. specialize (IH DL).
        assert (DP : forall z, In z (p ++ q) -> D (key z)) by (apply Forall_forall; auto).
        destruct (keq (key x) (key y)) eqn:E.
        + (* x belongs to y's block *)
          assert (F' : Forall (fun y => keq (key x) (key y) = true) p).
          { rewrite Forall_forall in *. intros z Hz. rewrite (keq_cong _ (key y)); auto. apply DP. apply in_or_app; auto. }
          assert (G' : Forall (fun y => keq (key x) (key y) = false) q).
          { rewrite Forall_forall in *. intros z Hz. rewrite (keq_cong _ (key y)); auto. apply DP. apply in_or_app; auto. }
          change (y :: p ++ q) with ((y :: p) ++ q). rewrite (hashed_after x (y :: p) q); [|discriminate|constructor; auto|auto].
          cbn [app]. replace (p ++ x :: q) with ((p ++ [x]) ++ q) by (rewrite <- app_assoc; reflexivity).
          constructor; auto.
          * rewrite <- app_assoc. cbn [app]. destruct p as [|z p].
            -- cbn [app]. apply (blocks_cons x [] q); auto.
            -- rewrite <- (hashed_after x (z :: p) q); auto. discriminate.
          * apply Forall_app. split; auto.
        + assert (F' : Forall (fun z => keq (key x) (key z) = false) p).
          { rewrite Forall_forall in *. intros z Hz. destruct (keq (key x) (key z)) eqn:Q; auto. rewrite <- E. symmetry.
            assert (D (key z)) by (apply DP; apply in_or_app; auto). apply (kt _ (key z)); auto. }
          change (emplace_hashed key keq x (y :: p ++ q)) with
            (if keq (key x) (key y) && negb (existsb (fun z => keq (key x) (key z)) (p ++ q)) then y :: x :: p ++ q
             else y :: emplace_hashed key keq x (p ++ q)).
          rewrite E. cbn [andb]. rewrite hashed_skip in IH |- * by auto. constructor; auto.
          eapply Permutation_Forall; [apply emplace_hashed_perm|]. constructor; auto.
          destruct (keq (key y) (key x)) eqn:Q; auto. rewrite <- E. symmetry. auto.
    Qed.

    Lemma blocks_adjacent e l : blocks l -> Forall (fun y => D (key y)) l -> adjacent (Hashed keq e) (map key l).
    Proof.
      intros B DL. induction B as [|x p q B IH F G].
      - intros i j k ? ? ? _ H. destruct i; discriminate.
      - apply Forall_cons_iff in DL. destruct DL as [Dx DL]. specialize (IH DL).
        intros i j k a b c L I J K E. destruct j as [|j]; [lia|]. destruct k as [|k]; [lia|]. destruct i as [|i].
        + cbn [map nth_error] in I, J, K. injection I as <-. cbn [equiv] in *.
          rewrite nth_error_map in J, K. destruct (nth_error (p ++ q) j) as [b'|] eqn:NJ; [|discriminate].
          destruct (nth_error (p ++ q) k) as [c'|] eqn:NK; [|discriminate]. cbn in J, K. injection J as <-. injection K as <-.
          destruct (Nat.lt_ge_cases k (length p)) as [P|P].
          * rewrite nth_error_app1 in NJ by lia. rewrite Forall_forall in F. apply F. eapply nth_error_In; eauto.
          * rewrite nth_error_app2 in NK by lia. rewrite Forall_forall in G. rewrite G in E; [discriminate|]. eapply nth_error_In; eauto.
        + cbn [map nth_error] in I, J, K. apply (IH i j k a b c); auto. lia.
    Qed.
  End Hash.

  Lemma emplace_incl o multi (x : A) l : incl (emplace key o multi x l) (x :: l).
  Proof.
    unfold emplace. destruct (negb multi && _); [intros y Hy; right; auto|].
    intros y Hy. destruct o as [lt|keq e].
    - exact (Permutation_in _ (Permutation_sym (emplace_at_perm key lt x l)) Hy).
    - exact (Permutation_in _ (Permutation_sym (emplace_hashed_perm key keq x l)) Hy).
  Qed.
  Lemma emplace_all_incl o multi l : incl (emplace_all key o multi l) l.
  Proof.
    induction l as [|x l IH] using rev_ind; [intros ? []|]. rewrite emplace_all_snoc. intros y Hy.
    apply emplace_incl in Hy. apply in_or_app. destruct Hy as [<-|Hy]; cbn; auto.
  Qed.
  Lemma emplace_all_len o multi l : (length (emplace_all key o multi l) <= length l)%nat.
  Proof.
    induction l as [|x l IH] using rev_ind; [cbn; auto|]. rewrite emplace_all_snoc, app_length. cbn [length]. unfold emplace.
    destruct (negb multi && _); [lia|].
    destruct o; [rewrite <- (Permutation_length (emplace_at_perm key lt x _)) | rewrite <- (Permutation_length (emplace_hashed_perm key keq x _))]; cbn [length]; lia.
  Qed.

  Lemma sorted_map R (l : list A) : StronglySorted (fun p q => R (key p) (key q)) l -> StronglySorted R (map key l).
  Proof.
    induction 1 as [|x l S IH F]; cbn [map]; constructor; auto. apply Forall_forall. intros y Hy. apply in_map_iff in Hy.
    destruct Hy as (z & <- & Hz). rewrite Forall_forall in F. auto.
  Qed.

  Lemma sorted_adjacent lt l : proper (Ordered lt) D -> Forall D l -> StronglySorted (fun x y => lt y x = false) l -> adjacent (Ordered lt) l.
  Proof.
    intros (irr & tr & ntr) DL S i j k x y z L I J K E. cbn [equiv] in *. apply andb_true_iff in E. destruct E as [E1 E2].
    rewrite negb_true_iff in *. rewrite Forall_forall in DL.
    assert (Dx : D x) by (apply DL; eapply nth_error_In; eauto). assert (Dy : D y) by (apply DL; eapply nth_error_In; eauto).
    assert (Dz : D z) by (apply DL; eapply nth_error_In; eauto).
    assert (A1 : lt y x = false) by (apply (sorted_nth lt l i j); auto; lia).
    assert (A2 : lt z y = false) by (apply (sorted_nth lt l j k); auto; lia).
    rewrite A1. destruct (lt x y) eqn:E; auto. destruct (ntr x z y); auto; congruence.
  Qed.

  Theorem emplace_all_arranged o multi l : proper o D -> Forall (fun y => D (key y)) l ->
    arranged o multi (map key (emplace_all key o multi l)).
  Proof.
    intros P DL.
    assert (DE : Forall (fun y => D (key y)) (emplace_all key o multi l)).
    { apply Forall_forall. intros y Hy. apply emplace_all_incl in Hy. rewrite Forall_forall in DL. auto. }
    assert (DM : Forall D (map key (emplace_all key o multi l))) by (apply Forall_map; auto).
    assert (C : forall m, (forall x, In x m -> D (key x)) -> forall x acc, D (key x) -> (negb multi && existsb (fun y => equiv o (key x) (key y)) acc = false) ->
       multi = true \/ Forall (fun y => equiv o (key x) (key y) = false) acc).
    { intros m _ x acc _ N. destruct multi; auto. cbn in N. right. apply Forall_forall. intros y Hy.
      destruct (equiv o (key x) (key y)) eqn:E; auto. rewrite <- N. symmetry. apply existsb_exists. eauto. }
    destruct o as [lt|keq e].
    - assert (S : StronglySorted (fun p q => lt (key q) (key p) = false /\ (multi = false -> lt (key p) (key q) = true)) (emplace_all key (Ordered lt) multi l)).
      { clear DE DM. induction l as [|x l IH] using rev_ind; [constructor|]. apply Forall_app in DL. destruct DL as [DL Dx].
        apply Forall_cons_iff in Dx. destruct Dx as [Dx _]. rewrite emplace_all_snoc. unfold emplace.
        destruct (negb multi && _) eqn:N; auto. apply put_ordered; auto.
        - apply Forall_forall. intros y Hy. apply emplace_all_incl in Hy. rewrite Forall_forall in DL. auto.
        - apply (C []); auto. intros ? []. }
      split.
      + split; [apply (sorted_map (fun x y => lt y x = false /\ (multi = false -> lt x y = true))); exact S|].
        destruct P as (irr & _). rewrite Forall_forall in *. auto.
      + intros ->. apply sorted_adjacent; auto. apply (sorted_map (fun x y => lt y x = false)).
        clear -S. induction S as [|x m S IH F]; constructor; auto. revert F. apply Forall_impl. tauto.
    - destruct P as (kr & ks & kt). split.
      + intros ->. clear DE DM. induction l as [|x l IH] using rev_ind; [constructor|]. apply Forall_app in DL. destruct DL as [DL Dx].
        apply Forall_cons_iff in Dx. destruct Dx as [Dx _]. specialize (IH DL). rewrite emplace_all_snoc. unfold emplace.
        destruct (negb false && _) eqn:N; auto. destruct (C [] ltac:(intros ? []) x _ Dx N) as [X|X]; [discriminate|].
        eapply fop_perm; [|apply Permutation_map; apply emplace_hashed_perm|].
        * intros a b []; auto.
        * cbn [map]. constructor; auto. apply Forall_map. rewrite Forall_forall in *. intros y Hy. pose proof (X y Hy) as Q. cbn [equiv] in Q.
          split; auto. apply emplace_all_incl in Hy. destruct (keq (key y) (key x)) eqn:Z; auto. rewrite <- Q. symmetry. apply ks; auto.
      + intros ->. apply blocks_adjacent; auto.
        clear DE DM. induction l as [|x l IH] using rev_ind; [constructor|]. apply Forall_app in DL. destruct DL as [DL Dx].
        apply Forall_cons_iff in Dx. destruct Dx as [Dx _]. specialize (IH DL). rewrite emplace_all_snoc. unfold emplace. cbn [negb andb].
        apply put_hashed; auto. apply Forall_forall. intros y Hy. apply emplace_all_incl in Hy. rewrite Forall_forall in DL. auto.
  Qed.
End Put.

(** ** Sizes *)
Lemma nodes_pos v : 1 <= nodes v.
Proof.
  induction v as [fs IH|vs IH|s|z|d|b|] using value_ind'; cbn [nodes]; try lia.
  - induction IH as [|p fs Hp _ IH]; [lia|]. lia.
  - induction IH as [|p fs Hp _ IH]; [lia|]. lia.
Qed.
Fixpoint total (l : list value) : Z := match l with [] => 0 | x :: r => nodes x + total r end.
Lemma nodes_arr vs : nodes (VArr vs) = 1 + total vs.
Proof. cbn [nodes]. induction vs as [|x vs IH]; cbn [total]; lia. Qed.
Lemma nodes_obj fs : nodes (VObj fs) = 1 + total (map snd fs).
Proof. cbn [nodes]. induction fs as [|x fs IH]; cbn [total map]; lia. Qed.
Lemma total_in x l : In x l -> nodes x <= total l.
Proof.
  assert (T : forall l, 0 <= total l) by (induction l0 as [|y l0 IH]; cbn [total]; [lia|]; pose proof (nodes_pos y); lia).
  induction l as [|y l IH]; intros []; cbn [total]; [subst; specialize (T l); lia|]. pose proof (nodes_pos y). specialize (IH H). lia.
Qed.
Lemma total_len l : zlen l <= total l.
Proof. induction l as [|x l IH]; [cbn; lia|]. rewrite zlen_cons. cbn [total]. pose proof (nodes_pos x). lia. Qed.

Lemma zlen_of_len {A B} (l : list A) (r : list B) : (length l <= length r)%nat -> zlen l <= zlen r.
Proof. unfold zlen. lia. Qed.

(** ** The theorem *)
Theorem from_dart_has t : lawful t -> forall v c, heap_value v -> nodes v < 2 ^ 63 -> from_dart t v = Ok c -> has t c.
Proof.
  induction t as [ | |i| | | |sk a IH|o m a IH|o k x IHk IHx|o k x IHk IHx|a IH|a b IHa IHb|ts IH|ts IH] using cty_ind';
    intros L v c HV HN E.
  - cbn in E. destruct v; try discriminate. apply Ok_inj in E. subst. reflexivity.
  - cbn [from_dart] in E. apply Ok_inj in E. subst. cbn [has]. eauto.
  - cbn [from_dart] in E. destruct v; try discriminate. apply Ok_inj in E. subst. cbn [lawful] in L. cbn [has].
    eexists. split; [reflexivity|]. split; [apply conv_range; lia|auto].
  - cbn [from_dart] in E. destruct v; try discriminate. apply Ok_inj in E. subst. cbn [has]. eexists. split; [reflexivity|].
    inversion HV; subst; auto.
  - cbn [from_dart] in E. destruct v as [| | | |d| |]; try discriminate. apply Ok_inj in E. subst. cbn [has]. eexists. split; [reflexivity|].
    assert (B : bits64 d) by (inversion HV; subst; auto). pose proof (to_float_rounded d B) as T.
    destruct (denote64 d); apply T.
  - cbn [from_dart] in E. destruct v; try discriminate. apply Ok_inj in E. subst. cbn [has]. eauto.
  - cbn [lawful] in L. destruct L as [La Lk]. cbn [from_dart] in E. destruct v as [|ws| | | | |]; try discriminate.
    rewrite nodes_arr in HN. pose proof (total_len ws) as TL.
    assert (G : forall l, Forall2 (fun w y => from_dart a w = Ok y) ws l -> zlen l < 2 ^ 63 /\ Forall (has a) l /\ length l = length ws).
    { intros l F. pose proof (forall2_len _ _ _ _ _ F) as FL. split; [unfold zlen in *; lia|]. split; [|auto]. apply Forall_forall. intros y Hy.
      destruct (forall2_in_r _ _ _ _ _ _ F Hy) as (w & Hw & Ew). apply (IH La w y); auto; [apply (heap_elem _ _ HV Hw)|].
      pose proof (total_in _ _ Hw). lia. }
    assert (X : exists l, Forall2 (fun w y => from_dart a w = Ok y) ws l /\ c = CList l /\ match sk with Arr n => length ws = n | _ => True end).
    { destruct sk.
      1-3: destruct (collect (map (from_dart a) ws)) as [l| | | |] eqn:Q; cbn [bind] in E; try discriminate; apply Ok_inj in E;
           apply collect_map_ok in Q; exists l; auto.
      - destruct (put_in_front _ _) as [l| | | |] eqn:Q; cbn [bind] in E; try discriminate. apply Ok_inj in E.
        apply put_in_front_map in Q. exists l. auto.
      - destruct (Nat.eqb_spec (length ws) n) as [N|N]; [|discriminate]. rewrite gather_id in E.
        destruct (collect (map (from_dart a) ws)) as [l| | | |] eqn:Q; cbn [bind] in E; try discriminate. apply Ok_inj in E.
        apply collect_map_ok in Q. exists l. auto. }
    destruct X as (l & F & -> & N). destruct (G l F) as (G1 & G2 & G3). cbn [has]. exists l. split; [reflexivity|]. split; [auto|]. split; [auto|].
    destruct sk; auto. split; [congruence|auto].
  - cbn [lawful] in L. destruct L as [La Lo]. cbn [from_dart] in E. destruct v as [|ws| | | | |]; try discriminate.
    rewrite nodes_arr in HN. pose proof (total_len ws) as TL.
    destruct (collect (map (from_dart a) ws)) as [l| | | |] eqn:Q; cbn [bind] in E; try discriminate. apply Ok_inj in E. subst c.
    apply collect_map_ok in Q. pose proof (forall2_len _ _ _ _ _ Q) as FL.
    assert (HL : Forall (has a) l).
    { apply Forall_forall. intros y Hy. destruct (forall2_in_r _ _ _ _ _ _ Q Hy) as (w & Hw & Ew).
      apply (IH La w y); auto; [apply (heap_elem _ _ HV Hw)|]. pose proof (total_in _ _ Hw). lia. }
    cbn [has]. eexists. split; [reflexivity|]. split; [|split].
    + pose proof (emplace_all_len (fun x => x) o m l). unfold zlen in *. lia.
    + apply Forall_forall. intros y Hy. apply emplace_all_incl in Hy. rewrite Forall_forall in HL. auto.
    + rewrite <- (map_id (emplace_all _ _ _ _)). apply (emplace_all_arranged (fun x => x) (has a)); auto.
  - cbn [lawful] in L. destruct L as (Lk & Lx & Lo). cbn [from_dart] in E. destruct v as [fs| | | | | |]; try discriminate.
    rewrite nodes_obj in HN. pose proof (total_len (map snd fs)) as TL.
    destruct (collect _) as [l| | | |] eqn:Q; cbn [bind] in E; try discriminate. apply Ok_inj in E. subst c.
    apply collect_map_ok in Q. pose proof (forall2_len _ _ _ _ _ Q) as FL.
    assert (HL : Forall (fun p => has k (fst p) /\ has x (snd p)) l).
    { apply Forall_forall. intros y Hy. destruct (forall2_in_r _ _ _ _ _ _ Q Hy) as ([s w] & Hw & Ew). cbn [fst snd] in Ew. unfold pair_of in Ew.
      destruct (from_dart k (VStr s)) as [k'| | | |] eqn:E1; cbn [bind] in Ew; try discriminate.
      destruct (from_dart x w) as [x'| | | |] eqn:E2; cbn [bind] in Ew; try discriminate. apply Ok_inj in Ew. subst y. cbn [fst snd].
      destruct (heap_field _ _ _ HV Hw) as [H1 H2]. split.
      - apply (IHk Lk (VStr s)); auto; [constructor; cbn [heap_node]; lia|cbn [nodes]; lia].
      - apply (IHx Lx w); auto. pose proof (total_in w (map snd fs) (in_map snd _ _ Hw)). lia. }
    cbn [has]. eexists. split; [reflexivity|]. split; [|split].
    + pose proof (emplace_all_len (@fst cval cval) o false l). unfold zlen in *. rewrite map_length in TL. lia.
    + apply Forall_forall. intros y Hy. apply emplace_all_incl in Hy. rewrite Forall_forall in HL. auto.
    + apply (emplace_all_arranged fst (has k)); auto. revert HL. apply Forall_impl. tauto.
  - cbn [lawful] in L. destruct L as (Lk & Lx & Lo). cbn [from_dart] in E. destruct v as [fs| | | | | |]; try discriminate.
    rewrite nodes_obj in HN.
    destruct (collect_groups _) as [l| | | |] eqn:Q; cbn [bind] in E; try discriminate. apply Ok_inj in E. subst c.
    apply groups_ok in Q. destruct Q as (gs & Q & ->). rewrite forall2_map_l in Q.
    assert (HL : Forall (fun p => has k (fst p) /\ has x (snd p)) (concat (map (fun g : cval * list cval => map (pair (fst g)) (snd g)) gs)) /\
                 zlen (concat (map (fun g : cval * list cval => map (pair (fst g)) (snd g)) gs)) <= total (map snd fs)).
    { assert (HF : forall s w, In (s, w) fs -> zlen s <= 65535 /\ heap_value w) by (intros s w Hw; apply (heap_field _ _ _ HV Hw)).
      assert (HT : total (map snd fs) < 2 ^ 63) by lia. clear HV HN.
      induction Q as [|[s w] [k' xs] fs gs [E1 E2] Q IHQ].
      - split; [constructor|]. cbn. lia.
      - cbn [map concat total fst snd] in *.
        assert (T0 : forall l, 0 <= total l) by (intros l0; pose proof (total_len l0); pose proof (zlen_nonneg l0); lia).
        specialize (T0 (map snd fs)). pose proof (nodes_pos w) as NW.
        destruct (IHQ ltac:(intros; apply HF; right; auto) ltac:(lia)) as [I1 I2].
        destruct (HF s w (or_introl eq_refl)) as [H1 H2].
        assert (K : has k k') by (apply (IHk Lk (VStr s)); auto; [constructor; cbn [heap_node]; lia|cbn [nodes]; lia]).
        assert (X : Forall (has x) xs /\ zlen xs <= nodes w).
        { assert (ONE : forall w', heap_value w' -> nodes w' < 2 ^ 63 -> collect [from_dart x w'] = Ok xs -> Forall (has x) xs /\ zlen xs <= nodes w').
          { intros w' A1 A2 A3. change [from_dart x w'] with (map (from_dart x) [w']) in A3. apply collect_map_ok in A3.
            inversion A3 as [|? y ? r A4 A5]; subst. inversion A5; subst. split; [constructor; [apply (IHx Lx w'); auto|constructor]|].
            change (zlen [y]) with 1. apply nodes_pos. }
          destruct w as [| ws | | | | |]; try (apply ONE; auto; lia).
          apply collect_map_ok in E2. rewrite nodes_arr in *. split.
          - apply Forall_forall. intros y Hy. destruct (forall2_in_r _ _ _ _ _ _ E2 Hy) as (w & Hw & Ew).
            apply (IHx Lx w y); auto; [apply (heap_elem _ _ H2 Hw)|]. pose proof (total_in _ _ Hw). lia.
          - pose proof (forall2_len _ _ _ _ _ E2). pose proof (total_len ws). unfold zlen in *. lia. }
        destruct X as [X1 X2]. split.
        + apply Forall_app. split; auto. apply Forall_map. cbn [fst snd]. revert X1. apply Forall_impl. auto.
        + rewrite zlen_app. assert (zlen (map (pair k') xs) = zlen xs) by (unfold zlen; rewrite map_length; auto). lia. }
    destruct HL as [HL ZL]. set (l := concat _) in *.
    cbn [has]. eexists. split; [reflexivity|]. split; [|split].
    + pose proof (emplace_all_len (@fst cval cval) o true l). unfold zlen in *. lia.
    + apply Forall_forall. intros y Hy. apply emplace_all_incl in Hy. rewrite Forall_forall in HL. auto.
    + apply (emplace_all_arranged fst (has k)); auto. revert HL. apply Forall_impl. tauto.
  - cbn [lawful] in L. assert (G : bind (from_dart a v) (fun x => Ok (COpt (Some x))) = Ok c \/ c = COpt None).
    { cbn [from_dart] in E. destruct v; auto. apply Ok_inj in E. auto. }
    cbn [has]. destruct G as [G|G]; auto. right. destruct (from_dart a v) as [y| | | |] eqn:Q; cbn [bind] in G; try discriminate.
    apply Ok_inj in G. eauto.
  - cbn [lawful] in L. destruct L as [La Lb]. cbn [from_dart] in E. destruct v as [|[|w [|u [|]]]| | | | |]; try discriminate.
    rewrite nodes_arr in HN. cbn [total] in HN. pose proof (nodes_pos w). pose proof (nodes_pos u).
    destruct (from_dart a w) as [y| | | |] eqn:E1; cbn [bind] in E; try discriminate.
    destruct (from_dart b u) as [z| | | |] eqn:E2; cbn [bind] in E; try discriminate. apply Ok_inj in E. subst c.
    cbn [has]. exists y, z. split; [reflexivity|].
    split; [apply (IHa La w)|apply (IHb Lb u)]; auto; try lia; apply (heap_elem _ _ HV); cbn; auto.
  - cbn [lawful] in L. apply all_iff in L. cbn [from_dart] in E. destruct v as [|ws| | | | |]; try discriminate.
    rewrite nodes_arr in HN. pose proof (total_len ws) as TL.
    destruct (Nat.eqb_spec (length ws) (length ts)) as [N|N]; [|discriminate]. rewrite gather_id in E.
    destruct (collect _) as [l| | | |] eqn:Q; cbn [bind] in E; try discriminate. apply Ok_inj in E. subst c.
    cbn [has]. exists l. split; [reflexivity|]. apply collect_ok in Q.
    assert (ZL : length (zip_with from_dart ts ws) = length ws).
    { clear -N. revert ws N. induction ts as [|a ts IH]; intros [|w ws] N; try discriminate; cbn [zip_with length]; auto. }
    pose proof (forall2_len _ _ _ _ _ Q) as FL. split; [unfold zlen in *; lia|].
    assert (W : forall w, In w ws -> heap_value w /\ nodes w < 2 ^ 63).
    { intros w Hw. split; [apply (heap_elem _ _ HV Hw)|]. pose proof (total_in _ _ Hw). lia. }
    clear HV HN TL ZL FL. revert ws l N Q W. induction IH as [|a ts Ha _ IHt]; intros [|w ws] l N Q W; try discriminate.
    + cbn in Q. inversion Q; subst. exact I.
    + cbn [zip_with] in Q. inversion Q as [|? y ? l' E1 E2]; subst. apply Forall_cons_iff in L. destruct L as [La L].
      injection N as N. destruct (W w (or_introl eq_refl)) as [W1 W2].
      split; [apply (Ha La w)|]; auto. apply (IHt L ws l' N E2). intros; apply W; right; auto.
  - cbn [lawful] in L. apply all_iff in L. cbn [from_dart] in E.
    destruct (first_ok_spec (fun a => from_dart a v) ts O (fun a => tame_from a v)) as [(j & a & y & N & F & _ & E')|[_ E']]; [|congruence].
    rewrite E' in E. apply Ok_inj in E. subst c. cbn [has plus]. exists j, y. split; [reflexivity|].
    apply pick_iff. exists a. split; auto. rewrite Forall_forall in IH, L. pose proof (nth_error_In _ _ N) as I. apply (IH a I (L a I) v y); auto.
Qed.
