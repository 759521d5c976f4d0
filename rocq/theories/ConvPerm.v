(** When comparing against a set holds: std::is_permutation, and packets against each
    other. *)

From Coq Require Import ZArith List Bool Lia Sorting.Sorted Sorting.Permutation.
From Verif Require Import Base BaseFacts Keys KeysFacts Dec Wire Enc Spec SpecDec SpecCmp Ordered HeapFacts BufFacts Lookup JsonFacts JsonSame MakeFacts Compare CompareFacts
  SpecConv Conv ConvBase ConvNum ConvStore ConvBack ConvSelf ConvExact.
Import ListNotations.
Open Scope nat_scope.

(** ** std::is_permutation *)
Section Perm.
  Context {A B : Type} (self : A -> A -> res bool) (eq : A -> B -> res bool) (s : A -> A -> bool) (e : A -> B -> bool).

  (** How many of a list satisfy something. *)
  Fixpoint cnt {C} (f : C -> bool) (l : list C) : nat :=
    match l with [] => O | x :: r => (if f x then 1 else 0) + cnt f r end.

  Lemma cnt_app C (f : C -> bool) l r : cnt f (l ++ r) = cnt f l + cnt f r.
  Proof. induction l as [|x l IH]; cbn [cnt app]; lia. Qed.
  Lemma cnt_perm C (f : C -> bool) l r : Permutation l r -> cnt f l = cnt f r.
  Proof. induction 1; cbn [cnt]; lia. Qed.
  Lemma cnt_zero C (f : C -> bool) l : cnt f l = 0 <-> forall x, In x l -> f x = false.
  Proof.
    induction l as [|x l IH]; cbn [cnt In]; [tauto|]. split.
    - intros H y [<-|Hy]; [destruct (f x); lia|]. apply IH; auto. lia.
    - intros H. rewrite (H x) by auto. apply IH. auto.
  Qed.
  Lemma cnt_pos C (f : C -> bool) l : cnt f l <> 0 -> exists x, In x l /\ f x = true.
  Proof.
    induction l as [|x l IH]; cbn [cnt In]; [lia|]. intros H. destruct (f x) eqn:F; [eauto|].
    destruct IH as (y & Hy & Fy); [lia|]. eauto.
  Qed.
  Lemma cnt_ext C (f g : C -> bool) l : (forall x, In x l -> f x = g x) -> cnt f l = cnt g l.
  Proof. induction l as [|x l IH]; cbn [cnt In]; auto. intros H. rewrite (H x) by auto. rewrite IH; auto. Qed.

  Lemma count_ok C (f : C -> res bool) (g : C -> bool) l : (forall x, In x l -> f x = Ok (g x)) -> count f l = Ok (cnt g l).
  Proof.
    induction l as [|x l IH]; cbn [count cnt In]; auto. intros H. rewrite (H x) by auto. cbn [bind]. rewrite IH by auto. cbn [bind].
    destruct (g x); reflexivity.
  Qed.
  Lemma find_ok C (f : C -> res bool) (g : C -> bool) l : (forall x, In x l -> f x = Ok (g x)) -> find_in f l = Ok (existsb g l).
  Proof.
    induction l as [|x l IH]; cbn [find_in existsb In]; auto. intros H. rewrite (H x) by auto. cbn [bind].
    destruct (g x); cbn [orb]; auto.
  Qed.

  (** What [self] and [eq] have to do with each other. *)
  Definition coherent (l : list A) (r : list B) : Prop :=
    (forall x y, In x l -> In y l -> self x y = Ok (s x y)) /\
    (forall x y, In x l -> In y r -> eq x y = Ok (e x y)) /\
    (forall x y, In x l -> In y l -> s x y = true -> s y x = true) /\
    (forall x y z, In x l -> In y l -> In z l -> s x y = true -> s y z = true -> s x z = true) /\
    (forall x y z, In x l -> In y l -> In z r -> s x y = true -> e x z = true -> e y z = true) /\
    (forall x y z, In x l -> In y l -> In z r -> e x z = true -> e y z = true -> s x y = true).

  Lemma coherent_sub l r l' r' : incl l' l -> incl r' r -> coherent l r -> coherent l' r'.
  Proof.
    intros I J (C1 & C2 & C3 & C4 & C5 & C6).
    split; [|split; [|split; [|split; [|split]]]]; intros; eauto.
  Qed.

  Definition balanced (l : list A) (r : list B) : Prop := forall x, In x l -> cnt (e x) r = cnt (s x) l /\ cnt (e x) r <> 0.

  Definition matched (l : list A) (r : list B) : Prop :=
    exists r', Permutation r r' /\ Forall2 (fun x y => e x y = true) l r'.

  Lemma forall2_pick C D (R : C -> D -> Prop) l r x : Forall2 R l r -> In x l -> exists y, In y r /\ R x y.
  Proof. induction 1 as [|a b l r E F IH]; intros []; [subst; exists b; cbn; auto|]. destruct IH as (y & Hy & Y); auto. exists y. cbn. auto. Qed.

  Lemma matched_balanced l r : coherent l r -> matched l r -> balanced l r.
  Proof.
    intros (C1 & C2 & C3 & C4 & C5 & C6) (r' & P & F) x Hx.
    assert (HR : forall y, In y r' -> In y r) by (intros; eapply Permutation_in; [symmetry; eauto|auto]).
    rewrite (cnt_perm _ _ _ _ P). clear P.
    assert (G : forall l1 r1, incl l1 l -> incl r1 r' -> Forall2 (fun x y => e x y = true) l1 r1 -> cnt (e x) r1 = cnt (s x) l1).
    { intros l1 r1 I J G. induction G as [|a b l1 r1 E G IH]; auto. cbn [cnt].
      rewrite IH by (intros ? ?; (apply I || apply J); right; auto). f_equal.
      assert (In a l) by (apply I; left; auto). assert (In b r) by (apply HR, J; left; auto).
      destruct (e x b) eqn:Q1, (s x a) eqn:Q2; auto.
      - rewrite (C6 x a b) in Q2; auto. discriminate.
      - assert (e x b = true) by (apply (C5 a x b); auto). congruence. }
    split; [apply G; auto using incl_refl|].
    intros Z. destruct (forall2_pick _ _ _ _ _ _ F Hx) as (y & Hy & E). rewrite (proj1 (cnt_zero _ _ _) Z y Hy) in E. discriminate.
  Qed.

  Lemma balanced_matched l : forall r, length l = length r -> coherent l r -> balanced l r -> matched l r.
  Proof.
    induction l as [|x l IH]; intros r L C H.
    - destruct r; [|discriminate]. exists []. auto.
    - destruct (H x (or_introl eq_refl)) as [Hc Hn]. destruct (cnt_pos _ _ _ Hn) as (y & Hy & E).
      destruct (in_split _ _ Hy) as (r1 & r2 & ->).
      assert (P : Permutation (r1 ++ y :: r2) (y :: r1 ++ r2)) by (symmetry; apply Permutation_middle).
      assert (C' : coherent l (r1 ++ r2)).
      { revert C. apply coherent_sub; intros z Hz; [right; auto|]. apply in_app_iff in Hz. apply in_or_app. cbn. tauto. }
      destruct (IH (r1 ++ r2)) as (r' & P' & F).
      + rewrite app_length in *. cbn [length] in L. lia.
      + exact C'.
      + intros z Hz. destruct (H z (or_intror Hz)) as [Zc Zn]. rewrite (cnt_perm _ _ _ _ P) in Zc, Zn. cbn [cnt] in Zc, Zn.
        destruct C as (_ & _ & C3 & C4 & C5 & C6).
        assert (Q : s z x = e z y).
        { destruct (s z x) eqn:Q1, (e z y) eqn:Q2; auto.
          - assert (e z y = true) by (apply (C5 x z y); cbn; auto; apply C3; cbn; auto). congruence.
          - assert (s z x = true) by (apply (C6 z x y); cbn; auto). congruence. }
        rewrite Q in Zc. split; [lia|].
        (* z is equal to something, so to itself *)
        intros Z0. assert (W : cnt (s z) l = 0) by lia.
        destruct (cnt_pos _ (e z) (y :: r1 ++ r2)) as (w & Hw & Ew); [cbn [cnt]; lia|].
        assert (S : s z z = true).
        { apply (C6 z z w); cbn; auto. cbn in Hw. rewrite in_app_iff in *. cbn. tauto. }
        rewrite (proj1 (cnt_zero _ _ _) W z Hz) in S. discriminate.
      + exists (y :: r'). split; [rewrite P; constructor; auto|]. constructor; auto.
  Qed.

  (** Checking from each first occurrence on. *)
  Lemma perm_count_spec l r : coherent l r -> forall seen todo, l = seen ++ todo ->
    exists b, perm_count self eq seen todo r = Ok b /\
      (b = true <-> forall x, In x todo -> (forall y, In y seen -> s y x = false) -> cnt (e x) r = cnt (s x) l /\ cnt (e x) r <> 0).
  Proof.
    intros C. destruct C as (C1 & C2 & C3 & C4 & C5 & C6). intros seen todo. revert seen.
    induction todo as [|x todo IH]; intros seen E.
    - exists true. cbn. split; auto. split; auto. intros _ x [].
    - cbn [perm_count].
      assert (IX : In x l) by (rewrite E; apply in_or_app; cbn; auto).
      assert (IS : forall y, In y seen -> In y l) by (intros y Hy; rewrite E; apply in_or_app; auto).
      assert (IT : forall y, In y (x :: todo) -> In y l) by (intros y Hy; rewrite E; apply in_or_app; auto).
      rewrite (find_ok _ (fun y => self y x) (fun y => s y x)) by (intros; apply C1; auto). cbn [bind].
      destruct (IH (seen ++ [x])) as (b & Eb & Hb); [rewrite <- app_assoc; exact E|].
      destruct (existsb (fun y => s y x) seen) eqn:D.
      + exists b. split; [exact Eb|]. rewrite Hb. apply existsb_exists in D. destruct D as (y0 & Hy0 & Sy0). split.
        * intros H z [<-|Hz] Nz; [rewrite (Nz y0 Hy0) in Sy0; discriminate|].
          apply H; auto. intros y Hy. apply in_app_iff in Hy. destruct Hy as [Hy|[<-|[]]]; auto.
          destruct (s x z) eqn:Q; auto. rewrite <- (Nz y0 Hy0). symmetry. apply (C4 y0 x z); auto. apply IT; right; auto.
        * intros H z Hz Nz. apply H; [right; auto|]. intros y Hy. apply Nz. apply in_or_app; auto.
      + assert (NS : forall y, In y seen -> s y x = false).
        { intros y Hy. destruct (s y x) eqn:Q; auto. assert (existsb (fun y => s y x) seen = true) by (apply existsb_exists; eauto). congruence. }
        rewrite (count_ok _ (fun y => eq x y) (e x)) by (intros; apply C2; auto). cbn [bind].
        destruct (Nat.eqb_spec (cnt (e x) r) 0) as [Z|NZ].
        { exists false. split; auto. split; [discriminate|]. intros H. destruct (H x (or_introl eq_refl) NS). tauto. }
        rewrite (count_ok _ (fun y => self y x) (fun y => s y x)) by (intros; apply C1; auto). cbn [bind].
        assert (K : cnt (fun y => s y x) (x :: todo) = cnt (s x) l).
        { rewrite E, cnt_app. rewrite (proj2 (cnt_zero _ (s x) seen)).
          - cbn [plus]. apply cnt_ext. intros y Hy. destruct (s y x) eqn:Q1, (s x y) eqn:Q2; auto.
            + rewrite (C3 y x) in Q2; auto.
            + rewrite (C3 x y) in Q1; auto.
          - intros y Hy. destruct (s x y) eqn:Q; auto. rewrite <- (NS y Hy). symmetry. apply C3; auto. }
        rewrite K. destruct (Nat.eqb_spec (cnt (s x) l) (cnt (e x) r)) as [Q|Q].
        2: { exists false. split; auto. split; [discriminate|]. intros H. destruct (H x (or_introl eq_refl) NS). congruence. }
        exists b. split; [exact Eb|]. rewrite Hb. split.
        * intros H z [<-|Hz] Nz; [auto|].
          destruct (s x z) eqn:SX.
          -- assert (IZ : In z l) by (apply IT; right; auto).
             assert (X1 : cnt (e x) r = cnt (e z) r).
             { apply cnt_ext. intros y Hy. destruct (e x y) eqn:Q1, (e z y) eqn:Q2; auto.
               - rewrite (C5 x z y) in Q2; auto.
               - rewrite (C5 z x y) in Q1; auto. }
             assert (X2 : cnt (s x) l = cnt (s z) l).
             { apply cnt_ext. intros y Hy. destruct (s x y) eqn:Q1, (s z y) eqn:Q2; auto.
               - rewrite (C4 z x y) in Q2; auto.
               - rewrite (C4 x z y) in Q1; auto. }
             split; congruence.
          -- apply H; auto. intros y Hy. apply in_app_iff in Hy. destruct Hy as [Hy|[<-|[]]]; auto.
        * intros H z Hz Nz. apply H; [right; auto|]. intros y Hy. apply Nz. apply in_or_app; auto.
  Qed.

  Lemma matched_cons x y l r : coherent (x :: l) (y :: r) -> length l = length r -> e x y = true ->
    (matched (x :: l) (y :: r) <-> matched l r).
  Proof.
    intros C L E. split.
    - intros M. apply matched_balanced in M; auto. apply balanced_matched; auto.
      + revert C. apply coherent_sub; intros ? ?; right; auto.
      + intros z Hz. destruct (M z (or_intror Hz)) as [Zc Zn]. cbn [cnt] in Zc, Zn.
        destruct C as (_ & _ & C3 & C4 & C5 & C6).
        assert (Q : s z x = e z y).
        { destruct (s z x) eqn:Q1, (e z y) eqn:Q2; auto.
          - assert (e z y = true) by (apply (C5 x z y); cbn; auto; apply C3; cbn; auto). congruence.
          - assert (s z x = true) by (apply (C6 z x y); cbn; auto). congruence. }
        rewrite Q in Zc. split; [lia|].
        intros Z0. assert (W : cnt (s z) l = 0) by lia.
        destruct (cnt_pos _ (e z) (y :: r)) as (w & Hw & Ew); [cbn [cnt]; lia|].
        assert (S : s z z = true) by (apply (C6 z z w); cbn in *; auto).
        rewrite (proj1 (cnt_zero _ _ _) W z Hz) in S. discriminate.
    - intros (r' & P & F). exists (y :: r'). split; [constructor; auto|constructor; auto].
  Qed.

  Theorem is_perm_spec l : forall r, length l = length r -> coherent l r ->
    exists b, is_perm self eq l r = Ok b /\ (b = true <-> matched l r).
  Proof.
    induction l as [|x l IH]; intros [|y r] L C; try discriminate.
    - exists true. cbn. split; auto. split; auto. intros _. exists []. auto.
    - cbn [is_perm]. pose proof C as (C1 & C2 & _). rewrite (C2 x y) by (cbn; auto). cbn [bind]. injection L as L.
      destruct (e x y) eqn:E.
      + destruct (IH r L) as (b & Eb & Hb).
        { revert C. apply coherent_sub; intros ? ?; right; auto. }
        exists b. split; auto. rewrite Hb. symmetry. apply matched_cons; auto.
      + destruct (perm_count_spec _ _ C [] (x :: l) eq_refl) as (b & Eb & Hb). exists b. split; auto. rewrite Hb. split.
        * intros H. apply balanced_matched; auto; [cbn [length]; lia|]. intros z Hz. apply H; auto. intros ? [].
        * intros M z Hz _. apply (matched_balanced _ _ C M); auto.
  Qed.
End Perm.

Open Scope Z_scope.

(** ** Packets against each other *)
Lemma pkt_obj fs gs : pkt_eqb (VObj fs) (VObj gs) = true <->
  Forall2 (fun p q => str_same (fst p) (fst q) = true /\ pkt_eqb (snd p) (snd q) = true) fs gs.
Proof.
  revert gs. induction fs as [|[k a] fs IH]; intros [|[j b] gs]; cbn [pkt_eqb]; split; intros H; try discriminate; try constructor;
    try (inversion H; fail); try reflexivity.
  - rewrite !andb_true_iff in H. cbn. tauto.
  - rewrite !andb_true_iff in H. apply IH. cbn [pkt_eqb]. tauto.
  - inversion H as [|? ? ? ? [X Y] F]; subst. cbn [fst snd] in *. apply IH in F. cbn [pkt_eqb] in F. rewrite X, Y, F. reflexivity.
Qed.
Lemma pkt_arr vs ws : pkt_eqb (VArr vs) (VArr ws) = true <-> Forall2 (fun a b => pkt_eqb a b = true) vs ws.
Proof.
  revert ws. induction vs as [|a vs IH]; intros [|b ws]; cbn [pkt_eqb]; split; intros H; try discriminate; try constructor;
    try (inversion H; fail); try reflexivity.
  - rewrite !andb_true_iff in H. tauto.
  - rewrite !andb_true_iff in H. apply IH. cbn [pkt_eqb]. tauto.
  - inversion H as [|? ? ? ? X F]; subst. apply IH in F. cbn [pkt_eqb] in F. rewrite X, F. reflexivity.
Qed.

Theorem pkt_content v : forall w, heap_value v -> heap_value w -> nul_free v -> (pkt_eqb v w = true <-> content_eq v w).
Proof.
  induction v as [fs IH|vs IH|s|z|d|b|] using value_ind'; intros w H1 H2 NU;
    destruct w as [gs|ws|s'|z'|d'|b'|]; try (split; [discriminate|intros C; inversion C]; fail).
  - rewrite pkt_obj, content_obj by (apply heap_sorted; assumption).
    inversion NU as [? _ U| | | | | |]; subst. rewrite Forall_forall in IH, U.
    assert (P : forall a b, In a fs -> In b gs ->
      (str_same (fst a) (fst b) = true /\ pkt_eqb (snd a) (snd b) = true <-> field_eq a b)).
    { intros [k a] [j b] I J. unfold field_eq. cbn [fst snd].
      rewrite (IH _ I b (proj2 (heap_field _ _ _ H1 I)) (proj2 (heap_field _ _ _ H2 J)) (proj2 (U _ I))). cbn [snd].
      split; intros [X Y]; (split; [|exact Y]).
      - apply str_same_eq; [apply (U _ I)|exact X].
      - cbn [fst] in X. subst j. apply str_same_refl. }
    split; intros F; (eapply CompareFacts.forall2_impl; [exact F|]); intros a b I J; apply P; assumption.
  - rewrite pkt_arr. inversion NU as [|? _ U| | | | |]; subst. rewrite Forall_forall in IH, U.
    assert (P : forall a b, In a vs -> In b ws -> (pkt_eqb a b = true <-> content_eq a b)).
    { intros a b I J. apply (IH _ I); [apply (heap_elem _ _ H1 I)|apply (heap_elem _ _ H2 J)|apply (U _ I)]. }
    split; intros F; [constructor | inversion F as [|? ? F' | | | | |]; subst; clear F; rename F' into F];
      (eapply CompareFacts.forall2_impl; [exact F|]); intros a b I J; apply P; assumption.
  - cbn [pkt_eqb]. inversion NU as [| |? N| | | |]; subst. split.
    + intros E. apply str_same_eq in E; [|assumption]. subst. constructor.
    + intros C. inversion C; subst. apply str_same_refl.
  - cbn [pkt_eqb]. rewrite Z.eqb_eq. split; [intros ->; constructor|intros C; inversion C; reflexivity].
  - cbn [pkt_eqb]. inversion H1 as [| | | |? R| |]; subst. inversion H2 as [| | | |? R'| |]; subst.
    rewrite (ieee_denote _ _ R R'). split; [intros []; constructor; assumption|intros C; inversion C; auto].
  - cbn [pkt_eqb]. rewrite eqb_true_iff. split; [intros ->; constructor|intros C; inversion C; reflexivity].
  - split; [constructor|reflexivity].
Qed.

Lemma content_trans v : forall w u, heap_value v -> heap_value w -> heap_value u ->
  content_eq v w -> content_eq w u -> content_eq v u.
Proof.
  induction v as [fs IH|vs IH|s|z|d|b|] using value_ind'; intros w u H1 H2 H3 C D.
  - inversion C as [? gs C1 C2| | | | | |]; subst. inversion D as [? hs D1 D2| | | | | |]; subst. constructor.
    + intros k x L. destruct (C1 k x L) as (y & Ly & Y). destruct (D1 k y Ly) as (t & Lt & T). exists t. split; auto.
      rewrite Forall_forall in IH. apply lookup_in in L. apply lookup_in in Ly. apply lookup_in in Lt.
      apply (IH (k, x) L y t); auto; [apply (heap_field _ _ _ H1 L)|apply (heap_field _ _ _ H2 Ly)|apply (heap_field _ _ _ H3 Lt)].
    + auto.
  - inversion C as [|? ws F| | | | |]; subst. inversion D as [|? us G| | | | |]; subst. constructor.
    assert (E1 : forall x, In x vs -> heap_value x) by (intros x Hx; apply (heap_elem _ _ H1 Hx)).
    assert (E2 : forall x, In x ws -> heap_value x) by (intros x Hx; apply (heap_elem _ _ H2 Hx)).
    assert (E3 : forall x, In x us -> heap_value x) by (intros x Hx; apply (heap_elem _ _ H3 Hx)).
    clear C D H1 H2 H3. revert us G E3. induction F as [|a b vs ws X F IHF]; intros us G E3; inversion G; subst; constructor.
    + apply Forall_cons_iff in IH. destruct IH as [IH _]. apply (IH b); cbn in *; auto.
    + apply Forall_cons_iff in IH. destruct IH as [_ IH]. apply IHF; cbn in *; auto.
  - inversion C; subst. auto.
  - inversion C; subst. auto.
  - inversion C; subst. inversion D; subst. constructor; congruence.
  - inversion C; subst. auto.
  - inversion C; subst. auto.
Qed.

Lemma verdict_dec r P : verdict r P -> {b | r = Ok b /\ (b = true <-> P)}.
Proof. destruct r as [b| | | |]; intros H; [exists b; destruct H as (b' & E & I); split; [auto|]; congruence|..]; exfalso; destruct H as (? & E & _); discriminate. Qed.

(** ** Against a set *)
Theorem set_exact o m a ws l us : exact a ->
  has (TSet o m a) (CList l) -> everywhere keyed (TSet o m a) (CList l) -> to_dart (TSet o m a) (CList l) = Ok (VArr us) ->
  heap_value (VArr ws) -> heap_value (VArr us) -> nul_free (VArr ws) -> no_null_members (VArr us) ->
  (forall w u, In w ws -> In u us -> unmixed w u) ->
  exists b, cmp (TSet o m a) (VArr ws) (CList l) = Ok b /\
    (b = true <-> exists us', Permutation us us' /\ Forall2 content_eq ws us').
Proof.
  intros X H K E HW HU NU NN UM. cbn in H. destruct H as (l0 & E0 & Hn & H & _). injection E0 as <-.
  destruct K as [_ K]. specialize (K l eq_refl).
  cbn [to_dart] in E. apply push_all_ok in E; [|unfold zlen in *; rewrite map_length; cbn [length]; lia].
  destruct E as (us0 & E & E0). cbn [app] in E0. injection E0 as <-. apply collect_map_ok in E.
  pose proof (forall2_len _ _ _ _ _ E) as L. cbn [cmp].
  destruct (Nat.eqb_spec (length ws) (length l)) as [L'|L'].
  2: { exists false. split; auto. split; [discriminate|]. intros (us' & P & F). apply Permutation_length in P.
       pose proof (forall2_len _ _ _ _ _ F). lia. }
  (* work with pairs of an element and its packet *)
  assert (EX : exists f : cval -> value, us = map f l /\ (forall y, In y l -> to_dart a y = Ok (f y))).
  { exists (fun y => match to_dart a y with Ok w => w | _ => VNull end). split.
    - clear -E. induction E as [|y w l us Ey _ IH]; cbn [map]; [reflexivity|]. rewrite Ey, <- IH. reflexivity.
    - intros y Hy. destruct (forall2_pick _ _ _ _ _ _ E Hy) as (w & _ & Ey). rewrite Ey. reflexivity. }
  destruct EX as (f & -> & Ef).
  assert (V : forall w y, In w ws -> In y l -> verdict (cmp a w y) (content_eq w (f y))).
  { intros w y Hw Hy. rewrite Forall_forall in H, K. apply compare_exact; auto.
    - apply (heap_elem _ _ HW Hw).
    - apply UM; auto. apply in_map. auto.
    - apply nn_elems in NN. rewrite Forall_forall in NN. apply NN. apply in_map. auto. }
  set (e := fun w y => match cmp a w y with Ok b => b | _ => false end).
  assert (Ve : forall w y, In w ws -> In y l -> cmp a w y = Ok (e w y) /\ (e w y = true <-> content_eq w (f y))).
  { intros w y Hw Hy. destruct (V w y Hw Hy) as (b & Eb & Hb). unfold e. rewrite Eb. auto. }
  assert (HE : forall w, In w ws -> heap_value w) by (intros w Hw; apply (heap_elem _ _ HW Hw)).
  assert (HF : forall y, In y l -> heap_value (f y)) by (intros y Hy; apply (heap_elem _ _ HU (in_map f _ _ Hy))).
  assert (NE : forall w, In w ws -> nul_free w).
  { inversion NU as [|? _ U| | | | |]; subst. rewrite Forall_forall in U. auto. }
  assert (C : coherent (fun x y => Ok (pkt_eqb x y)) (cmp a) pkt_eqb e ws l).
  { split; [reflexivity|]. split; [intros; apply Ve; auto|].
    split; [|split; [|split]].
    - intros x y Hx Hy S. apply pkt_content in S; auto. apply pkt_content; auto. apply content_sym; auto.
    - intros x y z Hx Hy Hz S T. apply pkt_content in S; auto. apply pkt_content in T; auto. apply pkt_content; auto.
      apply (content_trans x y z); auto.
    - intros x y z Hx Hy Hz S T. apply pkt_content in S; auto. apply Ve in T; auto. apply Ve; auto.
      apply (content_trans y x (f z)); auto. apply content_sym; auto.
    - intros x y z Hx Hy Hz S T. apply Ve in S; auto. apply Ve in T; auto. apply pkt_content; auto.
      apply (content_trans x (f z) y); auto. apply content_sym; auto. }
  destruct (is_perm_spec _ _ _ _ ws l L' C) as (b & Eb & Hb). exists b. split; auto. rewrite Hb. split.
  - intros (r' & P & F). exists (map f r'). split; [apply Permutation_map; auto|].
    rewrite forall2_map_r. eapply CompareFacts.forall2_impl; [exact F|]. intros w y Iw Iy T. apply Ve in T; auto.
    eapply Permutation_in; [symmetry; eauto|auto].
  - intros (us' & P & F). apply Permutation_sym in P. apply Permutation_map_inv in P. destruct P as (r' & -> & P).
    exists r'. split; [auto|]. rewrite forall2_map_r in F. eapply CompareFacts.forall2_impl; [exact F|]. intros w y Iw Iy T.
    apply Ve; auto. eapply Permutation_in; [symmetry; eauto|auto].
Qed.
