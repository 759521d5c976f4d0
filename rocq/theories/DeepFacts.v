(** Serializing, making a mutable value from a buffer and parsing take as many nested calls as
    the value has levels. *)

From Coq Require Import ZArith List Bool Lia Sorted String.
From Coq Require Import ZifyBool ZifyNat ZifyN.
From Coq Require Import Strings.Byte.
From Verif Require Import Base BaseFacts Keys Dec Wire Read Buf Enc Spec ReadFacts Lookup BufFacts Canon HeapOps HeapFacts
  NestedFacts Packet Compare SpecJson Json JsonWrite SpecCost Depth Text TextRead SpecText SpecDeep Deep.
Import ListNotations.
Open Scope list_scope.
Open Scope Z_scope.

(** [x] when there is room for it, and an exhausted stack otherwise. *)
Definition given {A} (q : bool) (x : A) : res A := if q then Ok x else Fuel.

Lemma pair_levels_all n fs : (pair_levels fs <=? n)%nat = forallb (fun kv => (levels (snd kv) <=? n)%nat) fs.
Proof. induction fs as [|[k x] r IH]; [reflexivity|]. cbn [pair_levels forallb snd]. rewrite <- IH. lia. Qed.
Lemma elem_levels_all n vs : (elem_levels vs <=? n)%nat = forallb (fun x => (levels x <=? n)%nat) vs.
Proof. induction vs as [|x r IH]; [reflexivity|]. cbn [elem_levels forallb]. rewrite <- IH. lia. Qed.

(** ** Serializing *)

Lemma concat_given {A B} (f : Z -> res (list B)) (g : A -> list B) (q : A -> bool) (l : list A) : forall i,
  (forall j x, nth_error l j = Some x -> f (i + Z.of_nat j) = given (q x) (g x)) ->
  concat_from f i (List.length l) = given (forallb q l) (flat_map g l).
Proof.
  induction l as [|x l IH]; intros i H; [reflexivity|]. cbn [List.length concat_from flat_map forallb].
  pose proof (H 0%nat x eq_refl) as E. rewrite Z.add_0_r in E. rewrite E. destruct (q x); [|reflexivity]. cbn [given bind andb].
  rewrite IH; [destruct (forallb q l); reflexivity|]. intros j y N. rewrite <- (H (S j) y N). f_equal. lia.
Qed.

Theorem serialize_given v : forall n p, shows p v -> json_serialize n p = given (levels v <=? n)%nat (tokens v).
Proof.
  induction v as [fs IH|vs IH|s|z|d|b|] using value_ind'; intros n p D; (destruct n as [|n]; [reflexivity|]); cbn [json_serialize];
    rewrite (s_type _ _ D); cbn [vtype].
  - rewrite (s_size _ _ D). cbn [h_size bind]. rewrite Forall_forall in IH.
    replace (Z.to_nat (zlen fs)) with (List.length fs) by (unfold zlen; lia).
    rewrite (concat_given _ (fun kv => EKey (fst kv) :: tokens (snd kv)) (fun kv => (levels (snd kv) <=? n)%nat) fs 0).
    { rewrite <- pair_levels_all, levels_obj. change (S (pair_levels fs) <=? S n)%nat with (pair_levels fs <=? n)%nat.
      destruct (pair_levels fs <=? n)%nat; reflexivity. }
    intros j [k x] N. destruct (s_deref_key _ _ _ _ _ D N) as (q & E & S). cbn [Z.add]. rewrite E. cbn [bind]. rewrite S. cbn [bind value_strv].
    destruct (s_deref p (VObj fs) j x D) as (r & E' & R); [cbn [members]; rewrite nth_error_map, N; reflexivity|].
    rewrite E'. cbn [bind fst snd]. pose proof (nth_error_In _ _ N) as J. pose proof (IH _ J n r R) as X. cbn [snd] in X. rewrite X.
    destruct (levels x <=? n)%nat; reflexivity.
  - rewrite (s_size _ _ D). cbn [h_size bind]. rewrite Forall_forall in IH.
    replace (Z.to_nat (zlen vs)) with (List.length vs) by (unfold zlen; lia).
    rewrite (concat_given _ tokens (fun x => (levels x <=? n)%nat) vs 0).
    { rewrite <- elem_levels_all, levels_arr. change (S (elem_levels vs) <=? S n)%nat with (elem_levels vs <=? n)%nat.
      destruct (elem_levels vs <=? n)%nat; reflexivity. }
    intros j x N. cbn [Z.add].
    destruct (s_deref p (VArr vs) j x D) as (r & E' & R); [exact N|].
    rewrite E'. cbn [bind]. pose proof (nth_error_In _ _ N) as J. exact (IH _ J n r R).
  - pose proof (s_scalar _ _ D eq_refl) as S. cbn [vtype] in S. rewrite S by discriminate. reflexivity.
  - pose proof (s_scalar _ _ D eq_refl) as S. cbn [vtype] in S. rewrite S by discriminate. reflexivity.
  - pose proof (s_scalar _ _ D eq_refl) as S. cbn [vtype] in S. rewrite S by discriminate. reflexivity.
  - pose proof (s_scalar _ _ D eq_refl) as S. cbn [vtype] in S. rewrite S by discriminate. reflexivity.
  - reflexivity.
Qed.

(** ** A mutable value from a buffer *)

Lemma fold_given {A B} (f : Z -> A -> res A) (g : list B -> A) (q : B -> bool) (l : list B) :
  (forall l1 x l2, l = l1 ++ x :: l2 -> f (zlen l1) (g l1) = given (q x) (g (l1 ++ [x]))) ->
  fold_range f 0 (List.length l) (g []) = given (forallb q l) (g l).
Proof.
  intros H.
  assert (G : forall l2 l1, l = l1 ++ l2 -> fold_range f (zlen l1) (List.length l2) (g l1) = given (forallb q l2) (g l)).
  { induction l2 as [|x l2 IH]; intros l1 E; cbn [fold_range List.length forallb].
    - rewrite app_nil_r in E. subst l1. reflexivity.
    - rewrite (H l1 x l2 E). destruct (q x); [|reflexivity]. cbn [given bind andb].
      replace (zlen l1 + 1) with (zlen (l1 ++ [x])) by (rewrite zlen_app; reflexivity). apply IH. rewrite <- app_assoc. exact E. }
  exact (G l [] eq_refl).
Qed.

Theorem from_buffer_given : forall v n bs m e, represents bs m e v -> from_buffer n bs m e = given (levels v <=? n)%nat v.
Proof.
  intros v n. revert v. induction n as [|n IH]; intros v bs m e R.
  { pose proof (levels_pos v). replace (levels v <=? 0)%nat with false by lia. reflexivity. }
  pose proof (b_size_spec _ _ _ _ R) as SZ. pose proof (represents_type _ _ _ _ R) as T.
  cbn [from_buffer]. rewrite T. destruct v as [fs|vs|s|z|d|b|]; cbn [vtype vsize] in *.
  - rewrite SZ. cbn [bind]. unfold zlen. rewrite Nat2Z.id.
    pose proof (heap_sorted fs (proj1 R)) as S.
    rewrite (fold_given _ VObj (fun kv => (levels (snd kv) <=? n)%nat) fs).
    { rewrite <- pair_levels_all. reflexivity. }
    intros l1 [k x] l2 E.
    assert (N : nth_error fs (Z.to_nat (zlen l1)) = Some (k, x)).
    { unfold zlen. rewrite Nat2Z.id. rewrite E. apply nth_mid. }
    destruct (b_deref_key_spec bs m e fs (zlen l1) k x R (zlen_nonneg _) N) as (p & -> & RS). cbn [bind snd].
    assert (IN : In (k, x) fs) by (rewrite E; apply in_elt).
    destruct n as [|n]; [pose proof (levels_pos x); replace (levels x <=? 0)%nat with false by lia; reflexivity|].
    assert (FK : from_buffer (Datatypes.S n) bs m (R_string, Some p) = Ok (VStr k)) by (cbn [from_buffer]; exact RS).
    rewrite FK. cbn [bind].
    destruct (b_deref_spec bs m e (VObj fs) (zlen l1) x R (zlen_nonneg _)) as (e' & -> & R').
    { cbn [members]. rewrite nth_error_map, N. reflexivity. }
    cbn [bind]. rewrite (IH _ _ _ _ R'). destruct (levels x <=? Datatypes.S n)%nat; [|reflexivity]. cbn [given bind].
    destruct (h_insert_last l1 k x) as (i & ->).
    { rewrite E in S. replace (l1 ++ (k, x) :: l2) with ((l1 ++ [(k, x)]) ++ l2) in S by (rewrite <- app_assoc; reflexivity).
      eapply sorted_prefix; eassumption. }
    { eapply rep_key_short; eassumption. }
    reflexivity.
  - rewrite SZ. cbn [bind].
    pose proof (aggregate_size_small _ _ _ _ _ R eq_refl eq_refl) as SM.
    unfold zlen at 1. rewrite Nat2Z.id.
    rewrite (fold_given _ VArr (fun x => (levels x <=? n)%nat) vs).
    { rewrite <- elem_levels_all. reflexivity. }
    intros l1 x l2 E.
    destruct (b_deref_spec bs m e (VArr vs) (zlen l1) x R (zlen_nonneg _)) as (e' & -> & R').
    { cbn [members]. unfold zlen. rewrite Nat2Z.id. rewrite E. apply nth_mid. }
    cbn [bind]. rewrite (IH _ _ _ _ R'). destruct (levels x <=? n)%nat; [|reflexivity]. cbn [given bind].
    unfold h_push_back. cbn [h_size bind h_insert h_elements].
    assert (0 <= zlen l1 < 2 ^ 31).
    { split; [apply zlen_nonneg|]. rewrite E, zlen_app in SM. pose proof (zlen_nonneg (x :: l2)). lia. }
    rewrite Z.mod_small by lia. replace (zlen l1 <? zlen l1) with false by lia. cbn [bind].
    f_equal. f_equal. unfold zlen. rewrite Nat2Z.id. rewrite <- (app_nil_r l1) at 2. apply list_insert_mid.
  - rewrite (b_scalar_spec _ _ _ _ T_string R eq_refl); [reflexivity|discriminate].
  - rewrite (b_scalar_spec _ _ _ _ T_integer R eq_refl); [reflexivity|discriminate].
  - rewrite (b_scalar_spec _ _ _ _ T_decimal R eq_refl); [reflexivity|discriminate].
  - rewrite (b_scalar_spec _ _ _ _ T_boolean R eq_refl); [reflexivity|discriminate].
  - reflexivity.
Qed.

(** ** Parsing *)

Section Parsing.
  Variable rd : str -> Z.
  Definition follows (f : nat) (rv rv' : str -> option (jdoc * str)) : Prop :=
    forall t d r, rv t = Some (d, r) -> rv' t = if (jlevels d <=? f)%nat then Some (d, r) else None.

  Lemma members_follow f rv rv' : follows f rv rv' -> forall n w t ms r, (n <= w)%nat -> read_members rv n t = Some (ms, r) ->
    read_members rv' w t = if (member_levels ms <=? f)%nat then Some (ms, r) else None.
  Proof.
    intros F. induction n as [|n IH]; intros w t ms r L E; [discriminate|]. destruct w as [|w]; [lia|]. cbn [read_members] in *.
    destruct (skip t) as [|q t1]; [discriminate|]. destruct (byte_eqb q quote); [|discriminate].
    destruct (read_chars t1) as [[k t2]|]; [|discriminate]. destruct (skip t2) as [|c t3]; [discriminate|].
    destruct (byte_eqb c x3a); [|discriminate]. destruct (rv (skip t3)) as [[d t4]|] eqn:V; [|discriminate].
    rewrite (F _ _ _ V). destruct (skip t4) as [|e t5] eqn:K; [discriminate|].
    destruct (byte_eqb e x7d) eqn:B.
    { injection E as <- <-. cbn [member_levels]. rewrite Nat.max_0_r. destruct (jlevels d <=? f)%nat; [|reflexivity]. rewrite K, B. reflexivity. }
    destruct (byte_eqb e x2c) eqn:C; [|discriminate]. destruct (read_members rv n t5) as [[ms' r']|] eqn:M; [|discriminate].
    injection E as <- <-. cbn [member_levels]. pose proof (IH w t5 ms' r' ltac:(lia) M) as X.
    destruct (jlevels d <=? f)%nat eqn:J.
    - rewrite K, B, C, X. replace (Nat.max (jlevels d) (member_levels ms') <=? f)%nat with (member_levels ms' <=? f)%nat by lia.
      destruct (member_levels ms' <=? f)%nat; reflexivity.
    - replace (Nat.max (jlevels d) (member_levels ms') <=? f)%nat with false by lia. reflexivity.
  Qed.
  Lemma elements_follow f rv rv' : follows f rv rv' -> forall n w t ds r, (n <= w)%nat -> read_elements rv n t = Some (ds, r) ->
    read_elements rv' w t = if (element_levels ds <=? f)%nat then Some (ds, r) else None.
  Proof.
    intros F. induction n as [|n IH]; intros w t ds r L E; [discriminate|]. destruct w as [|w]; [lia|]. cbn [read_elements] in *.
    destruct (rv (skip t)) as [[d t4]|] eqn:V; [|discriminate].
    rewrite (F _ _ _ V). destruct (skip t4) as [|e t5] eqn:K; [discriminate|].
    destruct (byte_eqb e x5d) eqn:B.
    { injection E as <- <-. cbn [element_levels]. rewrite Nat.max_0_r. destruct (jlevels d <=? f)%nat; [|reflexivity]. rewrite K, B. reflexivity. }
    destruct (byte_eqb e x2c) eqn:C; [|discriminate]. destruct (read_elements rv n t5) as [[ms' r']|] eqn:M; [|discriminate].
    injection E as <- <-. cbn [element_levels]. pose proof (IH w t5 ms' r' ltac:(lia) M) as X.
    destruct (jlevels d <=? f)%nat eqn:J.
    - rewrite K, B, C, X. replace (Nat.max (jlevels d) (element_levels ms') <=? f)%nat with (element_levels ms' <=? f)%nat by lia.
      destruct (element_levels ms' <=? f)%nat; reflexivity.
    - replace (Nat.max (jlevels d) (element_levels ms') <=? f)%nat with false by lia. reflexivity.
  Qed.

  Lemma jlevels_pos d : (1 <= jlevels d)%nat. Proof. destruct d; cbn [jlevels]; lia. Qed.
  Lemma jlevels_obj ms : jlevels (JObj ms) = S (member_levels ms). Proof. reflexivity. Qed.
  Lemma jlevels_arr ds : jlevels (JArr ds) = S (element_levels ds). Proof. reflexivity. Qed.
  Lemma number_one t d : read_number rd t = Some d -> jlevels d = 1%nat.
  Proof.
    intros E. apply read_number_spec in E. destruct E; reflexivity.
  Qed.

  Lemma read_follow n : forall f w, (n <= w)%nat -> follows f (read_value rd n) (read_within rd f w).
  Proof.
    induction n as [|n IH]; intros f w L t d r E; [discriminate|].
    destruct f as [|f].
    { pose proof (jlevels_pos d). replace (jlevels d <=? 0)%nat with false by lia. reflexivity. }
    destruct t as [|c t]; [discriminate|]. cbn [read_value] in E. cbn [read_within].
    assert (F : follows f (read_value rd n) (read_within rd f w)) by (apply IH; lia).
    destruct (byte_eqb c x7b).
    { destruct (skip t) as [|x q]; [discriminate|]. destruct (byte_eqb x x7d); [injection E as <- <-; reflexivity|].
      destruct (read_members (read_value rd n) n t) as [[ms r']|] eqn:M; [|discriminate]. injection E as <- <-.
      rewrite (members_follow f _ _ F n w _ _ _ ltac:(lia) M), jlevels_obj.
      change (S (member_levels ms) <=? S f)%nat with (member_levels ms <=? f)%nat. destruct (member_levels ms <=? f)%nat; reflexivity. }
    destruct (byte_eqb c x5b).
    { destruct (skip t) as [|x q]; [discriminate|]. destruct (byte_eqb x x5d); [injection E as <- <-; reflexivity|].
      destruct (read_elements (read_value rd n) n t) as [[ms r']|] eqn:M; [|discriminate]. injection E as <- <-.
      rewrite (elements_follow f _ _ F n w _ _ _ ltac:(lia) M), jlevels_arr.
      change (S (element_levels ms) <=? S f)%nat with (element_levels ms <=? f)%nat. destruct (element_levels ms <=? f)%nat; reflexivity. }
    destruct (byte_eqb c quote).
    { destruct (read_chars t) as [[s r']|]; [|discriminate]. injection E as <- <-. reflexivity. }
    destruct (byte_eqb c x74). { destruct (literal _ _); [|discriminate]. injection E as <- <-. reflexivity. }
    destruct (byte_eqb c x66). { destruct (literal _ _); [|discriminate]. injection E as <- <-. reflexivity. }
    destruct (byte_eqb c x6e). { destruct (literal _ _); [|discriminate]. injection E as <- <-. reflexivity. }
    destruct (span numberb (c :: t)) as [a r'] eqn:S. destruct (read_number rd a) as [d'|] eqn:R; [|discriminate]. injection E as <- <-.
    rewrite (number_one _ _ R). reflexivity.
  Qed.

  (** What is read within [f] calls is read without limit too. *)
  Definition extends (rv rv' : str -> option (jdoc * str)) : Prop := forall t x, rv t = Some x -> rv' t = Some x.
  Lemma members_extend rv rv' : extends rv rv' -> forall n w t x, (n <= w)%nat -> read_members rv n t = Some x -> read_members rv' w t = Some x.
  Proof.
    intros F. induction n as [|n IH]; intros w t x L E; [discriminate|]. destruct w as [|w]; [lia|]. cbn [read_members] in *.
    destruct (skip t) as [|q t1]; [discriminate|]. destruct (byte_eqb q quote); [|discriminate].
    destruct (read_chars t1) as [[k t2]|]; [|discriminate]. destruct (skip t2) as [|c t3]; [discriminate|].
    destruct (byte_eqb c x3a); [|discriminate]. destruct (rv (skip t3)) as [[d t4]|] eqn:V; [|discriminate].
    rewrite (F _ _ V). destruct (skip t4) as [|e t5]; [discriminate|]. destruct (byte_eqb e x7d); [exact E|].
    destruct (byte_eqb e x2c); [|discriminate]. destruct (read_members rv n t5) as [[ms' r']|] eqn:M; [|discriminate].
    rewrite (IH w t5 _ ltac:(lia) M). exact E.
  Qed.
  Lemma elements_extend rv rv' : extends rv rv' -> forall n w t x, (n <= w)%nat -> read_elements rv n t = Some x -> read_elements rv' w t = Some x.
  Proof.
    intros F. induction n as [|n IH]; intros w t x L E; [discriminate|]. destruct w as [|w]; [lia|]. cbn [read_elements] in *.
    destruct (rv (skip t)) as [[d t4]|] eqn:V; [|discriminate].
    rewrite (F _ _ V). destruct (skip t4) as [|e t5]; [discriminate|]. destruct (byte_eqb e x5d); [exact E|].
    destruct (byte_eqb e x2c); [|discriminate]. destruct (read_elements rv n t5) as [[ms' r']|] eqn:M; [|discriminate].
    rewrite (IH w t5 _ ltac:(lia) M). exact E.
  Qed.
  Lemma within_extend f : forall w n, (f + w <= n)%nat -> extends (read_within rd f w) (read_value rd n).
  Proof.
    induction f as [|f IH]; intros w n L t x E; [discriminate|]. destruct n as [|n]; [lia|].
    destruct t as [|c t]; [discriminate|]. cbn [read_within] in E. cbn [read_value].
    assert (F : extends (read_within rd f w) (read_value rd n)) by (apply IH; lia).
    destruct (byte_eqb c x7b).
    { destruct (skip t) as [|y q]; [discriminate|]. destruct (byte_eqb y x7d); [exact E|].
      destruct (read_members (read_within rd f w) w t) as [[ms r']|] eqn:M; [|discriminate].
      rewrite (members_extend _ _ F w n _ _ ltac:(lia) M). exact E. }
    destruct (byte_eqb c x5b); [|exact E].
    destruct (skip t) as [|y q]; [discriminate|]. destruct (byte_eqb y x5d); [exact E|].
    destruct (read_elements (read_within rd f w) w t) as [[ms r']|] eqn:M; [|discriminate].
    rewrite (elements_extend _ _ F w n _ _ ltac:(lia) M). exact E.
  Qed.

  (** A text has at most half as many levels as bytes. *)
  Lemma members_size k : (forall t d r, read_value rd k t = Some (d, r) -> (2 * jlevels d + List.length r <= List.length t + 1)%nat) ->
    forall n t ms r, read_members (read_value rd k) n t = Some (ms, r) -> (2 * member_levels ms + List.length r <= List.length t)%nat.
  Proof.
    intros H. induction n as [|n IH]; intros t ms r E; [discriminate|]. cbn [read_members] in E.
    destruct (skip_split t) as (w1 & _ & S1 & _). destruct (skip t) as [|q t1]; [discriminate|].
    destruct (byte_eqb q quote); [|discriminate].
    destruct (read_chars t1) as [[k0 t2]|] eqn:RC; [|discriminate].
    destruct (read_chars_sound _ _ _ _ (Nat.lt_succ_diag_r _) RC) as (kc & E1 & _).
    destruct (skip_split t2) as (w2 & _ & S2 & _). destruct (skip t2) as [|c t3]; [discriminate|].
    destruct (byte_eqb c x3a); [|discriminate].
    destruct (skip_split t3) as (w3 & _ & S3 & _).
    destruct (read_value rd k (skip t3)) as [[d t4]|] eqn:V; [|discriminate]. apply H in V.
    destruct (skip_split t4) as (w4 & _ & S4 & _). destruct (skip t4) as [|e t5]; [discriminate|].
    apply (f_equal (@List.length _)) in S1, S2, S3, S4, E1. rewrite app_length in S1, S2, S3, S4, E1. cbn [List.length] in S1, S2, S3, S4, E1.
    destruct (byte_eqb e x7d). { injection E as <- <-. cbn [member_levels]. lia. }
    destruct (byte_eqb e x2c); [|discriminate]. destruct (read_members (read_value rd k) n t5) as [[ms' r']|] eqn:M; [|discriminate].
    injection E as <- <-. apply IH in M. cbn [member_levels]. lia.
  Qed.
  Lemma elements_size k : (forall t d r, read_value rd k t = Some (d, r) -> (2 * jlevels d + List.length r <= List.length t + 1)%nat) ->
    forall n t ms r, read_elements (read_value rd k) n t = Some (ms, r) -> (2 * element_levels ms + List.length r <= List.length t)%nat.
  Proof.
    intros H. induction n as [|n IH]; intros t ms r E; [discriminate|]. cbn [read_elements] in E.
    destruct (skip_split t) as (w3 & _ & S3 & _).
    destruct (read_value rd k (skip t)) as [[d t4]|] eqn:V; [|discriminate]. apply H in V.
    destruct (skip_split t4) as (w4 & _ & S4 & _). destruct (skip t4) as [|e t5]; [discriminate|].
    apply (f_equal (@List.length _)) in S3, S4. rewrite app_length in S3, S4. cbn [List.length] in S3, S4.
    destruct (byte_eqb e x5d). { injection E as <- <-. cbn [element_levels]. lia. }
    destruct (byte_eqb e x2c); [|discriminate]. destruct (read_elements (read_value rd k) n t5) as [[ms' r']|] eqn:M; [|discriminate].
    injection E as <- <-. apply IH in M. cbn [element_levels]. lia.
  Qed.
  Lemma read_size n : forall t d r, read_value rd n t = Some (d, r) -> (2 * jlevels d + List.length r <= List.length t + 1)%nat.
  Proof.
    induction n as [|n IH]; intros t d r E; [discriminate|]. destruct t as [|c t]; [discriminate|].
    pose proof (read_sound rd _ _ _ _ E) as (u & EU & SU). cbn [read_value] in E.
    assert (ONE : jlevels d = 1%nat -> (2 * jlevels d + List.length r <= List.length (c :: t) + 1)%nat).
    { intros ->. destruct (strict_head rd u d SU) as (c' & u' & -> & _). rewrite EU. cbn [app List.length]. rewrite app_length. lia. }
    destruct (byte_eqb c x7b).
    { destruct (skip_split t) as (w & W & S & _). destruct (skip t) as [|x q]; [discriminate|]. destruct (byte_eqb x x7d).
      - injection E as <- <-. apply ONE. reflexivity.
      - destruct (read_members (read_value rd n) n t) as [[ms r']|] eqn:M; [|discriminate]. injection E as <- <-.
        apply (members_size n IH) in M. rewrite jlevels_obj. cbn [List.length]. lia. }
    destruct (byte_eqb c x5b).
    { destruct (skip_split t) as (w & W & S & _). destruct (skip t) as [|x q]; [discriminate|]. destruct (byte_eqb x x5d).
      - injection E as <- <-. apply ONE. reflexivity.
      - destruct (read_elements (read_value rd n) n t) as [[ms r']|] eqn:M; [|discriminate]. injection E as <- <-.
        apply (elements_size n IH) in M. rewrite jlevels_arr. cbn [List.length]. lia. }
    apply ONE.
    destruct (byte_eqb c quote). { destruct (read_chars t) as [[s r']|]; [|discriminate]. injection E as <- <-. reflexivity. }
    destruct (byte_eqb c x74). { destruct (literal _ _); [|discriminate]. injection E as <- <-. reflexivity. }
    destruct (byte_eqb c x66). { destruct (literal _ _); [|discriminate]. injection E as <- <-. reflexivity. }
    destruct (byte_eqb c x6e). { destruct (literal _ _); [|discriminate]. injection E as <- <-. reflexivity. }
    destruct (span numberb (c :: t)) as [a r'] eqn:S. destruct (read_number rd a) as [d'|] eqn:R; [|discriminate]. injection E as <- <-.
    exact (number_one _ _ R).
  Qed.

  Theorem parse_given f t d : json_document rd t d ->
    parse_within rd f t = if (jlevels d <=? f)%nat then Some d else None.
  Proof.
    intros J. apply read_text_spec in J. unfold read_text in J. unfold parse_within.
    destruct (read_value rd (S (List.length t)) (skip t)) as [[d' r]|] eqn:V; [|discriminate].
    rewrite (read_follow _ f (S (List.length t)) (le_n _) _ _ _ V).
    assert (d' = d) by (destruct (skip r) as [|c q]; [congruence|destruct (byte_eqb c x00); congruence]). subst d'.
    destruct (jlevels d <=? f)%nat; [exact J|reflexivity].
  Qed.
  Theorem parse_only f t d : parse_within rd f t = Some d -> json_document rd t d.
  Proof.
    unfold parse_within. destruct (read_within rd f (S (List.length t)) (skip t)) as [[d' r]|] eqn:V; [|discriminate]. intros E.
    apply (within_extend _ _ _ (le_n _)) in V. apply read_sound in V. destruct V as (u & EU & SU).
    assert (d' = d) by (destruct (skip r) as [|c q]; [congruence|destruct (byte_eqb c x00); congruence]). subst d'.
    destruct (skip_split t) as (w1 & W1 & S1 & _). destruct (skip_split r) as (w2 & W2 & S2 & _).
    exists w1, u, w2. refine (conj W1 (conj SU (conj W2 _))). destruct (skip r) as [|c q] eqn:K.
    - left. rewrite S1, EU, S2, app_nil_r. reflexivity.
    - destruct (byte_eqb_spec c x00) as [->|]; [|discriminate]. right. exists q. rewrite S1, EU. rewrite S2 at 1. reflexivity.
  Qed.
  Theorem parse_size t d : json_document rd t d -> 2 * Z.of_nat (jlevels d) <= zlen t + 1.
  Proof.
    intros J. apply read_text_spec in J. unfold read_text in J.
    destruct (read_value rd (S (List.length t)) (skip t)) as [[d' r]|] eqn:V; [|discriminate].
    assert (d' = d) by (destruct (skip r) as [|c q]; [congruence|destruct (byte_eqb c x00); congruence]). subst d'.
    apply read_size in V. destruct (skip_split t) as (w1 & _ & S1 & _). apply (f_equal (@List.length _)) in S1. rewrite app_length in S1.
    unfold zlen. lia.
  Qed.
End Parsing.
