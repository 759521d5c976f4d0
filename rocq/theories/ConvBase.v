(** Lemmas about the loops of Conv.v and the combinators of SpecConv.v. *)

From Coq Require Import ZArith List Bool Lia Sorting.Sorted Sorting.Permutation.
From Verif Require Import Base BaseFacts Keys Wire Spec Ordered HeapOps HeapFacts SpecConv Conv.
Import ListNotations.
Open Scope Z_scope.

(** ** Induction on types *)
Section Ind.
  Variable P : cty -> Prop.
  Hypothesis Hnull : P TNull.
  Hypothesis Hbool : P TBool.
  Hypothesis Hint : forall t, P (TInt t).
  Hypothesis Hdouble : P TDouble.
  Hypothesis Hfloat : P TFloat.
  Hypothesis Hstr : P TStr.
  Hypothesis Hseq : forall k a, P a -> P (TSeq k a).
  Hypothesis Hset : forall o m a, P a -> P (TSet o m a).
  Hypothesis Hmap : forall o k v, P k -> P v -> P (TMap o k v).
  Hypothesis Hmulti : forall o k v, P k -> P v -> P (TMulti o k v).
  Hypothesis Hopt : forall a, P a -> P (TOpt a).
  Hypothesis Hpair : forall a b, P a -> P b -> P (TPair a b).
  Hypothesis Htup : forall ts, Forall P ts -> P (TTup ts).
  Hypothesis Hvar : forall ts, Forall P ts -> P (TVar ts).

  Fixpoint cty_ind' (t : cty) : P t :=
    let many := fix many ts : Forall P ts :=
      match ts with [] => Forall_nil P | a :: r => Forall_cons a (cty_ind' a) (many r) end in
    match t with
    | TNull => Hnull | TBool => Hbool | TInt i => Hint i | TDouble => Hdouble | TFloat => Hfloat | TStr => Hstr
    | TSeq k a => Hseq k a (cty_ind' a)
    | TSet o m a => Hset o m a (cty_ind' a)
    | TMap o k v => Hmap o k v (cty_ind' k) (cty_ind' v)
    | TMulti o k v => Hmulti o k v (cty_ind' k) (cty_ind' v)
    | TOpt a => Hopt a (cty_ind' a)
    | TPair a b => Hpair a b (cty_ind' a) (cty_ind' b)
    | TTup ts => Htup ts (many ts)
    | TVar ts => Hvar ts (many ts)
    end.
End Ind.

(** ** Combinators *)
Lemma pick_iff A (f : A -> Prop) l i : pick f l i <-> exists a, nth_error l i = Some a /\ f a.
Proof.
  revert i; induction l as [|a l IH]; intros [|i]; cbn.
  - split; [tauto | intros (a & E & _); discriminate].
  - split; [tauto | intros (a & E & _); discriminate].
  - split; [intros H; exists a; auto | intros (b & E & H); injection E as <-; auto].
  - apply IH.
Qed.

Lemma any_iff A (f : A -> Prop) l : any f l <-> Exists f l.
Proof.
  induction l as [|a l IH]; cbn.
  - split; [tauto | intros H; inversion H].
  - rewrite Exists_cons, IH. tauto.
Qed.

Lemma all_iff A (f : A -> Prop) l : all f l <-> Forall f l.
Proof.
  induction l as [|a l IH]; cbn; [split; auto|].
  rewrite Forall_cons_iff, IH. tauto.
Qed.

Lemma zip2_iff A B (f : A -> B -> Prop) l r : zip2 f l r <-> Forall2 f l r.
Proof.
  revert r; induction l as [|a l IH]; intros [|b r]; cbn.
  - split; auto.
  - split; [tauto | intros H; inversion H].
  - split; [tauto | intros H; inversion H].
  - rewrite IH. split; [intros [H1 H2]; constructor; auto | intros H; inversion H; auto].
Qed.

Lemma pick_res_nth A B (f : A -> res B) l i :
  pick_res f l i = match nth_error l i with Some a => f a | None => Undef end.
Proof. revert i; induction l as [|a l IH]; intros [|i]; cbn; auto. Qed.

(** ** Loops *)

Lemma collect_ok A (l : list (res A)) xs : collect l = Ok xs <-> Forall2 (fun e x => e = Ok x) l xs.
Proof.
  revert xs; induction l as [|e l IH]; intros xs; cbn.
  - split; [intros [= <-]; constructor | intros H; inversion H; auto].
  - destruct e as [x|err| | |]; cbn.
    + destruct (collect l) as [ys|err| | |] eqn:E; cbn.
      * split.
        -- intros [= <-]. constructor; auto. apply IH; auto.
        -- intros H; inversion H as [|? ? ? ? Hx Hr]; subst. apply IH in Hr.
           apply Ok_inj in Hr. apply Ok_inj in Hx. subst; auto.
      * split; [discriminate|]. intros H; inversion H as [|? ? ? ? Hx Hr]; subst.
        apply IH in Hr. discriminate.
      * split; [discriminate|]. intros H; inversion H as [|? ? ? ? Hx Hr]; subst.
        apply IH in Hr. discriminate.
      * split; [discriminate|]. intros H; inversion H as [|? ? ? ? Hx Hr]; subst.
        apply IH in Hr. discriminate.
      * split; [discriminate|]. intros H; inversion H as [|? ? ? ? Hx Hr]; subst.
        apply IH in Hr. discriminate.
    + split; [discriminate|]. intros H; inversion H as [|? ? ? ? Hx Hr]; discriminate.
    + split; [discriminate|]. intros H; inversion H as [|? ? ? ? Hx Hr]; discriminate.
    + split; [discriminate|]. intros H; inversion H as [|? ? ? ? Hx Hr]; discriminate.
    + split; [discriminate|]. intros H; inversion H as [|? ? ? ? Hx Hr]; discriminate.
Qed.

Lemma forall2_map_l A B C (f : A -> B) (R : B -> C -> Prop) l r :
  Forall2 R (map f l) r <-> Forall2 (fun a => R (f a)) l r.
Proof.
  revert r; induction l as [|a l IH]; intros r; cbn.
  - split; intros H; inversion H; constructor.
  - split; intros H; inversion H; subst; constructor; auto; apply IH; auto.
Qed.
Lemma forall2_map_r A B C (f : A -> B) (R : C -> B -> Prop) l r :
  Forall2 R r (map f l) <-> Forall2 (fun c a => R c (f a)) r l.
Proof.
  revert r; induction l as [|a l IH]; intros r; cbn.
  - split; intros H; inversion H; constructor.
  - split; intros H; inversion H; subst; constructor; auto; apply IH; auto.
Qed.

Lemma collect_map_ok A B (f : A -> res B) l xs :
  collect (map f l) = Ok xs <-> Forall2 (fun a x => f a = Ok x) l xs.
Proof. rewrite collect_ok. apply forall2_map_l. Qed.

Lemma push_one vs x : zlen vs < 2 ^ 64 -> h_push_back (VArr vs) x = Ok (VArr (vs ++ [x])).
Proof.
  intros L. unfold h_push_back. cbn [h_size bind h_insert h_elements]. pose proof (zlen_nonneg vs).
  rewrite Z.mod_small by lia. replace (zlen vs <? zlen vs) with false by lia. cbn [bind].
  replace (Z.to_nat (zlen vs)) with (length vs) by (unfold zlen; lia).
  pose proof (list_insert_mid vs x []) as E. rewrite app_nil_r in E. rewrite E. reflexivity.
Qed.

Lemma push_all_ok l acc v : zlen acc + zlen l <= 2 ^ 64 ->
  push_all l (VArr acc) = Ok v <-> exists ws, collect l = Ok ws /\ v = VArr (acc ++ ws).
Proof.
  revert acc; induction l as [|e l IH]; intros acc Hn.
  - cbn. split.
    + intros [= <-]. exists []. rewrite app_nil_r. auto.
    + intros (ws & E & ->). apply Ok_inj in E. subst. rewrite app_nil_r. auto.
  - cbn [push_all collect].
    assert (Hlt : zlen acc < 2 ^ 64) by (unfold zlen in *; cbn [length] in Hn; lia).
    destruct e as [x|err| | |]; cbn [bind]; try (split; [discriminate | intros (ws & E & _); discriminate]).
    rewrite push_one by auto. cbn [bind].
    rewrite IH by (unfold zlen in *; rewrite app_length; cbn [length] in *; lia).
    destruct (collect l) as [ys|err| | |]; cbn [bind].
    all: try (split; intros (? & ? & _); discriminate).
    split.
    + intros (ws & E & ->). apply Ok_inj in E. subst. exists (x :: ws). rewrite <- app_assoc. auto.
    + intros (ws & E & ->). apply Ok_inj in E. subst. exists ys. rewrite <- app_assoc. auto.
Qed.

Lemma gather_rev A (l acc : list A) : gather l acc = rev l ++ acc.
Proof. revert acc; induction l as [|a l IH]; intros acc; cbn; auto. rewrite IH, <- app_assoc. auto. Qed.
Lemma gather_id A (l : list A) : gather (rev l) [] = l.
Proof. rewrite gather_rev, app_nil_r, rev_involutive. auto. Qed.

Lemma put_in_front_ok A (l : list (res A)) acc xs :
  put_in_front l acc = Ok xs <-> exists ys, collect l = Ok ys /\ xs = rev ys ++ acc.
Proof.
  revert acc; induction l as [|e l IH]; intros acc; cbn.
  - split; [intros [= <-]; exists []; auto | intros (ys & E & ->); apply Ok_inj in E; subst; auto].
  - destruct e as [x|err| | |]; cbn; try (split; [discriminate | intros (ys & E & _); discriminate]).
    rewrite IH. destruct (collect l) as [ys|err| | |]; cbn.
    all: try (split; intros (? & ? & _); discriminate).
    split.
    + intros (zs & E & ->). apply Ok_inj in E. subst. exists (x :: zs). cbn. rewrite <- app_assoc. auto.
    + intros (zs & E & ->). apply Ok_inj in E. subst. exists ys. cbn. rewrite <- app_assoc. auto.
Qed.

Lemma forall2_rev A B (R : A -> B -> Prop) l r : Forall2 R l r -> Forall2 R (rev l) (rev r).
Proof.
  induction 1; cbn; [constructor|]. apply Forall2_app; auto.
Qed.

Lemma put_in_front_map A B (f : A -> res B) l xs :
  put_in_front (map f (rev l)) [] = Ok xs <-> Forall2 (fun a x => f a = Ok x) l xs.
Proof.
  rewrite put_in_front_ok. split.
  - intros (ys & E & ->). apply collect_map_ok in E. apply forall2_rev in E.
    rewrite rev_involutive in E. rewrite app_nil_r. auto.
  - intros H. exists (rev xs). rewrite collect_map_ok, rev_involutive, app_nil_r.
    split; auto. apply forall2_rev; auto.
Qed.

Lemma collect_zip A B C (f : A -> B -> res C) l r xs :
  length l = length r ->
  collect (zip_with f l r) = Ok xs <-> zip3 (fun a b x => f a b = Ok x) l r xs.
Proof.
  intros Hl. rewrite collect_ok.
  revert r xs Hl; induction l as [|a l IH]; intros [|b r] xs Hl; try discriminate; cbn.
  - destruct xs; split; auto; intros H; inversion H.
  - destruct xs as [|x xs]; [split; [intros H; inversion H | tauto]|].
    split.
    + intros H; inversion H; subst. split; auto. apply IH; auto.
    + intros [H1 H2]. constructor; auto. apply IH; auto.
Qed.

Lemma forall2_len A B (R : A -> B -> Prop) l r : Forall2 R l r -> length l = length r.
Proof. induction 1; cbn; auto. Qed.

Lemma forall2_impl A B (R S : A -> B -> Prop) l r :
  (forall a b, R a b -> S a b) -> Forall2 R l r -> Forall2 S l r.
Proof. intros H; induction 1; auto. Qed.

Lemma forall2_compose A B C (R : A -> B -> Prop) (S : B -> C -> Prop) l m r :
  Forall2 R l m -> Forall2 S m r -> Forall2 (fun a c => exists b, R a b /\ S b c) l r.
Proof.
  intros H; revert r; induction H; intros r' H'; inversion H'; subst; constructor; eauto.
Qed.

Lemma forall2_forall_l A B (P : A -> Prop) (R : A -> B -> Prop) l r :
  Forall P l -> Forall2 R l r -> Forall2 (fun a b => P a /\ R a b) l r.
Proof. intros HP H; induction H; inversion HP; subst; auto. Qed.

Lemma forall2_flip A B (R : A -> B -> Prop) l r : Forall2 R l r <-> Forall2 (fun b a => R a b) r l.
Proof. split; induction 1; auto. Qed.

Lemma forall2_in_l A B (R : A -> B -> Prop) l r a :
  Forall2 R l r -> In a l -> exists b, In b r /\ R a b.
Proof.
  induction 1; cbn; [tauto|]. intros [->|H']; [eauto|].
  destruct (IHForall2 H') as (b & ? & ?); eauto.
Qed.
Lemma forall2_in_r A B (R : A -> B -> Prop) l r b :
  Forall2 R l r -> In b r -> exists a, In a l /\ R a b.
Proof.
  intros H. apply forall2_flip in H. intros Hin. destruct (forall2_in_l _ _ _ _ _ _ H Hin) as (a & ? & ?); eauto.
Qed.

Lemma forall2_exist A B (R : A -> B -> Prop) l :
  Forall (fun a => exists b, R a b) l -> exists r, Forall2 R l r.
Proof.
  induction 1 as [|a l [b Hb] _ [r Hr]]; [exists []; constructor | exists (b :: r); constructor; auto].
Qed.

(** ** What is accepted (used for C37): a conversion succeeds or throws type_error *)
Definition tame {A} (r : res A) : Prop :=
  (exists a, r = Ok a) \/ r = Throw type_error.

Lemma tame_collect A (l : list (res A)) : Forall tame l -> tame (collect l).
Proof.
  induction 1 as [|e l [[a ->]| ->] _ IH]; cbn.
  - left; eauto.
  - destruct IH as [[xs ->]| ->]; cbn; [left; eauto | right; auto].
  - right; auto.
Qed.
Lemma tame_front A (l : list (res A)) acc : Forall tame l -> tame (put_in_front l acc).
Proof.
  intros H; revert acc; induction H as [|e l [[a ->]| ->] _ IH]; intros acc; cbn.
  - left; eauto.
  - auto.
  - right; auto.
Qed.
Lemma tame_bind A B (e : res A) (f : A -> res B) :
  tame e -> (forall a, e = Ok a -> tame (f a)) -> tame (bind e f).
Proof. intros [[a ->]| ->] H; cbn; auto. right; auto. Qed.
Lemma tame_ok A (a : A) : tame (Ok a).
Proof. left; eauto. Qed.
Lemma tame_te A : tame (@Throw A type_error).
Proof. right; auto. Qed.
#[export] Hint Resolve tame_ok tame_te : core.

Lemma tame_from t v : tame (from_dart t v).
Proof.
  revert v; induction t as [ | |i| | | |k a IH|o m a IH|o k x IHk IHx|o k x IHk IHx|a IH|a b IHa IHb|ts IH|ts IH] using cty_ind';
    intros v; cbn; auto.
  - destruct v; auto.
  - destruct v; auto.
  - destruct v; auto.
  - destruct v; auto.
  - destruct v; auto.
  - destruct v as [| ws | | | | |]; auto.
    destruct k; try destruct (Nat.eqb _ _); auto; apply tame_bind; auto.
    all: try apply tame_collect; try apply tame_front.
    all: apply Forall_map, Forall_forall; auto.
  - destruct v as [| ws | | | | |]; auto.
    apply tame_bind; auto. apply tame_collect, Forall_map, Forall_forall; auto.
  - destruct v as [fs| | | | | |]; auto.
    apply tame_bind; auto. apply tame_collect, Forall_map, Forall_forall. intros p _.
    unfold pair_of. apply tame_bind; auto. intros; apply tame_bind; auto.
  - destruct v as [fs| | | | | |]; auto.
    apply tame_bind; auto. induction fs as [|[s w] fs IHf]; cbn; auto.
    apply tame_bind; auto. intros k' _. apply tame_bind.
    + apply tame_collect. destruct w; try (constructor; auto).
      apply Forall_map, Forall_forall; auto.
    + intros xs _. apply tame_bind; auto.
  - destruct v; auto; apply tame_bind; auto.
  - destruct v as [| ws | | | | |]; auto.
    destruct ws as [|w [|u [|]]]; auto.
    apply tame_bind; auto. intros; apply tame_bind; auto.
  - destruct v as [| ws | | | | |]; auto.
    destruct (Nat.eqb _ _) eqn:E; auto. apply tame_bind; auto.
    apply tame_collect. clear E. generalize (gather (rev ws) []) as r.
    induction IH as [|a ts Ha _ IH]; intros [|w r]; cbn; auto.
  - generalize 0%nat as i. induction IH as [|a ts Ha _ IH]; intros i; cbn; auto.
    destruct (Ha v) as [[c ->]| ->]; auto.
Qed.
