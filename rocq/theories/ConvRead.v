(** Which values a type can be read from. *)

From Coq Require Import ZArith List Bool Lia Sorting.Sorted Sorting.Permutation.
From Verif Require Import Base BaseFacts Keys Wire Spec Ordered HeapOps HeapFacts SpecConv Conv ConvBase.
Import ListNotations.
Open Scope Z_scope.

Lemma bind_ok_iff A B (e : res A) (f : A -> res B) :
  (exists b, bind e f = Ok b) <-> exists a, e = Ok a /\ exists b, f a = Ok b.
Proof.
  destruct e; cbn; split.
  1: intros H; eauto.
  1: intros (a0 & E & H); apply Ok_inj in E; subst; auto.
  all: try (intros (? & H); discriminate).
  all: intros (? & H & _); discriminate.
Qed.

Lemma collect_ex A B (f : A -> res B) l :
  (exists xs, collect (map f l) = Ok xs) <-> Forall (fun a => exists b, f a = Ok b) l.
Proof.
  split.
  - intros (xs & E). apply collect_map_ok in E. induction E; constructor; eauto.
  - intros H. apply forall2_exist in H. destruct H as (xs & H). exists xs. apply collect_map_ok. auto.
Qed.

Lemma forall_iff A (P Q : A -> Prop) l : (forall a, P a <-> Q a) -> (Forall P l <-> Forall Q l).
Proof. intros H. split; apply Forall_impl; apply H. Qed.

Lemma ex_ok A (P : A -> Prop) (e : res A) (g : A -> cval) :
  (exists c, bind e (fun l => Ok (g l)) = Ok c) <-> exists l, e = Ok l.
Proof. rewrite bind_ok_iff. split; [intros (l & E & _); eauto | intros (l & E); eauto]. Qed.

Lemma groups_ok l ps :
  collect_groups l = Ok ps <->
  exists gs, Forall2 (fun e g => fst e = Ok (fst g) /\ collect (snd e) = Ok (snd g)) l gs /\
             ps = concat (map (fun g => map (pair (fst g)) (snd g)) gs).
Proof.
  revert ps; induction l as [|[ek es] l IH]; intros ps; cbn.
  - split; [intros [= <-]; exists []; cbn; auto | intros (gs & H & ->); inversion H; auto].
  - destruct ek as [k|e| | |]; cbn.
    2-5: split; [discriminate | intros (gs & H & _); inversion H as [|? ? ? ? [Hk _]]; discriminate].
    destruct (collect es) as [xs|e| | |] eqn:Ec; cbn.
    2-5: split; [discriminate | intros (gs & H & _); inversion H as [|? g ? ? [_ Hk] _]; cbn in Hk; rewrite Ec in Hk; discriminate].
    destruct (collect_groups l) as [rest|e| | |] eqn:Er; cbn.
    2-5: split; [discriminate | intros (gs & H & _); inversion H as [|? g ? gs' [_ _] H']; subst].
    2-5: assert (X : exists gs0, Forall2 (fun (e0 : res cval * list (res cval)) g => fst e0 = Ok (fst g) /\ collect (snd e0) = Ok (snd g)) l gs0 /\
             concat (map (fun g => map (pair (fst g)) (snd g)) gs') = concat (map (fun g => map (pair (fst g)) (snd g)) gs0)) by eauto.
    2-5: apply IH in X; discriminate.
    destruct (proj1 (IH rest) eq_refl) as (gs & Hgs & ->). split.
    + intros [= <-]. exists ((k, xs) :: gs). cbn. auto.
    + intros (gs' & H & ->). inversion H as [|? g ? gs'' [Hk Hx] H']; subst. cbn in Hk, Hx.
      apply Ok_inj in Hk. rewrite Hx in Ec. apply Ok_inj in Ec. subst.
      cbn. f_equal. f_equal.
      assert (X : Ok (concat (map (fun g => map (pair (fst g)) (snd g)) gs)) = Ok (concat (map (fun g => map (pair (fst g)) (snd g)) gs''))).
      { apply IH. eauto. }
      apply Ok_inj in X. auto.
Qed.

Lemma first_ok_spec (f : cty -> res cval) ts i :
  (forall a, tame (f a)) ->
  (exists j a c, nth_error ts j = Some a /\ f a = Ok c /\
     (forall k b, (k < j)%nat -> nth_error ts k = Some b -> f b = Throw type_error) /\
     first_ok f ts i = Ok (CVar (i + j) c)) \/
  (Forall (fun a => f a = Throw type_error) ts /\ first_ok f ts i = Throw type_error).
Proof.
  intros Ht. revert i; induction ts as [|a ts IH]; intros i; cbn.
  - right; auto.
  - destruct (Ht a) as [[c E]|E]; rewrite E.
    + left. exists 0%nat, a, c. rewrite Nat.add_0_r. split; [auto|]. split; [auto|]. split; [|auto].
      intros; lia.
    + destruct (IH (S i)) as [(j & b & c & H1 & H2 & H3 & H4)|[H1 H2]].
      * left. exists (S j), b, c. split; [auto|]. split; [auto|]. split.
        -- intros [|k] b' Hk Hn; cbn in Hn; [injection Hn as <-; auto|]. apply (H3 k); [lia | auto].
        -- rewrite H4. f_equal. f_equal. lia.
      * right. auto.
Qed.

Theorem reads_ok t v : (exists c, from_dart t v = Ok c) <-> reads t v.
Proof.
  revert v; induction t as [ | |i| | | |k a IH|o m a IH|o k x IHk IHx|o k x IHk IHx|a IH|a b IHa IHb|ts IH|ts IH] using cty_ind';
    intros v; cbn.
  - destruct v; split; intros H; eauto; try (destruct H; discriminate); discriminate.
  - split; eauto.
  - destruct v; split; intros [? H]; try discriminate; eauto.
  - destruct v; split; intros [? H]; try discriminate; eauto.
  - destruct v; split; intros [? H]; try discriminate; eauto.
  - destruct v; split; intros [? H]; try discriminate; eauto.
  - destruct v as [| ws | | | | |]; try (destruct k; split; intros [? H]; try discriminate; destruct H; discriminate).
    assert (C : (exists xs, collect (map (from_dart a) ws) = Ok xs) <-> Forall (reads a) ws).
    { rewrite collect_ex. apply forall_iff; auto. }
    assert (G : (exists xs, collect (map (from_dart a) ws) = Ok xs) <-> exists ws0, VArr ws = VArr ws0 /\ Forall (reads a) ws0).
    { rewrite C. split; [eauto | intros (? & [= ->] & ?); auto]. }
    destruct k.
    + rewrite ex_ok by exact (fun _ => True). auto.
    + rewrite ex_ok by exact (fun _ => True). auto.
    + rewrite ex_ok by exact (fun _ => True). auto.
    + rewrite ex_ok by exact (fun _ => True). rewrite <- G. split.
      * intros (xs & E). apply put_in_front_map in E. exists xs. apply collect_map_ok; auto.
      * intros (xs & E). exists xs. apply put_in_front_map. apply collect_map_ok; auto.
    + destruct (Nat.eqb_spec (length ws) n).
      * rewrite ex_ok by exact (fun _ => True). rewrite gather_id, C.
        split; [eauto | intros (? & [= ->] & _ & ?); auto].
      * split; [intros [? H]; discriminate | intros (? & [= ->] & ? & _); congruence].
  - destruct v as [| ws | | | | |]; try (split; intros [? H]; try discriminate; destruct H; discriminate).
    rewrite ex_ok by exact (fun _ => True). rewrite collect_ex.
    rewrite (forall_iff _ _ (reads a)) by auto.
    split; [eauto | intros (? & [= ->] & ?); auto].
  - destruct v as [fs| | | | | |]; try (split; intros [? H]; try discriminate; destruct H; discriminate).
    rewrite ex_ok by exact (fun _ => True). rewrite collect_ex.
    rewrite (forall_iff _ _ (fun p => reads k (VStr (fst p)) /\ reads x (snd p))).
    + split; [eauto | intros (? & [= ->] & ?); auto].
    + intros p. unfold pair_of. rewrite bind_ok_iff. rewrite <- IHk, <- IHx. split.
      * intros (c & E & H). apply bind_ok_iff in H. destruct H as (d & E' & _). eauto.
      * intros ((c & E) & d & E'). exists c. split; auto. apply bind_ok_iff. eauto.
  - destruct v as [fs| | | | | |]; try (split; intros [? H]; try discriminate; destruct H; discriminate).
    rewrite ex_ok by exact (fun _ => True).
    assert (G : (exists l, collect_groups (map (fun p => (from_dart k (VStr (fst p)),
                   match snd p with VArr ws => map (from_dart x) ws | w => [from_dart x w] end)) fs) = Ok l) <->
            Forall (fun p => reads k (VStr (fst p)) /\ match snd p with VArr ws => Forall (reads x) ws | w => reads x w end) fs).
    { assert (Hp : forall w, (exists xs, collect (match w with VArr ws => map (from_dart x) ws | w => [from_dart x w] end) = Ok xs) <->
                       match w with VArr ws => Forall (reads x) ws | w => reads x w end).
      { assert (H1 : forall w, (exists xs, collect [from_dart x w] = Ok xs) <-> reads x w).
        { intros w. change [from_dart x w] with (map (from_dart x) [w]). rewrite collect_ex, Forall_cons_iff, IHx.
          split; [tauto | auto]. }
        intros w. destruct w; auto. rewrite collect_ex. apply forall_iff; auto. }
      split.
      - intros (l & E). apply groups_ok in E. destruct E as (gs & H & _). rewrite forall2_map_l in H.
        clear -H Hp IHk. induction H as [|p g fs gs [H1 H2] _ IH]; constructor; auto. cbn in *.
        split; [apply IHk; eauto|]. pose proof (proj1 (Hp (snd p))) as Hq. destruct (snd p); eauto.
      - intros H. assert (X : Forall (fun p => exists g, fst (from_dart k (VStr (fst p)), match snd p with VArr ws => map (from_dart x) ws | w => [from_dart x w] end) = Ok (fst g) /\
            collect (snd (from_dart k (VStr (fst p)), match snd p with VArr ws => map (from_dart x) ws | w => [from_dart x w] end)) = Ok (snd g)) fs).
        { revert H. apply Forall_impl. intros p [H1 H2]. apply IHk in H1. pose proof (proj2 (Hp (snd p))) as Hq.
          assert (H3 : exists xs, collect (match snd p with VArr ws => map (from_dart x) ws | w => [from_dart x w] end) = Ok xs) by (destruct (snd p); auto).
          clear H2 Hq. rename H3 into H2.
          destruct H1 as [c Hc]. destruct H2 as [xs Hx]. exists (c, xs). cbn; auto. }
        apply forall2_exist in X. destruct X as (gs & Hgs).
        eexists. apply groups_ok. exists gs. split; [|reflexivity]. apply forall2_map_l. auto. }
    rewrite G. split; [eauto | intros (? & [= ->] & ?); auto].
  - assert (G : (exists c, bind (from_dart a v) (fun x => Ok (COpt (Some x))) = Ok c) <-> reads a v).
    { rewrite ex_ok by exact (fun _ => True). auto. }
    destruct v; [rewrite G | rewrite G | rewrite G | rewrite G | rewrite G | rewrite G | split; eauto].
    all: split; [auto | intros [H|H]; [discriminate | auto]].
  - destruct v as [| ws | | | | |]; try (split; intros [? H]; try discriminate; destruct H as (? & H & _); discriminate).
    destruct ws as [|w [|u [|]]]; try (split; intros [? H]; try discriminate; destruct H as (? & H & _); discriminate).
    rewrite bind_ok_iff. split.
    + intros (c & E & H). apply bind_ok_iff in H. destruct H as (d & E' & _).
      exists w, u. split; auto. split; [apply IHa | apply IHb]; eauto.
    + intros (? & ? & [= -> ->] & H1 & H2). apply IHa in H1. apply IHb in H2.
      destruct H1 as [c H1]. destruct H2 as [d H2]. exists c. split; auto. apply bind_ok_iff. eauto.
  - destruct v as [| ws | | | | |]; try (split; intros [? H]; try discriminate; destruct H; discriminate).
    destruct (Nat.eqb_spec (length ws) (length ts)) as [El|El].
    + rewrite ex_ok by exact (fun _ => True). rewrite gather_id.
      assert (G : (exists l, collect (zip_with from_dart ts ws) = Ok l) <-> zip2 reads ts ws).
      { revert ws El. induction IH as [|a ts Ha _ IH]; intros [|w ws] El; try discriminate; cbn.
        - split; eauto.
        - rewrite bind_ok_iff. injection El as El. specialize (IH ws El). rewrite <- IH, <- Ha. split.
          + intros (c & E & H). apply bind_ok_iff in H. destruct H as (d & E' & _). eauto.
          + intros ((c & E) & d & E'). exists c. split; auto. apply bind_ok_iff. eauto. }
      rewrite G. split; [eauto | intros (? & [= ->] & ?); auto].
    + split; [intros [? H]; discriminate|]. intros (? & [= ->] & H). apply zip2_iff, forall2_len in H. congruence.
  - destruct (first_ok_spec (fun a => from_dart a v) ts 0 (fun a => tame_from a v)) as [(j & a & c & H1 & H2 & H3 & ->)|[H1 ->]].
    + split; eauto. intros _. apply any_iff, Exists_exists. exists a. split; [eapply nth_error_In; eauto|].
      rewrite Forall_forall in IH. apply IH; [eapply nth_error_In; eauto | eauto].
    + split; [intros [? H]; discriminate|]. intros H. apply any_iff, Exists_exists in H. destruct H as (a & Hin & Hr).
      rewrite Forall_forall in IH, H1. apply IH in Hr; auto. destruct Hr as [c Hc].
      specialize (H1 _ Hin). cbn in H1. congruence.
Qed.
