(** Lemmas for C71. *)

From Coq Require Import ZArith List Bool Lia.
From Verif Require Import Base BaseFacts Keys Wire Spec SpecOps HeapOps Store StoreSpec StoreFacts StoreSteps StoreRun
  Cursor SpecCursor CursorFacts CursorRun Fail SpecFail FailFacts FailAt.
Import ListNotations.
Open Scope Z_scope.

Lemma guarded_is s x w keys : erase_guarded s x w keys =
  (h <- get_var s x ;; cs0 <- inc (heap s) h ;; '(cs, h') <- copy_on_write_over 2 cs0 h ;;
   erased_in (St cs (list_set x h' (vars s))) h h' w keys).
Proof. reflexivity. Qed.

Lemma guarded_nil p s x w keys :
  erase_guarded_may p [] s x w keys = ('(s1, q) <- erase_guarded s x w keys ;; Ok ([], s1, Some q, [])).
Proof.
  rewrite guarded_is. unfold erase_guarded_may. destruct (get_var s x) as [h| | | |]; cbn [bind]; try reflexivity.
  destruct (inc (heap s) h) as [cs0| | | |]; cbn [bind]; try reflexivity. rewrite cow_nil_over.
  destruct (copy_on_write_over 2 cs0 h) as [[cs h']| | | |]; reflexivity.
Qed.
Lemma erase_idx_is s x pos : s_erase_idx s x pos = ('(s1, h) <- unshare s x ;; erase_idx_in s1 h pos).
Proof. reflexivity. Qed.
Lemma erase_at_nil p c i x j : m_erase_at p [] c i x j = ('(c1, a) <- erase_at c i x j ;; Ok ([], c1, Some a, [])).
Proof.
  assert (IDX : forall s n, m_erase_idx p [] s x (Z.of_nat n) = some_of (s_erase_idx s x (Z.of_nat n))).
  { intros s n. unfold m_erase_idx. rewrite after_cow_nil. reflexivity. }
  unfold m_erase_at, erase_at. destruct (get_it c j) as [it| | | |]; cbn [bind]; try reflexivity.
  destruct it as [|a k keys|a q|]; try reflexivity.
  all: destruct (get_var (store c) x) as [h| | | |]; cbn [bind]; try reflexivity.
  all: destruct h as [|z|d|b|t|b|b]; cbn [iterator_index bind]; try reflexivity.
  all: try (destruct k; reflexivity).
  all: try (destruct k as [k|]; cbn [iterator_key bind]; [|reflexivity]; rewrite guarded_nil;
            destruct (erase_guarded _ _ _ _) as [[s1 q]| | | |]; reflexivity).
  all: destruct (Nat.eqb _ _); cbn [bind]; try reflexivity.
  all: rewrite IDX; unfold some_of; destruct (s_erase_idx _ _ _) as [[s1 r]| | | |]; cbn [bind]; try reflexivity.
  all: destruct r; try reflexivity.
  all: destruct (s_size s1 x) as [z| | | |]; cbn [bind]; try reflexivity.
  all: destruct (placed_index _ _ _); reflexivity.
Qed.

Definition refused_as (v : value) : option ans := match v with VObj _ => Some (A_err type_error) | _ => None end.
Definition at_leaves (p : counter) (c : cstate) (e : env) (x : nat) (c' : cstate) (a : ans)
    (r : res (memory * cstate * option ans * list cell)) : Prop :=
  exists m' c2 b l, r = Ok (m', c2, b, l) /\
    ((b = Some a /\ c2 = c' /\ l = []) \/
     exists s, c2 = after c s /\ Inv s e (flat_map kids l) /\ vars s = vars (store c) /\ lost_ok p l /\ b = refused_as (val e x)).

Lemma guarded_ok p m s e x w keys s' q : Inv s e [] -> (x < length e)%nat -> erase_guarded s x w keys = Ok (s', q) ->
  exists m' s2 b l, erase_guarded_may p m s x w keys = Ok (m', s2, b, l) /\
    match b with
    | Some q2 => s2 = s' /\ q2 = q /\ l = []
    | None => Inv s2 e (flat_map kids l) /\ vars s2 = vars s /\ lost_ok p l
    end.
Proof.
  intros I L E. rewrite guarded_is in E. unfold erase_guarded_may. destruct (L_get _ _ _ _ I L) as (h & N & G & Sh).
  rewrite G in *. cbn [bind] in *. pose proof I as [W F].
  destruct (inc_ok _ _ h W) as (cs0 & E0 & W0 & S0 & _ & _). { apply in_or_app. left. eapply nth_error_In. exact N. }
  rewrite E0 in *. cbn [bind] in *.
  assert (I0 : Inv (St cs0 (vars s)) e [h]). { split; [exact W0|]. exact (elems_sub _ _ _ _ S0 F). }
  destruct (cow_ok_over 2 p m _ e [h] x h I0 ltac:(lia) N) as (m1 & cs & o & l & E1 & O). cbn [heap] in E1. rewrite E1. cbn [bind].
  destruct o as [h'|].
  - apply cow_done_over in E1. destruct E1 as [E1 _]. rewrite E1 in E. cbn [bind] in E. rewrite E. cbn [bind].
    eexists _, _, _, _. split; [reflexivity|]. exact (conj eq_refl (conj eq_refl O)).
  - destruct O as [O1 O2].
    assert (O1' : Inv (St cs (vars s)) e ([h] ++ flat_map kids l)).
    { destruct O1 as [A B]. split; [|exact B]. eapply wf_meq; [|exact A]. intros y. cbn [vars]. rewrite !cnt_app. lia. }
    destruct (L_drop' _ _ _ _ O1') as (s2 & E2 & I2 & V2 & _). rewrite E2. cbn [bind].
    eexists _, _, _, _. split; [reflexivity|]. split; [exact I2|]. split; [exact V2|exact O2].
Qed.

Lemma m_idx_ok p m s e x pos s' a : Inv s e [] -> (x < length e)%nat -> s_erase_idx s x pos = Ok (s', a) ->
  exists m' s2 b l, m_erase_idx p m s x pos = Ok (m', s2, b, l) /\
    match b with
    | Some b => s2 = s' /\ b = a /\ l = []
    | None => Inv s2 e (flat_map kids l) /\ vars s2 = vars s /\ lost_ok p l
    end.
Proof.
  intros I L E. rewrite erase_idx_is in E. unfold m_erase_idx, after_cow. destruct (L_get _ _ _ _ I L) as (h & N & G & Sh).
  unfold unshare in E. rewrite G in *. cbn [bind] in *.
  destruct (cow_ok p m s e x h I N) as (m1 & cs & o & l & E1 & O). rewrite E1. cbn [bind]. destruct o as [h'|].
  - apply cow_done in E1. destruct E1 as [E1 _]. rewrite E1 in E. cbn [bind] in E. unfold may. cbn [ask_n]. rewrite E. cbn [bind].
    eexists _, _, _, _. split; [reflexivity|]. exact (conj eq_refl (conj eq_refl eq_refl)).
  - eexists _, _, _, _. split; [reflexivity|]. destruct O as [O1 O2]. split; [exact O1|]. split; [reflexivity|exact O2].
Qed.

Lemma at_ok p m c e ms i x j c' a : CInv c (e, ms) -> (x < length e)%nat -> erase_at c i x j = Ok (c', a) ->
  at_leaves p c e x c' a (m_erase_at p m c i x j).
Proof.
  intros C L E. pose proof C as (I & _ & _). cbn [fst] in I. unfold at_leaves, m_erase_at, erase_at in *.
  destruct (get_it c j) as [it| | | |]; cbn [bind] in *; try discriminate.
  assert (ANS : forall c1 b (mm : memory), Ok (c1, b) = Ok (c', a) -> exists m' c2 d l, Ok (mm, c1, Some b, [] : list cell) = Ok (m', c2, d, l) /\
    ((d = Some a /\ c2 = c' /\ l = []) \/
     exists s, c2 = after c s /\ Inv s e (flat_map kids l) /\ vars s = vars (store c) /\ lost_ok p l /\ d = refused_as (val e x))).
  { intros c1 b mm H. apply Ok_inj in H. injection H as -> ->. eexists _, _, _, _. split; [reflexivity|]. left. auto. }
  destruct (L_get _ _ _ _ I L) as (h & N & G & Sh). rewrite G in *. cbn [bind] in *.
  assert (ARR : forall n, match h with HObj _ => False | _ => True end ->
    ('(s1, a) <- s_erase_idx (store c) x (Z.of_nat n) ;;
      match a with
      | A_unit =>
          m <- s_size s1 x ;;
          q <- placed_index s1 x (match m with Some m => Nat.min n (Z.to_nat m) | None => n end) ;;
          Ok (give c i s1 q, A_unit)
      | _ => Ok (after c s1, a)
      end) = Ok (c', a) ->
    exists m' c2 b l,
    ('(m1, s1, a, l) <- m_erase_idx p m (store c) x (Z.of_nat n) ;;
      match a with
      | Some A_unit =>
          z <- s_size s1 x ;;
          q <- placed_index s1 x (match z with Some z => Nat.min n (Z.to_nat z) | None => n end) ;;
          Ok (m1, give c i s1 q, Some A_unit, l)
      | _ => Ok (m1, after c s1, a, l)
      end) = Ok (m', c2, b, l) /\
    ((b = Some a /\ c2 = c' /\ l = []) \/
     exists s, c2 = after c s /\ Inv s e (flat_map kids l) /\ vars s = vars (store c) /\ lost_ok p l /\ b = refused_as (val e x))).
  { intros n NO H. destruct (s_erase_idx (store c) x (Z.of_nat n)) as [[s1 r]| | | |] eqn:ES; cbn [bind] in H; try discriminate.
    destruct (m_idx_ok p m _ e x _ _ _ I L ES) as (m1 & s2 & b & l & E1 & Q). rewrite E1. cbn [bind]. destruct b as [b|].
    - destruct Q as (-> & -> & ->). destruct r; try (apply ANS; exact H).
      destruct (s_size s1 x) as [z| | | |]; cbn [bind] in *; try discriminate.
      destruct (placed_index _ _ _) as [q| | | |]; cbn [bind] in *; try discriminate. apply ANS; exact H.
    - eexists _, _, _, _. split; [reflexivity|]. right. exists s2. destruct Q as (Q1 & Q2 & Q3).
      split; [reflexivity|]. split; [exact Q1|]. split; [exact Q2|]. split; [exact Q3|].
      destruct h; try contradiction; inversion Sh; reflexivity. }
  destruct it as [|ca k keys|ca q|]; try (apply ANS; exact E).
  all: destruct h as [|z|d|b|t|b|b]; cbn [iterator_index bind] in *; try discriminate; try (apply ANS; exact E).
  all: try (destruct (iterator_key _) as [[er|w]| | | |]; cbn [bind] in *; try discriminate; [apply ANS; exact E|]).
  all: try (destruct (erase_guarded _ _ _ _) as [[s1 q']| | | |] eqn:EG; cbn [bind] in E; try discriminate;
    destruct (guarded_ok p m _ e x _ _ _ _ I L EG) as (m1 & s2 & b2 & l & E1 & Q); rewrite E1; cbn [bind]; destruct b2 as [q2|];
    [destruct Q as (-> & -> & ->); apply ANS; exact E|];
    destruct Q as (Q1 & Q2 & Q3); eexists _, _, _, _; split; [reflexivity|]; right; exists s2;
    split; [reflexivity|]; split; [exact Q1|]; split; [exact Q2|]; split; [exact Q3|]; inversion Sh; reflexivity).
  all: destruct (Nat.eqb _ _); cbn [bind] in *; try discriminate; apply ARR; [exact Logic.I|exact E].
Qed.

Lemma upset_nil ms : upset [] ms = ms.
Proof. unfold upset. induction ms as [|k ms IH]; cbn [map]; [reflexivity|]. rewrite IH. destruct k; reflexivity. Qed.
Lemma refused_CInv c e ms s : CInv c (e, ms) -> Inv s e [] -> vars s = vars (store c) -> CInv (after c s) (e, ms).
Proof.
  intros C I V. pose proof C as (_ & T & _). cbn [fst] in T. rewrite <- (upset_nil ms). apply (CInv_after c e ms s e []); auto.
  intros y _. rewrite V. reflexivity.
Qed.
