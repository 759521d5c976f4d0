(** Lemmas for C72. *)

From Coq Require Import ZArith List Bool Lia.
From Verif Require Import Base BaseFacts Keys Wire Spec SpecOps HeapOps Store StoreSpec StoreFacts StoreSteps StoreRun
  Cursor SpecCursor CursorFacts CursorRun Fail SpecFail FailFacts FailAt FailAtFacts FailPut.
Import ListNotations.
Open Scope Z_scope.

Lemma put_nil call mcall c i x j v : (forall s k, mcall s x k v = some_of (call s x k v)) ->
  m_put_at mcall [] c i x j v = ('(c1, a) <- put_at call c i x j v ;; Ok ([], c1, Some a, [])).
Proof.
  intros H. unfold m_put_at, put_at. destruct (get_it c j) as [it| | | |]; cbn [bind]; try reflexivity.
  assert (KEY : forall w, ('(s0, _) <- unshare (store c) x ;; key <- view s0 w ;;
      '(m1, s1, a, l) <- mcall (store c) x (VStr key) v ;;
      match a with
      | Some A_unit => q <- placed_key s1 x key ;; Ok (m1, give c i s1 q, Some A_unit, l)
      | _ => Ok (m1, after c s1, a, l)
      end) =
     ('(c1, a) <- ('(s0, _) <- unshare (store c) x ;; key <- view s0 w ;;
      '(s1, a) <- call (store c) x (VStr key) v ;;
      match a with
      | A_unit => q <- placed_key s1 x key ;; Ok (give c i s1 q, A_unit)
      | _ => Ok (after c s1, a)
      end) ;; Ok ([], c1, Some a, []))).
  { intros w. destruct (unshare _ _) as [[s0 h0]| | | |]; cbn [bind]; try reflexivity.
    destruct (view s0 w) as [key| | | |]; cbn [bind]; try reflexivity. rewrite H. unfold some_of.
    destruct (call _ _ _ _) as [[s1 r]| | | |]; cbn [bind]; try reflexivity. destruct r; try reflexivity.
    destruct (placed_key _ _ _); reflexivity. }
  destruct it as [|a k keys|a q|]; try reflexivity.
  all: destruct (get_var (store c) x) as [h| | | |]; cbn [bind]; try reflexivity.
  all: destruct h as [|z|d|b|t|b|b]; cbn [iterator_index bind]; try reflexivity.
  all: try (destruct (iterator_key _) as [[er|w]| | | |]; cbn [bind]; try reflexivity; apply KEY).
  all: destruct (Nat.eqb _ _); cbn [bind]; try reflexivity.
  all: rewrite H; unfold some_of; destruct (call _ _ _ _) as [[s1 r]| | | |]; cbn [bind]; try reflexivity.
  all: destruct r; try reflexivity; destruct (placed_index _ _ _); reflexivity.
Qed.

Lemma after_cow_others p m s x n rest m' s' l : after_cow p m s x n rest = Ok (m', s', None, l) -> others [x] s s'.
Proof.
  unfold after_cow. intros E. apply bind_Ok in E. destruct E as (h & G & E). apply bind_Ok in E. destruct E as ([[[m1 cs] o] l1] & E1 & E).
  destruct o as [h'|].
  - unfold may in E. destruct (ask_n _ _) as [[] m2].
    + apply bind_Ok in E. destruct E as ([s1 a] & _ & E). apply Ok_inj in E. discriminate.
    + apply Ok_inj in E. injection E as _ <- _. intros y N. cbn [vars]. apply nth_set_other. intros ->. apply N. left. reflexivity.
  - apply Ok_inj in E. injection E as _ <- _. intros y _. reflexivity.
Qed.

(** A call that unshares [x] and then may be refused. *)
Definition may_put (p : counter) (e : env) (x : nat) (v : src)
    (call : state -> nat -> value -> src -> res (state * ans)) (mcall : state -> nat -> value -> src -> res aftermath) : Prop :=
  forall s k s' a, Inv s e [] -> call s x k v = Ok (s', a) ->
  exists m' s2 b l, mcall s x k v = Ok (m', s2, b, l) /\
    match b with
    | Some b => s2 = s' /\ b = a /\ l = []
    | None => Inv s2 e (flat_map kids l) /\ others [x] s s2 /\ lost_ok p l
    end.
Lemma cow_may_put p m e x v n rest call mcall : (x < length e)%nat ->
  (forall s k, call s x k v = ('(s1, h) <- unshare s x ;; rest k s1 h)) ->
  (forall s k, mcall s x k v = after_cow p m s x (n k) (rest k)) -> may_put p e x v call mcall.
Proof.
  intros L C M s k s' a I E. rewrite C in E. rewrite M.
  destruct (after_cow_ok p m (n k) s e x (rest k) s' a I L E) as (m' & s2 & b & l & E2 & Q).
  exists m', s2, b, l. split; [exact E2|]. destruct b as [b|].
  - destruct Q as [Q ->]. rewrite E in Q. apply Ok_inj in Q. injection Q as -> ->. auto.
  - destruct Q as (Q1 & _ & Q3). split; [exact Q1|]. split; [eapply after_cow_others; exact E2|exact Q3].
Qed.
Lemma insert_may_put p m e x v : (x < length e)%nat -> may_put p e x v s_insert (m_insert p m).
Proof.
  intros L. apply (cow_may_put p m e x v (fun k s1 h => value_blocks k + src_blocks v + place_blocks s1 h k)%nat (fun k s1 h => insert_in s1 h k v));
    [exact L|reflexivity|reflexivity].
Qed.
Lemma set_may_put p m e x v : (x < length e)%nat -> may_put p e x v s_set (m_set p m).
Proof.
  intros L. apply (cow_may_put p m e x v (fun k _ _ => value_blocks k + src_blocks v)%nat (fun k s1 h => set_in s1 h k v));
    [exact L|reflexivity|reflexivity].
Qed.

Lemma put_ok p m call mcall c e ms i x j v c' a : CInv c (e, ms) -> (x < length e)%nat -> may_put p e x v call mcall ->
  put_at call c i x j v = Ok (c', a) ->
  exists m' c2 b l, m_put_at mcall m c i x j v = Ok (m', c2, b, l) /\
    ((b = Some a /\ c2 = c' /\ l = []) \/
     exists s, c2 = after c s /\ Inv s e (flat_map kids l) /\ others [x] (store c) s /\ lost_ok p l /\ b = None).
Proof.
  intros C L MP E. pose proof C as (I & _ & _). cbn [fst] in I. unfold m_put_at, put_at in *.
  destruct (get_it c j) as [it| | | |]; cbn [bind] in *; try discriminate.
  set (R := fun (r : res (memory * cstate * option ans * list cell)) => exists m' c2 b l, r = Ok (m', c2, b, l) /\
    ((b = Some a /\ c2 = c' /\ l = []) \/
     exists s, c2 = after c s /\ Inv s e (flat_map kids l) /\ others [x] (store c) s /\ lost_ok p l /\ b = None)).
  match goal with |- exists m' c2 b l, ?r = _ /\ _ => change (R r) end.
  assert (ANS : forall c1 b (mm : memory), Ok (c1, b) = Ok (c', a) -> R (Ok (mm, c1, Some b, []))).
  { intros c1 b mm H. apply Ok_inj in H. injection H as -> ->. eexists _, _, _, _. split; [reflexivity|]. left. auto. }
  destruct (L_get _ _ _ _ I L) as (h & N & G & Sh). rewrite G in *. cbn [bind] in *.
  assert (PUT : forall k (pl : state -> res place),
    ('(s1, r) <- call (store c) x k v ;;
      match r with A_unit => q <- pl s1 ;; Ok (give c i s1 q, A_unit) | _ => Ok (after c s1, r) end) = Ok (c', a) ->
    R ('(m1, s1, r, l) <- mcall (store c) x k v ;;
      match r with Some A_unit => q <- pl s1 ;; Ok (m1, give c i s1 q, Some A_unit, l) | _ => Ok (m1, after c s1, r, l) end)).
  { intros k pl H. destruct (call (store c) x k v) as [[s1 r]| | | |] eqn:EC; cbn [bind] in H; try discriminate.
    destruct (MP _ _ _ _ I EC) as (m1 & s2 & b & l & E1 & Q). rewrite E1. cbn [bind]. destruct b as [b|].
    - destruct Q as (-> & -> & ->). destruct r; try (apply ANS; exact H).
      destruct (pl s1) as [q| | | |]; cbn [bind] in *; try discriminate. apply ANS; exact H.
    - eexists _, _, _, _. split; [reflexivity|]. right. exists s2. destruct Q as (Q1 & Q2 & Q3).
      split; [reflexivity|]. split; [exact Q1|]. split; [exact Q2|]. split; [exact Q3|reflexivity]. }
  destruct it as [|ca k keys|ca q|]; try (apply ANS; exact E).
  all: destruct h as [|z|d|b|t|b|b]; cbn [iterator_index bind] in *; try discriminate; try (apply ANS; exact E).
  all: try (destruct (iterator_key _) as [[er|w]| | | |]; cbn [bind] in *; try discriminate; [apply ANS; exact E|];
    destruct (unshare _ _) as [[s0 h0]| | | |]; cbn [bind] in *; try discriminate;
    destruct (view s0 w) as [key| | | |]; cbn [bind] in *; try discriminate;
    apply (PUT (VStr key) (fun s1 => placed_key s1 x key)); exact E).
  all: destruct (Nat.eqb _ _); cbn [bind] in *; try discriminate.
  all: match goal with |- context [Z.of_nat ?n] => apply (PUT (VInt (Z.of_nat n)) (fun s1 => placed_index s1 x n)); exact E end.
Qed.

Lemma refused_put c e ms s x : CInv c (e, ms) -> Inv s e [] -> others [x] (store c) s -> CInv (after c s) (e, upset [x] ms).
Proof. intros C I V. pose proof C as (_ & T & _). cbn [fst] in T. apply (CInv_after c e ms s e [x]); auto. Qed.
