(** dart::optional refines optional values: every operation, including the ones
    the wrapped type interrupts with an exception. *)

From Coq Require Import ZArith List Bool Lia.
From Verif Require Import Base HeapOps SpecOpt Opt.
Import ListNotations.
Local Open Scope nat_scope.

Lemma list_set_length {A} i (x : A) l : length (list_set i x l) = length l.
Proof. revert i; induction l as [|y r IH]; intros [|i]; cbn; auto. Qed.
Lemma nth_list_set {A} i j (x : A) l :
  nth_error (list_set i x l) j = if Nat.eqb i j then (if i <? length l then Some x else None) else nth_error l j.
Proof.
  revert i j; induction l as [|y r IH]; intros i j.
  - cbn [list_set]. destruct i, j; cbn; try reflexivity. destruct (Nat.eqb i j); reflexivity.
  - destruct i, j; cbn [list_set nth_error length Nat.eqb]; try reflexivity. exact (IH i j).
Qed.
Lemma list_set_same {A} i (x : A) l : nth_error l i = Some x -> list_set i x l = l.
Proof. revert i; induction l as [|y r IH]; intros [|i] H; cbn in *; try congruence. f_equal; auto. Qed.
Lemma list_ext {A} (l m : list A) : (forall i, nth_error l i = nth_error m i) -> l = m.
Proof.
  revert m; induction l as [|x l IH]; intros [|y m] H; [reflexivity| | |].
  - specialize (H 0); discriminate.
  - specialize (H 0); discriminate.
  - f_equal; [specialize (H 0); cbn in H; congruence|]. apply IH. intros i. exact (H (S i)).
Qed.
Lemma set_var_list p x v : x < length p -> set_var p x v = list_set x v p.
Proof.
  unfold set_var. revert x; induction p as [|y r IH]; intros x H; [cbn in H; lia|].
  destruct x; [reflexivity|]. cbn [firstn skipn list_set app]. f_equal. apply IH. cbn in H; lia.
Qed.

(** Pointwise invariant: the flag and the storage agree, and each living object is
    held by exactly one variable. *)
Definition rel (l : objects) (o : option opt) (v : ovar) : Prop :=
  match o, v with
  | None, None => True
  | Some (Opt false None), Some None => True
  | Some (Opt true (Some i)), Some (Some c) => nth_error l i = Some (Some c)
  | _, _ => False
  end.
Definition owns (vs : list (option opt)) (x i : nat) : Prop := nth_error vs x = Some (Some (Opt true (Some i))).
Record Inv (s : ostate) (p : ospec) : Prop := MkInv {
  I_len : length (vars s) = length p;
  I_rel : forall x o v, nth_error (vars s) x = Some o -> nth_error p x = Some v -> rel (objs s) o v;
  I_one : forall x y i, owns (vars s) x i -> owns (vars s) y i -> x = y;
  I_all : forall i c, nth_error (objs s) i = Some (Some c) -> exists x, owns (vars s) x i
}.

Lemma nth_some {A} (l : list A) i x : nth_error l i = Some x -> i < length l.
Proof. intros H. apply nth_error_Some. congruence. Qed.

Lemma inv_var s p x v : Inv s p -> nth_error p x = Some v ->
  exists o, nth_error (vars s) x = Some o /\ rel (objs s) o v.
Proof.
  intros I H. destruct (nth_error (vars s) x) as [o|] eqn:E.
  - exists o. split; [reflexivity|]. exact (I_rel s p I x o v E H).
  - exfalso. apply nth_error_None in E. apply nth_some in H. rewrite (I_len s p I) in E. lia.
Qed.
Lemma inv_none s p x : Inv s p -> nth_error p x = Some None -> nth_error (vars s) x = Some None.
Proof. intros I H. destruct (inv_var s p x None I H) as [[[[|] [?|]]|] [E R]]; cbn in R; tauto. Qed.
Lemma inv_empty s p x : Inv s p -> nth_error p x = Some (Some None) -> nth_error (vars s) x = Some (Some empty).
Proof. intros I H. destruct (inv_var s p x _ I H) as [[[[|] [?|]]|] [E R]]; cbn in R; tauto. Qed.
Lemma inv_full s p x c : Inv s p -> nth_error p x = Some (Some (Some c)) ->
  exists i, owns (vars s) x i /\ nth_error (objs s) i = Some (Some c).
Proof. intros I H. destruct (inv_var s p x _ I H) as [[[[|] [i|]]|] [E R]]; cbn in R; try tauto. exists i. split; assumption. Qed.

Lemma nth_ovar (p : ospec) x (v : ovar) : nth_error p x = Some v -> nth x p (None : ovar) = v.
Proof. exact (nth_error_nth p x None). Qed.
Lemma of_full p x c : nth_error p x = Some (Some (Some c)) -> of_var p x = Some c.
Proof. intros H. unfold of_var. rewrite (nth_ovar p x _ H). reflexivity. Qed.
Lemma of_empty p x : nth_error p x = Some (Some None) -> of_var p x = None.
Proof. intros H. unfold of_var. rewrite (nth_ovar p x _ H). reflexivity. Qed.
Lemma there_cases p x : there p x ->
  (exists c, nth_error p x = Some (Some (Some c))) \/ nth_error p x = Some (Some None).
Proof. intros [[c|] H]; [left; exists c|right]; assumption. Qed.

(** [x] gets a new object at the end of the table. *)
Lemma I_fill s p x c o : Inv s p -> nth_error (vars s) x = Some o -> (forall i, o <> Some (Opt true (Some i))) ->
  Inv (put s (objs s ++ [Some c]) x (Some (Opt true (Some (length (objs s)))))) (list_set x (Some (Some c)) p).
Proof.
  intros I E N. pose proof (nth_some _ _ _ E) as L. pose proof (I_len _ _ I) as Len.
  assert (Below : forall y i, owns (vars s) y i -> i < length (objs s)).
  { intros y i O. unfold owns in O.
    destruct (nth_error p y) as [v|] eqn:Ep.
    - pose proof (I_rel s p I y _ v O Ep) as R. destruct v as [[d|]|]; cbn in R; try tauto. exact (nth_some _ _ _ R).
    - apply nth_error_None in Ep. apply nth_some in O. lia. }
  assert (Others : forall y i, owns (list_set x (Some (Opt true (Some (length (objs s))))) (vars s)) y i ->
            (y = x /\ i = length (objs s)) \/ (y <> x /\ owns (vars s) y i)).
  { intros y i O. unfold owns in O. rewrite nth_list_set in O. destruct (Nat.eqb_spec x y) as [->|Ne].
    - destruct (y <? length (vars s)); [|discriminate]. left. split; [reflexivity|congruence].
    - right. split; [congruence|exact O]. }
  constructor; cbn [put objs vars].
  - rewrite !list_set_length. exact Len.
  - intros y o' v E1 E2. rewrite nth_list_set in E1. rewrite nth_list_set in E2. destruct (Nat.eqb_spec x y) as [->|Ne].
    + destruct (y <? length (vars s)); [|discriminate]. destruct (y <? length p); [|discriminate].
      injection E1 as <-. injection E2 as <-. cbn [rel]. rewrite nth_error_app2, Nat.sub_diag by lia. reflexivity.
    + pose proof (I_rel s p I y o' v E1 E2) as R. destruct o' as [[[|] [i|]]|], v as [[d|]|]; cbn [rel] in R |- *; try tauto.
      rewrite nth_error_app1; [exact R|exact (nth_some _ _ _ R)].
  - intros y z i O1 O2. destruct (Others _ _ O1) as [[-> Hi]|[Ny P]], (Others _ _ O2) as [[-> Hj]|[Nz Q]].
    + reflexivity.
    + pose proof (Below _ _ Q). lia.
    + pose proof (Below _ _ P). lia.
    + exact (I_one s p I y z i P Q).
  - intros i d H. destruct (Nat.eq_dec i (length (objs s))) as [->|Ne].
    + exists x. unfold owns. rewrite nth_list_set, Nat.eqb_refl. destruct (Nat.ltb_spec x (length (vars s))); [reflexivity|lia].
    + assert (Hi : i < length (objs s)).
      { apply nth_some in H. rewrite app_length in H. cbn in H. lia. }
      rewrite nth_error_app1 in H by exact Hi. destruct (I_all s p I i d H) as [y O].
      exists y. unfold owns in *. rewrite nth_list_set. destruct (Nat.eqb_spec x y) as [->|Nxy]; [|exact O].
      exfalso. apply (N i). congruence.
Qed.

(** The object [x] holds changes its content. *)
Lemma I_write s p x i c : Inv s p -> owns (vars s) x i -> x < length p ->
  Inv (OSt (list_set i (Some c) (objs s)) (vars s)) (list_set x (Some (Some c)) p).
Proof.
  intros I O L. pose proof (I_len _ _ I) as Len.
  assert (Li : i < length (objs s)).
  { destruct (nth_error p x) as [v|] eqn:Ep; [|apply nth_error_None in Ep; lia].
    pose proof (I_rel s p I x _ v O Ep) as R. destruct v as [[d|]|]; cbn in R; try tauto. exact (nth_some _ _ _ R). }
  constructor; cbn [objs vars].
  - rewrite list_set_length. exact Len.
  - intros y o v E1 E2. rewrite nth_list_set in E2. destruct (Nat.eqb_spec x y) as [->|Ne].
    + destruct (y <? length p); [|discriminate]. injection E2 as <-. unfold owns in O. rewrite O in E1. injection E1 as <-.
      cbn [rel]. rewrite nth_list_set, Nat.eqb_refl. destruct (Nat.ltb_spec i (length (objs s))); [reflexivity|lia].
    + pose proof (I_rel s p I y o v E1 E2) as R. destruct o as [[[|] [j|]]|], v as [[d|]|]; cbn [rel] in R |- *; try tauto.
      rewrite nth_list_set. destruct (Nat.eqb_spec i j) as [->|Nij]; [|exact R].
      exfalso. apply Ne. exact (I_one s p I x y j O E1).
  - exact (I_one s p I).
  - intros j d H. rewrite nth_list_set in H. destruct (Nat.eqb_spec i j) as [->|Nij].
    + exists x. exact O.
    + exact (I_all s p I j d H).
Qed.

(** The object [x] holds is destroyed. *)
Definition none_of (v : ovar) : option opt := match v with None => None | Some _ => Some empty end.
Lemma I_kill s p x i v : Inv s p -> owns (vars s) x i -> v = None \/ v = Some None ->
  Inv (put s (list_set i None (objs s)) x (none_of v)) (list_set x v p).
Proof.
  intros I O V. pose proof (I_len _ _ I) as Len. pose proof (nth_some _ _ _ O) as L.
  assert (Others : forall y j, owns (list_set x (none_of v) (vars s)) y j -> y <> x /\ owns (vars s) y j).
  { intros y j Oy. unfold owns in Oy. rewrite nth_list_set in Oy. destruct (Nat.eqb_spec x y) as [->|Ne].
    - destruct (y <? length (vars s)); [|discriminate]. exfalso. destruct V; subst v; cbn in Oy; discriminate.
    - split; [congruence|exact Oy]. }
  constructor; cbn [put objs vars].
  - rewrite !list_set_length. exact Len.
  - intros y o u E1 E2. rewrite nth_list_set in E1. rewrite nth_list_set in E2. destruct (Nat.eqb_spec x y) as [->|Ne].
    + destruct (y <? length (vars s)); [|discriminate]. destruct (y <? length p); [|discriminate].
      injection E1 as <-. injection E2 as <-. destruct V; subst v; exact Logic.I.
    + pose proof (I_rel s p I y o u E1 E2) as R. destruct o as [[[|] [j|]]|], u as [[d|]|]; cbn [rel] in R |- *; try tauto.
      rewrite nth_list_set. destruct (Nat.eqb_spec i j) as [->|Nij]; [|exact R].
      exfalso. apply Ne. exact (I_one s p I x y j O E1).
  - intros y z j O1 O2. destruct (Others _ _ O1) as [_ P], (Others _ _ O2) as [_ Q]. exact (I_one s p I y z j P Q).
  - intros j d H. rewrite nth_list_set in H. destruct (Nat.eqb_spec i j) as [->|Nij]; [destruct (j <? length (objs s)); discriminate|].
    destruct (I_all s p I j d H) as [y Oy]. exists y. unfold owns in *. rewrite nth_list_set.
    destruct (Nat.eqb_spec x y) as [->|Nxy]; [|exact Oy]. exfalso. apply Nij. congruence.
Qed.

(** A variable without an object starts or ends. *)
Lemma I_blank s p x o v : Inv s p -> nth_error (vars s) x = Some o -> (forall i, o <> Some (Opt true (Some i))) ->
  v = None \/ v = Some None -> Inv (put s (objs s) x (none_of v)) (list_set x v p).
Proof.
  intros I E N V. pose proof (I_len _ _ I) as Len.
  assert (Others : forall y j, owns (list_set x (none_of v) (vars s)) y j -> owns (vars s) y j).
  { intros y j Oy. unfold owns in Oy. rewrite nth_list_set in Oy. destruct (Nat.eqb_spec x y) as [->|Ne]; [|exact Oy].
    destruct (y <? length (vars s)); [|discriminate]. exfalso. destruct V; subst v; cbn in Oy; discriminate. }
  constructor; cbn [put objs vars].
  - rewrite !list_set_length. exact Len.
  - intros y o' u E1 E2. rewrite nth_list_set in E1. rewrite nth_list_set in E2. destruct (Nat.eqb_spec x y) as [->|Ne].
    + destruct (y <? length (vars s)); [|discriminate]. destruct (y <? length p); [|discriminate].
      injection E1 as <-. injection E2 as <-. destruct V; subst v; exact Logic.I.
    + exact (I_rel s p I y o' u E1 E2).
  - intros y z j O1 O2. exact (I_one s p I y z j (Others _ _ O1) (Others _ _ O2)).
  - intros j d H. destruct (I_all s p I j d H) as [y Oy]. exists y. unfold owns in *. rewrite nth_list_set.
    destruct (Nat.eqb_spec x y) as [->|Nxy]; [|exact Oy]. exfalso. apply (N j). congruence.
Qed.

(** A temporary that came and went. *)
Lemma I_temp s p : Inv s p -> Inv (OSt (objs s ++ [None]) (vars s)) p.
Proof.
  intros I. constructor; cbn [objs vars].
  - exact (I_len s p I).
  - intros x o v E1 E2. pose proof (I_rel s p I x o v E1 E2) as R.
    destruct o as [[[|] [i|]]|], v as [[d|]|]; cbn [rel] in R |- *; try tauto.
    rewrite nth_error_app1; [exact R|exact (nth_some _ _ _ R)].
  - exact (I_one s p I).
  - intros i d H. destruct (Nat.eq_dec i (length (objs s))) as [->|Ne].
    + rewrite nth_error_app2, Nat.sub_diag in H by lia. discriminate.
    + rewrite nth_error_app1 in H; [exact (I_all s p I i d H)|]. apply nth_some in H. rewrite app_length in H. cbn in H. lia.
Qed.

(** Arguments. *)
Definition G (s : ostate) (a : arg) (g : given) : Prop :=
  match a, g with
  | Temp c, G_temp d => c = d
  | Ref y, G_ref (Some i) false => owns (vars s) y i
  | Mov y, G_ref (Some i) true => owns (vars s) y i
  | _, _ => False
  end.

Lemma give_ok {A} s p a (k : given -> res A) : Inv s p -> arg_ok p a ->
  exists g, G s a g /\ give s a k = k g.
Proof.
  intros I Ha. destruct a as [c|y|y]; cbn [arg_ok give] in *.
  - exists (G_temp c). split; reflexivity.
  - destruct Ha as [c H]. destruct (inv_full s p y c I H) as [i [O Ei]]. exists (G_ref (Some i) false).
    split; [exact O|]. unfold var. rewrite O. reflexivity.
  - destruct Ha as [c H]. destruct (inv_full s p y c I H) as [i [O Ei]]. exists (G_ref (Some i) true).
    split; [exact O|]. unfold var. rewrite O. reflexivity.
Qed.

Lemma read_ok s p a g : Inv s p -> arg_ok p a -> G s a g -> g_read (objs s) g = Ok (arg_val p a).
Proof.
  intros I Ha Hg. destruct a as [c|y|y], g as [d|[i|] [|]]; cbn [G arg_ok arg_val g_read] in *; try tauto; [subst; reflexivity| |];
    destruct Ha as [c H]; destruct (inv_full s p y c I H) as [j [O Ej]]; unfold owns in *; rewrite Hg in O; injection O as ->;
    cbn [t_read]; rewrite Ej, (of_full p y c H); reflexivity.
Qed.

Lemma hollow_list p y c : nth_error p y = Some (Some (Some c)) -> hollow p y = list_set y (Some (Some Hollow)) p.
Proof. intros H. unfold hollow. rewrite (of_full p y c H). apply set_var_list. exact (nth_some _ _ _ H). Qed.

Lemma moved_ok s p a g : Inv s p -> arg_ok p a -> G s a g ->
  exists l, g_moved (objs s) g = Ok l /\ length l = length (objs s) /\ Inv (OSt l (vars s)) (arg_after p a).
Proof.
  intros I Ha Hg.
  assert (Eta : Inv (OSt (objs s) (vars s)) p) by (destruct s; exact I).
  destruct a as [c|y|y], g as [d|[i|] [|]]; cbn [G arg_ok arg_after g_moved] in *; try tauto;
    try (exists (objs s); split; [reflexivity|split; [reflexivity|exact Eta]]).
  destruct Ha as [c H]. destruct (inv_full s p y c I H) as [j [O Ej]]. unfold owns in *. rewrite Hg in O. injection O as ->.
  exists (list_set j (Some Hollow) (objs s)). unfold t_write. cbn [t_read]. rewrite Ej. cbn [bind].
  split; [reflexivity|]. split; [apply list_set_length|]. rewrite (hollow_list p y c H).
  apply I_write; [exact I|exact Hg|exact (nth_some _ _ _ H)].
Qed.

Lemma new_ok s p a g t : Inv s p -> arg_ok p a -> G s a g ->
  match t with
  | Throws _ => t_new (objs s) g t = Ok (objs s, inr tt)
  | Works => exists l, t_new (objs s) g t = Ok (l ++ [Some (arg_val p a)], inl (length l))
                       /\ Inv (OSt l (vars s)) (arg_after p a)
  end.
Proof.
  intros I Ha Hg. pose proof (read_ok s p a g I Ha Hg) as R. destruct t as [|w]; unfold t_new; rewrite R; cbn [bind].
  - destruct (moved_ok s p a g I Ha Hg) as [l [E [Len Il]]]. exists l. rewrite E. cbn [bind]. rewrite <- Len. split; [reflexivity|exact Il].
  - reflexivity.
Qed.

Lemma len_after p a : length (arg_after p a) = length p.
Proof.
  destruct a as [c|y|y]; try reflexivity. cbn [arg_after]. unfold hollow. destruct (of_var p y) eqn:E; [|reflexivity].
  assert (y < length p). { unfold of_var in E. destruct (Nat.lt_ge_cases y (length p)) as [L|L]; [exact L|]. rewrite nth_overflow in E by exact L. discriminate. }
  rewrite set_var_list by assumption. apply list_set_length.
Qed.
Lemma after_nth p a x : arg_ok p a -> (forall y, a = Mov y -> y <> x) -> nth_error (arg_after p a) x = nth_error p x.
Proof.
  intros Ha N. destruct a as [c|y|y]; try reflexivity. cbn [arg_after arg_ok] in *. destruct Ha as [c H].
  rewrite (hollow_list p y c H), nth_list_set. destruct (Nat.eqb_spec y x) as [->|Ne]; [|reflexivity]. exfalso. exact (N x eq_refl eq_refl).
Qed.

(** Filling a variable that holds nothing. *)
Lemma fill_ok s p x a g t o : Inv s p -> arg_ok p a -> G s a g -> nth_error (vars s) x = Some o ->
  (forall i, o <> Some (Opt true (Some i))) ->
  match t with
  | Throws _ => construct (objs s) empty g t = Ok (objs s, empty, false)
  | Works => exists l q, construct (objs s) empty g t = Ok (l, q, true)
                         /\ Inv (put s l x (Some q)) (set_var (arg_after p a) x (Some (Some (arg_val p a))))
  end.
Proof.
  intros I Ha Hg E N. pose proof (new_ok s p a g t I Ha Hg) as W. destruct t as [|w]; unfold construct.
  - destruct W as [l [En Il]]. rewrite En. cbn [bind]. do 2 eexists. split; [reflexivity|].
    pose proof (I_fill (OSt l (vars s)) (arg_after p a) x (arg_val p a) o Il E N) as F.
    rewrite set_var_list; [exact F|]. rewrite len_after, <- (I_len s p I). exact (nth_some _ _ _ E).
  - rewrite W. reflexivity.
Qed.

(** Assigning to a variable that holds something. *)
Lemma over_ok s p x i a g t : Inv s p -> arg_ok p a -> G s a g -> owns (vars s) x i ->
  exists l ok, assign (objs s) (Opt true (Some i)) g t = Ok (l, Opt true (Some i), ok)
    /\ said ok = snd (s_over p x (arg_val p a) t (fun s => arg_after s a))
    /\ Inv (put s l x (Some (Opt true (Some i)))) (fst (s_over p x (arg_val p a) t (fun s => arg_after s a))).
Proof.
  intros I Ha Hg O. pose proof (read_ok s p a g I Ha Hg) as R. pose proof (I_len s p I) as Len.
  assert (L : x < length p) by (rewrite <- Len; exact (nth_some _ _ _ O)).
  assert (Live : exists d, nth_error (objs s) i = Some (Some d)).
  { destruct (nth_error p x) as [v|] eqn:Ep; [|apply nth_error_None in Ep; lia].
    pose proof (I_rel s p I x _ v O Ep) as Rl. destruct v as [[d|]|]; cbn in Rl; try tauto. exists d. exact Rl. }
  destruct Live as [d0 Ed].
  assert (Same : forall l, put s l x (Some (Opt true (Some i))) = OSt l (vars s)).
  { intros l. unfold put. rewrite list_set_same; [reflexivity|exact O]. }
  unfold assign, t_assign. cbn [store]. rewrite R. cbn [bind]. destruct t as [|w]; unfold t_write; cbn [t_read]; rewrite Ed; cbn [bind].
  - pose proof (I_write s p x i (arg_val p a) I O L) as I1.
    assert (Ha1 : arg_ok (list_set x (Some (Some (arg_val p a))) p) a).
    { destruct a as [c|y|y]; cbn [arg_ok] in *; [exact Logic.I| |]; destruct Ha as [c H]; unfold full; rewrite nth_list_set;
        (destruct (Nat.eqb_spec x y) as [->|Ne]; [|exists c; exact H]); destruct (Nat.ltb_spec y (length p)); [eexists; reflexivity|lia|eexists; reflexivity|lia]. }
    destruct (moved_ok (OSt (list_set i (Some (arg_val p a)) (objs s)) (vars s)) _ a g I1 Ha1) as [l [E [_ Il]]].
    { destruct a, g as [?|[?|] [|]]; exact Hg. }
    cbn [objs] in E. rewrite E. cbn [bind]. exists l, true. split; [reflexivity|]. split; [reflexivity|].
    rewrite Same. cbn [s_over fst]. rewrite set_var_list by exact L. exact Il.
  - exists (list_set i (Some w) (objs s)), false. split; [reflexivity|]. split; [reflexivity|].
    rewrite Same. cbn [s_over fst]. rewrite set_var_list by exact L. apply I_write; assumption.
Qed.

Lemma eta s p : Inv s p -> Inv (OSt (objs s) (vars s)) p.
Proof. destruct s. trivial. Qed.

Lemma wiped_ok s p x : Inv s p -> there p x ->
  exists s1, var s x (fun q => wiped s x q) = Ok (s1, O_unit) /\ Inv s1 (set_var p x (Some None)).
Proof.
  intros I T. pose proof (I_len s p I) as Len. destruct (there_cases p x T) as [[c H]|H].
  - destruct (inv_full s p x c I H) as [i [O Ei]]. unfold var. rewrite O. unfold wiped. cbn [is_set]. unfold destroy, t_kill. cbn [store t_read].
    rewrite Ei. cbn [bind]. eexists. split; [reflexivity|]. rewrite set_var_list by exact (nth_some _ _ _ H).
    apply (I_kill s p x i (Some None) I O). right; reflexivity.
  - pose proof (inv_empty s p x I H) as E. unfold var. rewrite E. cbn [wiped empty is_set]. exists s. split; [reflexivity|].
    rewrite set_var_list by exact (nth_some _ _ _ H). rewrite list_set_same by exact H. exact I.
Qed.

Lemma returned_ok s p a g t : Inv s p -> arg_ok p a -> G s a g ->
  exists s1, returned s g t = Ok (s1, match t with Works => O_content (arg_val p a) | Throws _ => O_thrown end)
    /\ Inv s1 (match t with Works => arg_after p a | Throws _ => p end).
Proof.
  intros I Ha Hg. pose proof (new_ok s p a g t I Ha Hg) as W. unfold returned. destruct t as [|w].
  - destruct W as [l [E Il]]. rewrite E. cbn [bind]. unfold t_kill. cbn [t_read].
    rewrite nth_error_app2, Nat.sub_diag by lia. cbn [nth_error bind]. eexists. split; [reflexivity|].
    assert (list_set (length l) None (l ++ [Some (arg_val p a)]) = l ++ [None]) as ->.
    { clear. induction l as [|y r IH]; cbn; [reflexivity|]. f_equal. exact IH. }
    exact (I_temp (OSt l (vars s)) _ Il).
  - rewrite W. cbn [bind]. eexists. split; [reflexivity|]. exact (eta s p I).
Qed.

Lemma arg_val_full p y c : nth_error p y = Some (Some (Some c)) -> arg_val p (Ref y) = c /\ arg_val p (Mov y) = c.
Proof. intros H. cbn [arg_val]. rewrite (of_full p y c H). split; reflexivity. Qed.

Lemma own_not_empty : forall i, Some empty <> Some (Opt true (Some i)). Proof. discriminate. Qed.
Lemma own_not_none : forall i, (None : option opt) <> Some (Opt true (Some i)). Proof. discriminate. Qed.

(** A constructor that is handed something. *)
Lemma built_ok s p x a g t : Inv s p -> arg_ok p a -> G s a g -> room_for p x ->
  exists s1, built s x (construct (objs s) empty g t)
             = Ok (s1, snd (s_fill p x (arg_val p a) t None (fun s => arg_after s a)))
    /\ Inv s1 (fst (s_fill p x (arg_val p a) t None (fun s => arg_after s a))).
Proof.
  intros I Ha Hg T. pose proof (inv_none s p x I T) as E.
  pose proof (fill_ok s p x a g t None I Ha Hg E own_not_none) as W. unfold built. destruct t as [|w].
  - destruct W as [l [q [Ec Il]]]. rewrite Ec. cbn [bind said s_fill snd fst]. eexists. split; [reflexivity|exact Il].
  - rewrite W. cbn [bind said s_fill snd fst]. eexists. split; [reflexivity|].
    rewrite set_var_list by exact (nth_some _ _ _ T). exact (I_blank s p x None None I E own_not_none (or_introl eq_refl)).
Qed.
(** An assignment to an empty variable. *)
Lemma kept_ok s p x a g t : Inv s p -> arg_ok p a -> G s a g -> nth_error p x = Some (Some None) ->
  exists s1, kept s x (construct (objs s) empty g t)
             = Ok (s1, snd (s_fill p x (arg_val p a) t (Some None) (fun s => arg_after s a)))
    /\ Inv s1 (fst (s_fill p x (arg_val p a) t (Some None) (fun s => arg_after s a))).
Proof.
  intros I Ha Hg T. pose proof (inv_empty s p x I T) as E.
  pose proof (fill_ok s p x a g t _ I Ha Hg E own_not_empty) as W. unfold kept. destruct t as [|w].
  - destruct W as [l [q [Ec Il]]]. rewrite Ec. cbn [bind said s_fill snd fst]. eexists. split; [reflexivity|exact Il].
  - rewrite W. cbn [bind said s_fill snd fst]. eexists. split; [reflexivity|].
    rewrite set_var_list by exact (nth_some _ _ _ T). exact (I_blank s p x _ (Some None) I E own_not_empty (or_intror eq_refl)).
Qed.
Lemma assigned_ok s p x i a g t : Inv s p -> arg_ok p a -> G s a g -> owns (vars s) x i ->
  exists s1, kept s x (assign (objs s) (Opt true (Some i)) g t)
             = Ok (s1, snd (s_over p x (arg_val p a) t (fun s => arg_after s a)))
    /\ Inv s1 (fst (s_over p x (arg_val p a) t (fun s => arg_after s a))).
Proof.
  intros I Ha Hg O. destruct (over_ok s p x i a g t I Ha Hg O) as [l [ok [E [Sd Il]]]].
  unfold kept. rewrite E. cbn [bind]. rewrite <- Sd. eexists. split; [reflexivity|exact Il].
Qed.

(** emplace: the old object goes first, and an argument elsewhere does not notice. *)
Lemma emplace_same p x a v t : arg_ok p a -> a <> Ref x -> a <> Mov x -> x < length p ->
  s_fill (list_set x v p) x (arg_val (list_set x v p) a) t (Some None) (fun s => arg_after s a)
  = s_fill p x (arg_val p a) t (Some None) (fun s => arg_after s a)
  /\ arg_ok (list_set x v p) a.
Proof.
  intros Ha N1 N2 L.
  assert (Same : forall y, y <> x -> nth_error (list_set x v p) y = nth_error p y).
  { intros y Ne. rewrite nth_list_set. destruct (Nat.eqb_spec x y); [congruence|reflexivity]. }
  assert (Hok : arg_ok (list_set x v p) a).
  { destruct a as [c|y|y]; cbn [arg_ok] in *; [exact Logic.I| |]; destruct Ha as [c H]; exists c; rewrite Same; try exact H; congruence. }
  split; [|exact Hok].
  assert (Hv : arg_val (list_set x v p) a = arg_val p a).
  { destruct a as [c|y|y]; [reflexivity| |]; cbn [arg_ok] in Ha; destruct Ha as [c H]; cbn [arg_val];
      (rewrite (of_full p y c H)); rewrite (of_full _ y c); [reflexivity| |reflexivity|]; rewrite Same; try exact H; congruence. }
  rewrite Hv. unfold s_fill. destruct t as [|w].
  - f_equal. rewrite !set_var_list by (rewrite len_after, ?list_set_length; exact L). apply list_ext. intros j.
    rewrite !nth_list_set, !len_after, list_set_length. destruct (Nat.eqb_spec x j) as [->|Ne]; [reflexivity|].
    destruct a as [c|y|y]; cbn [arg_after]; try (apply Same; congruence).
    cbn [arg_ok] in Ha. destruct Ha as [c H]. assert (y <> x) by congruence.
    rewrite (hollow_list p y c H), (hollow_list (list_set x v p) y c) by (rewrite Same; assumption).
    rewrite !nth_list_set, list_set_length. destruct (Nat.eqb_spec y j); [reflexivity|]. destruct (Nat.eqb_spec x j); [congruence|reflexivity].
  - f_equal. rewrite !set_var_list by (rewrite ?list_set_length; exact L). apply list_ext. intros j.
    rewrite !nth_list_set, list_set_length. destruct (Nat.eqb_spec x j); reflexivity.
Qed.

Lemma o_exec_ok s p o : Inv s p -> o_fair p o ->
  exists s1, o_exec s o = Ok (s1, snd (o_does p o)) /\ Inv s1 (fst (o_does p o)).
Proof.
  intros I F. pose proof (I_len s p I) as Len.
  assert (Raw : forall x, room_for p x -> nth_error (vars s) x = Some None /\ x < length p).
  { intros x T. split; [exact (inv_none s p x I T)|exact (nth_some _ _ _ T)]. }
  assert (Null : forall x, room_for p x ->
            exists s1, Ok (put s (objs s) x (Some empty), O_unit) = Ok (s1, O_unit) /\ Inv s1 (set_var p x (Some None))).
  { intros x T. destruct (Raw x T) as [E L]. eexists. split; [reflexivity|]. rewrite set_var_list by exact L.
    exact (I_blank s p x None (Some None) I E own_not_none (or_intror eq_refl)). }
  assert (Src : forall y c, nth_error p y = Some (Some (Some c)) -> exists i,
            nth_error (vars s) y = Some (Some (Opt true (Some i))) /\ G s (Ref y) (G_ref (Some i) false) /\ G s (Mov y) (G_ref (Some i) true)
            /\ arg_ok p (Ref y) /\ arg_ok p (Mov y) /\ arg_val p (Ref y) = c /\ arg_val p (Mov y) = c /\ of_var p y = Some c
            /\ nth_error (objs s) i = Some (Some c)).
  { intros y c H. destruct (inv_full s p y c I H) as [i [O Ei]]. destruct (arg_val_full p y c H) as [A1 A2]. exists i.
    repeat (split; [first [exact O|exact A1|exact A2|exists c; exact H|exact (of_full p y c H)]|]). exact Ei. }
  destruct o; cbn [o_exec o_fair o_does] in *.
  - (* C_null *) destruct (Raw x F) as [E L]. unfold raw. rewrite E. exact (Null x F).
  - (* C_copy *) destruct F as [T Ty]. destruct (Raw x T) as [E L]. unfold raw. rewrite E.
    destruct (there_cases p y Ty) as [[c H]|H].
    + destruct (Src y c H) as [i [Ey [G1 [G2 [K1 [K2 [V1 [V2 [Of Ei]]]]]]]]]. unfold var. rewrite Ey, Of. cbn [is_set store].
      destruct (built_ok s p x (Ref y) _ t I K1 G1 T) as [s1 W]. rewrite V1 in W. exists s1. exact W.
    + unfold var. rewrite (inv_empty s p y I H), (of_empty p y H). cbn [is_set empty]. exact (Null x T).
  - (* C_move *) destruct F as [T Ty]. destruct (Raw x T) as [E L]. unfold raw. rewrite E.
    destruct (there_cases p y Ty) as [[c H]|H].
    + destruct (Src y c H) as [i [Ey [G1 [G2 [K1 [K2 [V1 [V2 [Of Ei]]]]]]]]]. unfold var. rewrite Ey, Of. cbn [is_set store].
      destruct (built_ok s p x (Mov y) _ t I K2 G2 T) as [s1 W]. rewrite V2 in W. exists s1. exact W.
    + unfold var. rewrite (inv_empty s p y I H), (of_empty p y H). cbn [is_set empty]. exact (Null x T).
  - (* C_val *) destruct F as [T Ha]. destruct (Raw x T) as [E L]. unfold raw. rewrite E.
    destruct (give_ok s p a (fun g => built s x (construct (objs s) empty g t)) I Ha) as [g [Hg Eg]]. rewrite Eg.
    destruct (built_ok s p x a g t I Ha Hg T) as [s1 W]. exists s1. exact W.
  - (* D_var *) destruct (there_cases p x F) as [[c H]|H].
    + destruct (inv_full s p x c I H) as [i [O Ei]]. unfold var. rewrite O. cbn [is_set]. unfold destroy, t_kill. cbn [store t_read].
      rewrite Ei. cbn [bind]. eexists. split; [reflexivity|]. cbn [fst]. rewrite set_var_list by exact (nth_some _ _ _ H).
      exact (I_kill s p x i None I O (or_introl eq_refl)).
    + pose proof (inv_empty s p x I H) as E. unfold var. rewrite E. cbn [is_set empty]. eexists. split; [reflexivity|].
      cbn [fst]. rewrite set_var_list by exact (nth_some _ _ _ H). exact (I_blank s p x _ None I E own_not_empty (or_introl eq_refl)).
  - (* A_null *) exact (wiped_ok s p x I F).
  - (* A_copy *) destruct F as [Tx Ty]. destruct (Nat.eqb_spec x y) as [->|Ne].
    + destruct (there_cases p y Ty) as [[c H]|H].
      * destruct (Src y c H) as [i [Ey _]]. unfold var. rewrite !Ey. exists s. split; [reflexivity|exact I].
      * unfold var. rewrite !(inv_empty s p y I H). exists s. split; [reflexivity|exact I].
    + destruct (there_cases p y Ty) as [[c H]|H].
      * destruct (Src y c H) as [i [Ey [G1 [G2 [K1 [K2 [V1 [V2 [Of Ei]]]]]]]]]. rewrite Of.
        destruct (there_cases p x Tx) as [[d Hx]|Hx].
        -- destruct (inv_full s p x d I Hx) as [j [Ox Ej]]. rewrite (of_full p x d Hx). unfold var. rewrite Ox, Ey. cbn [is_set store andb].
           destruct (assigned_ok s p x j (Ref y) _ t I K1 G1 Ox) as [s1 W]. rewrite V1 in W. exists s1. exact W.
        -- rewrite (of_empty p x Hx). unfold var. rewrite (inv_empty s p x I Hx), Ey. cbn [is_set store andb empty].
           destruct (kept_ok s p x (Ref y) _ t I K1 G1 Hx) as [s1 W]. rewrite V1 in W. exists s1. exact W.
      * rewrite (of_empty p y H). unfold var at 2. rewrite (inv_empty s p y I H). cbn [is_set empty andb].
        exact (wiped_ok s p x I Tx).
  - (* A_move *) destruct F as [Tx Ty]. destruct (Nat.eqb_spec x y) as [->|Ne].
    + destruct (there_cases p y Ty) as [[c H]|H].
      * destruct (Src y c H) as [i [Ey _]]. unfold var. rewrite !Ey. exists s. split; [reflexivity|exact I].
      * unfold var. rewrite !(inv_empty s p y I H). exists s. split; [reflexivity|exact I].
    + destruct (there_cases p y Ty) as [[c H]|H].
      * destruct (Src y c H) as [i [Ey [G1 [G2 [K1 [K2 [V1 [V2 [Of Ei]]]]]]]]]. rewrite Of.
        destruct (there_cases p x Tx) as [[d Hx]|Hx].
        -- destruct (inv_full s p x d I Hx) as [j [Ox Ej]]. rewrite (of_full p x d Hx). unfold var. rewrite Ox, Ey. cbn [is_set store andb].
           destruct (assigned_ok s p x j (Mov y) _ t I K2 G2 Ox) as [s1 W]. rewrite V2 in W. exists s1. exact W.
        -- rewrite (of_empty p x Hx). unfold var. rewrite (inv_empty s p x I Hx), Ey. cbn [is_set store andb empty].
           destruct (kept_ok s p x (Mov y) _ t I K2 G2 Hx) as [s1 W]. rewrite V2 in W. exists s1. exact W.
      * rewrite (of_empty p y H). unfold var at 2. rewrite (inv_empty s p y I H). cbn [is_set empty andb].
        exact (wiped_ok s p x I Tx).
  - (* A_val *) destruct F as [Tx Ha]. destruct (there_cases p x Tx) as [[d Hx]|Hx].
    + destruct (inv_full s p x d I Hx) as [j [Ox Ej]]. rewrite (of_full p x d Hx). unfold var at 1. rewrite Ox. cbn [is_set].
      destruct (give_ok s p a (fun g => kept s x (assign (objs s) (Opt true (Some j)) g t)) I Ha) as [g [Hg Eg]]. rewrite Eg.
      exact (assigned_ok s p x j a g t I Ha Hg Ox).
    + rewrite (of_empty p x Hx). unfold var at 1. rewrite (inv_empty s p x I Hx). cbn [is_set empty].
      destruct (give_ok s p a (fun g => kept s x (construct (objs s) empty g t)) I Ha) as [g [Hg Eg]]. change (Opt false None) with empty. rewrite Eg.
      exact (kept_ok s p x a g t I Ha Hg Hx).
  - (* Reset *) exact (wiped_ok s p x I F).
  - (* Emplace *) destruct F as [Tx [Ha [N1 N2]]]. destruct (there_cases p x Tx) as [[d Hx]|Hx].
    + destruct (inv_full s p x d I Hx) as [j [Ox Ej]]. unfold var at 1. rewrite Ox. cbn [is_set].
      destruct (give_ok s p a (fun g => '(l, p1) <- destroy (objs s) (Opt true (Some j)) ;; kept s x (construct l p1 g t)) I Ha) as [g [Hg Eg]].
      rewrite Eg. unfold destroy, t_kill. cbn [store t_read]. rewrite Ej. cbn [bind].
      pose proof (I_kill s p x j (Some None) I Ox (or_intror eq_refl)) as I1. cbn [none_of] in I1.
      destruct (emplace_same p x a (Some None) t Ha N1 N2 (nth_some _ _ _ Hx)) as [Es Ha1].
      assert (Hg1 : G (put s (list_set j None (objs s)) x (Some empty)) a g).
      { destruct a as [c|y|y], g as [e|[i|] [|]]; cbn [G] in *; try tauto; unfold owns in *; cbn [put vars]; rewrite nth_list_set;
          (destruct (Nat.eqb_spec x y) as [->|Ne]; [congruence|exact Hg]). }
      assert (Hx1 : nth_error (list_set x (Some None) p) x = Some (Some None)).
      { rewrite nth_list_set, Nat.eqb_refl. apply nth_some in Hx. destruct (Nat.ltb_spec x (length p)); [reflexivity|lia]. }
      destruct (kept_ok _ _ x a g t I1 Ha1 Hg1 Hx1) as [s1 W]. rewrite Es in W. exists s1. destruct W as [W1 W2]. split; [|exact W2].
      rewrite <- W1. unfold kept. cbn [put objs vars]. change (Opt false None) with empty.
      destruct (construct (list_set j None (objs s)) empty g t) as [[[l q] ok]| | | |]; cbn [bind]; try reflexivity.
      unfold put. cbn [vars]. f_equal. f_equal. f_equal. apply list_ext. intros k. rewrite !nth_list_set, list_set_length. destruct (Nat.eqb x k); reflexivity.
    + unfold var at 1. rewrite (inv_empty s p x I Hx). cbn [is_set empty].
      destruct (give_ok s p a (fun g => '(l, p1) <- Ok (objs s, empty) ;; kept s x (construct l p1 g t)) I Ha) as [g [Hg Eg]].
      cbn [bind] in Eg |- *. rewrite Eg. exact (kept_ok s p x a g t I Ha Hg Hx).
  - (* Has *) destruct (there_cases p x F) as [[c H]|H].
    + destruct (Src x c H) as [i [Ex [_ [_ [_ [_ [_ [_ [Of _]]]]]]]]]. unfold var. rewrite Ex, Of. exists s. split; [reflexivity|exact I].
    + unfold var. rewrite (inv_empty s p x I H), (of_empty p x H). exists s. split; [reflexivity|exact I].
  - (* Deref *) destruct F as [c H]. destruct (Src x c H) as [i [Ex [_ [_ [_ [_ [_ [_ [Of Ei]]]]]]]]]. unfold var. rewrite Ex, Of.
    cbn [store t_read]. rewrite Ei. exists s. split; [reflexivity|exact I].
  - (* Value *) destruct (there_cases p x F) as [[c H]|H].
    + destruct (Src x c H) as [i [Ex [_ [_ [_ [_ [_ [_ [Of Ei]]]]]]]]]. unfold var. rewrite Ex, Of. cbn [is_set store t_read]. rewrite Ei.
      exists s. split; [reflexivity|exact I].
    + unfold var. rewrite (inv_empty s p x I H), (of_empty p x H). exists s. split; [reflexivity|exact I].
  - (* Value_or *) destruct F as [Tx Ha]. destruct (there_cases p x Tx) as [[c H]|H].
    + destruct (Src x c H) as [i [Ex [G1 [G2 [K1 [K2 [V1 [V2 [Of Ei]]]]]]]]]. unfold var at 1. rewrite Ex, Of. cbn [is_set store].
      destruct (give_ok s p a (fun g => returned s (G_ref (Some i) false) t) I Ha) as [g [Hg Eg]]. rewrite Eg.
      destruct (returned_ok s p (Ref x) _ t I K1 G1) as [s1 [W1 W2]]. rewrite V1 in W1. exists s1. destruct t; split; assumption.
    + unfold var at 1. rewrite (inv_empty s p x I H), (of_empty p x H). cbn [is_set empty].
      destruct (give_ok s p a (fun g => returned s g t) I Ha) as [g [Hg Eg]]. rewrite Eg.
      destruct (returned_ok s p a _ t I Ha Hg) as [s1 [W1 W2]]. exists s1. destruct t; split; assumption.
  - (* Value_or_move *) destruct F as [Tx Ha]. destruct (there_cases p x Tx) as [[c H]|H].
    + destruct (Src x c H) as [i [Ex [G1 [G2 [K1 [K2 [V1 [V2 [Of Ei]]]]]]]]]. unfold var at 1. rewrite Ex, Of. cbn [is_set store].
      destruct (give_ok s p a (fun g => returned s (G_ref (Some i) true) t) I Ha) as [g [Hg Eg]]. rewrite Eg.
      destruct (returned_ok s p (Mov x) _ t I K2 G2) as [s1 [W1 W2]]. rewrite V2 in W1. exists s1. destruct t; split; assumption.
    + unfold var at 1. rewrite (inv_empty s p x I H), (of_empty p x H). cbn [is_set empty].
      destruct (give_ok s p a (fun g => returned s g t) I Ha) as [g [Hg Eg]]. rewrite Eg.
      destruct (returned_ok s p a _ t I Ha Hg) as [s1 [W1 W2]]. exists s1. destruct t; split; assumption.
Qed.

Lemma o_run_ok ops : forall s p, Inv s p -> o_fair_all p ops ->
  exists s1, o_run s ops = Ok (s1, snd (o_story p ops)) /\ Inv s1 (fst (o_story p ops)).
Proof.
  induction ops as [|o r IH]; intros s p I F; cbn [o_run o_story o_fair_all] in *.
  - exists s. split; [reflexivity|exact I].
  - destruct F as [F1 F2]. destruct (o_exec_ok s p o I F1) as [s1 [E I1]]. rewrite E. cbn [bind].
    destruct (o_does p o) as [p1 a]. cbn [fst snd] in *. destruct (IH s1 p1 I1 F2) as [s2 [E2 I2]]. rewrite E2. cbn [bind].
    destruct (o_story p1 r) as [p2 l]. cbn [fst snd] in *. exists s2. split; [reflexivity|exact I2].
Qed.

Lemma nth_repeat_none {A} n x (o : option A) : nth_error (repeat None n) x = Some o -> o = None.
Proof. intros H. apply nth_error_In, repeat_spec in H. exact H. Qed.
Lemma o_start_ok n : Inv (o_start n) (o_blank n).
Proof.
  constructor; cbn [o_start objs vars]; unfold o_blank.
  - rewrite !repeat_length. reflexivity.
  - intros x o v E1 E2. apply nth_repeat_none in E1. apply nth_error_In, repeat_spec in E2. subst. exact Logic.I.
  - intros x y i H. unfold owns in H. apply nth_repeat_none in H. discriminate.
  - intros i c H. destruct i; discriminate.
Qed.

(** Counting: as many living objects as variables that hold something. *)
Definition alive (l : objects) : nat := length (filter (fun o => match o with Some _ => true | None => false end) l).
Definition own1 (o : option opt) : list nat := match o with Some (Opt true (Some i)) => [i] | _ => [] end.
Definition owned (vs : list (option opt)) : list nat := flat_map own1 vs.
Fixpoint live_from (k : nat) (l : objects) : list nat :=
  match l with [] => [] | Some _ :: r => k :: live_from (S k) r | None :: r => live_from (S k) r end.

Lemma live_len l : forall k, length (live_from k l) = alive l.
Proof. induction l as [|[c|] r IH]; intros k; cbn; [reflexivity| |]; unfold alive in *; cbn; rewrite ?IH; reflexivity. Qed.
Lemma live_in l : forall k i, In i (live_from k l) <-> exists c, k <= i /\ nth_error l (i - k) = Some (Some c).
Proof.
  induction l as [|o r IH]; intros k i.
  - cbn. split; [tauto|]. intros [c [_ H]]. destruct (i - k); discriminate.
  - assert (Step : In i (live_from (S k) r) <-> exists c, k < i /\ nth_error (o :: r) (i - k) = Some (Some c)).
    { rewrite (IH (S k) i). split; intros [c [L H]]; exists c; (split; [lia|]); replace (i - k) with (S (i - S k)) in * by lia; exact H. }
    destruct o as [c0|]; cbn [live_from].
    + cbn [In]. rewrite Step. split.
      * intros [->|[c [L H]]]; [exists c0; split; [lia|]; rewrite Nat.sub_diag; reflexivity|exists c; split; [lia|exact H]].
      * intros [c [L H]]. destruct (Nat.eq_dec k i) as [->|Ne]; [left; reflexivity|right; exists c; split; [lia|exact H]].
    + rewrite Step. split.
      * intros [c [L H]]. exists c. split; [lia|exact H].
      * intros [c [L H]]. destruct (Nat.eq_dec k i) as [->|Ne]; [rewrite Nat.sub_diag in H; discriminate|exists c; split; [lia|exact H]].
Qed.
Lemma live_nodup l : forall k, NoDup (live_from k l).
Proof.
  induction l as [|[c|] r IH]; intros k; cbn [live_from]; [constructor| |apply IH].
  constructor; [|apply IH]. rewrite live_in. intros [d [L _]]. lia.
Qed.
Lemma owned_in vs i : In i (owned vs) <-> exists x, owns vs x i.
Proof.
  unfold owned. rewrite in_flat_map. split.
  - intros [o [Ho Hi]]. destruct (In_nth_error _ _ Ho) as [x Ex]. exists x. unfold owns. rewrite Ex.
    destruct o as [[[|] [j|]]|]; cbn in Hi; try tauto. destruct Hi as [->|[]]. reflexivity.
  - intros [x O]. exists (Some (Opt true (Some i))). split; [exact (nth_error_In _ _ O)|left; reflexivity].
Qed.
Lemma owned_nodup vs : (forall x y i, owns vs x i -> owns vs y i -> x = y) -> NoDup (owned vs).
Proof.
  induction vs as [|o r IH]; intros H; cbn [owned flat_map]; [constructor|].
  assert (Hr : NoDup (owned r)).
  { apply IH. intros x y i A B. assert (S x = S y) by (apply (H (S x) (S y) i); assumption). lia. }
  destruct o as [[[|] [i|]]|]; cbn [own1 app]; try exact Hr. constructor; [|exact Hr].
  fold (owned r). rewrite owned_in. intros [x O]. assert (0 = S x) by (apply (H 0 (S x) i); [reflexivity|exact O]). discriminate.
Qed.
Lemma owned_len l vs : forall p, length vs = length p ->
  (forall x o v, nth_error vs x = Some o -> nth_error p x = Some v -> rel l o v) -> length (owned vs) = holding p.
Proof.
  induction vs as [|o r IH]; intros [|v p] L H; try discriminate; [reflexivity|].
  assert (R : rel l o v) by (apply (H 0 o v); reflexivity).
  assert (T : length (owned r) = holding p).
  { apply IH; [cbn in L; lia|]. intros x o' v' A B. exact (H (S x) o' v' A B). }
  cbn [owned flat_map]. rewrite app_length. fold (owned r). rewrite T. unfold holding. cbn [filter].
  destruct o as [[[|] [i|]]|], v as [[d|]|]; cbn in R; try tauto; reflexivity.
Qed.
Lemma alive_holding s p : Inv s p -> alive (objs s) = holding p.
Proof.
  intros I. rewrite <- (live_len (objs s) 0), <- (owned_len (objs s) (vars s) p (I_len s p I) (I_rel s p I)).
  assert (NoDup (live_from 0 (objs s))) by apply live_nodup.
  assert (NoDup (owned (vars s))) by (apply owned_nodup; exact (I_one s p I)).
  assert (Iff : forall i, In i (live_from 0 (objs s)) <-> In i (owned (vars s))).
  { intros i. rewrite live_in, owned_in. split.
    - intros [c [_ E]]. rewrite Nat.sub_0_r in E. exact (I_all s p I i c E).
    - intros [x O]. assert (L : x < length p) by (rewrite <- (I_len s p I); exact (nth_some _ _ _ O)).
      destruct (nth_error p x) as [v|] eqn:Ep; [|apply nth_error_None in Ep; lia].
      pose proof (I_rel s p I x _ v O Ep) as R. destruct v as [[d|]|]; cbn in R; try tauto.
      exists d. split; [lia|]. rewrite Nat.sub_0_r. exact R. }
  apply Nat.le_antisymm; apply NoDup_incl_length; try assumption; intros i Hi; apply Iff; exact Hi.
Qed.
