(** Each call of Store.v against the independent values of StoreSpec.v. *)

From Coq Require Import ZArith List Bool Lia ZifyBool ZifyNat ZifyN.
From Verif Require Import Base BaseFacts Keys Wire Spec SpecOps HeapOps HeapFacts Store StoreSpec StoreFacts.
Import ListNotations.
Open Scope Z_scope.

(** ** Lists that agree element by element *)
Lemma Forall2_length {A B} {R : A -> B -> Prop} {l m} : Forall2 R l m -> length l = length m.
Proof. intros F. induction F; cbn; congruence. Qed.
Section Zip.
  Context {A B : Type} (R : A -> B -> Prop).

  Lemma Forall2_nth l m i : Forall2 R l m ->
    match nth_error l i, nth_error m i with
    | Some a, Some b => R a b | None, None => True | _, _ => False end.
  Proof. intros F. revert i. induction F as [|a b l m H F IH]; intros [|i]; cbn; auto. apply IH. Qed.
  Lemma Forall2_set l m i a b : Forall2 R l m -> R a b -> Forall2 R (list_set i a l) (list_set i b m).
  Proof. intros F H. revert i. induction F; intros [|i]; cbn; constructor; auto. Qed.
  Lemma Forall2_insert l m i a b : Forall2 R l m -> R a b -> Forall2 R (list_insert i a l) (list_insert i b m).
  Proof. intros F H. revert i. induction F; intros [|i]; cbn; repeat constructor; auto. Qed.
  Lemma Forall2_erase l m i : Forall2 R l m -> Forall2 R (list_erase i l) (list_erase i m).
  Proof. intros F. revert i. induction F; intros [|i]; cbn; try constructor; auto. Qed.
  Lemma Forall2_firstn l m i : Forall2 R l m -> Forall2 R (firstn i l) (firstn i m).
  Proof. intros F. revert i. induction F; intros [|i]; cbn; constructor; auto. Qed.
  Lemma Forall2_repeat a b n : R a b -> Forall2 R (repeat a n) (repeat b n).
  Proof. induction n; cbn; constructor; auto. Qed.
  Lemma Forall2_zlen l m : Forall2 R l m -> zlen l = zlen m.
  Proof. intros F. unfold zlen. rewrite (Forall2_length F). reflexivity. Qed.
End Zip.

Lemma same_lower {A B} key (fs : list (str * A)) : forall vs : list (str * B),
  Forall2 (fun p q => fst p = fst q) fs vs -> map_lower_bound key fs = map_lower_bound key vs.
Proof.
  intros vs F. induction F as [|[k a] [k' b] fs vs E F IH]; cbn in *; [reflexivity|]. subst k'.
  rewrite IH. reflexivity.
Qed.
Lemma same_find {A B} key (fs : list (str * A)) (vs : list (str * B)) :
  Forall2 (fun p q => fst p = fst q) fs vs -> map_find key fs = map_find key vs.
Proof.
  intros F. unfold map_find. rewrite (same_lower key fs vs F).
  pose proof (Forall2_nth _ _ _ (map_lower_bound key vs) F) as N.
  destruct (nth_error fs _) as [[k a]|], (nth_error vs _) as [[k' b]|]; cbn in N; try tauto. subst k'. reflexivity.
Qed.
Lemma map_find_lt {A} key (fs : list (str * A)) j : map_find key fs = Some j -> exists p, nth_error fs j = Some p.
Proof.
  unfold map_find. destruct (nth_error fs (map_lower_bound key fs)) as [[k a]|] eqn:E; [|discriminate].
  destruct (dart_ltb key k); [discriminate|]. intros H. injection H as <-. eauto.
Qed.

Lemma list_set_same {A} x (h : A) l : nth_error l x = Some h -> list_set x h l = l.
Proof. intros E. apply nth_error_split in E. destruct E as (l1 & l2 & -> & <-). apply list_set_mid. Qed.
Lemma list_set_length {A} x (h : A) l : length (list_set x h l) = length l.
Proof. revert x. induction l; intros [|x]; cbn; auto. Qed.
Lemma nth_set_same {A} x (h : A) l : (x < length l)%nat -> nth_error (list_set x h l) x = Some h.
Proof. revert x. induction l; intros [|x]; cbn; intros; try lia; auto. apply IHl. lia. Qed.
Lemma nth_set_other {A} x y (h : A) l : y <> x -> nth_error (list_set x h l) y = nth_error l y.
Proof. revert x y. induction l; intros [|x] [|y] N; cbn; auto; try congruence. Qed.
Lemma Forall2_nth_intro {A B} (R : A -> B -> Prop) l : forall m, length l = length m ->
  (forall i a b, nth_error l i = Some a -> nth_error m i = Some b -> R a b) -> Forall2 R l m.
Proof.
  induction l as [|a l IH]; intros [|b m] L H; try discriminate; constructor.
  - apply (H O); reflexivity.
  - apply IH; [cbn in L; congruence|]. intros i x y E F. apply (H (S i)); assumption.
Qed.
Lemma val_nth e x v : nth_error e x = Some v -> val e x = v.
Proof. intros E. unfold val. apply nth_error_nth. exact E. Qed.

(** ** States *)
Definition Inv (s : state) (e : env) (temps : list hval) : Prop :=
  wf (heap s) (temps ++ vars s) /\ Forall2 (shows (heap s)) (vars s) e.

Lemma Inv_meq s e t t' : meq t t' -> Inv s e t -> Inv s e t'.
Proof. intros M [W F]. split; [|exact F]. eapply wf_meq; [|exact W]. intros h. specialize (M h). rewrite !cnt_app. lia. Qed.

Lemma Inv_len s e t : Inv s e t -> length (vars s) = length e.
Proof. intros [_ F]. exact (Forall2_length F). Qed.

Lemma L_get s e t x : Inv s e t -> (x < length e)%nat ->
  exists h, nth_error (vars s) x = Some h /\ get_var s x = Ok h /\ shows (heap s) h (val e x).
Proof.
  intros [W F] L. pose proof (Forall2_nth _ _ _ x F) as N. unfold get_var.
  destruct (nth_error e x) as [v|] eqn:E; [|apply nth_error_None in E; lia].
  destruct (nth_error (vars s) x) as [h|]; [|contradiction]. exists h. rewrite (val_nth _ _ _ E). auto.
Qed.

(** A container held by nothing but variable [x]. *)
Definition owned (s : state) (x a : nat) (c : cell) : Prop :=
  nth_error (vars s) x = Some (handle c a) /\ cell_at (heap s) a = Some (1, c).

Lemma owned_nref s t x a c : wf (heap s) (t ++ vars s) -> owned s x a c ->
  nref a t = 0 /\ nref a (all_kids (heap s)) = 0 /\
  (forall y h, y <> x -> nth_error (vars s) y = Some h -> href h <> Some a).
Proof.
  intros [W _] [E C]. destruct (W _ _ _ C) as [Q _]. rewrite nref_app in Q.
  pose proof (nref_nonneg a t). pose proof (nref_nonneg a (all_kids (heap s))).
  apply nth_error_split in E. destruct E as (l1 & l2 & V & L). rewrite V in Q. rewrite nref_app in Q. cbn [nref] in Q.
  rewrite handle_ref, Nat.eqb_refl in Q. pose proof (nref_nonneg a l1). pose proof (nref_nonneg a l2).
  split; [lia|]. split; [lia|]. intros y h N H4. rewrite V in H4. destruct (lt_dec y (length l1)).
  - rewrite nth_error_app1 in H4 by assumption. apply (nref_zero a h l1); [lia|]. eapply nth_error_In; eassumption.
  - rewrite nth_error_app2 in H4 by lia. destruct (y - length l1)%nat as [|i] eqn:D; [lia|]. cbn in H4.
    apply (nref_zero a h l2); [lia|]. eapply nth_error_In; eassumption.
Qed.

(** The count follows from the invariant once the contents are known. *)
Lemma owned_intro s t x a c n : wf (heap s) (t ++ vars s) -> nth_error (vars s) x = Some (handle c a) ->
  cell_at (heap s) a = Some (n, c) -> nref a t = 0 -> nref a (all_kids (heap s)) = 0 ->
  (forall y h, y <> x -> nth_error (vars s) y = Some h -> href h <> Some a) -> owned s x a c.
Proof.
  intros [W _] E C Z1 Z2 O. split; [exact E|]. destruct (W _ _ _ C) as [Q _]. rewrite nref_app in Q.
  assert (nref a (vars s) = 1).
  { pose proof E as E'. apply nth_error_split in E'. destruct E' as (l1 & l2 & V & L). rewrite V, nref_app. cbn [nref].
    rewrite handle_ref, Nat.eqb_refl.
    assert (nref a l1 = 0).
    { pose proof (nref_nonneg a l1). destruct (Z.eq_dec (nref a l1) 0); [assumption|].
      destruct (nref_pos a l1) as (h & I & Eh); [lia|]. exfalso. apply In_nth_error in I. destruct I as (y & I).
      assert (y < length l1)%nat by (apply nth_error_Some; congruence).
      apply (O y h); [lia| |exact Eh]. rewrite V, nth_error_app1 by assumption. exact I. }
    assert (nref a l2 = 0).
    { pose proof (nref_nonneg a l2). destruct (Z.eq_dec (nref a l2) 0); [assumption|].
      destruct (nref_pos a l2) as (h & I & Eh); [lia|]. exfalso. apply In_nth_error in I. destruct I as (y & I).
      apply (O (length l1 + S y)%nat h); [lia| |exact Eh]. rewrite V, nth_error_app2 by lia.
      replace (length l1 + S y - length l1)%nat with (S y) by lia. exact I. }
    lia. }
  rewrite C. repeat f_equal. lia.
Qed.

(** copy_on_write with further handles [t] in use elsewhere: the variable shows what
    it showed, from a container of its own when the old one was shared. *)
Lemma L_cow s e x t over : Inv s e t -> (x < length e)%nat -> 1 <= over ->
  exists h cs' h', nth_error (vars s) x = Some h /\ copy_on_write_over over (heap s) h = Ok (cs', h') /\
    let s' := St cs' (list_set x h' (vars s)) in
    Inv s' e t /\ nth_error (vars s') x = Some h' /\ shows cs' h' (val e x) /\ sub (heap s) cs' /\
    (if over <? refcount (heap s) h then forall a, href h' = Some a -> (exists c, owned s' x a c /\ h' = handle c a) /\ cell_at (heap s) a = None
     else cs' = heap s /\ h' = h).
Proof.
  intros I L OV. destruct (L_get _ _ _ _ I L) as (h & N & G & Sh). exists h.
  unfold copy_on_write_over. destruct (over <? refcount (heap s) h) eqn:RC.
  - unfold refcount in RC. destruct (href h) as [a|] eqn:E; [|destruct h; cbn in RC; lia].
    destruct (shows_cell _ _ _ _ Sh E) as (n & c & C & H & CS). rewrite C in RC.
    destruct I as [W F].
    destruct (inc_all_ok (kids c) _ _ W) as (cs1 & E1 & W1 & S1 & S1' & K1).
    { intros x' I'. apply in_or_app. right. eapply kids_in; eassumption. }
    pose proof (alloc_ok _ _ _ W1) as W2.
    set (cs2 := cs1 ++ [Some (1, c)]) in *. set (h' := handle c (length cs1)) in *.
    assert (W3 : wf cs2 ([h] ++ t ++ list_set x h' (vars s))).
    { eapply wf_meq; [|exact W2]. intros y. pose proof (set_meq x h' h (vars s) N y) as Q.
      rewrite (cnt_cons y h), (cnt_cons y h' (vars s)) in Q. cbn [app]. rewrite (cnt_cons y h'), (cnt_cons y h), !cnt_app. lia. }
    assert (SUB : sub (heap s) cs2) by (eapply sub_trans; [exact S1|apply alloc_sub]).
    destruct (SUB _ _ _ C) as (n2 & C2). destruct W3 as [W3c W3s]. destruct (W3c _ _ _ C2) as [Q2 _].
    destruct (drop_ok (length [h] + length (all_kids cs2)) cs2 [h] (t ++ list_set x h' (vars s)) (conj W3c W3s) ltac:(lia))
      as (cs3 & E3 & W4 & L3 & F3 & _).
    assert (NX : nth_error (list_set x h' (vars s)) x = Some h').
    { apply nth_set_same. rewrite (Forall2_length F). exact L. }
    assert (SH2 : shows cs2 h' (val e x)).
    { eapply shows_handle; [apply cell_at_last|]. eapply cell_shows_map; [|exact CS]. intros y w _. apply shows_sub. exact SUB. }
    assert (SH3 : shows cs3 h' (val e x)).
    { apply F3; [|exact SH2]. apply in_or_app. right. eapply nth_error_In. exact NX. }
    assert (G2 : n2 <> 1).
    { (* the old container keeps its other handles *)
      assert (KK : all_kids cs2 = all_kids cs1 ++ kids c).
      { unfold cs2. rewrite all_kids_mid. cbn [all_kids flat_map]. rewrite app_nil_r. reflexivity. }
      destruct W as [W _]. destruct (W _ _ _ C) as [Q _]. rewrite Q2, KK, K1. rewrite Q in RC.
      pose proof (set_meq x h' h (vars s) N) as M. apply (meq_nref _ _ a) in M. cbn [nref] in M. rewrite E, Nat.eqb_refl in M.
      unfold h' in M. rewrite handle_ref in M. cbn [app nref]. rewrite E, Nat.eqb_refl, !nref_app. rewrite nref_app in RC.
      fold h' in M. pose proof (cell_at_lt _ _ _ C). assert (a <> length cs1).
      { intros ->. destruct (S1 _ _ _ C) as (m & B). apply cell_at_lt in B. lia. }
      replace (Nat.eqb a (length cs1)) with false in M by (symmetry; apply Nat.eqb_neq; assumption).
      pose proof (nref_nonneg a (kids c)). lia. }
    assert (SUB3 : sub (heap s) cs3).
    { eapply sub_trans; [exact SUB|]. change (length [h] + length (all_kids cs2))%nat with (S (length (all_kids cs2))) in E3.
      cbn [drop_n] in E3. rewrite E, C2 in E3. replace (n2 =? 1) with false in E3 by lia.
      replace cs3 with (list_set a (Some (n2 - 1, c)) cs2); [apply recount_sub with (1 := C2)|].
      destruct (length (all_kids cs2)); cbn [drop_n] in E3; congruence. }
    exists cs3, h'. split; [exact N|].
    assert (COW : match h with
      | HObj a0 => match cell_at (heap s) a0 with
          | Some (_, c0) => cs1' <- inc_all (heap s) (kids c0);; (let '(cs2', a') := alloc cs1' c0 in cs3' <- drop cs2' [h];; Ok (cs3', HObj a'))
          | None => Oob end
      | HArr a0 => match cell_at (heap s) a0 with
          | Some (_, c0) => cs1' <- inc_all (heap s) (kids c0);; (let '(cs2', a') := alloc cs1' c0 in cs3' <- drop cs2' [h];; Ok (cs3', HArr a'))
          | None => Oob end
      | _ => Ok (heap s, h) end = Ok (cs3, h')).
    { subst h. destruct c as [fs|ms]; cbn [handle] in *; rewrite C, E1; cbn [bind alloc]; fold cs2; unfold drop; rewrite E3; reflexivity. }
    rewrite COW. split; [reflexivity|]. cbv zeta. split.
    { split; [exact W4|]. cbn [heap vars].
      apply Forall2_nth_intro; [rewrite list_set_length; exact (Forall2_length F)|].
      intros i y v Y V. destruct (Nat.eq_dec i x) as [->|Ni].
      - rewrite NX in Y. injection Y as <-. rewrite <- (val_nth _ _ _ V). exact SH3.
      - apply F3; [apply in_or_app; right; eapply nth_error_In; exact Y|]. rewrite nth_set_other in Y by assumption.
        pose proof (Forall2_nth _ _ _ i F) as Q. rewrite Y, V in Q. eapply shows_sub; [exact SUB|exact Q]. }
    split; [exact NX|]. split; [exact SH3|]. split; [exact SUB3|].
    intros a' E'. unfold h' in E'. rewrite handle_ref in E'. injection E' as <-. split.
    2: { destruct (cell_at (heap s) (length cs1)) as [[m d]|] eqn:B; [|reflexivity]. destruct (S1 _ _ _ B) as (m' & B').
         apply cell_at_lt in B'. lia. }
    exists c. split; [|reflexivity]. split; [exact NX|]. cbn [heap].
    destruct (shows_live _ _ _ _ SH3 (handle_ref c _)) as (m & d & D). destruct (L3 _ _ _ D) as (m' & D' & Lm).
    unfold cs2 in D'. rewrite cell_at_last in D'. injection D' as <- <-. rewrite D. repeat f_equal.
    destruct W4 as [W4 _]. destruct (W4 _ _ _ D). lia.
  - exists (heap s), h. rewrite (list_set_same _ _ _ N). destruct s as [cs vs]. cbn [heap vars] in *.
    split; [exact N|]. split; [reflexivity|]. cbv zeta. split; [exact I|]. split; [exact N|]. split; [exact Sh|].
    split; [apply sub_refl|auto].
Qed.

Lemma L_unshare' s e x : Inv s e [] -> (x < length e)%nat ->
  exists s' h', unshare s x = Ok (s', h') /\ Inv s' e [] /\ nth_error (vars s') x = Some h' /\
    shows (heap s') h' (val e x) /\ (forall a, href h' = Some a -> exists c, owned s' x a c /\ h' = handle c a) /\
    sub (heap s) (heap s') /\ (forall y, y <> x -> nth_error (vars s') y = nth_error (vars s) y).
Proof.
  intros I L. destruct (L_cow s e x [] 1 I L ltac:(lia)) as (h & cs' & h' & N & E & I' & N' & Sh & SU & C).
  unfold unshare, get_var. rewrite N. cbn [bind]. unfold copy_on_write. rewrite E. cbn [bind].
  exists (St cs' (list_set x h' (vars s))), h'. split; [reflexivity|]. split; [exact I'|]. split; [exact N'|].
  split; [exact Sh|]. split; [|split; [exact SU|intros y Ny; cbn [vars]; apply nth_set_other; exact Ny]].
  destruct (1 <? refcount (heap s) h) eqn:RC.
  - intros a Ea. destruct (C a Ea) as [O _]. exact O.
  - destruct C as [-> ->]. intros a Ea. cbn [heap] in Sh. destruct (shows_cell _ _ _ _ Sh Ea) as (n & c & D & H & CS).
    exists c. split; [|exact H]. split; [cbn [vars]; cbn [vars] in N'; congruence|].
    unfold refcount in RC. rewrite Ea, D in RC. cbn [heap]. rewrite D. repeat f_equal.
    destruct I as [[W _] _]. destruct (W _ _ _ D). lia.
Qed.
Lemma L_unshare s e x : Inv s e [] -> (x < length e)%nat ->
  exists s' h', unshare s x = Ok (s', h') /\ Inv s' e [] /\ nth_error (vars s') x = Some h' /\
    shows (heap s') h' (val e x) /\ (forall a, href h' = Some a -> exists c, owned s' x a c /\ h' = handle c a).
Proof.
  intros I L. destruct (L_unshare' s e x I L) as (s' & h' & A & B & C & D & E & _). exists s', h'. auto 6.
Qed.

Definition taken (moved : bool) (v : src) (e : env) : env :=
  match v with Lref y | Rref y => if moved then list_set y VNull e else e | _ => e end.

Lemma L_copy s e t v : Inv s e t -> src_in (length e) v ->
  exists cs hv, take_copy s v = Ok (St cs (vars s), hv) /\ Inv (St cs (vars s)) e (hv :: t) /\
    shows cs hv (src_value e v) /\ sub (heap s) cs /\
    (forall x a c, owned s x a c -> ~ names v x -> owned (St cs (vars s)) x a c /\ href hv <> Some a).
Proof.
  intros I Si. assert (CASE : forall y, (y < length e)%nat -> (forall x, ~ names v x -> y <> x) -> src_value e v = val e y ->
    (take_copy s v = (h <- get_var s y ;; cs <- inc (heap s) h ;; Ok (St cs (vars s), h))) ->
    exists cs hv, take_copy s v = Ok (St cs (vars s), hv) /\ Inv (St cs (vars s)) e (hv :: t) /\
    shows cs hv (src_value e v) /\ sub (heap s) cs /\
    (forall x a c, owned s x a c -> ~ names v x -> owned (St cs (vars s)) x a c /\ href hv <> Some a)).
  { intros y L NM SV TK. destruct (L_get _ _ _ _ I L) as (h & N & G & Sh). destruct I as [W F].
    destruct (inc_ok _ _ h W) as (cs & E & W1 & S1 & S1' & K). { apply in_or_app. left. apply in_or_app. right. eapply nth_error_In; exact N. }
    exists cs, h. rewrite TK, G. cbn [bind]. rewrite E. cbn [bind]. split; [reflexivity|]. split.
    { split; [exact W1|]. eapply Forall2_imp; [|exact F]. intros a b. apply shows_sub. exact S1. }
    split. { rewrite SV. eapply shows_sub; eassumption. }
    split; [exact S1|]. intros x a c O NX. destruct (owned_nref _ _ _ _ _ W O) as (Z1 & Z2 & Z3).
    assert (HN : href h <> Some a) by (apply (Z3 y); auto). split; [|exact HN].
    destruct O as [O1 O2]. destruct (S1 _ _ _ O2) as (n & D).
    apply (owned_intro (St cs (vars s)) (h :: t) x a c n W1 O1 D).
    - cbn [nref]. destruct (href h) as [b|]; [|lia]. destruct (Nat.eqb_spec a b); [congruence|lia].
    - cbn [heap]. rewrite K. exact Z2.
    - exact Z3. }
  destruct v as [l|y|y|y]; cbn [src_in] in Si.
  2-4: apply (CASE y); [exact Si|cbn [names]; auto|reflexivity|reflexivity].
  clear CASE. unfold take_copy. destruct (lit_h l) as [h|] eqn:E; [|contradiction].
  assert (HR : href h = None) by (destruct l; try discriminate; injection E as <-; reflexivity).
  exists (heap s), h. destruct I as [W F]. destruct s as [cs vs]. cbn [heap vars] in *. split; [reflexivity|]. split.
  { split; [|exact F]. cbn [heap vars app]. apply wf_scalar; assumption. }
  split. { destruct l; try discriminate; injection E as <-; constructor. }
  split; [apply sub_refl|]. intros x a c O _. rewrite HR. split; [exact O|discriminate].
Qed.

Lemma L_take s e v x a c (mv : bool) :
  let take := if mv then take_move else take_copy in
  Inv s e [] -> src_in (length e) v -> owned s x a c -> ~ names v x ->
  exists s' hv, take s v = Ok (s', hv) /\ Inv s' (taken mv v e) [hv] /\ shows (heap s') hv (src_value e v) /\
    owned s' x a c /\ href hv <> Some a /\ sub (heap s) (heap s').
Proof.
  intros take I Si O NM.
  assert (CP : taken mv v e = e -> take s v = take_copy s v -> exists s' hv, take s v = Ok (s', hv) /\ Inv s' (taken mv v e) [hv] /\ shows (heap s') hv (src_value e v) /\
    owned s' x a c /\ href hv <> Some a /\ sub (heap s) (heap s')).
  { intros -> ->. destruct (L_copy _ _ _ _ I Si) as (cs & hv & E & I1 & Sh & Su & Ow). destruct (Ow _ _ _ O NM).
    exists (St cs (vars s)), hv. auto 10. }
  assert (MV : forall y, (y < length e)%nat -> y <> x -> taken mv v e = list_set y VNull e -> src_value e v = val e y ->
    take s v = (h <- get_var s y ;; Ok (set_var s y HNull, h)) ->
    exists s' hv, take s v = Ok (s', hv) /\ Inv s' (taken mv v e) [hv] /\ shows (heap s') hv (src_value e v) /\
    owned s' x a c /\ href hv <> Some a /\ sub (heap s) (heap s')).
  { intros y L Ny -> -> ->. destruct (L_get _ _ _ _ I L) as (h & N & G & Sh). rewrite G. cbn [bind].
    exists (set_var s y HNull), h. split; [reflexivity|]. destruct I as [W F].
    destruct (owned_nref _ _ _ _ _ W O) as (Z1 & Z2 & Z3). cbn [app] in W. split.
    { split; unfold set_var; cbn [heap vars].
      - eapply wf_meq. { intros z. symmetry. apply (set_meq y HNull h (vars s) N). } apply wf_scalar; [reflexivity|exact W].
      - apply Forall2_set; [exact F|constructor]. }
    split; [exact Sh|]. split; [|split; [exact (Z3 y h Ny N)|apply sub_refl]].
    destruct O as [O1 O2]. split; [|exact O2]. unfold set_var. cbn [vars]. rewrite nth_set_other by auto. exact O1. }
  destruct mv; cbn [take taken] in *.
  - destruct v as [l|y|y|y]; cbn [names src_in] in *.
    + apply CP; reflexivity.
    + apply CP; reflexivity.
    + apply (MV y); auto.
    + apply (MV y); auto.
  - apply CP; [destruct v; reflexivity|reflexivity].
Qed.

(** Storing into a container held by [x] alone. *)
Lemma L_store s e news rest x a c c' olds v' :
  Inv s e (news ++ rest) -> owned s x a c -> handle c' a = handle c a ->
  meq (kids c' ++ olds) (kids c ++ news) -> cell_shows (heap s) c' v' ->
  exists s', put_s s a c' = Ok s' /\ Inv s' (list_set x v' e) (olds ++ rest) /\ owned s' x a c'.
Proof.
  intros [W F] O HH M CS. pose proof (owned_nref _ _ _ _ _ W O) as (Z1 & Z2 & Z3). destruct O as [O1 O2].
  rewrite <- app_assoc in W.
  destruct (put_ok (heap s) a c c' news olds (rest ++ vars s) O2) as (cs' & E & C' & W' & FR & _); try assumption.
  { apply in_or_app. right. eapply nth_error_In. exact O1. }
  unfold put_s. rewrite E. cbn [bind]. exists (St cs' (vars s)). split; [reflexivity|].
  assert (Z4 : nref a (kids c') = 0).
  { pose proof (meq_nref _ _ a M) as Q. rewrite !nref_app in Q. rewrite nref_app in Z1.
    destruct (cell_at_split _ _ _ O2) as (l & r & K & _). rewrite K, all_kids_mid, !nref_app in Z2.
    pose proof (nref_nonneg a (all_kids l)). pose proof (nref_nonneg a (all_kids r)). pose proof (nref_nonneg a (kids c)).
    pose proof (nref_nonneg a (kids c')). pose proof (nref_nonneg a olds). pose proof (nref_nonneg a news). pose proof (nref_nonneg a rest). lia. }
  split; [|split; [cbn [vars]; congruence|exact C']].
  split; cbn [heap vars]. { rewrite <- app_assoc. exact W'. }
  apply Forall2_nth_intro; [rewrite list_set_length; exact (Forall2_length F)|].
  intros i h v Hi Vi. destruct (Nat.eq_dec i x) as [->|Ni].
  - rewrite O1 in Hi. injection Hi as <-.
    rewrite nth_set_same in Vi. 2: { rewrite <- (Forall2_length F). apply nth_error_Some. congruence. }
    injection Vi as <-. rewrite <- HH. eapply shows_handle; [exact C'|]. eapply cell_shows_map; [|exact CS].
    intros h w Ih. apply FR. exact (nref_zero a h _ Z4 Ih).
  - rewrite nth_set_other in Vi by assumption. pose proof (Forall2_nth _ _ _ i F) as Q. rewrite Hi, Vi in Q.
    apply FR; [|exact Q]. apply (Z3 i); assumption.
Qed.

Lemma L_drop' s e olds t : Inv s e (olds ++ t) ->
  exists s', drop_s s olds = Ok s' /\ Inv s' e t /\ vars s' = vars s /\ lower (heap s') (heap s).
Proof.
  intros [W F]. rewrite <- app_assoc in W. unfold drop_s, drop.
  destruct (drop_ok (length olds + length (all_kids (heap s))) _ _ _ W ltac:(lia)) as (cs & E & W' & LW & FR & _).
  rewrite E. cbn [bind]. exists (St cs (vars s)). split; [reflexivity|]. split; [|split; [reflexivity|exact LW]]. split; [exact W'|]. cbn [heap vars].
  apply Forall2_nth_intro; [exact (Forall2_length F)|]. intros i h v Hi Vi. apply FR.
  - apply in_or_app. right. eapply nth_error_In. exact Hi.
  - pose proof (Forall2_nth _ _ _ i F) as Q. rewrite Hi, Vi in Q. exact Q.
Qed.
Lemma L_drop s e olds t : Inv s e (olds ++ t) -> exists s', drop_s s olds = Ok s' /\ Inv s' e t /\ vars s' = vars s.
Proof. intros I. destruct (L_drop' s e olds t I) as (s' & A & B & C & _). eauto. Qed.

Lemma L_overwrite s e x h v t : Inv s e (h :: t) -> shows (heap s) h v -> (x < length e)%nat ->
  exists s', overwrite s x h = Ok s' /\ Inv s' (list_set x v e) t.
Proof.
  intros I Sh L. destruct (L_get _ _ _ _ I L) as (old & N & G & _). unfold overwrite. rewrite G. cbn [bind].
  destruct I as [W F]. destruct (L_drop (set_var s x h) (list_set x v e) [old] t) as (s' & E & I' & _).
  - split; unfold set_var; cbn [heap vars].
    + eapply wf_meq; [|exact W]. intros y. pose proof (set_meq x h old (vars s) N y) as Q.
      rewrite (cnt_cons y old), (cnt_cons y h (vars s)) in Q. rewrite ?cnt_app. cbn [app]. rewrite ?(cnt_cons y h (t ++ vars s)), ?(cnt_cons y h t), ?cnt_app. lia.
    + apply Forall2_set; assumption.
  - exists s'. auto.
Qed.

(** ** What is stored where *)
Definition pair_shows (cs : cells) (p : str * hval) (q : str * value) : Prop :=
  fst p = fst q /\ shows cs (snd p) (snd q).

Lemma L_kind s x h V : shows (heap s) h V -> (forall a, href h = Some a -> exists c, owned s x a c /\ h = handle c a) ->
  (exists a fs vs, h = HObj a /\ V = VObj vs /\ owned s x a (CObj fs) /\ Forall2 (pair_shows (heap s)) fs vs /\
     fields_of s h = Ok (Some (a, fs)) /\ elements_of s h = Ok None) \/
  (exists a ms vs, h = HArr a /\ V = VArr vs /\ owned s x a (CArr ms) /\ Forall2 (shows (heap s)) ms vs /\
     fields_of s h = Ok None /\ elements_of s h = Ok (Some (a, ms))) \/
  (href h = None /\ fields_of s h = Ok None /\ elements_of s h = Ok None /\ (forall vs, V <> VObj vs) /\ (forall vs, V <> VArr vs)).
Proof.
  intros Sh O. destruct Sh as [| | | | |a n fs vs E F|a n ms vs E F];
    try (right; right; repeat split; cbn; try reflexivity; discriminate).
  - left. destruct (O a eq_refl) as (c & Oc & H). destruct c as [fs'|ms']; [|discriminate]. exists a, fs, vs.
    destruct Oc as [O1 O2]. rewrite E in O2. injection O2 as -> ->. repeat split; auto. cbn. rewrite E. reflexivity.
  - right. left. destruct (O a eq_refl) as (c & Oc & H). destruct c as [fs'|ms']; [discriminate|]. exists a, ms, vs.
    destruct Oc as [O1 O2]. rewrite E in O2. injection O2 as -> ->. repeat split; auto. cbn. rewrite E. reflexivity.
Qed.

Lemma L_insert_field s e hv x a fs vs i key w :
  Inv s e [hv] -> owned s x a (CObj fs) -> Forall2 (pair_shows (heap s)) fs vs -> shows (heap s) hv w ->
  (i <= length fs)%nat ->
  exists s', put_s s a (CObj (list_insert i (key, hv) fs)) = Ok s' /\
    Inv s' (list_set x (VObj (list_insert i (key, w) vs)) e) [].
Proof.
  intros I O F Sh L. destruct (L_store s e [hv] [] x a (CObj fs) (CObj (list_insert i (key, hv) fs)) []
    (VObj (list_insert i (key, w) vs)) I O eq_refl) as (s' & E & I' & _).
  - rewrite <- (firstn_skipn i fs) at 1 2. assert (length (firstn i fs) = i) as Li by (apply firstn_length_le; exact L).
    rewrite <- Li at 1. rewrite list_insert_mid. cbn [kids]. rewrite !map_app. cbn [map snd]. meq.
  - cbn [cell_shows]. apply Forall2_insert; [exact F|]. split; [reflexivity|exact Sh].
  - eauto.
Qed.
Lemma L_insert_elem s e hv x a ms vs i w :
  Inv s e [hv] -> owned s x a (CArr ms) -> Forall2 (shows (heap s)) ms vs -> shows (heap s) hv w ->
  (i <= length ms)%nat ->
  exists s', put_s s a (CArr (list_insert i hv ms)) = Ok s' /\
    Inv s' (list_set x (VArr (list_insert i w vs)) e) [].
Proof.
  intros I O F Sh L. destruct (L_store s e [hv] [] x a (CArr ms) (CArr (list_insert i hv ms)) []
    (VArr (list_insert i w vs)) I O eq_refl) as (s' & E & I' & _).
  - rewrite <- (firstn_skipn i ms) at 1 2. assert (length (firstn i ms) = i) as Li by (apply firstn_length_le; exact L).
    rewrite <- Li at 1. rewrite list_insert_mid. cbn [kids]. meq.
  - cbn [cell_shows]. apply Forall2_insert; assumption.
  - eauto.
Qed.

Lemma L_assign_field s e hv x a fs vs j k old w :
  Inv s e [hv] -> owned s x a (CObj fs) -> Forall2 (pair_shows (heap s)) fs vs -> shows (heap s) hv w ->
  nth_error fs j = Some (k, old) ->
  exists s', assign_field s a fs j hv = Ok s' /\ Inv s' (list_set x (VObj (list_set j (k, w) vs)) e) [].
Proof.
  intros I O F Sh N. unfold assign_field. rewrite N.
  destruct (L_store s e [hv] [] x a (CObj fs) (CObj (list_set j (k, hv) fs)) [old]
    (VObj (list_set j (k, w) vs)) I O eq_refl) as (s' & E & I' & _).
  - apply nth_error_split in N. destruct N as (f1 & f2 & -> & <-). rewrite list_set_mid. cbn [kids]. rewrite !map_app. cbn [map snd]. meq.
  - cbn [cell_shows]. apply Forall2_set; [exact F|]. split; [reflexivity|exact Sh].
  - rewrite E. cbn [bind]. destruct (L_drop _ _ [old] [] I') as (s2 & E2 & I2 & _). eauto.
Qed.
Lemma L_assign_elem s e hv x a ms vs j old w :
  Inv s e [hv] -> owned s x a (CArr ms) -> Forall2 (shows (heap s)) ms vs -> shows (heap s) hv w ->
  nth_error ms j = Some old ->
  exists s', assign_element s a ms j hv = Ok s' /\ Inv s' (list_set x (VArr (list_set j w vs)) e) [].
Proof.
  intros I O F Sh N. unfold assign_element. rewrite N.
  destruct (L_store s e [hv] [] x a (CArr ms) (CArr (list_set j hv ms)) [old]
    (VArr (list_set j w vs)) I O eq_refl) as (s' & E & I' & _).
  - apply nth_error_split in N. destruct N as (f1 & f2 & -> & <-). rewrite list_set_mid. cbn [kids]. meq.
  - cbn [cell_shows]. apply Forall2_set; assumption.
  - rewrite E. cbn [bind]. destruct (L_drop _ _ [old] [] I') as (s2 & E2 & I2 & _). eauto.
Qed.
Lemma L_erase_field s e x a fs vs j k old :
  Inv s e [] -> owned s x a (CObj fs) -> Forall2 (pair_shows (heap s)) fs vs -> nth_error fs j = Some (k, old) ->
  exists s', (s1 <- put_s s a (CObj (list_erase j fs)) ;; s2 <- drop_s s1 [old] ;; Ok (s2, A_unit)) = Ok (s', A_unit) /\
    Inv s' (list_set x (VObj (list_erase j vs)) e) [].
Proof.
  intros I O F N.
  destruct (L_store s e [] [] x a (CObj fs) (CObj (list_erase j fs)) [old]
    (VObj (list_erase j vs)) I O eq_refl) as (s' & E & I' & _).
  - apply nth_error_split in N. destruct N as (f1 & f2 & -> & <-). rewrite list_erase_mid. cbn [kids]. rewrite !map_app. cbn [map snd]. meq.
  - cbn [cell_shows]. apply Forall2_erase. exact F.
  - rewrite E. cbn [bind]. destruct (L_drop _ _ [old] [] I') as (s2 & E2 & I2 & _). rewrite E2. cbn [bind]. eauto.
Qed.
Lemma L_erase_elem s e x a ms vs j old :
  Inv s e [] -> owned s x a (CArr ms) -> Forall2 (shows (heap s)) ms vs -> nth_error ms j = Some old ->
  exists s', (s1 <- put_s s a (CArr (list_erase j ms)) ;; s2 <- drop_s s1 [old] ;; Ok (s2, A_unit)) = Ok (s', A_unit) /\
    Inv s' (list_set x (VArr (list_erase j vs)) e) [].
Proof.
  intros I O F N.
  destruct (L_store s e [] [] x a (CArr ms) (CArr (list_erase j ms)) [old]
    (VArr (list_erase j vs)) I O eq_refl) as (s' & E & I' & _).
  - apply nth_error_split in N. destruct N as (f1 & f2 & -> & <-). rewrite list_erase_mid. cbn [kids]. meq.
  - cbn [cell_shows]. apply Forall2_erase. exact F.
  - rewrite E. cbn [bind]. destruct (L_drop _ _ [old] [] I') as (s2 & E2 & I2 & _). rewrite E2. cbn [bind]. eauto.
Qed.

Lemma list_set_id (e : env) x : list_set x (val e x) e = e.
Proof.
  unfold val. revert x. induction e as [|v e IH]; intros [|x]; cbn; auto. rewrite IH. reflexivity.
Qed.

Lemma lower_le {A} key (fs : list (str * A)) : (map_lower_bound key fs <= length fs)%nat.
Proof. induction fs as [|[k a] fs IH]; cbn; [lia|]. destruct (dart_ltb k key); lia. Qed.
Lemma pair_keys cs fs vs : Forall2 (pair_shows cs) fs vs -> Forall2 (fun p q => fst p = fst q) fs vs.
Proof. apply Forall2_imp. intros p q H. apply H. Qed.
Lemma pairs_sub cs cs' fs vs : sub cs cs' -> Forall2 (pair_shows cs) fs vs -> Forall2 (pair_shows cs') fs vs.
Proof. intros S. apply Forall2_imp. intros p q [K H]. split; [exact K|]. eapply shows_sub; eassumption. Qed.
Lemma elems_sub cs cs' fs vs : sub cs cs' -> Forall2 (shows cs) fs vs -> Forall2 (shows cs') fs vs.
Proof. intros S. apply Forall2_imp. intros p q H. eapply shows_sub; eassumption. Qed.

(** ** insert, set, erase *)

(** What insert does to the variables, emptied lvalues included. *)
Definition w_insert (e : env) (x : nat) (k : value) (v : src) : env * ans :=
  settle e x (if overwrites (val e x) k then match val e x with VObj _ => taken true v e | _ => emptied e v end else e)
    (result (h_insert (val e x) k (src_value e v))).

Lemma take_forward_as s v : take_forward s v = (if match v with Rref _ => true | _ => false end then take_move else take_copy) s v.
Proof. destruct v; reflexivity. Qed.
Lemma emptied_as e v : emptied e v = taken (match v with Rref _ => true | _ => false end) v e.
Proof. destruct v; reflexivity. Qed.

Lemma L_take_forward s e v x a c : Inv s e [] -> src_in (length e) v -> owned s x a c -> ~ names v x ->
  exists s' hv, take_forward s v = Ok (s', hv) /\ Inv s' (emptied e v) [hv] /\ shows (heap s') hv (src_value e v) /\
    owned s' x a c /\ href hv <> Some a /\ sub (heap s) (heap s').
Proof.
  intros I Si O N. rewrite take_forward_as, emptied_as.
  exact (L_take s e v x a c (match v with Rref _ => true | _ => false end) I Si O N).
Qed.

Lemma mod_nonneg z : 0 <= z mod 2 ^ 64.
Proof. apply Z.mod_pos_bound. reflexivity. Qed.

Lemma S_insert_in s1 e x h k v : Inv s1 e [] -> shows (heap s1) h (val e x) ->
  (forall a, href h = Some a -> exists c, owned s1 x a c /\ h = handle c a) -> src_in (length e) v -> ~ names v x ->
  exists s', insert_in s1 h k v = Ok (s', snd (w_insert e x k v)) /\ Inv s' (fst (w_insert e x k v)) [].
Proof.
  intros I1 Sh O Si NM. unfold insert_in.
  unfold w_insert. pose proof (L_kind s1 x h (val e x) Sh O) as K.
  destruct k as [fs0|vs0|s0|z|d0|b0|]; try (exists s1; split; [reflexivity|exact I1]).
  - cbn [h_insert]. destruct (65535 <? zlen s0); [exists s1; split; [reflexivity|exact I1]|].
    destruct K as [(a & fs & vs & -> & EV & Ow & F & -> & _)|[(a & ms & vs & -> & EV & Ow & F & -> & _)|(_ & -> & _ & NO & _)]]; cbn [bind].
    + rewrite EV. cbn [h_fields overwrites h_has_key]. rewrite <- (same_find s0 fs vs (pair_keys _ _ _ F)).
      rewrite <- (same_lower s0 fs vs (pair_keys _ _ _ F)).
      destruct (map_find s0 fs) as [j|] eqn:MF; cbn [result bind settle fst snd].
      * destruct (map_find_lt _ _ _ MF) as ([k old] & NJ).
        destruct (L_take s1 e v x a _ true I1 Si Ow NM) as (s2 & hv & E2 & I2 & Shv & Ow2 & _ & Su). rewrite E2. cbn [bind].
        pose proof (Forall2_nth _ _ _ j F) as Q. rewrite NJ in Q. destruct (nth_error vs j) as [[k' w]|]; [|contradiction].
        destruct Q as [Q _]. cbn in Q. subst k'.
        destruct (L_assign_field s2 _ hv x a fs vs j k old (src_value e v) I2 Ow2 (pairs_sub _ _ _ _ Su F) Shv NJ) as (s3 & E3 & I3).
        rewrite E3. cbn [bind]. eauto.
      * destruct (L_take s1 e v x a _ false I1 Si Ow NM) as (s2 & hv & E2 & I2 & Shv & Ow2 & _ & Su). rewrite E2. cbn [bind].
        replace (taken false v e) with e in I2 by (destruct v; reflexivity).
        destruct (L_insert_field s2 e hv x a fs vs (map_lower_bound s0 fs) s0 (src_value e v) I2 Ow2 (pairs_sub _ _ _ _ Su F) Shv (lower_le _ _)) as (s3 & E3 & I3).
        rewrite E3. cbn [bind]. eauto.
    + rewrite EV. exists s1. split; [reflexivity|exact I1].
    + exists s1. destruct (val e x); try (split; [reflexivity|exact I1]). destruct (NO fs eq_refl).
  - cbn [h_insert].
    destruct K as [(a & fs & vs & -> & EV & Ow & F & _ & ->)|[(a & ms & vs & -> & EV & Ow & F & _ & ->)|(_ & _ & -> & _ & NO)]]; cbn [bind].
    + rewrite EV. exists s1. split; [reflexivity|exact I1].
    + rewrite EV. cbn [h_elements overwrites]. rewrite <- (Forall2_zlen _ _ _ F). destruct (zlen ms <? z mod 2 ^ 64) eqn:Lt.
      * exists s1. split; [reflexivity|exact I1].
      * cbn [result bind settle fst snd].
        destruct (L_take_forward s1 e v x a _ I1 Si Ow NM) as (s2 & hv & E2 & I2 & Shv & Ow2 & _ & Su). rewrite E2. cbn [bind].
        destruct (L_insert_elem s2 _ hv x a ms vs (Z.to_nat (z mod 2 ^ 64)) (src_value e v) I2 Ow2 (elems_sub _ _ _ _ Su F) Shv) as (s3 & E3 & I3).
        { pose proof (mod_nonneg z). unfold zlen in Lt. lia. }
        rewrite E3. cbn [bind]. eauto.
    + exists s1. destruct (val e x); try (split; [reflexivity|exact I1]). destruct (NO vs eq_refl).
Qed.

Lemma S_insert s e x k v : Inv s e [] -> (x < length e)%nat -> src_in (length e) v -> ~ names v x ->
  exists s', s_insert s x k v = Ok (s', snd (w_insert e x k v)) /\ Inv s' (fst (w_insert e x k v)) [].
Proof.
  intros I L Si NM. unfold s_insert. destruct (L_unshare _ _ _ I L) as (s1 & h & E1 & I1 & N1 & Sh & O). rewrite E1. cbn [bind].
  apply S_insert_in; assumption.
Qed.

Lemma S_set_in s1 e x h k v : Inv s1 e [] -> shows (heap s1) h (val e x) ->
  (forall a, href h = Some a -> exists c, owned s1 x a c /\ h = handle c a) -> src_in (length e) v -> ~ names v x ->
  exists s', set_in s1 h k v = Ok (s', snd (v_exec e (O_set x k v))) /\ Inv s' (fst (v_exec e (O_set x k v))) [].
Proof.
  intros I1 Sh O Si NM. unfold set_in. cbn [v_exec].
  pose proof (L_kind s1 x h (val e x) Sh O) as K.
  destruct k as [fs0|vs0|s0|z|d0|b0|]; try (exists s1; split; [reflexivity|exact I1]).
  - cbn [h_set]. destruct (65535 <? zlen s0); [exists s1; split; [reflexivity|exact I1]|].
    destruct K as [(a & fs & vs & -> & EV & Ow & F & -> & _)|[(a & ms & vs & -> & EV & Ow & F & -> & _)|(_ & -> & _ & NO & _)]]; cbn [bind].
    + rewrite EV. cbn [h_fields]. rewrite <- (same_find s0 fs vs (pair_keys _ _ _ F)).
      destruct (map_find s0 fs) as [j|] eqn:MF; cbn [result bind settle fst snd].
      * destruct (map_find_lt _ _ _ MF) as ([k old] & NJ).
        destruct (L_take_forward s1 e v x a _ I1 Si Ow NM) as (s2 & hv & E2 & I2 & Shv & Ow2 & _ & Su). rewrite E2. cbn [bind].
        pose proof (Forall2_nth _ _ _ j F) as Q. rewrite NJ in Q. destruct (nth_error vs j) as [[k' w]|]; [|contradiction].
        destruct Q as [Q _]. cbn in Q. subst k'.
        destruct (L_assign_field s2 _ hv x a fs vs j k old (src_value e v) I2 Ow2 (pairs_sub _ _ _ _ Su F) Shv NJ) as (s3 & E3 & I3).
        rewrite E3. cbn [bind]. eauto.
      * exists s1. split; [reflexivity|exact I1].
    + rewrite EV. exists s1. split; [reflexivity|exact I1].
    + exists s1. destruct (val e x); try (split; [reflexivity|exact I1]). destruct (NO fs eq_refl).
  - cbn [h_set].
    destruct K as [(a & fs & vs & -> & EV & Ow & F & _ & ->)|[(a & ms & vs & -> & EV & Ow & F & _ & ->)|(_ & _ & -> & _ & NO)]]; cbn [bind].
    + rewrite EV. exists s1. split; [reflexivity|exact I1].
    + rewrite EV. cbn [h_elements]. rewrite <- (Forall2_zlen _ _ _ F). destruct (zlen ms <=? z mod 2 ^ 64) eqn:Lt.
      * exists s1. split; [reflexivity|exact I1].
      * cbn [result bind settle fst snd].
        destruct (L_take_forward s1 e v x a _ I1 Si Ow NM) as (s2 & hv & E2 & I2 & Shv & Ow2 & _ & Su). rewrite E2. cbn [bind].
        destruct (nth_error ms (Z.to_nat (z mod 2 ^ 64))) as [old|] eqn:NJ.
        2: { apply nth_error_None in NJ. pose proof (mod_nonneg z). unfold zlen in Lt. lia. }
        destruct (L_assign_elem s2 _ hv x a ms vs _ old (src_value e v) I2 Ow2 (elems_sub _ _ _ _ Su F) Shv NJ) as (s3 & E3 & I3).
        rewrite E3. cbn [bind]. eauto.
    + exists s1. destruct (val e x); try (split; [reflexivity|exact I1]). destruct (NO vs eq_refl).
Qed.

Lemma S_set s e x k v : Inv s e [] -> (x < length e)%nat -> src_in (length e) v -> ~ names v x ->
  exists s', s_set s x k v = Ok (s', snd (v_exec e (O_set x k v))) /\ Inv s' (fst (v_exec e (O_set x k v))) [].
Proof.
  intros I L Si NM. unfold s_set. destruct (L_unshare _ _ _ I L) as (s1 & h & E1 & I1 & N1 & Sh & O). rewrite E1. cbn [bind].
  apply S_set_in; assumption.
Qed.

Lemma S_erase_key s e x key : Inv s e [] -> (x < length e)%nat ->
  let r := settle e x e (result (h_erase_key (val e x) key)) in
  exists s', s_erase_key s x key = Ok (s', snd r) /\ Inv s' (fst r) [].
Proof.
  intros I L r. unfold s_erase_key. destruct (L_unshare _ _ _ I L) as (s1 & h & E1 & I1 & N1 & Sh & O). rewrite E1. cbn [bind].
  subst r. pose proof (L_kind s1 x h (val e x) Sh O) as K. unfold h_erase_key.
  destruct K as [(a & fs & vs & -> & EV & Ow & F & -> & _)|[(a & ms & vs & -> & EV & Ow & F & -> & _)|(_ & -> & _ & NO & _)]]; cbn [bind].
  - rewrite EV. cbn [h_fields]. rewrite <- (same_find key fs vs (pair_keys _ _ _ F)).
    destruct (map_find key fs) as [j|] eqn:MF; cbn [result bind settle fst snd].
    + destruct (map_find_lt _ _ _ MF) as ([k old] & NJ). rewrite NJ.
      destruct (L_erase_field s1 e x a fs vs j k old I1 Ow F NJ) as (s3 & E3 & I3). eauto.
    + exists s1. split; [reflexivity|]. rewrite <- EV, list_set_id. exact I1.
  - rewrite EV. exists s1. split; [reflexivity|exact I1].
  - exists s1. destruct (val e x); try (split; [reflexivity|exact I1]). destruct (NO fs eq_refl).
Qed.
Lemma S_erase_idx s e x pos : Inv s e [] -> (x < length e)%nat -> 0 <= pos ->
  let r := settle e x e (result (h_erase_idx (val e x) pos)) in
  exists s', s_erase_idx s x pos = Ok (s', snd r) /\ Inv s' (fst r) [].
Proof.
  intros I L P r. unfold s_erase_idx. destruct (L_unshare _ _ _ I L) as (s1 & h & E1 & I1 & N1 & Sh & O). rewrite E1. cbn [bind].
  subst r. pose proof (L_kind s1 x h (val e x) Sh O) as K. unfold h_erase_idx.
  destruct K as [(a & fs & vs & -> & EV & Ow & F & _ & ->)|[(a & ms & vs & -> & EV & Ow & F & _ & ->)|(_ & _ & -> & _ & NO)]]; cbn [bind].
  - rewrite EV. exists s1. split; [reflexivity|exact I1].
  - rewrite EV. cbn [h_elements]. rewrite <- (Forall2_zlen _ _ _ F). destruct (zlen ms <=? pos) eqn:Lt; cbn [result bind settle fst snd].
    + exists s1. split; [reflexivity|]. rewrite <- EV, list_set_id. exact I1.
    + destruct (nth_error ms (Z.to_nat pos)) as [old|] eqn:NJ.
      2: { apply nth_error_None in NJ. unfold zlen in Lt. lia. }
      destruct (L_erase_elem s1 e x a ms vs _ old I1 Ow F NJ) as (s3 & E3 & I3). eauto.
  - exists s1. destruct (val e x); try (split; [reflexivity|exact I1]). destruct (NO vs eq_refl).
Qed.

Lemma S_size s e x t : Inv s e t -> (x < length e)%nat ->
  s_size s x = Ok (match h_size (val e x) with Ok n => Some n | _ => None end).
Proof.
  intros I L. destruct (L_get _ _ _ _ I L) as (h & N & G & Sh). unfold s_size. rewrite G. cbn [bind].
  destruct Sh as [| | | | |a n fs vs E F|a n ms vs E F]; cbn [h_size]; try reflexivity.
  - rewrite E. rewrite (Forall2_zlen _ _ _ F). reflexivity.
  - rewrite E. rewrite (Forall2_zlen _ _ _ F). reflexivity.
Qed.
