(** Facts behind C64: calls on the first variables neither see nor change further ones. *)

From Coq Require Import ZArith List Bool Lia ZifyBool ZifyNat ZifyN.
From Verif Require Import Base BaseFacts Keys Wire Spec SpecOps HeapOps HeapFacts Store StoreSpec StoreFacts StoreSteps StoreRun.
Import ListNotations.
Open Scope Z_scope.

Definition more (g : list hval) (s : state) : state := St (heap s) (vars s ++ g).
Definition lift {A} (g : list hval) (r : res (state * A)) : res (state * A) := '(s, a) <- r ;; Ok (more g s, a).
Definition lift0 (g : list hval) (r : res state) : res state := s <- r ;; Ok (more g s).

Lemma list_set_app {A} x (h : A) l m : (x < length l)%nat -> list_set x h (l ++ m) = list_set x h l ++ m.
Proof. revert x. induction l as [|a l IH]; intros [|x] L; cbn [length] in L; cbn [list_set app]; try lia; [reflexivity|]. rewrite IH by lia. reflexivity. Qed.

Section Frame.
Context (g : list hval).
Lemma get_more s x : (x < length (vars s))%nat -> get_var (more g s) x = get_var s x.
Proof. intros L. unfold get_var, more. cbn [vars]. rewrite nth_error_app1 by exact L. reflexivity. Qed.
Lemma set_more s x h : (x < length (vars s))%nat -> set_var (more g s) x h = more g (set_var s x h).
Proof. intros L. unfold set_var, more. cbn [vars heap]. rewrite list_set_app by exact L. reflexivity. Qed.
Lemma put_more s a c : put_s (more g s) a c = lift0 g (put_s s a c).
Proof. unfold put_s, more, lift0. cbn [vars heap]. destruct (put (heap s) a c); reflexivity. Qed.
Lemma drop_more s hs : drop_s (more g s) hs = lift0 g (drop_s s hs).
Proof. unfold drop_s, more, lift0. cbn [vars heap]. destruct (drop (heap s) hs); reflexivity. Qed.
Lemma copy_more s v : src_in (length (vars s)) v -> take_copy (more g s) v = lift g (take_copy s v).
Proof.
  destruct v as [l|y|y|y]; cbn [take_copy src_in]; intros L.
  - destruct (lit_h l); reflexivity.
  - rewrite get_more by exact L. destruct (get_var s y); cbn [bind]; try reflexivity. change (heap (more g s)) with (heap s). destruct (inc (heap s) a); reflexivity.
  - rewrite get_more by exact L. destruct (get_var s y); cbn [bind]; try reflexivity. change (heap (more g s)) with (heap s). destruct (inc (heap s) a); reflexivity.
  - rewrite get_more by exact L. destruct (get_var s y); cbn [bind]; try reflexivity. change (heap (more g s)) with (heap s). destruct (inc (heap s) a); reflexivity.
Qed.
Lemma move_more s v : src_in (length (vars s)) v -> take_move (more g s) v = lift g (take_move s v).
Proof.
  intros L. destruct v as [l|y|y|y]; cbn [take_move]; try (apply copy_more; exact L).
  - cbn [src_in] in L. rewrite get_more by exact L. destruct (get_var s y); cbn [bind]; try reflexivity. rewrite set_more by exact L. reflexivity.
  - cbn [src_in] in L. rewrite get_more by exact L. destruct (get_var s y); cbn [bind]; try reflexivity. rewrite set_more by exact L. reflexivity.
Qed.
Lemma forward_more s v : src_in (length (vars s)) v -> take_forward (more g s) v = lift g (take_forward s v).
Proof. intros L. destruct v; cbn [take_forward]; first [apply copy_more; exact L|apply move_more; exact L]. Qed.
Lemma overwrite_more s x h : (x < length (vars s))%nat -> overwrite (more g s) x h = lift0 g (overwrite s x h).
Proof.
  intros L. unfold overwrite. rewrite get_more by exact L. destruct (get_var s x); cbn [bind]; try reflexivity.
  rewrite set_more by exact L. apply drop_more.
Qed.
Lemma unshare_more s x : (x < length (vars s))%nat -> unshare (more g s) x = lift g (unshare s x).
Proof.
  intros L. unfold unshare. rewrite get_more by exact L. destruct (get_var s x); cbn [bind]; try reflexivity.
  change (heap (more g s)) with (heap s). destruct (copy_on_write (heap s) a) as [[cs h]| | | |]; cbn [bind]; try reflexivity.
  unfold lift. cbn [bind]. unfold more. cbn [vars heap]. rewrite list_set_app by exact L. reflexivity.
Qed.
Lemma field_more s a fs j h : assign_field (more g s) a fs j h = lift0 g (assign_field s a fs j h).
Proof.
  unfold assign_field. destruct (nth_error fs j) as [[k old]|]; [|reflexivity]. rewrite put_more. destruct (put_s s a _); cbn [lift0 bind]; try reflexivity. apply drop_more.
Qed.
Lemma element_more s a vs j h : assign_element (more g s) a vs j h = lift0 g (assign_element s a vs j h).
Proof.
  unfold assign_element. destruct (nth_error vs j) as [old|]; [|reflexivity]. rewrite put_more. destruct (put_s s a _); cbn [lift0 bind]; try reflexivity. apply drop_more.
Qed.
Lemma fields_more s h : fields_of (more g s) h = fields_of s h.
Proof. reflexivity. Qed.
Lemma elements_more s h : elements_of (more g s) h = elements_of s h.
Proof. reflexivity. Qed.

Ltac unfold_lift := unfold lift, lift0 in *; cbn [bind].
Ltac next r := let E := fresh "E" in destruct r eqn:E; cbn [bind]; try reflexivity.
Lemma insert_in_more s h k v : src_in (length (vars s)) v -> insert_in (more g s) h k v = lift g (insert_in s h k v).
Proof.
  intros L. unfold insert_in. destruct k; try reflexivity.
  - destruct (_ <? _); [reflexivity|]. rewrite fields_more. destruct (fields_of s h) as [[[a fs]|]| | | |]; cbn [bind]; try reflexivity.
    destruct (map_find s0 fs) as [j|].
    + rewrite move_more by exact L. destruct (take_move s v) as [[s1 hv]| | | |]; unfold_lift; try reflexivity.
      rewrite field_more. destruct (assign_field s1 a fs j hv); reflexivity.
    + rewrite copy_more by exact L. destruct (take_copy s v) as [[s1 hv]| | | |]; unfold_lift; try reflexivity.
      rewrite put_more. destruct (put_s s1 a _); reflexivity.
  - rewrite elements_more. destruct (elements_of s h) as [[[a vs]|]| | | |]; cbn [bind]; try reflexivity. cbv zeta. destruct (_ <? _); [reflexivity|].
    rewrite forward_more by exact L. destruct (take_forward s v) as [[s1 hv]| | | |]; unfold_lift; try reflexivity.
    rewrite put_more. destruct (put_s s1 a _); reflexivity.
Qed.
Lemma set_in_more s h k v : src_in (length (vars s)) v -> set_in (more g s) h k v = lift g (set_in s h k v).
Proof.
  intros L. unfold set_in. destruct k; try reflexivity.
  - destruct (_ <? _); [reflexivity|]. rewrite fields_more. destruct (fields_of s h) as [[[a fs]|]| | | |]; cbn [bind]; try reflexivity.
    destruct (map_find s0 fs) as [j|]; [|reflexivity].
    rewrite forward_more by exact L. destruct (take_forward s v) as [[s1 hv]| | | |]; unfold_lift; try reflexivity.
    rewrite field_more. destruct (assign_field s1 a fs j hv); reflexivity.
  - rewrite elements_more. destruct (elements_of s h) as [[[a vs]|]| | | |]; cbn [bind]; try reflexivity. cbv zeta. destruct (_ <=? _); [reflexivity|].
    rewrite forward_more by exact L. destruct (take_forward s v) as [[s1 hv]| | | |]; unfold_lift; try reflexivity.
    rewrite element_more. destruct (assign_element s1 a vs _ hv); reflexivity.
Qed.
Lemma unshare_len s x s1 h : unshare s x = Ok (s1, h) -> length (vars s1) = length (vars s).
Proof.
  unfold unshare. intros H. bind_inv H. bind_inv H. destruct r0 as [cs h']. apply Ok_inj in H. injection H as <- _. apply list_set_length.
Qed.
Lemma insert_more s x k v : (x < length (vars s))%nat -> src_in (length (vars s)) v -> s_insert (more g s) x k v = lift g (s_insert s x k v).
Proof.
  intros L V. unfold s_insert. rewrite unshare_more by exact L. destruct (unshare s x) as [[s1 h]| | | |] eqn:E; unfold_lift; try reflexivity.
  apply insert_in_more. rewrite (unshare_len _ _ _ _ E). exact V.
Qed.
Lemma erase_idx_more s x pos : (x < length (vars s))%nat -> s_erase_idx (more g s) x pos = lift g (s_erase_idx s x pos).
Proof.
  intros L. unfold s_erase_idx. rewrite unshare_more by exact L. destruct (unshare s x) as [[s1 h]| | | |] eqn:E; unfold_lift; try reflexivity.
  rewrite elements_more. destruct (elements_of s1 h) as [[[a vs]|]| | | |]; cbn [bind]; try reflexivity. destruct (_ <=? _); [reflexivity|].
  destruct (nth_error vs _); [|reflexivity]. rewrite put_more. destruct (put_s s1 a _); unfold_lift; try reflexivity. rewrite drop_more.
  destruct (drop_s _ _); reflexivity.
Qed.
Lemma size_more s x : (x < length (vars s))%nat -> s_size (more g s) x = s_size s x.
Proof. intros L. unfold s_size. rewrite get_more by exact L. reflexivity. Qed.

Lemma exec_more s o : call_ok (length (vars s)) o -> s_exec (more g s) o = lift g (s_exec s o).
Proof.
  destruct o as [x f|x y|x y|x|x y r|x k v|x k v|x k|x v|x v|x|x|x|x n v]; cbn [call_ok s_exec]; intros C.
  - destruct C as [L _]. destruct f as [| |v]; cbn [s_make alloc].
    + change (St (heap (more g s) ++ [Some (1, CObj [])]) (vars (more g s))) with (more g (St (heap s ++ [Some (1, CObj [])]) (vars s))).
      change (length (heap (more g s))) with (length (heap s)).
      rewrite overwrite_more by exact L. destruct (overwrite _ _ _); reflexivity.
    + change (St (heap (more g s) ++ [Some (1, CArr [])]) (vars (more g s))) with (more g (St (heap s ++ [Some (1, CArr [])]) (vars s))).
      change (length (heap (more g s))) with (length (heap s)).
      rewrite overwrite_more by exact L. destruct (overwrite _ _ _); reflexivity.
    + destruct (lit_h v); [|reflexivity]. rewrite overwrite_more by exact L. destruct (overwrite _ _ _); reflexivity.
  - unfold s_copy. rewrite copy_more by apply C. destruct (take_copy s (Cref y)) as [[s1 h]| | | |] eqn:E; unfold_lift; try reflexivity.
    rewrite overwrite_more. { destruct (overwrite _ _ _); reflexivity. }
    cbn [take_copy] in E. bind_inv E. bind_inv E. apply Ok_inj in E. injection E as <- _. apply C.
  - unfold s_move. destruct (Nat.eqb x y); [reflexivity|]. rewrite move_more by apply C.
    destruct (take_move s (Rref y)) as [[s1 h]| | | |] eqn:E; unfold_lift; try reflexivity.
    rewrite overwrite_more. { destruct (overwrite _ _ _); reflexivity. }
    cbn [take_move] in E. bind_inv E. apply Ok_inj in E. injection E as <- _. cbn [set_var vars]. rewrite list_set_length. apply C.
  - unfold s_destroy. rewrite overwrite_more by exact C. destruct (overwrite _ _ _); reflexivity.
  - destruct C as (Lx & Ly & _). unfold s_read. rewrite get_more by exact Ly. destruct (get_var s y) as [h| | | |]; cbn [bind]; try reflexivity.
    change (read_member (more g s) h r) with (read_member s h r). destruct (read_member s h r) as [[er|hm]| | | |]; cbn [bind]; try reflexivity.
    change (heap (more g s)) with (heap s). destruct (inc (heap s) hm) as [cs| | | |]; cbn [bind]; try reflexivity.
    change (St cs (vars (more g s))) with (more g (St cs (vars s))). rewrite overwrite_more by exact Lx. destruct (overwrite _ _ _); reflexivity.
  - apply insert_more; apply C.
  - unfold s_set. rewrite unshare_more by apply C. destruct (unshare s x) as [[s1 h]| | | |] eqn:E; unfold_lift; try reflexivity.
    apply set_in_more. rewrite (unshare_len _ _ _ _ E). apply C.
  - unfold s_erase. destruct k; try reflexivity; [|apply erase_idx_more; exact C].
    unfold s_erase_key. rewrite unshare_more by exact C. destruct (unshare s x) as [[s1 h]| | | |] eqn:E; unfold_lift; try reflexivity.
    rewrite fields_more. destruct (fields_of s1 h) as [[[a fs]|]| | | |]; cbn [bind]; try reflexivity.
    destruct (map_find s0 fs) as [j|]; [|reflexivity]. destruct (nth_error fs j) as [[k old]|]; [|reflexivity].
    rewrite put_more. destruct (put_s s1 a _); unfold_lift; try reflexivity. rewrite drop_more. destruct (drop_s _ _); reflexivity.
  - apply insert_more; apply C.
  - unfold s_push_back. rewrite size_more by apply C. destruct (s_size s x) as [[z|]| | | |]; cbn [bind]; try reflexivity. apply insert_more; apply C.
  - apply erase_idx_more. exact C.
  - unfold s_pop_back. rewrite size_more by apply C. destruct (s_size s x) as [[z|]| | | |]; cbn [bind]; try reflexivity. apply erase_idx_more; exact C.
  - unfold s_clear. rewrite get_more by exact C. destruct (get_var s x) as [h| | | |]; cbn [bind]; try reflexivity. destruct h; try reflexivity.
    + rewrite fields_more. destruct (fields_of s (HObj a)) as [[[b fs]|]| | | |]; cbn [bind]; try reflexivity.
      rewrite put_more. destruct (put_s s a _); unfold_lift; try reflexivity. rewrite drop_more. destruct (drop_s _ _); reflexivity.
    + rewrite elements_more. destruct (elements_of s (HArr a)) as [[[b fs]|]| | | |]; cbn [bind]; try reflexivity.
      rewrite put_more. destruct (put_s s a _); unfold_lift; try reflexivity. rewrite drop_more. destruct (drop_s _ _); reflexivity.
  - destruct C as [L V]. unfold s_resize. rewrite get_more by exact L. destruct (get_var s x) as [h| | | |]; cbn [bind]; try reflexivity.
    rewrite elements_more. destruct (elements_of s h) as [[[a vs]|]| | | |]; cbn [bind]; try reflexivity. cbv zeta.
    rewrite copy_more by (destruct v; exact V).
    destruct (take_copy s _) as [[s1 hv]| | | |]; unfold_lift; try reflexivity.
    change (heap (more g s1)) with (heap s1). destruct (inc_all (heap s1) _) as [cs| | | |]; cbn [bind]; try reflexivity.
    change (St cs (vars (more g s1))) with (more g (St cs (vars s1))). rewrite put_more. destruct (put_s _ a _); unfold_lift; try reflexivity.
    rewrite drop_more. destruct (drop_s _ _); reflexivity.
Qed.

Lemma storable_more s o : call_ok (length (vars s)) o -> storable s o -> storable (more g s) o.
Proof.
  destruct o as [x f|x y|x y|x|x y r|x k v|x k v|x k|x v|x v|x|x|x|x n v]; cbn [call_ok storable]; intros C St; auto.
  destruct St as [N U]. split; [exact N|]. intros h E. unfold more in E. cbn [vars] in E. rewrite nth_error_app1 in E by apply C. exact (U h E).
Qed.
End Frame.

(** The same for independent values. *)
Section Values.
Context (g : env).
Lemma val_app e x : (x < length e)%nat -> val (e ++ g) x = val e x.
Proof. intros L. unfold val. apply app_nth1. exact L. Qed.
Lemma src_app e v : src_in (length e) v -> src_value (e ++ g) v = src_value e v.
Proof. destruct v; cbn [src_in src_value]; intros L; [reflexivity|apply val_app..]; exact L. Qed.
Lemma emptied_app e v : src_in (length e) v -> emptied (e ++ g) v = emptied e v ++ g.
Proof. destruct v; cbn [src_in emptied]; intros L; try reflexivity. apply list_set_app. exact L. Qed.
Lemma emptied_length e v : length (emptied e v) = length e.
Proof. destruct v; cbn [emptied]; rewrite ?list_set_length; reflexivity. Qed.
Definition also (p : env * ans) : env * ans := (fst p ++ g, snd p).
Lemma settle_app e x e' r : (x < length e')%nat -> settle (e ++ g) x (e' ++ g) r = also (settle e x e' r).
Proof. intros L. destruct r; cbn [settle]; unfold also; cbn [fst snd]; try reflexivity. rewrite list_set_app by exact L. reflexivity. Qed.
Lemma v_insert_app e x k v : (x < length e)%nat -> src_in (length e) v -> v_insert (e ++ g) x k v = also (v_insert e x k v).
Proof.
  intros L V. unfold v_insert. rewrite val_app, src_app, emptied_app by assumption. destruct (overwrites _ _).
  - apply settle_app. rewrite emptied_length. exact L.
  - apply settle_app. exact L.
Qed.
Lemma v_exec_app e o : call_ok (length e) o -> v_exec (e ++ g) o = also (v_exec e o).
Proof.
  destruct o as [x f|x y|x y|x|x y r|x k v|x k v|x k|x v|x v|x|x|x|x n v]; cbn [call_ok v_exec]; intros C.
  - destruct f; rewrite list_set_app by apply C; reflexivity.
  - rewrite val_app, list_set_app by apply C. reflexivity.
  - rewrite val_app by apply C. destruct (Nat.eqb x y); [reflexivity|]. rewrite (list_set_app y) by apply C. rewrite list_set_app by (rewrite list_set_length; apply C). reflexivity.
  - rewrite list_set_app by apply C. reflexivity.
  - rewrite val_app by apply C. apply settle_app. apply C.
  - apply v_insert_app; apply C.
  - rewrite val_app, src_app, emptied_app by apply C. apply settle_app. rewrite emptied_length. apply C.
  - rewrite val_app by apply C. apply settle_app. exact C.
  - apply v_insert_app; apply C.
  - rewrite val_app by apply C. destruct (h_size (val e x)); try reflexivity. apply v_insert_app; apply C.
  - rewrite val_app by apply C. apply settle_app. exact C.
  - rewrite val_app by apply C. apply settle_app. exact C.
  - rewrite val_app by apply C. apply settle_app. exact C.
  - rewrite val_app, src_app by apply C. apply settle_app. apply C.
Qed.
End Values.

Lemma allowed_more g eg s e o : length (vars s) = length e -> call_ok (length e) o -> allowed s e o -> allowed (more g s) (e ++ eg) o.
Proof.
  intros LE C [A1 A2]. split; [apply storable_more; [rewrite LE; exact C|exact A1]|].
  destruct o as [x f|x y|x y|x|x y r|x k v|x k v|x k|x v|x v|x|x|x|x n v]; cbn [call_ok] in C; auto.
  - destruct v; auto. rewrite val_app by apply C. exact A2.
  - intros h E. unfold more in E. cbn [vars] in E. rewrite nth_error_app1 in E by (rewrite LE; exact C). exact (A2 h E).
Qed.

Lemma call_ok_le n m o : (n <= m)%nat -> call_ok n o -> call_ok m o.
Proof.
  intros L. assert (V : forall v, src_in n v -> src_in m v) by (intros [ | | |]; cbn [src_in]; intros; auto; lia).
  destruct o as [x f|x y|x y|x|x y r|x k v|x k v|x k|x v|x v|x|x|x|x z v]; cbn [call_ok]; intros C;
    repeat match goal with H : _ /\ _ |- _ => destruct H end; repeat split; auto; lia.
Qed.

(** One call, with what was abandoned kept aside. *)
Lemma step_aside g eg s e o : length (vars s) = length e -> Inv (more g s) (e ++ eg) [] -> call_ok (length e) o -> allowed s e o ->
  exists s', s_exec s o = Ok (s', snd (v_exec e o)) /\ Inv (more g s') (fst (v_exec e o) ++ eg) [] /\ length (vars s') = length e.
Proof.
  intros LE I C A. pose proof (allowed_more g eg s e o LE C A) as A'.
  destruct (step (more g s) (e ++ eg) o I) as (S' & e' & E & I' & L' & V).
  { eapply call_ok_le; [|exact C]. rewrite app_length. lia. } { exact (proj1 A'). }
  specialize (V A'). subst e'. rewrite v_exec_app in * by exact C. cbn [also fst snd] in *.
  rewrite exec_more in E by (rewrite LE; exact C). destruct (s_exec s o) as [[s' a]| | | |]; try discriminate. unfold lift in E. cbn [bind] in E.
  injection E as <- ->. exists s'. split; [reflexivity|]. split; [exact I'|].
  pose proof (Inv_len _ _ _ I') as Q. pose proof (Inv_len _ _ _ I) as Q0. unfold more in Q, Q0. cbn [vars] in Q, Q0. rewrite !app_length in Q, Q0. rewrite v_exec_len in Q. lia.
Qed.

(** Bytes reused: what they referred to stays referred to, by nobody. *)
Lemma aside_abandon g eg s e x h : length (vars s) = length e -> (x < length e)%nat -> Inv (more g s) (e ++ eg) [] ->
  nth_error (vars s) x = Some h ->
  Inv (more (h :: g) (St (heap s) (list_set x HNull (vars s)))) (list_set x VNull e ++ val e x :: eg) [].
Proof.
  intros LE L [W F] N. unfold more in *. cbn [vars heap app] in *. split; cbn [heap vars app].
  - eapply wf_meq; [|apply wf_scalar with (h := HNull); [reflexivity|exact W]]. intros z.
    pose proof (set_meq x HNull h (vars s) N z) as Q. rewrite cnt_cons, (cnt_cons z HNull (vars s)) in Q.
    rewrite cnt_cons, !cnt_app, (cnt_cons z h g). lia.
  - apply Forall2_app_inv_l in F. destruct F as (e1 & eg1 & F1 & F2 & E).
    assert (e1 = e /\ eg1 = eg) as [-> ->].
    { pose proof (Forall2_length F1) as Q. rewrite LE in Q. clear - E Q. revert e E Q.
      induction e1 as [|a e1 IH]; intros [|a' e] E Q; cbn in *; subst; try discriminate; auto.
      injection E as <- E. injection Q as Q. destruct (IH e E Q) as [-> ->]. auto. }
    apply Forall2_app; [apply Forall2_set; [exact F1|constructor]|]. constructor; [|exact F2].
    pose proof (Forall2_nth _ _ _ x F1) as Q. rewrite N in Q. destruct (nth_error e x) as [v|] eqn:E'; [|apply nth_error_None in E'; lia].
    rewrite (val_nth _ _ _ E'). exact Q.
Qed.
