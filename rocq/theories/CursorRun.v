(** Programs with iterators (Cursor.v) against positions in independent values (SpecCursor.v). *)

From Coq Require Import ZArith List Bool Lia Sorted ZifyBool ZifyNat ZifyN.
From Verif Require Import Base BaseFacts Keys KeysFacts Wire Spec SpecOps ReadFacts BufFacts HeapOps HeapFacts
  Store StoreSpec StoreFacts StoreSteps StoreRun Cursor SpecCursor CursorFacts.
Import ListNotations.
Open Scope Z_scope.

(** ** What an iterator of a variable looks like *)
Definition mark_ok (s : state) (e : env) (m : mark) (p : place) : Prop :=
  match m with
  | M_none => p = P_none
  | M_stale => p <> P_none
  | M_at x q keys =>
      (x < length e)%nat /\
      ((exists a vs, nth_error (vars s) x = Some (HObj a) /\ val e x = VObj vs /\ (q <= length vs)%nat /\
          p = P_field a (option_map fst (nth_error vs q)) keys) \/
       (exists a vs, nth_error (vars s) x = Some (HArr a) /\ val e x = VArr vs /\ (q <= length vs)%nat /\
          p = P_elem a q /\ keys = false))
  end.
Definition CInv (c : cstate) (st : cspec) : Prop :=
  Inv (store c) (fst st) [] /\ Forall tidy (fst st) /\ Forall2 (mark_ok (store c) (fst st)) (snd st) (its c).

Lemma obj_cell s e t x a vs : Inv s e t -> nth_error (vars s) x = Some (HObj a) -> val e x = VObj vs -> (x < length e)%nat ->
  exists n fs, cell_at (heap s) a = Some (n, CObj fs) /\ Forall2 (pair_shows (heap s)) fs vs.
Proof.
  intros I N V L. destruct (L_get _ _ _ _ I L) as (h & N' & _ & Sh). rewrite N in N'. injection N' as <-. rewrite V in Sh.
  inversion Sh as [| | | | |a' n fs vs' E F|]; subst. exists n, fs. split; [exact E|exact F].
Qed.
Lemma arr_cell s e t x a vs : Inv s e t -> nth_error (vars s) x = Some (HArr a) -> val e x = VArr vs -> (x < length e)%nat ->
  exists n ms, cell_at (heap s) a = Some (n, CArr ms) /\ Forall2 (shows (heap s)) ms vs.
Proof.
  intros I N V L. destruct (L_get _ _ _ _ I L) as (h & N' & _ & Sh). rewrite N in N'. injection N' as <-. rewrite V in Sh.
  inversion Sh as [| | | | | |a' n fs vs' E F]; subst. exists n, fs. split; [exact E|exact F].
Qed.
Lemma obj_var s e t x vs : Inv s e t -> (x < length e)%nat -> val e x = VObj vs -> exists a, nth_error (vars s) x = Some (HObj a).
Proof. intros I L V. destruct (L_get _ _ _ _ I L) as (h & N & _ & Sh). rewrite V in Sh. inversion Sh; subst. eauto. Qed.
Lemma arr_var s e t x vs : Inv s e t -> (x < length e)%nat -> val e x = VArr vs -> exists a, nth_error (vars s) x = Some (HArr a).
Proof. intros I L V. destruct (L_get _ _ _ _ I L) as (h & N & _ & Sh). rewrite V in Sh. inversion Sh; subst. eauto. Qed.

Lemma obj_tidy e x vs : Forall tidy e -> val e x = VObj vs ->
  StronglySorted key_lt (map fst vs) /\ Forall (fun kv => zlen (fst kv) <= 65535 /\ tidy (snd kv)) vs.
Proof. intros F V. pose proof (val_tidy e x F) as T. rewrite V in T. apply tidy_obj. exact T. Qed.
Lemma arr_tidy e x vs : Forall tidy e -> val e x = VArr vs -> Forall tidy vs.
Proof. intros F V. pose proof (val_tidy e x F) as T. rewrite V in T. apply tidy_arr. exact T. Qed.

Lemma same_key cs fs vs q : Forall2 (pair_shows cs) fs vs -> option_map fst (nth_error fs q) = option_map fst (nth_error vs q).
Proof.
  intros F. pose proof (Forall2_nth _ _ _ q F) as Q. destruct (nth_error fs q) as [[k h]|], (nth_error vs q) as [[k' v]|]; cbn in *; try tauto.
  destruct Q as [Q _]. cbn in Q. congruence.
Qed.
Lemma key_found e x vs cs fs q k v : Forall tidy e -> val e x = VObj vs -> Forall2 (pair_shows cs) fs vs ->
  nth_error vs q = Some (k, v) -> map_find k fs = Some q /\ index_of k vs = q.
Proof.
  intros T V F N. destruct (obj_tidy _ _ _ T V) as [S _]. rewrite (same_find k fs vs (pair_keys _ _ _ F)). eapply find_own; eassumption.
Qed.

Lemma surviving_some cs cs' p : p <> P_none -> surviving cs cs' p <> P_none.
Proof.
  intros N. destruct p as [|a k keys|a i|]; cbn [surviving]; try congruence.
  - destruct (cell_at cs' a) as [[n [fs|ms]]|]; try discriminate. destruct k as [k|]; [|discriminate]. destruct (map_find k fs); discriminate.
  - destruct (cell_at cs a) as [[n [fs|ms]]|]; try discriminate. destruct (cell_at cs' a) as [[n' [fs|ms']]|]; try discriminate.
    destruct (Nat.eqb _ _); discriminate.
Qed.

(** An iterator of a variable that keeps its handle and its value stays good. *)
Lemma mark_keep s e s' e' m p : Inv s e [] -> Inv s' e' [] -> Forall tidy e -> length e' = length e -> mark_ok s e m p ->
  match m with M_at x _ _ => nth_error (vars s') x = nth_error (vars s) x /\ val e' x = val e x | _ => True end ->
  mark_ok s' e' m (surviving (heap s) (heap s') p).
Proof.
  intros I I' T LE M K. destruct m as [|x q keys|]; cbn [mark_ok] in *.
  - subst p. reflexivity.
  - destruct K as [K1 K2]. destruct M as [L M]. split; [lia|]. rewrite K1, K2. assert (L' : (x < length e')%nat) by lia.
    destruct M as [(a & vs & N & V & Q & ->)|(a & vs & N & V & Q & -> & ->)]; [left|right]; exists a, vs; (split; [exact N|]); (split; [exact V|]); (split; [exact Q|]).
    + rewrite <- K1 in N. rewrite <- K2 in V. destruct (obj_cell _ _ _ _ _ _ I' N V L') as (n & fs & C & F). cbn [surviving]. rewrite C.
      destruct (nth_error vs q) as [[k v]|] eqn:NQ; cbn [option_map]; [|reflexivity]. cbn [fst].
      rewrite K2 in V. destruct (key_found e x vs _ fs q k v T V F NQ) as [-> _]. reflexivity.
    + split; [|reflexivity]. destruct (arr_cell _ _ _ _ _ _ I N V L) as (n & ms & C & F). rewrite <- K1 in N. rewrite <- K2 in V.
      destruct (arr_cell _ _ _ _ _ _ I' N V L') as (n' & ms' & C' & F'). cbn [surviving]. rewrite C, C', (Forall2_length F), (Forall2_length F'), Nat.eqb_refl.
      reflexivity.
  - apply surviving_some. exact M.
Qed.

Lemma existsb_in y xs : existsb (Nat.eqb y) xs = false -> ~ In y xs.
Proof.
  intros H J. apply (proj2 (existsb_exists (Nat.eqb y) xs)) || idtac. assert (existsb (Nat.eqb y) xs = true); [|congruence].
  apply existsb_exists. exists y. split; [exact J|apply Nat.eqb_refl].
Qed.
Lemma marks_keep s e s' e' ms ps xs : Inv s e [] -> Inv s' e' [] -> Forall tidy e -> length e' = length e ->
  others xs s s' -> (forall y, ~ In y xs -> val e' y = val e y) ->
  Forall2 (mark_ok s e) ms ps -> Forall2 (mark_ok s' e') (upset xs ms) (map (surviving (heap s) (heap s')) ps).
Proof.
  intros I I' T LE O V F. induction F as [|m p ms ps M F IH]; cbn [upset map]; [constructor|]. constructor; [|exact IH].
  destruct m as [|x q keys|].
  - apply (mark_keep s e); auto.
  - destruct (existsb (Nat.eqb x) xs) eqn:X.
    + cbn [mark_ok] in *. apply surviving_some. destruct M as [_ [(? & ? & _ & _ & _ & ->)|(? & ? & _ & _ & _ & -> & _)]]; discriminate.
    + apply existsb_in in X. apply (mark_keep s e); auto.
  - apply (mark_keep s e); auto.
Qed.

Lemma CInv_after c e ms s' e' xs : CInv c (e, ms) -> Inv s' e' [] -> Forall tidy e' -> length e' = length e ->
  others xs (store c) s' -> (forall y, ~ In y xs -> val e' y = val e y) -> CInv (after c s') (e', upset xs ms).
Proof.
  intros (I & T & F) I' T' L O V. split; [exact I'|]. split; [exact T'|]. cbn [fst snd store its after] in *. eapply marks_keep; eassumption.
Qed.
Lemma CInv_set c e ms i m p : CInv c (e, ms) -> mark_ok (store c) e m p -> CInv (set_it c i p) (e, list_set i m ms).
Proof.
  intros (I & T & F) M. split; [exact I|]. split; [exact T|]. cbn [fst snd store its set_it] in *. apply Forall2_set; assumption.
Qed.

(** ** Values of variables a call does not change *)
Lemma val_other e x y v : y <> x -> val (list_set x v e) y = val e y.
Proof. intros N. unfold val. revert x y N. induction e as [|a e IH]; intros [|x] [|y] N; cbn; auto; congruence. Qed.
Lemma val_same e x v : (x < length e)%nat -> val (list_set x v e) x = v.
Proof. intros L. apply val_nth. apply nth_set_same. exact L. Qed.
Lemma settle_val e x e' r y : y <> x -> val e' y = val e y -> val (fst (settle e x e' r)) y = val e y.
Proof. intros N H. destruct r; cbn [settle fst]; auto. rewrite val_other; assumption. Qed.
Lemma emptied_val e v y : ~ In y (moved v) -> val (emptied e v) y = val e y.
Proof. destruct v; cbn [moved emptied In]; auto. intros N. apply val_other. intros ->. tauto. Qed.
Lemma exec_val e o y : ~ In y (changes o) -> val (fst (v_exec e o)) y = val e y.
Proof.
  assert (VI : forall x k v, ~ In y (x :: moved v) -> val (fst (v_insert e x k v)) y = val e y).
  { intros x k v N. cbn [In] in N. apply settle_val; [intros ->; tauto|]. destruct (overwrites _ _); auto. apply emptied_val. tauto. }
  destruct o as [x f|x z|x z|x|x z r|x k v|x k v|x k|x v|x v|x|x|x|x n v]; cbn [changes v_exec]; intros N;
    try (apply settle_val; [intros ->; cbn in N; tauto|reflexivity]; fail); try (apply VI; exact N).
  - destruct f; apply val_other; intros ->; cbn in N; tauto.
  - apply val_other. intros ->. cbn in N. tauto.
  - destruct (Nat.eqb x z); [reflexivity|]. cbn [fst]. cbn in N. rewrite !val_other by (intros ->; tauto). reflexivity.
  - apply val_other. intros ->. cbn in N. tauto.
  - cbn [In] in N. apply settle_val; [intros ->; tauto|]. apply emptied_val. tauto.
  - destruct (h_size (val e x)); try reflexivity. apply VI. exact N.
Qed.

(** ** An ordinary call *)
Lemma R_call c e ms o : CInv c (e, ms) -> call_ok (length e) o -> allowed (store c) e o ->
  exists s', s_exec (store c) o = Ok (s', snd (v_exec e o)) /\ CInv (after c s') (fst (v_exec e o), upset (changes o) ms).
Proof.
  intros C CO AL. pose proof C as (I & T & F). cbn [fst snd] in *. destruct (step _ _ _ I CO (proj1 AL)) as (s' & e' & E & I' & L' & V).
  specialize (V AL). subst e'. exists s'. split; [exact E|]. apply (CInv_after c e); auto.
  - eapply v_exec_tidy; eassumption.
  - eapply exec_others; eassumption.
  - intros y N. apply exec_val. exact N.
Qed.

(** ** Taking iterators, moving them, looking at them *)
Lemma mark_get {A B} (R : A -> B -> Prop) ms ps i d : Forall2 R ms ps -> (i < length ms)%nat ->
  exists p, nth_error ps i = Some p /\ R (nth i ms d) p.
Proof.
  intros F L. pose proof (Forall2_nth _ _ _ i F) as Q. destruct (nth_error ms i) as [m|] eqn:E; [|apply nth_error_None in E; lia].
  destruct (nth_error ps i) as [p|]; [|contradiction]. exists p. split; [reflexivity|]. rewrite (nth_error_nth _ _ _ E). exact Q.
Qed.
Lemma CInv_get c e ms i : CInv c (e, ms) -> (i < length ms)%nat -> exists p, get_it c i = Ok p /\ mark_ok (store c) e (mark_of ms i) p.
Proof.
  intros (_ & _ & F) L. cbn [fst snd] in F. destruct (mark_get _ _ _ i M_stale F L) as (p & N & M). exists p. unfold get_it. rewrite N. auto.
Qed.

Definition ends (last : bool) {A} (l : list A) : nat := if last then length l else 0%nat.
Lemma R_whole c e ms keys last i x : CInv c (e, ms) -> (x < length e)%nat ->
  exists r, whole (store c) x keys last = Ok r /\
    match members keys (val e x) with
    | Some l => snd (assigned c i r) = A_unit /\ CInv (fst (assigned c i r)) (e, list_set i (M_at x (ends last l) keys) ms)
    | None => assigned c i r = (c, A_err type_error)
    end.
Proof.
  intros C L. pose proof C as (I & T & _). cbn [fst snd] in *. destruct (L_get _ _ _ _ I L) as (h & N & G & Sh). unfold whole. rewrite G. cbn [bind].
  destruct (val e x) as [vs|vs|t|z|d|b|] eqn:V; inversion Sh as [| | | | |a k fs vs' E F|a k fs vs' E F]; subst;
    try (eexists; split; [reflexivity|]; destruct keys; reflexivity).
  - unfold fields_of. rewrite E. cbn [bind]. eexists. split; [reflexivity|].
    assert (M : mark_ok (store c) e (M_at x (ends last vs) keys) (field_place a fs (ends last fs) keys)).
    { split; [exact L|]. left. exists a, vs. split; [exact N|]. split; [exact V|]. unfold ends, field_place.
      change (Forall2 (pair_shows (heap (store c))) fs vs) in F. rewrite (Forall2_length F).
      split; [destruct last; lia|]. rewrite (same_key _ _ _ _ F). reflexivity. }
    destruct keys; cbn [members assigned fst snd]; (split; [reflexivity|]); apply CInv_set; auto; unfold ends in *; rewrite map_length; exact M.
  - destruct keys; [eexists; split; reflexivity|]. unfold elements_of. rewrite E. cbn [bind]. eexists. split; [reflexivity|].
    cbn [members assigned fst snd]. split; [reflexivity|]. apply CInv_set; auto. split; [exact L|]. right. exists a, vs.
    split; [exact N|]. split; [exact V|]. unfold ends. rewrite (Forall2_length F). split; [destruct last; lia|]. split; reflexivity.
Qed.

Lemma R_find c e ms keys i x k : CInv c (e, ms) -> (x < length e)%nat ->
  exists r, found (store c) x keys k = Ok r /\
    match val e x with
    | VObj fs => snd (assigned c i r) = A_unit /\ CInv (fst (assigned c i r)) (e, list_set i (M_at x (index_of k fs) keys) ms)
    | _ => assigned c i r = (c, A_err type_error)
    end.
Proof.
  intros C L. pose proof C as (I & T & _). cbn [fst snd] in *. destruct (L_get _ _ _ _ I L) as (h & N & G & Sh). unfold found. rewrite G. cbn [bind].
  destruct (val e x) as [vs|vs|t|z|d|b|] eqn:V; inversion Sh as [| | | | |a n fs vs' E F|a n fs vs' E F]; subst;
    try (eexists; split; reflexivity).
  unfold fields_of. rewrite E. cbn [bind]. eexists. split; [reflexivity|]. cbn [assigned fst snd]. split; [reflexivity|].
  change (Forall2 (pair_shows (heap (store c))) fs vs) in F. apply CInv_set; auto. split; [exact L|]. left. exists a, vs.
  split; [exact N|]. split; [exact V|]. split; [apply index_le|]. unfold field_place. rewrite (same_key _ _ _ _ F).
  rewrite (same_find k fs vs (pair_keys _ _ _ F)), (find_index k vs (proj1 (obj_tidy _ _ _ T V))), (Forall2_length F).
  pose proof (index_le k vs). destruct (Nat.ltb_spec (index_of k vs) (length vs)); [reflexivity|].
  replace (index_of k vs) with (length vs) by lia. reflexivity.
Qed.

Lemma members_len keys v l : members keys v = Some l ->
  match v with VObj vs => length l = length vs | VArr vs => length l = length vs | _ => False end.
Proof. destruct v, keys; cbn; try discriminate; intros H; injection H as <-; rewrite ?map_length; reflexivity. Qed.

Lemma R_next s e x p keys q l : Inv s e [] -> Forall tidy e -> mark_ok s e (M_at x p keys) q ->
  members keys (val e x) = Some l -> (p < length l)%nat ->
  exists q', forward s q = Ok q' /\ mark_ok s e (M_at x (S p) keys) q'.
Proof.
  intros I T (L & M) E LP.
  pose proof (members_len _ _ _ E) as Q. destruct M as [(a & vs & N & V & LE & ->)|(a & vs & N & V & LE & -> & ->)]; rewrite V in Q.
  - destruct (obj_cell _ _ _ _ _ _ I N V L) as (n & fs & C' & F). destruct (nth_error vs p) as [[k v]|] eqn:NP; [|apply nth_error_None in NP; lia].
    cbn [option_map fst forward]. unfold node_index. rewrite C'. destruct (key_found _ _ _ _ _ _ _ _ T V F NP) as [-> _]. cbn [bind].
    eexists. split; [reflexivity|]. split; [exact L|]. left. exists a, vs. repeat (split; [first [assumption|lia]|]).
    unfold field_place. rewrite (same_key _ _ _ _ F). reflexivity.
  - destruct (arr_cell _ _ _ _ _ _ I N V L) as (n & ms & C' & F). cbn [forward]. unfold elems_at. rewrite C'. cbn [bind].
    rewrite (Forall2_length F). destruct (Nat.ltb_spec p (length vs)); [|lia]. eexists. split; [reflexivity|]. split; [exact L|]. right.
    exists a, vs. repeat (split; [first [assumption|lia|reflexivity]|]). reflexivity.
Qed.
Lemma R_prev s e x p keys q : Inv s e [] -> Forall tidy e -> mark_ok s e (M_at x (S p) keys) q ->
  exists q', backward s q = Ok q' /\ mark_ok s e (M_at x p keys) q'.
Proof.
  intros I T (L & M). destruct M as [(a & vs & N & V & LE & ->)|(a & vs & N & V & LE & -> & ->)].
  - destruct (obj_cell _ _ _ _ _ _ I N V L) as (n & fs & C' & F). cbn [backward].
    assert (node_index s a (option_map fst (nth_error vs (S p))) = Ok (S p, fs)) as ->.
    { unfold node_index. rewrite C'. destruct (nth_error vs (S p)) as [[k v]|] eqn:NP; cbn [option_map fst].
      - destruct (key_found _ _ _ _ _ _ _ _ T V F NP) as [-> _]. reflexivity.
      - apply nth_error_None in NP. rewrite (Forall2_length F). do 2 f_equal. lia. }
    cbn [bind]. eexists. split; [reflexivity|]. split; [exact L|]. left. exists a, vs. repeat (split; [first [assumption|lia]|]).
    unfold field_place. rewrite (same_key _ _ _ _ F). reflexivity.
  - eexists. split; [reflexivity|]. split; [exact L|]. right. exists a, vs. repeat (split; [first [assumption|lia|reflexivity]|]). reflexivity.
Qed.
Lemma R_target s e x p keys q l v : Inv s e [] -> Forall tidy e -> mark_ok s e (M_at x p keys) q ->
  members keys (val e x) = Some l -> nth_error l p = Some v ->
  exists h, target s q = Ok h /\ shows (heap s) h v /\ tidy v /\ (href h = None \/ In h (all_kids (heap s))).
Proof.
  intros I T (L & M) E NP. destruct M as [(a & vs & N & V & LE & ->)|(a & vs & N & V & LE & -> & ->)].
  - destruct (obj_cell _ _ _ _ _ _ I N V L) as (n & fs & C' & F). destruct (obj_tidy _ _ _ T V) as [SS FA].
    assert (LV : length l = length vs) by (pose proof (members_len _ _ _ E) as Q; rewrite V in Q; exact Q).
    destruct (nth_error vs p) as [[k w]|] eqn:NV.
    2: { apply nth_error_None in NV. assert (p < length l)%nat by (apply nth_error_Some; congruence). lia. }
    cbn [option_map fst target]. unfold node_index. rewrite C'. destruct (key_found _ _ _ _ _ _ _ _ T V F NV) as [-> _]. cbn [bind].
    pose proof (Forall2_nth _ _ _ p F) as Q. rewrite NV in Q. destruct (nth_error fs p) as [[k' h]|] eqn:NF; [|contradiction].
    destruct Q as [Q1 Q2]. cbn in Q1, Q2. subst k'. eexists. split; [reflexivity|]. rewrite V in E.
    pose proof (Forall_nth' _ _ _ _ FA NV) as [_ TW]. cbn [snd] in TW.
    destruct keys; cbn [members] in E; injection E as <-.
    + pose proof (map_nth_error (fun kv : str * value => VStr (fst kv)) _ _ NV) as Q. rewrite Q in NP. injection NP as <-.
      split; [constructor|]. split; [constructor; exact Logic.I|]. left. reflexivity.
    + pose proof (map_nth_error (@snd str value) _ _ NV) as Q. rewrite Q in NP. injection NP as <-.
      split; [exact Q2|]. split; [exact TW|]. right. eapply kids_in; [exact C'|]. cbn [kids].
      exact (in_map (@snd str hval) _ _ (nth_error_In _ _ NF)).
  - destruct (arr_cell _ _ _ _ _ _ I N V L) as (n & ms & C' & F). rewrite V in E. cbn [members] in E. injection E as <-.
    cbn [target]. unfold elems_at. rewrite C'. cbn [bind]. pose proof (Forall2_nth _ _ _ p F) as Q. rewrite NP in Q.
    destruct (nth_error ms p) as [h|] eqn:NM; [|contradiction]. exists h. split; [reflexivity|]. split; [exact Q|].
    split; [exact (Forall_nth' _ _ _ _ (arr_tidy _ _ _ T V) NP)|]. right. eapply kids_in; [exact C'|]. cbn [kids]. eapply nth_error_In. exact NM.
Qed.
Lemma R_load c e ms x i y p keys l v : CInv c (e, ms) -> (x < length e)%nat -> (i < length ms)%nat -> mark_of ms i = M_at y p keys ->
  members keys (val e y) = Some l -> nth_error l p = Some v ->
  exists c', c_exec c (Load x i) = Ok (c', A_unit) /\ CInv c' (list_set x v e, upset [x] ms).
Proof.
  intros C Lx Li Mi E NP. destruct (CInv_get c e ms i C Li) as (q & G & M). rewrite Mi in M. pose proof C as (I & T & _). cbn [fst snd] in *.
  destruct (R_target _ _ _ _ _ _ _ _ I T M E NP) as (h & TG & Sh & Tv & Ih). cbn [c_exec]. rewrite G. cbn [bind]. rewrite TG. cbn [bind].
  pose proof I as [W F]. cbn [app] in W.
  assert (exists cs, inc (heap (store c)) h = Ok cs /\ wf cs (h :: vars (store c)) /\ sub (heap (store c)) cs) as (cs & E1 & W1 & Su).
  { destruct Ih as [R|Ih].
    - unfold inc. rewrite R. exists (heap (store c)). split; [reflexivity|]. split; [apply wf_scalar; assumption|apply sub_refl].
    - destruct (inc_ok _ _ h W) as (cs & E1 & W1 & Su & _); [apply in_or_app; auto|]. eauto. }
  rewrite E1. cbn [bind]. destruct (L_overwrite (St cs (vars (store c))) e x h v []) as (s' & E' & I').
  - split; [exact W1|]. exact (elems_sub _ _ _ _ Su F).
  - eapply shows_sub; eassumption.
  - exact Lx.
  - rewrite E'. cbn [bind]. eexists. split; [reflexivity|]. apply (CInv_after c e); auto.
    + apply Forall_set; assumption.
    + apply list_set_length.
    + exact (overwrite_others _ _ _ _ E').
    + intros z N. apply val_other. intros ->. apply N. left. reflexivity.
Qed.

Lemma str_eqb_eq a b : str_eqb a b = true <-> a = b.
Proof. unfold str_eqb. destruct (list_eq_dec _ a b); split; congruence. Qed.
Lemma key_eqb_pos (vs : list (str * value)) p q : StronglySorted key_lt (map fst vs) -> (p <= length vs)%nat -> (q <= length vs)%nat ->
  key_eqb (option_map fst (nth_error vs p)) (option_map fst (nth_error vs q)) = Nat.eqb p q.
Proof.
  intros S Lp Lq. destruct (nth_error vs p) as [[k v]|] eqn:P, (nth_error vs q) as [[l w]|] eqn:Q; cbn [option_map fst key_eqb].
  - destruct (find_own vs p k v S P) as [A _]. destruct (find_own vs q l w S Q) as [B _]. destruct (Nat.eqb_spec p q) as [->|N].
    + apply str_eqb_eq. congruence.
    + destruct (str_eqb k l) eqn:K; [|reflexivity]. apply str_eqb_eq in K. subst l. congruence.
  - apply nth_error_None in Q. assert (p < length vs)%nat by (apply nth_error_Some; congruence). symmetry. apply Nat.eqb_neq. lia.
  - apply nth_error_None in P. assert (q < length vs)%nat by (apply nth_error_Some; congruence). symmetry. apply Nat.eqb_neq. lia.
  - apply nth_error_None in P. apply nth_error_None in Q. symmetry. apply Nat.eqb_eq. lia.
Qed.
Lemma R_same s e x p k q l a b : Inv s e [] -> Forall tidy e -> mark_ok s e (M_at x p k) a -> mark_ok s e (M_at x q l) b ->
  same_place a b = Ok (Nat.eqb p q).
Proof.
  intros I T (L & M) (_ & M'). destruct M as [(c & vs & N & V & LE & ->)|(c & vs & N & V & LE & -> & ->)];
    destruct M' as [(c' & vs' & N' & V' & LE' & ->)|(c' & vs' & N' & V' & LE' & -> & ->)]; try congruence.
  - rewrite N in N'. injection N' as <-. rewrite V in V'. injection V' as <-. cbn [same_place]. rewrite Nat.eqb_refl.
    rewrite key_eqb_pos; auto. apply (obj_tidy _ _ _ T V).
  - rewrite N in N'. injection N' as <-. cbn [same_place]. rewrite Nat.eqb_refl. reflexivity.
Qed.
Lemma at_some s e x p k a : mark_ok s e (M_at x p k) a -> match a with P_field _ _ _ | P_elem _ _ => True | _ => False end.
Proof. intros (_ & [(? & ? & _ & _ & _ & ->)|(? & ? & _ & _ & _ & -> & _)]); exact I. Qed.

(** ** insert and set *)
Lemma nth_inserted {A} n (y : A) l : (n <= length l)%nat -> nth_error (list_insert n y l) n = Some y.
Proof. revert n. induction l as [|a l IH]; intros [|n] H; cbn in *; try lia; try reflexivity. apply IH. lia. Qed.
Lemma put_key_value e x k v (ins : bool) fs : Forall tidy e -> (x < length e)%nat -> val e x = VObj fs -> zlen k <= 65535 ->
  let o := if ins then O_insert x (VStr k) v else O_set x (VStr k) v in
  snd (v_exec e o) = A_unit ->
  exists fs' w, val (fst (v_exec e o)) x = VObj fs' /\ nth_error fs' (match map_find k fs with Some j => j | None => map_lower_bound k fs end) = Some (k, w).
Proof.
  intros T L V K o H. destruct (obj_tidy _ _ _ T V) as [S FA]. assert (Z : (65535 <? zlen k) = false) by lia.
  assert (EM : length (emptied e v) = length e) by (destruct v; cbn; rewrite ?list_set_length; reflexivity).
  subst o. destruct ins; cbn [v_exec] in *.
  - unfold v_insert in *. rewrite V in *. cbn [h_insert h_fields] in *. rewrite Z in *. destruct (map_find k fs) as [j|] eqn:M.
    + cbn [result bind settle fst snd]. destruct (find_at k fs j S M) as (w & N). rewrite N. eexists _, _. split.
      * apply val_same. destruct (overwrites _ _); lia.
      * apply nth_set_same. apply nth_error_Some. congruence.
    + cbn [result bind settle fst snd]. eexists _, _. split.
      * apply val_same. destruct (overwrites _ _); lia.
      * apply nth_inserted. apply lower_le.
  - rewrite V in *. cbn [h_set h_fields] in *. rewrite Z in *. destruct (map_find k fs) as [j|] eqn:M; [|discriminate H].
    cbn [result bind settle fst snd]. destruct (find_at k fs j S M) as (w & N). rewrite N. eexists _, _. split.
    + apply val_same. lia.
    + apply nth_set_same. apply nth_error_Some. congruence.
Qed.

(** The key an iterator of another variable [y] stands for, put into [x]. *)
Lemma R_put_key c e ms (ins : bool) i x j y p keys gs k w fs v :
  let call := if ins then s_insert else s_set in
  let o := if ins then O_insert x (VStr k) v else O_set x (VStr k) v in
  CInv c (e, ms) -> (x < length e)%nat -> (j < length ms)%nat -> mark_of ms j = M_at y p keys ->
  val e y = VObj gs -> nth_error gs p = Some (k, w) -> val e x = VObj fs ->
  call_ok (length e) o -> allowed (store c) e o ->
  exists c' st a, put_at call c i x j v = Ok (c', a) /\ by_key e ms o x i k false = Some (st, a) /\ CInv c' st.
Proof.
  intros call o C Lx Lj Mj Vy Np Vx CO AL. destruct (CInv_get c e ms j C Lj) as (q & G & M). rewrite Mj in M. pose proof C as (I & T & _). cbn [fst snd] in *.
  unfold put_at. rewrite G. cbn [bind]. destruct M as (Ly & [(a & vs & N & V & LE & ->)|(a & vs & N & V & LE & -> & ->)]); [|congruence].
  rewrite Vy in V. injection V as <-. rewrite Np. cbn [option_map fst].
  destruct (obj_var _ _ _ _ _ I Lx Vx) as (b & Nx). unfold get_var. rewrite Nx. cbn [bind iterator_key].
  destruct (obj_cell _ _ _ _ _ _ I N Vy Ly) as (n & hs & Ca & Fa).
  destruct (L_unshare' _ _ _ I Lx) as (s0 & h0 & E0 & _ & _ & _ & _ & SU & _). rewrite E0. cbn [bind]. unfold view.
  destruct (SU _ _ _ Ca) as (n' & Ca'). rewrite Ca'. destruct (key_found _ _ _ _ _ _ _ _ T Vy Fa Np) as [-> _]. cbn [bind].
  destruct (R_call c e ms o C CO AL) as (s1 & E1 & C1).
  assert (EC : call (store c) x (VStr k) v = Ok (s1, snd (v_exec e o))) by (subst call o; destruct ins; exact E1).
  rewrite EC. cbn [bind]. clear EC.
  assert (CH : changes o = x :: moved v) by (subst o; destruct ins; reflexivity).
  assert (LK : zlen k <= 65535).
  { destruct (obj_tidy _ _ _ T Vy) as [_ FA]. exact (proj1 (Forall_nth' _ _ _ _ FA Np)). }
  pose proof (put_key_value e x k v ins fs T Lx Vx LK) as PV. cbv zeta in PV. fold o in PV.
  unfold by_key. rewrite CH in *. destruct (v_exec e o) as [e' an] eqn:EX. cbn [fst snd] in *.
  assert (LEN : length e' = length e) by (pose proof (v_exec_len e o) as Q; rewrite EX in Q; exact Q).
  destruct an; try (eexists _, _, _; split; [reflexivity|]; split; [destruct (val e' x); reflexivity|exact C1]).
  destruct (PV eq_refl) as (fs' & w' & V' & N'). rewrite V'. pose proof C1 as (I1 & T1 & _). cbn [fst snd store after] in I1, T1.
  assert (Lx' : (x < length e')%nat) by lia.
  destruct (obj_var _ _ _ _ _ I1 Lx' V') as (b' & Nx'). unfold placed_key, get_var. rewrite Nx'. cbn [bind].
  eexists _, _, _. split; [reflexivity|]. split; [reflexivity|]. apply CInv_set; [exact C1|]. split; [exact Lx'|]. left. exists b', fs'.
  split; [exact Nx'|]. split; [exact V'|]. destruct (find_own _ _ _ _ (proj1 (obj_tidy _ _ _ T1 V')) N') as [_ ->].
  split; [apply Nat.lt_le_incl, nth_error_Some; congruence|]. rewrite N'. reflexivity.
Qed.

Lemma small_mod p n : (p <= n)%nat -> Z.of_nat n < 2 ^ 63 -> Z.of_nat p mod 2 ^ 64 = Z.of_nat p.
Proof. intros L H. apply Z.mod_small. change (2 ^ 64) with (2 * 2 ^ 63). lia. Qed.

Lemma R_put_idx c e ms (ins : bool) i x j p vs v :
  let call := if ins then s_insert else s_set in
  let o := if ins then O_insert x (VInt (Z.of_nat p)) v else O_set x (VInt (Z.of_nat p)) v in
  CInv c (e, ms) -> (x < length e)%nat -> (j < length ms)%nat -> mark_of ms j = M_at x p false ->
  val e x = VArr vs -> zlen vs < 2 ^ 63 -> call_ok (length e) o -> allowed (store c) e o ->
  exists c' st a, put_at call c i x j v = Ok (c', a) /\ CInv c' st /\
    (if ins || (p <? length vs)%nat then
       becomes (emptied e v) ms x (VArr ((if ins then added else replaced) p (src_value e v) vs)) (moved v) i p false
     else Some ((e, upset (x :: moved v) ms), A_err out_of_range)) = Some (st, a).
Proof.
  intros call o C Lx Lj Mj Vx SH CO AL. destruct (CInv_get c e ms j C Lj) as (q & G & M). rewrite Mj in M. pose proof C as (I & T & _). cbn [fst snd] in *.
  unfold put_at. rewrite G. cbn [bind]. destruct M as (Ly & [(a & vs' & N & V & LE & ->)|(a & vs' & N & V & LE & -> & _)]); [congruence|].
  rewrite Vx in V. injection V as <-. unfold get_var. rewrite N. cbn [bind iterator_index]. rewrite Nat.eqb_refl. cbn [bind].
  destruct (R_call c e ms o C CO AL) as (s1 & E1 & C1).
  assert (EC : call (store c) x (VInt (Z.of_nat p)) v = Ok (s1, snd (v_exec e o))) by (subst call o; destruct ins; exact E1).
  rewrite EC. cbn [bind]. clear EC. assert (CH : changes o = x :: moved v) by (subst o; destruct ins; reflexivity). rewrite CH in C1.
  assert (EM : length (emptied e v) = length e) by (destruct v; cbn; rewrite ?list_set_length; reflexivity).
  assert (PM : Z.of_nat p mod 2 ^ 64 = Z.of_nat p) by (apply (small_mod p (length vs)); [exact LE|exact SH]).
  assert (VE : v_exec e o = if ins || (p <? length vs)%nat then
    (list_set x (VArr ((if ins then added else replaced) p (src_value e v) vs)) (emptied e v), A_unit) else (e, A_err out_of_range)).
  { subst o. destruct ins; cbn [v_exec orb].
    - unfold v_insert. rewrite Vx. cbn [h_insert h_elements overwrites]. rewrite PM. replace (zlen vs <? Z.of_nat p) with false by (unfold zlen; lia).
      cbn [result bind settle]. rewrite Nat2Z.id, insert_added by exact LE. reflexivity.
    - rewrite Vx. cbn [h_set h_elements]. rewrite PM. destruct (Nat.ltb_spec p (length vs)) as [H|H].
      + replace (zlen vs <=? Z.of_nat p) with false by (unfold zlen; lia). cbn [result bind settle]. rewrite Nat2Z.id, (set_replaced p) by exact H. reflexivity.
      + replace (zlen vs <=? Z.of_nat p) with true by (unfold zlen; lia). reflexivity. }
  rewrite VE in *. destruct (ins || (p <? length vs)%nat) eqn:OK; cbn [fst snd] in *.
  - set (w := (if ins then added else replaced) p (src_value e v) vs) in *.
    set (e' := list_set x (VArr w) (emptied e v)) in *. assert (LEN : length e' = length e) by (unfold e'; rewrite list_set_length; exact EM).
    assert (V' : val e' x = VArr w) by (apply val_same; lia). pose proof C1 as (I1 & T1 & _). cbn [fst snd store after] in I1, T1.
    assert (Lx' : (x < length e')%nat) by lia.
    destruct (arr_var _ _ _ _ _ I1 Lx' V') as (b & Nb). unfold placed_index, get_var. rewrite Nb. cbn [bind].
    eexists _, _, _. split; [reflexivity|]. split; [|unfold becomes; reflexivity]. apply CInv_set; [exact C1|]. split; [exact Lx'|]. right.
    exists b, w. split; [exact Nb|]. split; [exact V'|]. split; [|split; reflexivity].
    unfold w, added, replaced. destruct ins; rewrite app_length, firstn_length; cbn [length]; rewrite skipn_length; cbn [orb] in OK; lia.
  - eexists _, _, _. split; [reflexivity|]. split; [exact C1|reflexivity].
Qed.

(** Through an iterator of its own, an object gets the new value right there. *)
Lemma own_by_key e ms (ins : bool) i x p k w fs v : Forall tidy e -> (x < length e)%nat -> val e x = VObj fs -> nth_error fs p = Some (k, w) ->
  let o := if ins then O_insert x (VStr k) v else O_set x (VStr k) v in
  by_key e ms o x i k false =
  becomes (emptied e v) ms x (VObj (replaced p (k, src_value e v) fs)) (moved v) i p false.
Proof.
  intros T L V N o. destruct (obj_tidy _ _ _ T V) as [S FA]. pose proof (proj1 (Forall_nth' _ _ _ _ FA N)) as K. cbn [fst] in K.
  assert (Z : (65535 <? zlen k) = false) by lia. destruct (find_own _ _ _ _ S N) as [MF IX].
  assert (LP : (p < length fs)%nat) by (apply nth_error_Some; congruence).
  assert (EM : length (emptied e v) = length e) by (destruct v; cbn; rewrite ?list_set_length; reflexivity).
  assert (VE : v_exec e o = (list_set x (VObj (replaced p (k, src_value e v) fs)) (emptied e v), A_unit)).
  { subst o. destruct ins; cbn [v_exec].
    - unfold v_insert. rewrite V. cbn [h_insert h_fields overwrites h_has_key]. rewrite Z, MF. cbn [result bind settle]. rewrite N.
      rewrite (set_replaced p) by exact LP. reflexivity.
    - rewrite V. cbn [h_set h_fields]. rewrite Z, MF. cbn [result bind settle]. rewrite N. rewrite (set_replaced p) by exact LP. reflexivity. }
  unfold by_key. rewrite VE. rewrite val_same by lia. unfold becomes.
  assert (NR : nth_error (replaced p (k, src_value e v) fs) p = Some (k, src_value e v)).
  { rewrite <- (set_replaced p) by exact LP. apply nth_set_same. exact LP. }
  assert (SR : StronglySorted key_lt (map fst (replaced p (k, src_value e v) fs))).
  { replace (map fst (replaced p (k, src_value e v) fs)) with (map fst fs); [exact S|].
    rewrite <- (set_replaced p) by exact LP. apply nth_error_split in N. destruct N as (f1 & f2 & -> & <-). rewrite list_set_mid, !map_app. reflexivity. }
  destruct (find_own _ _ _ _ SR NR) as [_ ->]. subst o. destruct ins; reflexivity.
Qed.

(** ** erase *)
Lemma S_erase_guarded s e x b k keys vs : Inv s e [] -> Forall tidy e -> (x < length e)%nat -> val e x = VObj vs ->
  (exists n gs j, cell_at (heap s) b = Some (n, CObj gs) /\ map_find k gs = Some j) ->
  let r := removed (index_of k vs) vs in
  exists s' a, erase_guarded s x (b, k) keys = Ok (s', P_field a (option_map fst (nth_error r (index_of k vs))) keys) /\
    Inv s' (list_set x (VObj r) e) [] /\ nth_error (vars s') x = Some (HObj a) /\ others [x] s s'.
Proof.
  intros I T L V (nb & gs & jb & Cb & Fb) r. destruct (obj_var _ _ _ _ _ I L V) as (a0 & N).
  unfold erase_guarded, get_var. rewrite N. cbn [bind]. pose proof I as [W F].
  destruct (inc_ok _ _ (HObj a0) W) as (cs0 & E0 & W0 & S0 & _ & _). { apply in_or_app. left. eapply nth_error_In. exact N. }
  rewrite E0. cbn [bind].
  assert (I0 : Inv (St cs0 (vars s)) e [HObj a0]). { split; [exact W0|]. exact (elems_sub _ _ _ _ S0 F). }
  destruct (L_cow _ _ x _ 2 I0 L ltac:(lia)) as (h & cs' & h' & Nh & E1 & I1 & N1 & Sh1 & SU & CW). cbn [heap vars] in *.
  rewrite N in Nh. injection Nh as <-. rewrite E1. cbn [bind]. set (s1 := St cs' (list_set x h' (vars s))) in *.
  assert (SUB : sub (heap s) cs') by (eapply sub_trans; eassumption).
  destruct (SUB _ _ _ Cb) as (nb' & Cb'). cbn [view]. unfold s1 at 1. cbn [heap]. rewrite Cb', Fb. cbn [bind].
  rewrite V in Sh1. assert (H' : exists a, h' = HObj a) by (inversion Sh1; eauto). destruct H' as (a & ->).
  destruct (obj_cell s1 e _ x a vs I1 N1 V L) as (n1 & fs & C1 & F1).
  unfold fields_of. rewrite C1. cbn [bind]. destruct (L_drop' s1 e [HObj a0] [] I1) as (s2 & E2 & I2 & V2 & LW). rewrite E2. cbn [bind].
  assert (N2 : nth_error (vars s2) x = Some (HObj a)) by (rewrite V2; exact N1).
  destruct (obj_cell s2 e _ x a vs I2 N2 V L) as (n2 & fs2 & C2 & F2). destruct (LW _ _ _ C2) as (n1' & C1' & LE). rewrite C1 in C1'. injection C1' as <- <-.
  assert (OW : owned s2 x a (CObj fs)).
  { split; [exact N2|]. rewrite C2. repeat f_equal. destruct I2 as [[W2 _] _]. destruct (W2 _ _ _ C2) as [_ P2].
    destruct (2 <? refcount cs0 (HObj a0)) eqn:RC.
    - destruct (CW a eq_refl) as [(c & [_ OC] & _) _]. rewrite C1 in OC. injection OC as OC _. lia.
    - destruct CW as [-> CE]. injection CE as ->.
      unfold inc in E0. cbn [href] in E0. destruct (cell_at (heap s) a0) as [[m c]|] eqn:CA; [|discriminate]. apply Ok_inj in E0. subst cs0.
      unfold refcount in RC. cbn [href] in RC. rewrite (cell_set_same _ _ _ _ CA) in RC.
      unfold s1 in C1. cbn [heap] in C1. rewrite (cell_set_same _ _ _ _ CA) in C1. injection C1 as <- ->.
      destruct W as [W _]. destruct (W _ _ _ CA) as [_ PM].
      unfold drop_s, drop, s1 in E2. cbn [heap vars length Nat.add] in E2. cbn [drop_n href] in E2. rewrite (cell_set_same _ _ _ _ CA) in E2.
      replace (m + 1 =? 1) with false in E2 by lia.
      assert (HS : heap s2 = list_set a0 (Some (m + 1 - 1, CObj fs)) (list_set a0 (Some (m + 1, CObj fs)) (heap s))).
      { destruct (length _) in E2; cbn [drop_n bind] in E2; apply Ok_inj in E2; subst s2; reflexivity. }
      rewrite HS in C2. rewrite (cell_set_same _ a0 (m + 1, CObj fs)) in C2 by (apply (cell_set_same _ _ _ _ CA)). injection C2 as <-. lia. }
  assert (O2 : others [x] s s2).
  { intros y Ny. rewrite V2. unfold s1. cbn [vars]. apply nth_set_other. intros ->. apply Ny. left. reflexivity. }
  destruct (obj_tidy _ _ _ T V) as [SS _]. rewrite (same_find k fs vs (pair_keys _ _ _ F1)), (find_index k vs SS). pose proof (index_le k vs) as IL.
  destruct (Nat.ltb_spec (index_of k vs) (length vs)) as [LT|GE].
  - destruct (nth_error fs (index_of k vs)) as [[k' old]|] eqn:NF.
    2: { apply nth_error_None in NF. rewrite (Forall2_length F1) in NF. lia. }
    destruct (L_erase_field s2 e x a fs vs _ k' old I2 OW F2 NF) as (s' & E3 & I3). bind_inv E3. bind_inv E3. apply Ok_inj in E3. injection E3 as ->.
    rewrite E. cbn [bind]. rewrite E4. cbn [bind]. exists s', a. split.
    { unfold field_place. rewrite (same_key _ _ _ _ (Forall2_erase _ _ _ (index_of k vs) F2)), erase_removed. reflexivity. }
    rewrite erase_removed in I3. split; [exact I3|]. pose proof (put_vars _ _ _ _ E) as PV. pose proof (drop_vars _ _ _ E4) as DV.
    split; [rewrite DV, PV; exact N2|]. eapply others_trans; [exact O2|]. apply others_vars. congruence.
  - assert (IX : index_of k vs = length vs) by lia. assert (R : r = vs).
    { unfold r, removed. rewrite IX, firstn_all, skipn_all2 by lia. apply app_nil_r. }
    exists s2, a. rewrite R, IX. rewrite (proj2 (nth_error_None vs (length vs))) by lia. split; [reflexivity|]. rewrite <- V, list_set_id. auto.
Qed.

Lemma removed_all {A} (l : list A) : removed (length l) l = l.
Proof. unfold removed. rewrite firstn_all, skipn_all2 by lia. apply app_nil_r. Qed.
Lemma removed_len {A} p (l : list A) : (p < length l)%nat -> length (removed p l) = (length l - 1)%nat.
Proof. intros H. unfold removed. rewrite app_length, firstn_length, skipn_length. lia. Qed.
Lemma tidy_removed_obj p fs : tidy (VObj fs) -> tidy (VObj (removed p fs)).
Proof.
  intros T. apply tidy_obj in T. destruct T as [S F]. rewrite <- erase_removed. apply tidy_obj. split; [|apply Forall_erase; exact F].
  clear F. revert p. induction fs as [|f fs IH]; intros [|p]; cbn [list_erase map] in *; auto.
  - inversion S; assumption.
  - inversion S as [|? ? S1 F1]; subst. constructor; [apply IH; exact S1|].
    clear - F1. revert p. induction fs as [|g fs IH]; intros [|p]; cbn [list_erase map] in *; auto; inversion F1; subst; auto.
Qed.
Lemma tidy_removed_arr p vs : tidy (VArr vs) -> tidy (VArr (removed p vs)).
Proof. intros T. apply tidy_arr. rewrite <- erase_removed. apply Forall_erase. apply tidy_arr. exact T. Qed.

Lemma R_erase_key c e ms i x j y p keys gs k w fs :
  CInv c (e, ms) -> (x < length e)%nat -> (j < length ms)%nat -> mark_of ms j = M_at y p keys ->
  val e y = VObj gs -> nth_error gs p = Some (k, w) -> val e x = VObj fs ->
  exists c' st a, erase_at c i x j = Ok (c', a) /\ CInv c' st /\
    becomes e ms x (VObj (removed (index_of k fs) fs)) [] i (index_of k fs) keys = Some (st, a).
Proof.
  intros C Lx Lj Mj Vy Np Vx. destruct (CInv_get c e ms j C Lj) as (q & G & M). rewrite Mj in M. pose proof C as (I & T & _). cbn [fst snd] in *.
  unfold erase_at. rewrite G. cbn [bind]. destruct M as (Ly & [(a & vs & N & V & LE & ->)|(a & vs & N & V & LE & -> & ->)]); [|congruence].
  rewrite Vy in V. injection V as <-. rewrite Np. cbn [option_map fst].
  destruct (obj_var _ _ _ _ _ I Lx Vx) as (b & Nx). unfold get_var. rewrite Nx. cbn [bind iterator_key].
  destruct (obj_cell _ _ _ _ _ _ I N Vy Ly) as (n & hs & Ca & Fa).
  destruct (S_erase_guarded _ _ x a k keys fs I T Lx Vx) as (s' & a' & E & I' & N' & O').
  { exists n, hs, p. split; [exact Ca|]. apply (key_found _ _ _ _ _ _ _ _ T Vy Fa Np). }
  cbn [keys_of]. rewrite E. cbn [bind]. eexists _, _, _. split; [reflexivity|]. split; [|unfold becomes; reflexivity].
  pose proof (index_le k fs) as IL. set (r := removed (index_of k fs) fs) in *. pose proof (val_tidy e x T) as TX. rewrite Vx in TX.
  assert (Lx' : (x < length (list_set x (VObj r) e))%nat) by (rewrite list_set_length; exact Lx).
  apply CInv_set.
  - apply (CInv_after c e); auto.
    + apply Forall_set; [exact T|]. apply tidy_removed_obj. exact TX.
    + apply list_set_length.
    + intros z Nz. apply val_other. intros ->. apply Nz. left. reflexivity.
  - split; [exact Lx'|]. left. exists a', r. split; [exact N'|]. split; [apply val_same; exact Lx|]. split; [|reflexivity].
    unfold r. destruct (Nat.eq_dec (index_of k fs) (length fs)) as [->|NE]; [rewrite removed_all; lia|]. rewrite removed_len by lia. lia.
Qed.

Lemma R_erase_idx c e ms i x j p vs :
  CInv c (e, ms) -> (x < length e)%nat -> (j < length ms)%nat -> mark_of ms j = M_at x p false -> val e x = VArr vs ->
  exists c' st a, erase_at c i x j = Ok (c', a) /\ CInv c' st /\ becomes e ms x (VArr (removed p vs)) [] i p false = Some (st, a).
Proof.
  intros C Lx Lj Mj Vx. destruct (CInv_get c e ms j C Lj) as (q & G & M). rewrite Mj in M. pose proof C as (I & T & _). cbn [fst snd] in *.
  unfold erase_at. rewrite G. cbn [bind]. destruct M as (Ly & [(a & vs' & N & V & LE & ->)|(a & vs' & N & V & LE & -> & _)]); [congruence|].
  rewrite Vx in V. injection V as <-. unfold get_var. rewrite N. cbn [bind iterator_index]. rewrite Nat.eqb_refl. cbn [bind].
  destruct (S_erase_idx _ _ x (Z.of_nat p) I Lx ltac:(lia)) as (s' & E & I'). rewrite Vx in E, I'. unfold h_erase_idx in E, I'. cbn [h_elements] in E, I'.
  set (r := removed p vs). pose proof (val_tidy e x T) as TX. rewrite Vx in TX.
  assert (RES : s_erase_idx (store c) x (Z.of_nat p) = Ok (s', A_unit) /\ Inv s' (list_set x (VArr r) e) []).
  { destruct (Z.leb_spec (zlen vs) (Z.of_nat p)) as [H|H]; cbn [result bind settle fst snd] in E, I'; (split; [exact E|]).
    - replace r with vs; [exact I'|]. unfold r. replace p with (length vs) by (unfold zlen in H; lia). symmetry. apply removed_all.
    - rewrite Nat2Z.id, erase_removed in I'. exact I'. }
  clear E I'. destruct RES as [E I']. rewrite E. cbn [bind]. assert (Lx' : (x < length (list_set x (VArr r) e))%nat) by (rewrite list_set_length; exact Lx).
  rewrite (S_size _ _ _ _ I' Lx'). rewrite val_same by exact Lx. cbn [h_size bind].
  assert (LR : (p <= length r)%nat).
  { unfold r. destruct (Nat.eq_dec p (length vs)) as [->|NE]; [rewrite removed_all; lia|]. rewrite removed_len by lia. lia. }
  replace (Nat.min p (Z.to_nat (zlen r))) with p by (unfold zlen; lia).
  assert (Vr : val (list_set x (VArr r) e) x = VArr r) by (apply val_same; exact Lx).
  destruct (arr_var _ _ _ _ _ I' Lx' Vr) as (b & Nb). unfold placed_index, get_var. rewrite Nb. cbn [bind].
  eexists _, _, _. split; [reflexivity|]. split; [|unfold becomes; reflexivity]. apply CInv_set.
  - apply (CInv_after c e); auto.
    + apply Forall_set; [exact T|]. apply tidy_removed_arr. exact TX.
    + apply list_set_length.
    + exact (erase_idx_others _ _ _ _ _ E).
    + intros z Nz. apply val_other. intros ->. apply Nz. left. reflexivity.
  - split; [exact Lx'|]. right. exists b, r. auto.
Qed.

(** ** One instruction *)
Lemma edit_error call_at c e ms x j p : CInv c (e, ms) -> (x < length e)%nat -> get_it c j = Ok p -> mark_ok (store c) e (mark_of ms j) p ->
  (forall y q keys, mark_of ms j = M_at y q keys ->
     match val e x, val e y with VObj _, VObj _ | VArr _, VArr _ => False | _, _ => True end) ->
  mark_of ms j <> M_stale ->
  (forall i v, call_at = put_at s_insert c i x j v \/ call_at = put_at s_set c i x j v \/ call_at = erase_at c i x j ->
   call_at = Ok (c, A_err (match mark_of ms j with M_none => invalid_argument | _ => type_error end))).
Proof.
  intros C Lx G M KD NS i v W. pose proof C as (I & T & _). cbn [fst snd] in *.
  destruct (L_get _ _ _ _ I Lx) as (h & N & Gx & Sh).
  destruct (mark_of ms j) as [|y q keys|]; [|clear NS|congruence].
  - cbn [mark_ok] in M. subst p. destruct W as [-> |[-> | ->]]; unfold put_at, erase_at; rewrite G; reflexivity.
  - specialize (KD _ _ _ eq_refl). destruct M as (Ly & [(a & vs & Ny & V & LE & ->)|(a & vs & Ny & V & LE & -> & ->)]); rewrite V in KD.
    + destruct Sh; try contradiction; destruct W as [-> |[-> | ->]]; unfold put_at, erase_at; rewrite G; cbn [bind]; rewrite Gx; reflexivity.
    + destruct Sh; try contradiction; destruct W as [-> |[-> | ->]]; unfold put_at, erase_at; rewrite G; cbn [bind]; rewrite Gx; reflexivity.
Qed.

Lemma upset_len xs ms : length (upset xs ms) = length ms.
Proof. apply map_length. Qed.
Lemma emptied_len e v : length (emptied e v) = length e.
Proof. destruct v; cbn; rewrite ?list_set_length; reflexivity. Qed.

Ltac spec_inv H := let p := fresh in injection H as <- <-.
Ltac done_lens := cbn [fst snd]; rewrite ?list_set_length, ?upset_len, ?emptied_len, ?v_exec_len; auto.

Lemma becomes_len e ms x w xs i p keys st a : becomes e ms x w xs i p keys = Some (st, a) -> length (fst st) = length e /\ length (snd st) = length ms.
Proof. unfold becomes. intros H. injection H as <- _. cbn [fst snd]. rewrite !list_set_length, upset_len. auto. Qed.
Lemma by_key_len e ms o x i k keys st a : by_key e ms o x i k keys = Some (st, a) -> length (fst st) = length e /\ length (snd st) = length ms.
Proof.
  unfold by_key. pose proof (v_exec_len e o) as L. destruct (v_exec e o) as [e' an]. cbn [fst] in L. intros H.
  destruct an; try (injection H as <- _; cbn [fst snd]; rewrite upset_len; auto; fail); destruct (val e' x); injection H as <- _; cbn [fst snd]; rewrite ?list_set_length, upset_len; auto.
Qed.

Lemma R_step n m c st o st' a : CInv c st -> length (fst st) = n -> length (snd st) = m -> fair n m (store c) st o ->
  c_step st o = Some (st', a) -> exists c', c_exec c o = Ok (c', a) /\ CInv c' st' /\ length (fst st') = n /\ length (snd st') = m.
Proof.
  intros C Ln Lm FR H. destruct st as [e ms]. cbn [fst snd] in Ln, Lm. subst n m. pose proof C as (I & T & _). cbn [fst snd] in I, T.
  destruct o as [o|keys i x|keys i x|keys i x k|i|i|x i|i j|i|i j|i j|i x j v|i x j v|i x j]; cbn [c_step fair] in H, FR.
  - destruct FR as [CO AL]. destruct (R_call c e ms o C CO AL) as (s' & E & C'). cbn [c_exec]. rewrite E. cbn [bind].
    pose proof (v_exec_len e o) as VL. destruct (v_exec e o) as [e' a']. cbn [fst snd] in *. spec_inv H. eexists. split; [reflexivity|]. split; [exact C'|]. done_lens.
  - destruct FR as [Li Lx]. destruct (R_whole c e ms keys false i x C Lx) as (r & E & Q). cbn [c_exec]. rewrite E. cbn [bind].
    destruct (members keys (val e x)) as [l|]; spec_inv H.
    + destruct Q as [Q1 Q2]. destruct (assigned c i r) as [c' a']. cbn [fst snd] in *. subst a'. eexists. split; [reflexivity|]. split; [exact Q2|]. done_lens.
    + rewrite Q. eexists. split; [reflexivity|]. split; [exact C|]. done_lens.
  - destruct FR as [Li Lx]. destruct (R_whole c e ms keys true i x C Lx) as (r & E & Q). cbn [c_exec]. rewrite E. cbn [bind].
    destruct (members keys (val e x)) as [l|]; spec_inv H.
    + destruct Q as [Q1 Q2]. destruct (assigned c i r) as [c' a']. cbn [fst snd] in *. subst a'. eexists. split; [reflexivity|]. split; [exact Q2|]. done_lens.
    + rewrite Q. eexists. split; [reflexivity|]. split; [exact C|]. done_lens.
  - destruct FR as [Li Lx]. destruct (R_find c e ms keys i x k C Lx) as (r & E & Q). cbn [c_exec]. rewrite E. cbn [bind].
    destruct (val e x); spec_inv H; try (rewrite Q; eexists; split; [reflexivity|]; split; [exact C|]; done_lens; fail).
    destruct Q as [Q1 Q2]. destruct (assigned c i r) as [c' a']. cbn [fst snd] in *. subst a'. eexists. split; [reflexivity|]. split; [exact Q2|]. done_lens.
  - destruct (CInv_get c e ms i C FR) as (q & G & M). destruct (mark_of ms i) as [|x p keys|]; try discriminate.
    destruct (members keys (val e x)) as [l|] eqn:ME; [|discriminate]. destruct (Nat.ltb_spec p (length l)); [|discriminate]. spec_inv H.
    destruct (R_next _ _ _ _ _ _ _ I T M ME H0) as (q' & E & M'). cbn [c_exec]. rewrite G. cbn [bind]. rewrite E. cbn [bind].
    eexists. split; [reflexivity|]. split; [apply CInv_set; assumption|]. done_lens.
  - destruct (CInv_get c e ms i C FR) as (q & G & M). destruct (mark_of ms i) as [|x [|p] keys|]; try discriminate. spec_inv H.
    destruct (R_prev _ _ _ _ _ _ I T M) as (q' & E & M'). cbn [c_exec]. rewrite G. cbn [bind]. rewrite E. cbn [bind].
    eexists. split; [reflexivity|]. split; [apply CInv_set; assumption|]. done_lens.
  - destruct FR as [Li Lx]. destruct (mark_of ms i) as [|y p keys|] eqn:Mi; try discriminate. destruct (members keys (val e y)) as [l|] eqn:ME; [|discriminate].
    destruct (nth_error l p) as [v|] eqn:NP; [|discriminate]. spec_inv H.
    destruct (R_load c e ms x i y p keys l v C Lx Li Mi ME NP) as (c' & E & C'). exists c'. split; [exact E|]. split; [exact C'|]. done_lens.
  - destruct FR as [Li Lj]. destruct (CInv_get c e ms i C Li) as (p & Gi & Mi). destruct (CInv_get c e ms j C Lj) as (q & Gj & Mj).
    cbn [c_exec]. rewrite Gi. cbn [bind]. rewrite Gj. cbn [bind]. destruct (Nat.eqb i j).
    { spec_inv H. eexists. split; [reflexivity|]. split; [exact C|]. done_lens. }
    destruct (mark_of ms i) as [|x a1 k1|]; destruct (mark_of ms j) as [|y b1 k2|]; try discriminate.
    + spec_inv H. cbn [mark_ok] in Mi, Mj. subst p q. eexists. split; [reflexivity|]. split; [exact C|]. done_lens.
    + spec_inv H. cbn [mark_ok] in Mi. subst p. apply at_some in Mj. destruct q; try contradiction; (eexists; split; [reflexivity|]; split; [exact C|]; done_lens).
    + spec_inv H. cbn [mark_ok] in Mj. subst q. apply at_some in Mi. destruct p; try contradiction; (eexists; split; [reflexivity|]; split; [exact C|]; done_lens).
    + destruct (Nat.eqb_spec x y) as [->|]; [|discriminate]. spec_inv H. rewrite (R_same _ _ _ _ _ _ _ _ _ I T Mi Mj). cbn [bind].
      eexists. split; [reflexivity|]. split; [exact C|]. done_lens.
  - destruct (CInv_get c e ms i C FR) as (p & Gi & Mi). cbn [c_exec]. rewrite Gi. cbn [bind]. spec_inv H. eexists. split; [|split; [exact C|done_lens]].
    repeat f_equal. destruct (mark_of ms i).
    + cbn [mark_ok] in Mi. subst p. reflexivity.
    + apply at_some in Mi. destruct p; try contradiction; reflexivity.
    + cbn [mark_ok] in Mi. destruct p; try congruence; reflexivity.
  - destruct FR as [Li Lj]. destruct (CInv_get c e ms j C Lj) as (q & Gj & Mj). cbn [c_exec]. rewrite Gj. cbn [bind]. spec_inv H.
    eexists. split; [reflexivity|]. split; [apply CInv_set; assumption|]. done_lens.
  - destruct FR as [Li Lj]. destruct (CInv_get c e ms j C Lj) as (q & Gj & Mj). cbn [c_exec]. rewrite Gj. cbn [bind]. spec_inv H.
    eexists. split; [reflexivity|]. destruct (Nat.eqb i j); [split; [exact C|done_lens]|]. split; [|done_lens].
    apply CInv_set; [|exact Mj]. apply CInv_set; [exact C|reflexivity].
  - destruct FR as (Li & Lx & Lj & Si & NM & SH & AL). destruct (CInv_get c e ms j C Lj) as (q & Gj & Mj). cbn [c_exec].
    pose proof (edit_error (put_at s_insert c i x j v) c e ms x j q C Lx Gj Mj) as EE. unfold edit in H.
    destruct (mark_of ms j) as [|y p keys|] eqn:MK; [| |discriminate].
    { spec_inv H. rewrite (EE ltac:(discriminate) ltac:(discriminate) i v (or_introl eq_refl)). eexists. split; [reflexivity|]. split; [exact C|]. done_lens. }
    assert (KD : match val e x, val e y with VObj _, VObj _ | VArr _, VArr _ => False | _, _ => True end -> exists c' : cstate,
      put_at s_insert c i x j v = Ok (c', A_err type_error) /\ CInv c' (e, ms) /\ length (fst (e, ms)) = length e /\ length (snd (e, ms)) = length ms).
    { intros K. exists c. rewrite (EE ltac:(intros y' q' k' W; injection W as <- _ _; exact K) ltac:(discriminate) i v (or_introl eq_refl)). auto. }
    clear EE. destruct (val e x) as [fs|vs|t|z|d|b|] eqn:Vx; destruct (val e y) as [gs|us|t'|z'|d'|b'|] eqn:Vy; try (spec_inv H; apply KD; exact Logic.I).
    + destruct (nth_error gs p) as [[k w]|] eqn:NP; [|discriminate].
      assert (CO : call_ok (length e) (O_insert x (VStr k) v)) by (split; assumption).
      assert (AW : allowed (store c) e (O_insert x (VStr k) v)). { split; [exact NM|]. destruct v; auto. contradiction. }
      destruct (R_put_key c e ms true i x j y p keys gs k w fs v C Lx Lj MK Vy NP Vx CO AW) as (c' & st1 & a1 & E & B & C').
      pose proof (by_key_len _ _ _ _ _ _ _ _ _ B) as LL.
      assert (RR : Some (st1, a1) = Some (st', a)).
      { rewrite <- B, <- H. destruct (Nat.eqb_spec x y) as [<-|]; [|reflexivity]. rewrite Vx in Vy. injection Vy as <-.
        exact (own_by_key e ms true i x p k w fs v T Lx Vx NP). }
      injection RR as -> ->. exists c'. auto.
    + destruct (Nat.eqb_spec x y) as [<-|]; [|discriminate]. assert (keys = false) as ->.
      { destruct Mj as (_ & [(? & ? & _ & W & _)|(? & ? & _ & _ & _ & _ & W)]); [congruence|exact W]. }
      assert (CO : call_ok (length e) (O_insert x (VInt (Z.of_nat p)) v)) by (split; assumption).
      assert (AW : allowed (store c) e (O_insert x (VInt (Z.of_nat p)) v)). { split; [exact NM|]. rewrite Vx. destruct v; auto. }
      destruct (R_put_idx c e ms true i x j p vs v C Lx Lj MK Vx SH CO AW) as (c' & st1 & a1 & E & C' & B). cbn [orb] in B.
      assert (RR : Some (st1, a1) = Some (st', a)) by (rewrite <- B; exact H). injection RR as -> ->.
      exists c'. split; [exact E|]. split; [exact C'|]. apply becomes_len in B. rewrite emptied_len in B. exact B.
  - destruct FR as (Li & Lx & Lj & Si & NM & SH & _). destruct (CInv_get c e ms j C Lj) as (q & Gj & Mj). cbn [c_exec].
    pose proof (edit_error (put_at s_set c i x j v) c e ms x j q C Lx Gj Mj) as EE. unfold edit in H.
    destruct (mark_of ms j) as [|y p keys|] eqn:MK; [| |discriminate].
    { spec_inv H. rewrite (EE ltac:(discriminate) ltac:(discriminate) i v (or_intror (or_introl eq_refl))). eexists. split; [reflexivity|]. split; [exact C|]. done_lens. }
    assert (KD : match val e x, val e y with VObj _, VObj _ | VArr _, VArr _ => False | _, _ => True end -> exists c' : cstate,
      put_at s_set c i x j v = Ok (c', A_err type_error) /\ CInv c' (e, ms) /\ length (fst (e, ms)) = length e /\ length (snd (e, ms)) = length ms).
    { intros K. exists c. rewrite (EE ltac:(intros y' q' k' W; injection W as <- _ _; exact K) ltac:(discriminate) i v (or_intror (or_introl eq_refl))). auto. }
    clear EE. destruct (val e x) as [fs|vs|t|z|d|b|] eqn:Vx; destruct (val e y) as [gs|us|t'|z'|d'|b'|] eqn:Vy; try (spec_inv H; apply KD; exact Logic.I).
    + destruct (nth_error gs p) as [[k w]|] eqn:NP; [|discriminate].
      assert (CO : call_ok (length e) (O_set x (VStr k) v)) by (split; assumption).
      assert (AW : allowed (store c) e (O_set x (VStr k) v)). { split; [exact NM|exact Logic.I]. }
      destruct (R_put_key c e ms false i x j y p keys gs k w fs v C Lx Lj MK Vy NP Vx CO AW) as (c' & st1 & a1 & E & B & C').
      pose proof (by_key_len _ _ _ _ _ _ _ _ _ B) as LL.
      assert (RR : Some (st1, a1) = Some (st', a)).
      { rewrite <- B, <- H. destruct (Nat.eqb_spec x y) as [<-|]; [|reflexivity]. rewrite Vx in Vy. injection Vy as <-.
        exact (own_by_key e ms false i x p k w fs v T Lx Vx NP). }
      injection RR as -> ->. exists c'. auto.
    + destruct (Nat.eqb_spec x y) as [<-|]; [|discriminate]. assert (keys = false) as ->.
      { destruct Mj as (_ & [(? & ? & _ & W & _)|(? & ? & _ & _ & _ & _ & W)]); [congruence|exact W]. }
      assert (CO : call_ok (length e) (O_set x (VInt (Z.of_nat p)) v)) by (split; assumption).
      assert (AW : allowed (store c) e (O_set x (VInt (Z.of_nat p)) v)). { split; [exact NM|exact Logic.I]. }
      destruct (R_put_idx c e ms false i x j p vs v C Lx Lj MK Vx SH CO AW) as (c' & st1 & a1 & E & C' & B). cbn [orb] in B.
      assert (RR : Some (st1, a1) = Some (st', a)) by (rewrite <- B; exact H). injection RR as -> ->.
      exists c'. split; [exact E|]. split; [exact C'|]. destruct (p <? length vs)%nat.
      * apply becomes_len in B. rewrite emptied_len in B. exact B.
      * injection B as <- _. done_lens.
  - destruct FR as (Li & Lx & Lj). destruct (CInv_get c e ms j C Lj) as (q & Gj & Mj). cbn [c_exec].
    pose proof (edit_error (erase_at c i x j) c e ms x j q C Lx Gj Mj) as EE. unfold edit in H.
    destruct (mark_of ms j) as [|y p keys|] eqn:MK; [| |discriminate].
    { spec_inv H. rewrite (EE ltac:(discriminate) ltac:(discriminate) i (Cref 0) (or_intror (or_intror eq_refl))). eexists. split; [reflexivity|]. split; [exact C|]. done_lens. }
    assert (KD : match val e x, val e y with VObj _, VObj _ | VArr _, VArr _ => False | _, _ => True end -> exists c' : cstate,
      erase_at c i x j = Ok (c', A_err type_error) /\ CInv c' (e, ms) /\ length (fst (e, ms)) = length e /\ length (snd (e, ms)) = length ms).
    { intros K. exists c. rewrite (EE ltac:(intros y' q' k' W; injection W as <- _ _; exact K) ltac:(discriminate) i (Cref 0) (or_intror (or_intror eq_refl))). auto. }
    clear EE. destruct (val e x) as [fs|vs|t|z|d|b|] eqn:Vx; destruct (val e y) as [gs|us|t'|z'|d'|b'|] eqn:Vy; try (spec_inv H; apply KD; exact Logic.I).
    + destruct (nth_error gs p) as [[k w]|] eqn:NP; [|discriminate].
      destruct (R_erase_key c e ms i x j y p keys gs k w fs C Lx Lj MK Vy NP Vx) as (c' & st1 & a1 & E & C' & B). pose proof (becomes_len _ _ _ _ _ _ _ _ _ _ B) as LL.
      assert (RR : Some (st1, a1) = Some (st', a)).
      { rewrite <- B, <- H. destruct (Nat.eqb_spec x y) as [<-|]; [|reflexivity]. rewrite Vx in Vy. injection Vy as <-.
        destruct (find_own _ _ _ _ (proj1 (obj_tidy _ _ _ T Vx)) NP) as [_ ->]. reflexivity. }
      injection RR as -> ->. exists c'. auto.
    + destruct (Nat.eqb_spec x y) as [<-|]; [|discriminate]. assert (keys = false) as ->.
      { destruct Mj as (_ & [(? & ? & _ & W & _)|(? & ? & _ & _ & _ & _ & W)]); [congruence|exact W]. }
      destruct (R_erase_idx c e ms i x j p vs C Lx Lj MK Vx) as (c' & st1 & a1 & E & C' & B). pose proof (becomes_len _ _ _ _ _ _ _ _ _ _ B) as LL.
      assert (RR : Some (st1, a1) = Some (st', a)) by (rewrite <- B; exact H). injection RR as -> ->. exists c'. auto.
Qed.

(** ** Programs *)
Lemma CInv_init n m : CInv (c_init n m) (start n m).
Proof.
  split; [apply Inv_init|]. split; cbn [start fst snd c_init its store].
  - apply Forall_forall. intros v J. apply repeat_spec in J. subst v. constructor. exact I.
  - apply Forall2_repeat. reflexivity.
Qed.
Lemma R_run n m os : forall c st, CInv c st -> length (fst st) = n -> length (snd st) = m -> careful n m c st os ->
  exists c' st' l, c_run c os = Ok (c', l) /\ c_steps st os = Some (st', l) /\ CInv c' st' /\ length (fst st') = n /\ length (snd st') = m.
Proof.
  induction os as [|o os IH]; intros c st C Ln Lm CA.
  - exists c, st, []. auto.
  - cbn [careful] in CA. destruct CA as [FR CA]. destruct (c_step st o) as [[st1 a]|] eqn:ES; [|contradiction].
    destruct (R_step n m c st o st1 a C Ln Lm FR ES) as (c1 & E & C1 & Ln1 & Lm1). rewrite E in CA.
    destruct (IH c1 st1 C1 Ln1 Lm1 CA) as (c2 & st2 & l & E2 & S2 & C2 & Ln2 & Lm2).
    exists c2, st2, (a :: l). cbn [c_run c_steps]. rewrite E, ES. cbn [bind]. rewrite E2, S2. cbn [bind]. auto.
Qed.

(** ** Erasing in a loop *)
Lemma show_weight d : forall cs h v, shows cs h v -> (weight v < d)%nat -> h_show d cs h = Ok v.
Proof.
  induction d as [|d IH]; intros cs h v Sh W; [lia|]. pose proof Sh as Sh'. destruct Sh as [| | | | |a n fs vs E F|a n ms vs E F]; cbn [h_show]; try reflexivity.
  - rewrite E. change (Forall2 (pair_shows cs) fs vs) in F.
    assert (K : forall h w, In h (map snd fs) -> shows cs h w -> (weight w < d)%nat).
    { intros h w J S. pose proof (kid_weight cs (CObj fs) (VObj vs) h w F J S). lia. }
    clear Sh' W E. enough (G : (fix go (l : list (str * hval)) : res (list (str * value)) := match l with
      | [] => Ok [] | (k, m) :: r => v <- h_show d cs m ;; vs <- go r ;; Ok ((k, v) :: vs) end) fs = Ok vs) by (rewrite G; reflexivity).
    induction F as [|[k h] [k' w] fs vs [Q1 Q2] F IHF]; [reflexivity|]. cbn [fst snd] in *. subst k'.
    rewrite (IH cs h w Q2 (K h w (or_introl eq_refl) Q2)). cbn [bind]. rewrite IHF; [reflexivity|]. intros h' w' J. apply K. right. exact J.
  - rewrite E. assert (K : forall h w, In h ms -> shows cs h w -> (weight w < d)%nat).
    { intros h w J S. pose proof (kid_weight cs (CArr ms) (VArr vs) h w F J S). lia. }
    clear Sh' W E. enough (G : (fix go (l : list hval) : res (list value) := match l with
      | [] => Ok [] | m :: r => v <- h_show d cs m ;; vs <- go r ;; Ok (v :: vs) end) ms = Ok vs) by (rewrite G; reflexivity).
    induction F as [|h w ms vs Q F IHF]; [reflexivity|].
    rewrite (IH cs h w Q (K h w (or_introl eq_refl) Q)). cbn [bind]. rewrite IHF; [reflexivity|]. intros h' w' J. apply K. right. exact J.
Qed.

Lemma mark_same i m ms : (i < length ms)%nat -> mark_of (list_set i m ms) i = m.
Proof. intros L. unfold mark_of. apply nth_error_nth. apply nth_set_same. exact L. Qed.
Lemma mark_other i j m ms : j <> i -> mark_of (list_set i m ms) j = mark_of ms j.
Proof. intros N. unfold mark_of. revert i j N. induction ms as [|a ms IH]; intros [|i] [|j] N; cbn; auto; congruence. Qed.
Lemma mark_upset xs ms i x p keys : mark_of ms i = M_at x p keys -> ~ In x xs -> mark_of (upset xs ms) i = M_at x p keys.
Proof.
  intros M N. unfold mark_of, upset in *.
  set (f := fun m => match m with M_at y _ _ => if existsb (Nat.eqb y) xs then M_stale else m | _ => m end).
  change M_stale with (f M_stale). rewrite map_nth, M. cbn [f].
  destruct (existsb (Nat.eqb x) xs) eqn:E; [|reflexivity]. apply existsb_exists in E. destruct E as (y & J & Q). apply Nat.eqb_eq in Q. subst y. contradiction.
Qed.

Section Loop.
  Context {A : Type} (build : list A -> value) (mem : A -> value).
  Hypothesis Hmem : forall l, members false (build l) = Some (map mem l).
  Hypothesis Herase : forall e ms i x p l, mark_of ms i = M_at x p false -> val e x = build l -> (p < length l)%nat ->
    c_step (e, ms) (Erase_at i x i) = becomes e ms x (build (removed p l)) [] i p false.

  Lemma loop_ok n m cond x t i j depth : x <> t -> i <> j -> (x < n)%nat -> (t < n)%nat -> (i < m)%nat -> (j < m)%nat ->
    forall rest fuel done c e ms, CInv c (e, ms) -> length e = n -> length ms = m ->
    mark_of ms i = M_at x (length done) false -> val e x = build (done ++ rest) ->
    (length rest < fuel)%nat -> (forall y, In y rest -> (weight (mem y) < depth)%nat) ->
    exists c' e' ms', erase_loop fuel depth cond x t i j c = Ok c' /\ CInv c' (e', ms') /\ length e' = n /\
      val e' x = build (done ++ filter (fun y => negb (cond (mem y))) rest) /\
      forall z, z <> x -> z <> t -> val e' z = val e z.
  Proof using Hmem Herase.
    intros NX NI Lx Lt Li Lj rest. induction rest as [|y rest IH]; intros fuel done c e ms C Ln Lm MI V LF W.
    - destruct fuel as [|fuel]; [cbn in LF; lia|]. cbn [erase_loop].
      destruct (R_step n m c (e, ms) (End_ false j x) (e, list_set j (M_at x (length done) false) ms) A_unit C Ln Lm (conj Lj Lx)) as (c1 & E1 & C1 & Ln1 & Lm1).
      { cbn [c_step]. rewrite V, Hmem, map_length, app_nil_r. reflexivity. }
      rewrite E1. cbn [bind]. destruct (R_step n m c1 _ (Same i j) (e, list_set j (M_at x (length done) false) ms) (A_bool true) C1 Ln1 Lm1 (conj Li Lj)) as (c2 & E2 & C2 & _ & _).
      { cbn [c_step]. destruct (Nat.eqb_spec i j); [contradiction|]. rewrite mark_other by exact NI. rewrite MI, mark_same by lia. rewrite !Nat.eqb_refl. reflexivity. }
      rewrite E2. cbn [bind]. exists c2, e. eexists. split; [reflexivity|]. split; [exact C2|]. auto.
    - destruct fuel as [|fuel]; [lia|]. cbn [erase_loop].
      set (ms1 := list_set j (M_at x (length (done ++ y :: rest)) false) ms).
      destruct (R_step n m c (e, ms) (End_ false j x) (e, ms1) A_unit C Ln Lm (conj Lj Lx)) as (c1 & E1 & C1 & Ln1 & Lm1).
      { cbn [c_step]. rewrite V, Hmem, map_length. reflexivity. }
      rewrite E1. cbn [bind]. assert (MI1 : mark_of ms1 i = M_at x (length done) false) by (unfold ms1; rewrite mark_other by exact NI; exact MI).
      destruct (R_step n m c1 (e, ms1) (Same i j) (e, ms1) (A_bool false) C1 Ln1 Lm1 (conj Li Lj)) as (c2 & E2 & C2 & Ln2 & Lm2).
      { cbn [c_step]. destruct (Nat.eqb_spec i j); [contradiction|]. rewrite MI1. unfold ms1. rewrite mark_same by lia. rewrite Nat.eqb_refl.
        rewrite app_length. cbn [length]. replace (Nat.eqb (length done) (length done + S (length rest))) with false by (symmetry; apply Nat.eqb_neq; lia). reflexivity. }
      rewrite E2. cbn [bind].
      set (e3 := list_set t (mem y) e). set (ms3 := upset [t] ms1).
      destruct (R_step n m c2 (e, ms1) (Load t i) (e3, ms3) A_unit C2 Ln2 Lm2 (conj Li Lt)) as (c3 & E3 & C3 & Ln3 & Lm3).
      { cbn [c_step]. rewrite MI1, V, Hmem, map_app, nth_error_app2 by (rewrite map_length; lia). rewrite map_length, Nat.sub_diag. reflexivity. }
      rewrite E3. cbn [bind]. cbn [fst snd] in Ln3, Lm3.
      pose proof C3 as (I3 & _ & _). cbn [fst] in I3. assert (Lt3 : (t < length e3)%nat) by lia. destruct (L_get _ _ _ _ I3 Lt3) as (h & _ & G & Sh).
      rewrite G. cbn [bind]. unfold e3 in Sh. rewrite val_same in Sh by lia. rewrite (show_weight depth _ _ _ Sh (W y (or_introl eq_refl))). cbn [bind].
      assert (MI3 : mark_of ms3 i = M_at x (length done) false) by (apply mark_upset; [exact MI1|cbn [In]; intuition congruence]).
      assert (V3 : val e3 x = build (done ++ y :: rest)) by (unfold e3; rewrite val_other by exact NX; exact V).
      destruct (cond (mem y)) eqn:CY.
      + destruct (R_step n m c3 (e3, ms3) (Erase_at i x i) (list_set x (build (done ++ rest)) e3, list_set i (M_at x (length done) false) (upset [x] ms3)) A_unit C3 Ln3 Lm3) as (c4 & E4 & C4 & Ln4 & Lm4).
        { cbn [fair]. auto. }
        { etransitivity; [apply (Herase _ _ _ _ _ _ MI3 V3); rewrite app_length; cbn [length]; lia|]. unfold becomes.
          rewrite <- erase_removed, list_erase_mid. reflexivity. }
        rewrite E4. cbn [bind fst snd] in *.
        destruct (IH fuel done c4 (list_set x (build (done ++ rest)) e3) (list_set i (M_at x (length done) false) (upset [x] ms3)) C4 Ln4 Lm4) as (c' & e' & ms' & E' & C' & L' & V' & O').
        * apply mark_same. rewrite upset_len. lia.
        * apply val_same. lia.
        * cbn [length] in LF. lia.
        * intros z J. apply W. right. exact J.
        * exists c', e', ms'. split; [exact E'|]. split; [exact C'|]. split; [exact L'|]. split.
          { cbn [filter]. rewrite CY. exact V'. }
          intros z Z1 Z2. rewrite O' by assumption. rewrite val_other by exact Z1. unfold e3. apply val_other. exact Z2.
      + destruct (R_step n m c3 (e3, ms3) (Next i) (e3, list_set i (M_at x (S (length done)) false) ms3) A_unit C3 Ln3 Lm3 Li) as (c4 & E4 & C4 & Ln4 & Lm4).
        { cbn [c_step]. rewrite MI3, V3, Hmem, map_length, app_length. cbn [length].
          destruct (Nat.ltb_spec (length done) (length done + S (length rest))); [reflexivity|lia]. }
        rewrite E4. cbn [bind fst snd] in *.
        destruct (IH fuel (done ++ [y]) c4 e3 (list_set i (M_at x (S (length done)) false) ms3) C4 Ln4 Lm4) as (c' & e' & ms' & E' & C' & L' & V' & O').
        * rewrite app_length. cbn [length]. rewrite Nat.add_1_r. apply mark_same. lia.
        * rewrite <- app_assoc. exact V3.
        * cbn [length] in LF. lia.
        * intros z J. apply W. right. exact J.
        * exists c', e', ms'. split; [exact E'|]. split; [exact C'|]. split; [exact L'|]. split.
          { cbn [filter]. rewrite CY. cbn [negb]. rewrite V', <- app_assoc. reflexivity. }
          intros z Z1 Z2. rewrite O' by assumption. unfold e3. apply val_other. exact Z2.
  Qed.

  Lemma erase_if_ok n m cond x t i j depth fuel c e ms l : x <> t -> i <> j -> (x < n)%nat -> (t < n)%nat -> (i < m)%nat -> (j < m)%nat ->
    CInv c (e, ms) -> length e = n -> length ms = m -> val e x = build l ->
    (length l < fuel)%nat -> (forall y, In y l -> (weight (mem y) < depth)%nat) ->
    exists c' e' ms', erase_if fuel depth cond x t i j c = Ok c' /\ CInv c' (e', ms') /\ length e' = n /\
      val e' x = build (filter (fun y => negb (cond (mem y))) l) /\
      forall z, z <> x -> z <> t -> val e' z = val e z.
  Proof using Hmem Herase.
    intros NX NI Lx Lt Li Lj C Ln Lm V LF W. unfold erase_if.
    destruct (R_step n m c (e, ms) (Begin false i x) (e, list_set i (M_at x 0 false) ms) A_unit C Ln Lm (conj Li Lx)) as (c1 & E1 & C1 & Ln1 & Lm1).
    { cbn [c_step]. rewrite V, Hmem. reflexivity. }
    rewrite E1. cbn [bind]. apply (loop_ok n m cond x t i j depth NX NI Lx Lt Li Lj l fuel [] c1 e _ C1); auto.
    apply mark_same. lia.
  Qed.
End Loop.
