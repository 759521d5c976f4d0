(** Packets over counted cells and counted blocks behave as the values they show. *)

From Coq Require Import ZArith List Bool Lia ZifyBool ZifyNat ZifyN.
From Verif Require Import Base BaseFacts Keys Wire Read Spec SpecOps HeapOps SpecBufHold Store StoreSpec StoreFacts StoreSteps StoreRun
  SpecPackHold PackHold PackHoldFacts PackHoldKeep.
From Verif Require BufHold BufHoldRun.
Import ListNotations.
Open Scope Z_scope.

Lemma nth_set {A} (l : list A) x v d i : (x < length l)%nat -> nth i (list_set x v l) d = if Nat.eqb i x then v else nth i l d.
Proof.
  revert x i. induction l as [|y l IH]; intros [|x] [|i] L; cbn [length list_set nth Nat.eqb] in *; try lia; try reflexivity.
  apply IH. lia.
Qed.
Lemma nth_put {A} (l : list A) x v d i : (x < length l)%nat -> nth i (put_at l x v) d = if Nat.eqb i x then v else nth i l d.
Proof. intros L. rewrite BufHoldRun.put_set by exact L. apply nth_set. exact L. Qed.

(** ** The states that mirror a specification state *)

Definition mut_of (p : pkt) : value := match p with Mut v => v | Fin _ => VNull end.
Definition fin_of (p : pkt) : shown := match p with Mut _ => None | Fin h => h end.

Record mirror (e : env) (bb : bspec) (f : list bool) (sp : pspec) : Prop := {
  m_env : length e = S (length (pkts sp));
  m_handles : length (handles bb) = length (pkts sp);
  m_fin : length f = length (pkts sp);
  m_docs : docs bb = texts sp;
  m_walks : walks bb = [];
  m_peeks : peeks bb = [];
  m_val : forall i, val e i = mut_of (pk sp i);
  m_shown : forall i, SpecBufHold.handle bb i = fin_of (pk sp i);
  m_final : forall i, nth i f false = is_final (pk sp i) }.

Definition PInv (s : packs) (sp : pspec) : Prop := exists e bb,
  Inv (hs s) e [] /\ BufHoldRun.Inv (bs s) bb /\ mirror e bb (fin s) sp /\ Forall (fun p => sound (value_of p)) (pkts sp).

Lemma val_set e x v i : (x < length e)%nat -> val (list_set x v e) i = if Nat.eqb i x then v else val e i.
Proof. apply nth_set. Qed.
Lemma handle_set b x h i : (x < length (handles b))%nat ->
  SpecBufHold.handle (set_handle b x h) i = if Nat.eqb i x then h else SpecBufHold.handle b i.
Proof. apply nth_put. Qed.
Lemma pk_set s x p i : (x < length (pkts s))%nat -> pk (set_pkt s x p) i = if Nat.eqb i x then p else pk s i.
Proof. apply nth_put. Qed.
Lemma set_pkt_len s x p : (x < length (pkts s))%nat -> length (pkts (set_pkt s x p)) = length (pkts s).
Proof. apply BufHoldRun.put_len. Qed.
Lemma set_handle_len s x p : (x < length (handles s))%nat -> length (handles (set_handle s x p)) = length (handles s).
Proof. apply BufHoldRun.put_len. Qed.

Lemma sound_set s x p : Forall (fun p => sound (value_of p)) (pkts s) -> (x < length (pkts s))%nat -> sound (value_of p) ->
  Forall (fun p => sound (value_of p)) (pkts (set_pkt s x p)).
Proof.
  intros F L Sd. cbn [set_pkt pkts]. unfold put_at. apply Forall_app. split; [|constructor; [exact Sd|]].
  - apply Forall_forall. intros q Q. rewrite Forall_forall in F. apply F. rewrite <- (firstn_skipn x). apply in_or_app. left. exact Q.
  - apply Forall_forall. intros q Q. rewrite Forall_forall in F. apply F. rewrite <- (firstn_skipn (S x)). apply in_or_app. right. exact Q.
Qed.
Lemma sound_at s x : Forall (fun p => sound (value_of p)) (pkts s) -> sound (value_of (pk s x)).
Proof.
  intros F. unfold pk. destruct (Nat.lt_ge_cases x (length (pkts s))) as [L|L].
  - rewrite Forall_forall in F. apply F. apply nth_In. exact L.
  - rewrite nth_overflow by exact L. apply null_sound.
Qed.

(** One packet changes: its value, its document and its form. *)
Lemma mirror_set e bb f sp x p : mirror e bb f sp -> (x < length (pkts sp))%nat ->
  mirror (list_set x (mut_of p) e) (set_handle bb x (fin_of p)) (list_set x (is_final p) f) (set_pkt sp x p).
Proof.
  intros M L. destruct M as [ME MH MF MD MW MP MV MS MB]. constructor; rewrite ?list_set_length, ?set_pkt_len, ?set_handle_len by lia; try assumption.
  - intros i. rewrite val_set by lia. rewrite pk_set by exact L. destruct (Nat.eqb i x); [reflexivity|apply MV].
  - intros i. rewrite handle_set by lia. rewrite pk_set by exact L. destruct (Nat.eqb i x); [reflexivity|apply MS].
  - intros i. rewrite nth_set by lia. rewrite pk_set by exact L. destruct (Nat.eqb i x); [reflexivity|apply MB].
Qed.

(** Only what is seen at each index matters. *)
Lemma mirror_ext e bb f sp e' bb' f' sp' : mirror e bb f sp -> length e' = length e -> length (handles bb') = length (handles bb) ->
  length f' = length f -> docs bb' = docs bb -> walks bb' = walks bb -> peeks bb' = peeks bb ->
  (forall i, val e' i = val e i) -> (forall i, SpecBufHold.handle bb' i = SpecBufHold.handle bb i) -> (forall i, nth i f' false = nth i f false) ->
  length (pkts sp') = length (pkts sp) -> texts sp' = texts sp -> (forall i, pk sp' i = pk sp i) ->
  mirror e' bb' f' sp'.
Proof.
  intros [ME MH MF MD MW MP MV MS MB] A B C D E F G H I J K L. constructor; congruence.
Qed.

Lemma finalized_ok e bb f sp h b x : mirror e bb f sp -> (x < length (pkts sp))%nat ->
  finalized (Packs h b f) x = Ok (is_final (pk sp x)).
Proof.
  intros M L. unfold finalized. cbn [fin]. rewrite <- (m_final _ _ _ _ M x). rewrite (nth_error_nth' f false) by (rewrite (m_fin _ _ _ _ M); exact L). reflexivity.
Qed.

(** ** The two ways a call is answered *)

Lemma destroy_exec s x : s_exec s (O_destroy x) = s_destroy s x.
Proof. reflexivity. Qed.

Lemma becomes_mut s e bb x : Inv (hs s) e [] -> BufHoldRun.Inv (bs s) bb -> (x < length (handles bb))%nat ->
  exists s', becomes s x false = Ok s' /\ Inv (hs s') e [] /\ BufHoldRun.Inv (bs s') (set_handle bb x None) /\ fin s' = list_set x false (fin s).
Proof.
  intros I B L. unfold becomes. destruct (BufHoldRun.b_step_ok (bs s) bb (M_reset x) B L) as (b' & E & B'). rewrite E. cbn [bind].
  eexists. split; [reflexivity|]. split; [exact I|]. split; [exact B'|reflexivity].
Qed.
Lemma becomes_fin s e bb x : Inv (hs s) e [] -> BufHoldRun.Inv (bs s) bb -> (x < length e)%nat ->
  exists s', becomes s x true = Ok s' /\ Inv (hs s') (list_set x VNull e) [] /\ BufHoldRun.Inv (bs s') bb /\ fin s' = list_set x true (fin s).
Proof.
  intros I B L. unfold becomes. rewrite destroy_exec. destruct (S_destroy _ _ x I L) as (h' & E & I'). rewrite E. cbn [bind].
  eexists. split; [reflexivity|]. split; [exact I'|]. split; [exact B|reflexivity].
Qed.

Definition as_kans (a : ans) : kans := match a with A_unit => Y_unit | A_err e => Y_err e | _ => Y_bad end.
Lemma via_heap_ok s e bb x o : Inv (hs s) e [] -> BufHoldRun.Inv (bs s) bb -> (x < length (handles bb))%nat ->
  call_ok (length e) o -> allowed (hs s) e o ->
  exists s', via_heap s x o = Ok (s', as_kans (snd (v_exec e o))) /\ Inv (hs s') (fst (v_exec e o)) [] /\
    BufHoldRun.Inv (bs s') (match snd (v_exec e o) with A_unit => set_handle bb x None | _ => bb end) /\
    fin s' = match snd (v_exec e o) with A_unit => list_set x false (fin s) | _ => fin s end.
Proof.
  intros I B L C A. destruct (step (hs s) e o I C (proj1 A)) as (h' & e' & E & I' & _ & Q). rewrite (Q A) in I'.
  unfold via_heap. rewrite E. cbn [bind]. destruct (snd (v_exec e o)) eqn:R; cbn [as_kans];
    try (eexists; split; [reflexivity|]; split; [exact I'|]; split; [exact B|reflexivity]).
  destruct (becomes_mut (Packs h' (bs s) (fin s)) _ bb x I' B L) as (s' & E1 & I1 & B1 & F1). rewrite E1. cbn [bind].
  exists s'. split; [reflexivity|]. auto.
Qed.
Lemma via_buf_ok s e bb x o : Inv (hs s) e [] -> BufHoldRun.Inv (bs s) bb -> (x < length e)%nat -> b_fair bb o ->
  exists s', via_buf s x o = Ok (s', match snd (b_does bb o) with B_unit => Y_unit | B_err r => Y_err r | _ => Y_bad end) /\
    Inv (hs s') (match snd (b_does bb o) with B_unit => list_set x VNull e | _ => e end) [] /\
    BufHoldRun.Inv (bs s') (fst (b_does bb o)) /\
    fin s' = match snd (b_does bb o) with B_unit => list_set x true (fin s) | _ => fin s end.
Proof.
  intros I B L C. destruct (BufHoldRun.b_step_ok (bs s) bb o B C) as (b' & E & B').
  unfold via_buf. rewrite E. cbn [bind]. destruct (snd (b_does bb o)) eqn:R.
  1: { destruct (becomes_fin (Packs (hs s) b' (fin s)) e _ x I B' L) as (s' & E1 & I1 & B1 & F1). rewrite E1. cbn [bind].
       exists s'. split; [reflexivity|]. auto. }
  all: eexists; split; [reflexivity|]; split; [exact I|]; split; [exact B'|reflexivity].
Qed.

(** ** Lifting *)
Lemma lifted_ok s e bb y : Inv (hs s) e [] -> BufHoldRun.Inv (bs s) bb -> (y < length (handles bb))%nat ->
  exists cs h, lifted s y = Ok (St cs (vars (hs s)), h) /\ Inv (St cs (vars (hs s))) e [h] /\
    shows cs h (seen (SpecBufHold.handle bb y)) /\
    forall x a c, owned (hs s) x a c -> owned (St cs (vars (hs s))) x a c.
Proof.
  intros I B L. destruct (lift_value _ _ _ B L) as (h & N & Lk).
  destruct (build_s (hs s) e (seen (SpecBufHold.handle bb y)) I) as (cs & g & E & I1 & Sh & O).
  exists cs, g. split; [|auto]. unfold lifted, BufHold.var. rewrite N. rewrite Lk. cbn [bind]. rewrite E. reflexivity.
Qed.

(** ** The argument of a mutator *)
Lemma cast_ok s e bb sp x a : Inv (hs s) e [] -> BufHoldRun.Inv (bs s) bb -> mirror e bb (fin s) sp ->
  (x < length (pkts sp))%nat -> arg_ok (length (pkts sp)) x a ->
  forall hx, nth_error (vars (hs s)) x = Some hx -> mine (hs s) x hx ->
  exists h2 hv e2, cast s a = Ok (h2, hv) /\ Inv h2 e2 [hv] /\ shows (heap h2) hv (given sp a) /\
    mirror e2 bb (fin s) (spent sp a) /\
    exists hx', nth_error (vars h2) x = Some hx' /\ mine h2 x hx'.
Proof.
  intros I B M X A hx N O.
  assert (LF : forall y, (y < length (pkts sp))%nat -> is_final (pk sp y) = true ->
    exists h2 hv, lifted s y = Ok (h2, hv) /\ Inv h2 e [hv] /\ shows (heap h2) hv (value_of (pk sp y)) /\
    exists hx', nth_error (vars h2) x = Some hx' /\ mine h2 x hx').
  { intros y Y F. destruct (lifted_ok s e bb y I B) as (cs & h & E & I1 & Sh & OW). { rewrite (m_handles _ _ _ _ M). exact Y. }
    exists (St cs (vars (hs s))), h. split; [exact E|]. split; [exact I1|]. split.
    - rewrite (m_shown _ _ _ _ M) in Sh. destruct (pk sp y); [discriminate F|exact Sh].
    - exists hx. split; [exact N|]. intros r R. destruct (O r R) as (c & Oc & Ec). exists c. split; [apply OW; exact Oc|exact Ec]. }
  assert (CP : forall v, src_in (length e) v -> ~ names v x -> 
    exists h2 hv, take_copy (hs s) v = Ok (h2, hv) /\ Inv h2 e [hv] /\ shows (heap h2) hv (src_value e v) /\
    exists hx', nth_error (vars h2) x = Some hx' /\ mine h2 x hx').
  { intros v Si Nm. destruct (L_copy _ _ _ _ I Si) as (cs & hv & E & I1 & Sh & _ & OW). exists (St cs (vars (hs s))), hv.
    split; [exact E|]. split; [exact I1|]. split; [exact Sh|]. exists hx. split; [exact N|].
    intros r R. destruct (O r R) as (c & Oc & Ec). exists c. split; [exact (proj1 (OW _ _ _ Oc Nm))|exact Ec]. }
  pose proof (m_env _ _ _ _ M) as LE.
  assert (FZ : forall y, (y < length (pkts sp))%nat -> finalized s y = Ok (is_final (pk sp y))).
  { intros y Y. destruct s as [h0 b0 f0]. exact (finalized_ok _ _ _ _ h0 b0 y M Y). }
  destruct a as [v|y|y]; cbn [cast given spent arg_ok] in *.
  - destruct A as [HV SC]. destruct (CP (Lit v)) as (h2 & hv & E & I1 & Sh & Q).
    { cbn [src_in]. unfold scalar. destruct v; try contradiction; discriminate. }
    { intros Z. exact Z. }
    exists h2, hv, e. auto 6.
  - destruct A as [Y NE]. rewrite (FZ y Y). cbn [bind]. destruct (is_final (pk sp y)) eqn:F.
    + destruct (LF y Y F) as (h2 & hv & E & I1 & Sh & Q). exists h2, hv, e. auto 6.
    + destruct (CP (Cref y)) as (h2 & hv & E & I1 & Sh & Q); [cbn [src_in]; lia|cbn [names]; auto|].
      exists h2, hv, e. cbn [src_value] in Sh. rewrite (m_val _ _ _ _ M) in Sh. destruct (pk sp y); [auto 6|discriminate F].
  - rewrite (FZ y A). cbn [bind]. destruct (is_final (pk sp y)) eqn:F.
    + destruct (LF y A F) as (h2 & hv & E & I1 & Sh & Q). exists h2, hv, e. destruct (pk sp y); [discriminate F|auto 6].
    + destruct (move_out (hs s) e y I) as (hv & E & I1 & Sh); [lia|]. exists (set_var (hs s) y HNull), hv, (list_set y VNull e).
      rewrite (m_val _ _ _ _ M) in Sh. destruct (pk sp y) as [w|] eqn:PY; [|discriminate F].
      split; [exact E|]. split; [exact I1|]. split; [exact Sh|]. split.
      * pose proof (mirror_set _ _ _ _ y (Mut VNull) M A) as M'. cbn [mut_of fin_of is_final] in M'.
        eapply mirror_ext; try exact M'; try reflexivity.
        -- symmetry. apply set_handle_len. rewrite (m_handles _ _ _ _ M). exact A.
        -- symmetry. apply list_set_length.
        -- intros i. rewrite handle_set by (rewrite (m_handles _ _ _ _ M); exact A). destruct (Nat.eqb_spec i y) as [->|]; [|reflexivity].
           rewrite (m_shown _ _ _ _ M), PY. reflexivity.
        -- intros i. rewrite nth_set by (rewrite (m_fin _ _ _ _ M); exact A). destruct (Nat.eqb_spec i y) as [->|]; [|reflexivity].
           rewrite (m_final _ _ _ _ M), PY. reflexivity.
      * unfold set_var. cbn [vars]. destruct (Nat.eq_dec x y) as [->|NE].
        -- exists HNull. split; [|intros r R; discriminate R]. apply nth_set_same. apply nth_error_Some. rewrite N. discriminate.
        -- exists hx. rewrite nth_set_other by exact NE. split; [exact N|]. intros r R. destruct (O r R) as (c & Oc & Ec).
           exists c. split; [|exact Ec]. eapply owned_vars; [| |exact Oc]; [reflexivity|]. cbn [vars]. apply nth_set_other. exact NE.
Qed.

(** ** Mirrors after a change *)

Ltac len := repeat first [rewrite list_set_length | rewrite set_handle_len by len | rewrite set_pkt_len by len]; lia.
Ltac mir M :=
  let ME := fresh in let MH := fresh in let MF := fresh in let MD := fresh in let MW := fresh in let MP := fresh in
  let MV := fresh in let MS := fresh in let MB := fresh in let i := fresh "i" in
  pose proof M as [ME MH MF MD MW MP MV MS MB]; constructor; [len|len|len|exact MD|exact MW|exact MP| | |];
  intros i; rewrite ?val_set, ?handle_set, ?nth_set, ?pk_set by len; rewrite ?MV, ?MS, ?MB;
  repeat match goal with |- context [Nat.eqb ?a ?b] => destruct (Nat.eqb_spec a b); subst end;
  repeat match goal with H : pk _ _ = _ |- _ => rewrite H; clear H end;
  try reflexivity; try congruence.

Lemma mirror_mut e bb f sp x v e' : mirror e bb f sp -> (x < length (pkts sp))%nat -> is_final (pk sp x) = false ->
  length e' = length e -> (forall i, val e' i = if Nat.eqb i x then v else val e i) -> mirror e' bb f (set_pkt sp x (Mut v)).
Proof.
  intros M L F LE V. destruct (pk sp x) as [w|] eqn:P; [|discriminate F].
  eapply mirror_ext with (e := list_set x v e) (bb := bb) (f := f); try exact LE; try reflexivity.
  - pose proof M as [ME MH MF MD MW MP MV MS MB]. constructor; rewrite ?list_set_length, ?set_pkt_len by lia; try assumption.
    + intros i. rewrite val_set by lia. rewrite pk_set by lia. destruct (Nat.eqb i x); [reflexivity|apply MV].
    + intros i. rewrite pk_set by lia. rewrite MS. destruct (Nat.eqb_spec i x) as [->|]; [rewrite P|]; reflexivity.
    + intros i. rewrite pk_set by lia. rewrite MB. destruct (Nat.eqb_spec i x) as [->|]; [rewrite P|]; reflexivity.
  - rewrite list_set_length. exact LE.
  - intros i. rewrite val_set by (rewrite (m_env _ _ _ _ M); lia). apply V.
Qed.

(** ** Mutators *)

Definition acts (n x : nat) (body : state -> hval -> src -> res (state * ans)) (act : value -> value -> res (value * nat)) : Prop :=
  forall s1 e h t, length e = n -> Inv s1 e [] -> shows (heap s1) h (val e x) -> mine s1 x h -> (t < length e)%nat -> t <> x ->
  exists s' e', body s1 h (Rref t) = Ok (s', snd (settle e x e (first (act (val e x) (val e t))))) /\ Inv s' e' [] /\
    length e' = length e /\
    forall i, i <> t -> val e' i = match first (act (val e x) (val e t)) with Ok v' => if Nat.eqb i x then v' else val e i | _ => val e i end.

Lemma settle_snd e e1 e2 x r : snd (settle e x e1 r) = snd (settle e x e2 r).
Proof. destruct r; reflexivity. Qed.
Lemma settle_acts e x e1 t r : (x < length e)%nat -> e1 = e \/ e1 = list_set t VNull e -> (t < length e)%nat ->
  length (fst (settle e x e1 r)) = length e /\
  forall i, i <> t -> val (fst (settle e x e1 r)) i = match r with Ok v' => if Nat.eqb i x then v' else val e i | _ => val e i end.
Proof.
  intros X E T. assert (L1 : length e1 = length e) by (destruct E as [->| ->]; [reflexivity|apply list_set_length]).
  destruct r; cbn [settle fst]; split; try reflexivity.
  - rewrite list_set_length. exact L1.
  - intros i N. rewrite val_set by lia. destruct (Nat.eqb i x); [reflexivity|]. destruct E as [->| ->]; [reflexivity|].
    rewrite val_set by exact T. destruct (Nat.eqb_spec i t); [contradiction|reflexivity].
Qed.
Lemma insert_acts n x k : (x < n)%nat -> acts n x (fun h hx v => insert_in h hx k v) (fun v w => h_insert v k w).
Proof.
  intros X s1 e h t LN I Sh O T N.
  destruct (S_insert_in s1 e x h k (Rref t) I Sh O T N) as (s' & E & I').
  exists s', (fst (w_insert e x k (Rref t))). unfold w_insert in *. cbn [src_value] in *. split; [|split; [exact I'|]].
  - rewrite E. do 2 f_equal. apply settle_snd.
  - apply settle_acts; [lia| |exact T]. destruct (overwrites _ _); [right|left; reflexivity]. destruct (val e x); reflexivity.
Qed.
Lemma set_acts n x k : (x < n)%nat -> acts n x (fun h hx v => set_in h hx k v) (fun v w => h_set v k w).
Proof.
  intros X s1 e h t LN I Sh O T N.
  destruct (S_set_in s1 e x h k (Rref t) I Sh O T N) as (s' & E & I').
  exists s', (fst (v_exec e (O_set x k (Rref t)))). cbn [v_exec src_value emptied] in *. split; [|split; [exact I'|]].
  - rewrite E. do 2 f_equal. apply settle_snd.
  - apply settle_acts; [lia| |exact T]. right. reflexivity.
Qed.

Lemma spent_len sp x a : arg_ok (length (pkts sp)) x a -> length (pkts (spent sp a)) = length (pkts sp).
Proof. destruct a as [v|y|y]; cbn [arg_ok spent]; intros A; try reflexivity. destruct (pk sp y); [apply set_pkt_len; exact A|reflexivity]. Qed.
Lemma spent_mut sp x a : arg_ok (length (pkts sp)) x a -> is_final (pk sp x) = false -> is_final (pk (spent sp a) x) = false.
Proof.
  destruct a as [v|y|y]; cbn [arg_ok spent]; intros A F; try exact F. destruct (pk sp y) eqn:P; [|exact F].
  rewrite pk_set by exact A. destruct (Nat.eqb x y); [reflexivity|exact F].
Qed.
Lemma spent_sound sp x a : arg_ok (length (pkts sp)) x a -> Forall (fun p => sound (value_of p)) (pkts sp) ->
  Forall (fun p => sound (value_of p)) (pkts (spent sp a)).
Proof.
  destruct a as [v|y|y]; cbn [arg_ok spent]; intros A F; try exact F. destruct (pk sp y) eqn:P; [|exact F].
  apply sound_set; [exact F|exact A|apply null_sound].
Qed.
Lemma given_sound sp x a : arg_ok (length (pkts sp)) x a -> Forall (fun p => sound (value_of p)) (pkts sp) -> sound (given sp a).
Proof. destruct a; cbn [arg_ok given]; intros A F; [apply plain_sound; exact A| |]; apply sound_at; exact F. Qed.

Lemma with_arg_ok s sp x a body act : PInv s sp -> (x < length (pkts sp))%nat -> arg_ok (length (pkts sp)) x a ->
  is_final (pk sp x) = false -> acts (S (length (pkts sp))) x body act ->
  (forall v w v' i, sound v -> sound w -> act v w = Ok (v', i) -> sound v') ->
  let r := first (act (value_of (pk (spent sp a) x)) (given sp a)) in
  exists s', with_arg s x a body = Ok (s', snd (ends (spent sp a) x r)) /\ PInv s' (fst (ends (spent sp a) x r)).
Proof.
  intros (e & bb & I & B & M & Sd) X A F BODY KEEP r. pose proof (m_env _ _ _ _ M) as LE.
  unfold with_arg. destruct (L_unshare (hs s) e x I) as (h1 & g1 & E1 & I1 & N1 & S1 & O1); [lia|]. rewrite E1. cbn [bind].
  destruct (cast_ok (Packs h1 (bs s) (fin s)) e bb sp x a I1 B M X A g1 N1 O1) as (h2 & hv & e2 & E2 & I2 & S2 & M2 & hx & N2 & O2).
  rewrite E2. cbn [bind]. cbn [hs bs fin] in *.
  pose proof (m_env _ _ _ _ M2) as LE2. rewrite (spent_len _ _ _ A) in LE2.
  assert (T : temp s = length (pkts sp)) by (unfold temp; exact (m_fin _ _ _ _ M)). rewrite T.
  assert (VT : val e2 (length (pkts sp)) = VNull).
  { rewrite (m_val _ _ _ _ M2). unfold pk. rewrite nth_overflow by (rewrite (spent_len _ _ _ A); lia). reflexivity. }
  pose proof (null_handle h2 e2 [hv] (length (pkts sp)) I2 ltac:(rewrite LE2; lia) VT) as NT.
  pose proof (set_temp h2 e2 (length (pkts sp)) hv (given sp a) I2 NT S2 ltac:(rewrite LE2; lia)) as I3.
  set (h3 := set_var h2 (length (pkts sp)) hv) in *. set (e3 := list_set (length (pkts sp)) (given sp a) e2) in *.
  assert (L3 : length e3 = S (length (pkts sp))) by (unfold e3; rewrite list_set_length; exact LE2).
  destruct (L_get h3 e3 [] x I3 ltac:(lia)) as (hx' & N3 & G3 & S3). rewrite G3. cbn [bind].
  assert (HX : hx' = hx).
  { unfold h3, set_var in N3. cbn [vars] in N3. rewrite nth_set_other in N3 by lia. congruence. }
  subst hx'.
  assert (O3 : mine h3 x hx).
  { intros q Q. destruct (O2 q Q) as (c & Oc & Ec). exists c. split; [|exact Ec]. eapply owned_vars; [| |exact Oc]; [reflexivity|].
    unfold h3, set_var. cbn [vars]. apply nth_set_other. lia. }
  destruct (BODY h3 e3 hx (length (pkts sp)) L3 I3 S3 O3 ltac:(lia) ltac:(lia)) as (h4 & e4 & E4 & I4 & L4 & V4).
  rewrite E4. cbn [bind].
  destruct (S_destroy h4 e4 (length (pkts sp)) I4 ltac:(lia)) as (h5 & E5 & I5). rewrite E5. cbn [bind].
  assert (V3x : val e3 x = value_of (pk (spent sp a) x)).
  { unfold e3. rewrite val_set by lia. destruct (Nat.eqb_spec x (length (pkts sp))); [lia|]. rewrite (m_val _ _ _ _ M2).
    pose proof (spent_mut _ _ _ A F) as F'. destruct (pk (spent sp a) x); [reflexivity|discriminate F']. }
  assert (V3t : val e3 (length (pkts sp)) = given sp a).
  { unfold e3. rewrite val_set by lia. rewrite Nat.eqb_refl. reflexivity. }
  rewrite V3x, V3t in V4. fold r in V4. rewrite V3x, V3t. fold r.
  assert (V5 : forall i, val (list_set (length (pkts sp)) VNull e4) i = match r with Ok v' => if Nat.eqb i x then v' else val e2 i | _ => val e2 i end).
  { intros i. rewrite val_set by lia. destruct (Nat.eqb_spec i (length (pkts sp))) as [->|N].
    - destruct (Nat.eqb_spec (length (pkts sp)) x); [lia|]. rewrite VT. destruct r; reflexivity.
    - rewrite V4 by exact N. assert (Q : val e3 i = val e2 i).
      { unfold e3. rewrite val_set by lia. destruct (Nat.eqb_spec i (length (pkts sp))); [contradiction|reflexivity]. }
      rewrite Q. reflexivity. }
  assert (LX : (x < length (pkts (spent sp a)))%nat) by (rewrite (spent_len _ _ _ A); exact X).
  assert (SAME : (forall i, val (list_set (length (pkts sp)) VNull e4) i = val e2 i) ->
    PInv (Packs h5 (bs s) (fin s)) (spent sp a)).
  { intros V. exists (list_set (length (pkts sp)) VNull e4), bb. split; [exact I5|]. split; [exact B|]. split; [|apply (spent_sound _ _ _ A Sd)].
    eapply mirror_ext; try exact M2; try reflexivity; [rewrite list_set_length; lia|exact V]. }
  destruct r as [v'|er| | |] eqn:R; cbn [settle ends fst snd].
  2-5: eexists; split; [reflexivity|]; apply SAME; exact V5.
  eexists. split; [reflexivity|]. exists (list_set (length (pkts sp)) VNull e4), bb. split; [exact I5|]. split; [exact B|]. split.
  - eapply mirror_mut; [exact M2|exact LX|apply (spent_mut _ _ _ A F)|rewrite list_set_length; lia|exact V5].
  - apply sound_set; [apply (spent_sound _ _ _ A Sd)|exact LX|]. cbn [value_of]. unfold r, first in R.
    destruct (act (value_of (pk (spent sp a) x)) (given sp a)) as [[v2 i2]| | | |] eqn:AE; try discriminate R. cbn [bind] in R. injection R as ->.
    eapply KEEP; [| |exact AE]; [apply sound_at; apply (spent_sound _ _ _ A Sd)|apply (given_sound _ _ _ A Sd)].
Qed.

(** ** One call *)

Lemma heap_ends s sp e bb x o r : Inv (hs s) e [] -> BufHoldRun.Inv (bs s) bb -> mirror e bb (fin s) sp ->
  Forall (fun p => sound (value_of p)) (pkts sp) -> (x < length (pkts sp))%nat ->
  call_ok (length e) o -> allowed (hs s) e o -> v_exec e o = settle e x e r -> (forall v, r = Ok v -> sound v) ->
  exists s', via_heap s x o = Ok (s', snd (ends sp x r)) /\ PInv s' (fst (ends sp x r)).
Proof.
  intros I B M Sd X C A V K. destruct (via_heap_ok s e bb x o I B) as (s' & E & I' & B' & F'); [rewrite (m_handles _ _ _ _ M); exact X|exact C|exact A|].
  rewrite V in *. exists s'. destruct r as [v|er| | |]; cbn [settle ends fst snd as_kans] in *; (split; [exact E|]).
  2-5: exists e, bb; split; [exact I'|]; split; [exact B'|]; rewrite F'; split; [exact M|exact Sd].
  exists (list_set x v e), (set_handle bb x None). split; [exact I'|]. split; [exact B'|]. rewrite F'. split.
  - exact (mirror_set _ _ _ _ x (Mut v) M X).
  - apply sound_set; [exact Sd|exact X|]. apply K. reflexivity.
Qed.

Lemma moved_sound sp x y : Forall (fun p => sound (value_of p)) (pkts sp) -> (x < length (pkts sp))%nat -> (y < length (pkts sp))%nat ->
  Forall (fun p => sound (value_of p)) (pkts (moved_to sp x y)).
Proof.
  intros Sd X Y. unfold moved_to. destruct (Nat.eqb x y); [exact Sd|]. apply sound_set; [|rewrite set_pkt_len by exact X; exact Y|].
  - apply sound_set; [exact Sd|exact X|]. apply sound_at. exact Sd.
  - destruct (pk sp y); apply null_sound.
Qed.

Lemma heap_moves s sp x y v : PInv s sp -> (x < length (pkts sp))%nat -> (y < length (pkts sp))%nat -> pk sp y = Mut v ->
  exists s', via_heap s x (O_move x y) = Ok (s', Y_unit) /\ PInv s' (moved_to sp x y).
Proof.
  intros (e & bb & I & B & M & Sd) X Y P. pose proof (m_env _ _ _ _ M) as LE. pose proof (m_handles _ _ _ _ M) as LH.
  destruct (via_heap_ok s e bb x (O_move x y) I B) as (s' & E & I' & B' & F'); [lia|split; lia|split; exact Logic.I|].
  cbn [v_exec fst snd as_kans] in *. exists s'. split; [exact E|].
  eexists _, _. split; [exact I'|]. split; [exact B'|]. rewrite F'. split; [|apply moved_sound; assumption].
  unfold moved_to. destruct (Nat.eqb_spec x y) as [->|N]; mir M.
Qed.

Lemma finalize_not v : match v with VObj _ => False | _ => True end -> finalize v = Throw type_error.
Proof. destruct v; intros H; try contradiction; reflexivity. Qed.

Theorem p_step_ok s sp o : PInv s sp -> fair sp o ->
  exists s', p_exec s o = Ok (s', snd (does sp o)) /\ PInv s' (fst (does sp o)).
Proof.
  intros PI F. pose proof PI as (e & bb & I & B & M & Sd).
  pose proof (m_env _ _ _ _ M) as LE. pose proof (m_handles _ _ _ _ M) as LH. pose proof (m_fin _ _ _ _ M) as LF.
  assert (FZ : forall y, (y < length (pkts sp))%nat -> finalized s y = Ok (is_final (pk sp y))).
  { intros y Y. destruct s as [h0 b0 f0]. exact (finalized_ok _ _ _ _ h0 b0 y M Y). }
  assert (GH : forall x k d, (x < length (pkts sp))%nat ->
    (forall v, pk sp x = Mut v -> exists s', k = Ok (s', snd (d v)) /\ PInv s' (fst (d v))) ->
    exists s', get_heap s x k = Ok (s', snd (mutably sp x d)) /\ PInv s' (fst (mutably sp x d))).
  { intros x k d X H. unfold get_heap, mutably. rewrite (FZ x X). cbn [bind]. destruct (pk sp x) as [v|h]; cbn [is_final].
    - apply H. reflexivity.
    - exists s. split; [reflexivity|exact PI]. }
  assert (INS : forall x k a v, (x < length (pkts sp))%nat -> key_ok k \/ (exists z, k = VInt z) -> arg_ok (length (pkts sp)) x a -> pk sp x = Mut v ->
    exists s', with_arg s x a (fun h hx v => insert_in h hx k v) = Ok (s', snd (inserts sp x k a)) /\ PInv s' (fst (inserts sp x k a))).
  { intros x k a v X KO A P.
    apply (with_arg_ok s sp x a (fun h hx v => insert_in h hx k v) (fun v w => h_insert v k w) PI X A); [rewrite P; reflexivity|apply insert_acts; lia|].
    intros v0 w v' i SV SW Q. destruct KO as [KO|[z ->]]; [exact (keep_insert _ _ _ _ _ SV KO SW Q)|exact (keep_insert_at _ _ _ _ _ SV SW Q)]. }
  assert (RD : forall x y n v, (x < length (pkts sp))%nat -> (y < length (pkts sp))%nat -> way_ok n -> pk sp y = Mut v ->
    exists s', via_heap s x (O_read x y (as_reader n)) = Ok (s', snd (ends sp x (fetch v n))) /\ PInv s' (fst (ends sp x (fetch v n)))).
  { intros x y n v X Y W P. apply (heap_ends s sp e bb x _ _ I B M Sd X).
    - cbn [call_ok]. split; [lia|]. split; [lia|]. destruct n; cbn [as_reader way_ok] in *; try exact Logic.I; lia.
    - split; exact Logic.I.
    - cbn [v_exec]. rewrite (m_val _ _ _ _ M), P. cbn [mut_of]. f_equal. destruct n; reflexivity.
    - intros w Q. eapply fetch_sound; [|exact Q]. pose proof (sound_at sp y Sd) as SY. rewrite P in SY. exact SY. }
  destruct o as [x|x|x v|x v|x y|x y|x|x y n|x y n|x k a|x k a|x k|x a|x a|x|x|x addr|x|x|x]; cbn [p_exec does fair] in *.
  - apply (heap_ends s sp e bb x _ (Ok (VObj [])) I B M Sd F); [split; [lia|exact Logic.I]|split; exact Logic.I|reflexivity|].
    intros v Q. injection Q as <-. apply no_fields.
  - apply (heap_ends s sp e bb x _ (Ok (VArr [])) I B M Sd F); [split; [lia|exact Logic.I]|split; exact Logic.I|reflexivity|].
    intros v Q. injection Q as <-. apply no_elems.
  - destruct F as [X PV]. apply (heap_ends s sp e bb x _ (Ok v) I B M Sd X); [|split; exact Logic.I|reflexivity|].
    + split; [lia|]. destruct PV as [_ PV]. unfold scalar. destruct v; try contradiction; discriminate.
    + intros w Q. injection Q as <-. apply plain_sound. exact PV.
  - destruct F as [X PV]. apply GH; [exact X|]. intros v0 P0. apply (heap_ends s sp e bb x _ (Ok v) I B M Sd X); [|split; exact Logic.I|reflexivity|].
    + split; [lia|]. destruct PV as [_ PV]. unfold scalar. destruct v; try contradiction; discriminate.
    + intros w Q. injection Q as <-. apply plain_sound. exact PV.
  - (* copy *)
    destruct F as [X Y]. rewrite (FZ y Y). cbn [bind]. destruct (pk sp y) as [v|h] eqn:P; cbn [is_final].
    + apply (heap_ends s sp e bb x _ (Ok v) I B M Sd X); [split; lia|split; exact Logic.I| |].
      * cbn [v_exec settle]. rewrite (m_val _ _ _ _ M), P. reflexivity.
      * intros w Q. injection Q as <-. pose proof (sound_at sp y Sd) as SY. rewrite P in SY. exact SY.
    + destruct (via_buf_ok s e bb x (M_copy x y) I B) as (s' & E & I' & B' & F'); [lia|split; lia|].
      cbn [b_does fst snd] in *. exists s'. split; [exact E|]. rewrite (m_shown _ _ _ _ M), P in B'. cbn [fin_of] in B'.
      eexists _, _. split; [exact I'|]. split; [exact B'|]. rewrite F'. split; [exact (mirror_set _ _ _ _ x (Fin h) M X)|].
      apply sound_set; [exact Sd|exact X|]. pose proof (sound_at sp y Sd) as SY. rewrite P in SY. exact SY.
  - (* move *)
    destruct F as [X Y]. rewrite (FZ y Y). cbn [bind]. destruct (pk sp y) as [v|h] eqn:P; cbn [is_final].
    + exact (heap_moves s sp x y v PI X Y P).
    + destruct (via_buf_ok s e bb x (M_move x y) I B) as (s' & E & I' & B' & F'); [lia|split; lia|].
      cbn [b_does fst snd] in *. exists s'. split; [exact E|].
      eexists _, _. split; [exact I'|]. split; [exact B'|]. rewrite F'. split; [|apply moved_sound; assumption].
      unfold moved_to. destruct (Nat.eqb_spec x y) as [->|N]; mir M.
  - apply (heap_ends s sp e bb x _ (Ok VNull) I B M Sd F); [cbn [call_ok]; lia|split; exact Logic.I|reflexivity|].
    intros v Q. injection Q as <-. apply null_sound.
  - (* read *)
    destruct F as (X & Y & W). rewrite (FZ y Y). cbn [bind]. destruct (pk sp y) as [v|h] eqn:P; cbn [is_final].
    + exact (RD x y n v X Y W P).
    + destruct (via_buf_ok s e bb x (M_member x (as_step n) y) I B) as (s' & E & I' & B' & F').
      { lia. } { split; [lia|]. split; [lia|]. destruct n; exact W. }
      cbn [b_does] in *. rewrite (m_shown _ _ _ _ M), P in *. cbn [fin_of] in *.
      destruct (reached (as_step n) (seen h)) as [w|er] eqn:R; cbn [fst snd] in *; exists s'; (split; [exact E|]).
      * eexists _, _. split; [exact I'|]. split; [exact B'|]. rewrite F'. split; [exact (mirror_set _ _ _ _ x (Fin (within (doc_of h) w)) M X)|].
        apply sound_set; [exact Sd|exact X|]. pose proof (sound_at sp y Sd) as SY. rewrite P in SY. cbn [value_of] in *.
        pose proof (reached_sound _ _ _ SY R) as SW. destruct w; exact SW.
      * exists e, bb. rewrite F'. auto.
  - (* into *)
    destruct F as (X & Y & W). rewrite (FZ y Y). cbn [bind]. destruct (pk sp y) as [v|h] eqn:P; cbn [is_final].
    + destruct (RD y y n v Y Y W P) as (s1 & E1 & PI1). rewrite E1. cbn [bind].
      destruct (fetch v n) as [w|er| | |]; cbn [ends fst snd] in *.
      2-5: exists s1; split; [reflexivity|exact PI1].
      apply (heap_moves s1 _ x y w PI1); [rewrite set_pkt_len by exact Y; exact X|rewrite set_pkt_len by exact Y; exact Y|].
      rewrite pk_set by exact Y. rewrite Nat.eqb_refl. reflexivity.
    + destruct (via_buf_ok s e bb x (M_into x (as_step n) y) I B) as (s' & E & I' & B' & F').
      { lia. } { split; [lia|]. split; [lia|]. destruct n; exact W. }
      cbn [b_does] in *. rewrite (m_shown _ _ _ _ M), P in *. cbn [fin_of] in *.
      destruct (reached (as_step n) (seen h)) as [w|er] eqn:R; cbn [fst snd] in *; exists s'; (split; [exact E|]).
      * assert (SW : sound (value_of (Fin (within (doc_of h) w)))).
        { pose proof (sound_at sp y Sd) as SY. rewrite P in SY. cbn [value_of] in *.
          pose proof (reached_sound _ _ _ SY R) as SW. destruct w; exact SW. }
        eexists _, _. split; [exact I'|]. split; [exact B'|]. rewrite F'. split.
        -- unfold moved_to. destruct (Nat.eqb_spec x y) as [->|N]; [mir M|]. rewrite pk_set by exact Y. rewrite Nat.eqb_refl. cbn [hollow]. mir M.
        -- apply moved_sound; rewrite ?set_pkt_len by exact Y; try assumption. apply sound_set; assumption.
      * exists e, bb. rewrite F'. auto.
  - destruct F as (X & KO & A). apply GH; [exact X|]. intros v P. exact (INS x k a v X (or_introl KO) A P).
  - destruct F as (X & KO & A). apply GH; [exact X|]. intros v P.
    apply (with_arg_ok s sp x a (fun h hx v => set_in h hx k v) (fun v w => h_set v k w) PI X A); [rewrite P; reflexivity|apply set_acts; lia|].
    intros v0 w v' i SV SW Q. exact (keep_set _ _ _ _ _ SV KO SW Q).
  - assert (ER : forall v, pk sp x = Mut v ->
      exists s', via_heap s x (O_erase x k) = Ok (s', snd (ends sp x (first (h_erase v k)))) /\ PInv s' (fst (ends sp x (first (h_erase v k))))).
    { intros v P. apply (heap_ends s sp e bb x _ _ I B M Sd F); [cbn [call_ok]; lia|split; exact Logic.I| |].
      - cbn [v_exec]. rewrite (m_val _ _ _ _ M), P. reflexivity.
      - intros w Q. unfold first in Q. destruct (h_erase v k) as [[v2 i2]| | | |] eqn:Q2; try discriminate Q. injection Q as <-.
        eapply keep_erase; [|exact Q2]. pose proof (sound_at sp x Sd) as SX. rewrite P in SX. exact SX. }
    destruct k; try (exists s; split; [reflexivity|exact PI]); apply GH; assumption.
  - destruct F as (X & A). apply GH; [exact X|]. intros v P. apply (INS x _ a v X); [right; eexists; reflexivity|exact A|exact P].
  - destruct F as (X & A). apply GH; [exact X|]. intros v P.
    rewrite (S_size (hs s) e x [] I) by lia. cbn [bind]. rewrite (m_val _ _ _ _ M), P. cbn [mut_of].
    destruct (h_size v) as [z| | | |] eqn:Z; try (exists s; split; [reflexivity|exact PI]).
    apply (INS x _ a v X); [right; eexists; reflexivity|exact A|exact P].
  - apply GH; [exact F|]. intros v P. apply (heap_ends s sp e bb x _ _ I B M Sd F); [cbn [call_ok]; lia|split; exact Logic.I| |].
    + cbn [v_exec]. rewrite (m_val _ _ _ _ M), P. reflexivity.
    + intros w Q. eapply keep_pop_front; [|exact Q]. pose proof (sound_at sp x Sd) as SX. rewrite P in SX. exact SX.
  - apply GH; [exact F|]. intros v P. apply (heap_ends s sp e bb x _ _ I B M Sd F); [cbn [call_ok]; lia|split; exact Logic.I| |].
    + cbn [v_exec]. rewrite (m_val _ _ _ _ M), P. reflexivity.
    + intros w Q. eapply keep_pop_back; [|exact Q]. pose proof (sound_at sp x Sd) as SX. rewrite P in SX. exact SX.
  - (* finalize *)
    destruct F as (X & AD & R). rewrite (FZ x X). cbn [bind]. destruct (pk sp x) as [v|h] eqn:P; cbn [is_final]; [|exists s; split; [reflexivity|exact PI]].
    rewrite (show_ok (hs s) e [] x I) by lia. cbn [bind]. rewrite (m_val _ _ _ _ M), P. cbn [mut_of].
    assert (NO : match v with VObj _ => False | _ => True end ->
      exists s', via_buf s x (M_new x v addr) = Ok (s', Y_err type_error) /\ PInv s' sp).
    { intros NO. unfold via_buf. cbn [BufHold.b_exec]. rewrite (finalize_not v NO). cbn [BufHold.trying bind].
      eexists. split; [reflexivity|]. exists e, bb. auto. }
    destruct v as [fs| | | | | |]; try (apply NO; exact Logic.I). clear NO.
    pose proof (sound_at sp x Sd) as SX. rewrite P in SX. cbn [value_of] in SX.
    destruct (via_buf_ok s e bb x (M_new x (VObj fs) addr) I B) as (s' & E & I' & B' & F').
    { lia. } { split; [lia|]. split; [exact AD|]. split; [reflexivity|]. split; [apply SX|]. split; [apply SX|exact R]. }
    cbn [b_does fst snd] in *. exists s'. split; [exact E|]. unfold new_doc in B'. rewrite (m_docs _ _ _ _ M) in B'.
    eexists _, _. split; [exact I'|]. split; [exact B'|]. rewrite F'. split.
    + pose proof (mirror_set _ _ _ _ x (Fin (Some (length (texts sp), VObj fs))) M X) as [ME MH MF MD MW MP MV MS MB].
      constructor; try assumption. reflexivity.
    + exact (sound_set sp x (Fin (Some (length (texts sp), VObj fs))) Sd X SX).
  - (* definalize *)
    rewrite (FZ x F). cbn [bind]. destruct (pk sp x) as [v|h] eqn:P; cbn [is_final value_of].
    + exists s. split; [reflexivity|]. exists e, bb. split; [exact I|]. split; [exact B|]. split.
      * eapply mirror_mut; [exact M|exact F|rewrite P; reflexivity|reflexivity|]. intros i. destruct (Nat.eqb_spec i x) as [->|]; [|reflexivity].
        rewrite (m_val _ _ _ _ M), P. reflexivity.
      * apply sound_set; [exact Sd|exact F|]. pose proof (sound_at sp x Sd) as SX. rewrite P in SX. exact SX.
    + destruct (lifted_ok s e bb x I B) as (cs & g & E & I1 & Sh & _); [lia|]. rewrite E. cbn [bind].
      rewrite (m_shown _ _ _ _ M), P in Sh. cbn [fin_of] in Sh.
      destruct (L_overwrite (St cs (vars (hs s))) e x g (seen h) [] I1 Sh ltac:(lia)) as (h2 & E2 & I2). rewrite E2. cbn [bind].
      destruct (becomes_mut (Packs h2 (bs s) (fin s)) _ bb x I2 B) as (s' & E3 & I3 & B3 & F3); [lia|]. rewrite E3. cbn [bind fst snd].
      exists s'. split; [reflexivity|]. eexists _, _. split; [exact I3|]. split; [exact B3|]. rewrite F3. cbn [fin]. split.
      * exact (mirror_set _ _ _ _ x (Mut (seen h)) M F).
      * apply sound_set; [exact Sd|exact F|]. pose proof (sound_at sp x Sd) as SX. rewrite P in SX. exact SX.
  - (* show *)
    rewrite (FZ x F). cbn [bind]. destruct (pk sp x) as [v|h] eqn:P; cbn [is_final value_of].
    + rewrite (show_ok (hs s) e [] x I) by lia. cbn [bind]. rewrite (m_val _ _ _ _ M), P. exists s. split; [reflexivity|exact PI].
    + destruct (BufHoldRun.b_step_ok (bs s) bb (M_read x) B) as (b' & E & B'); [change (x < length (handles bb))%nat; lia|]. rewrite E. cbn [bind b_does snd].
      rewrite (m_shown _ _ _ _ M), P. cbn [fin_of]. eexists. split; [reflexivity|]. exists e, bb. auto.
  - rewrite (FZ x F). cbn [bind]. exists s. split; [reflexivity|exact PI].
Qed.
