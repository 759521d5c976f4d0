(** Programs against the C interface follow the machine of SpecAbi.v. *)

From Coq Require Import ZArith List Bool Lia.
From Verif Require Import Base BaseFacts Keys Wire Read Spec Buf BufFacts HeapOps SpecOps HeapRun HistFacts SpecPacket Packet PacketFacts PacketRun
  SpecWrap Wrap WrapFacts WrapTypes WrapRun PropsHeap SpecAbi Abi.
Import ListNotations.
Open Scope Z_scope.

Definition shape (d : form) (x : pstate) : Prop :=
  match d with FHeap => snd x = false | FBuffer => snd x = true | FPacket => True end.
Definition n_id (n : counter) : Z := match n with Safe => 1 | Unsafe => 2 end.
Definition alike (v : var) (a : avar) : Prop :=
  v_type v = fst a /\
  match snd a with
  | Some (d, n, x) =>
      v_tags v = Some (p_id d, n_id n) /\ exists p, v_obj v = Some (d, n, p) /\ stands p x /\ shape d x
  | None => v_obj v = None
  end.
Definition agree : cstate -> astate -> Prop := Forall2 alike.

(** ** Small facts *)

Lemma form_eqb_refl d : form_eqb d d = true.
Proof. destruct d; reflexivity. Qed.
Lemma form_eqb_eq d d' : form_eqb d d' = true -> d = d'.
Proof. destruct d, d'; intros E; try discriminate E; reflexivity. Qed.
Lemma counter_eqb_refl n : counter_eqb n n = true.
Proof. destruct n; reflexivity. Qed.
Lemma rc_switch_id R (client : R) n k : rc_switch client (n_id n) k = k n.
Proof. destruct n; reflexivity. Qed.
Lemma rc_switch_of R (client : R) rc k :
  rc_switch client rc k = match counter_of rc with Some n => k n | None => client end.
Proof. unfold rc_switch, counter_of. destruct rc as [|[[|q|]|[|q|]|]|q]; try reflexivity; destruct q; reflexivity. Qed.
Lemma counter_of_id rc n : counter_of rc = Some n -> rc = n_id n.
Proof. unfold counter_of. destruct (Z.eqb_spec rc 1); [|destruct (Z.eqb_spec rc 2)]; intros E; try discriminate E; injection E as <-; assumption. Qed.
Lemma handle_code e : handle e = err_code e.
Proof. destruct e; reflexivity. Qed.
Lemma err_code_pos e : err_code e <> 0.
Proof. destruct e; discriminate. Qed.
Lemma fits_refl d : fits d d = true.
Proof. destruct d; reflexivity. Qed.
Lemma takes_own f d : f <> Generic -> takes f d = true -> d = of_family f.
Proof. destruct f, d; intros N E; try discriminate E; try reflexivity; contradiction. Qed.

Lemma put_comm {A} (l : list A) i j x y : i <> j -> put i x (put j y l) = put j y (put i x l).
Proof.
  revert i j. induction l as [|z l IH]; intros [|i] [|j] N; cbn [put]; try reflexivity; [contradiction|].
  f_equal. apply IH. congruence.
Qed.
Lemma put_last {A} (l : list A) x y : put (length l) x (l ++ [y]) = l ++ [x].
Proof. induction l as [|z l IH]; cbn; [reflexivity|]. now rewrite IH. Qed.
Lemma put_length {A} (l : list A) i x : length (put i x l) = length l.
Proof. revert i. induction l as [|z l IH]; intros [|i]; cbn; congruence. Qed.
Lemma put_app {A} (l r : list A) i x : (i < length l)%nat -> put i x (l ++ r) = put i x l ++ r.
Proof. revert i. induction l as [|z l IH]; intros [|i] H; cbn in *; try lia; [reflexivity|]. rewrite IH by lia. reflexivity. Qed.

(** ** Looking through a handle *)

Lemma var_of s t j ty d n x : agree s t -> nth_error t j = Some (ty, Some (d, n, x)) ->
  exists p, nth_error s j = Some (mkvar ty (Some (p_id d, n_id n)) (Some (d, n, p))) /\ stands p x /\ shape d x.
Proof.
  intros M E. destruct (side_nth_r _ _ _ M j _ E) as ([ty' g o] & N & T & G & p & O & S & H).
  cbn [v_type v_tags v_obj fst snd] in *. subst. eauto.
Qed.
Lemma dead_of s t j ty : agree s t -> nth_error t j = Some (ty, None) ->
  exists g, nth_error s j = Some (mkvar ty g None).
Proof.
  intros M E. destruct (side_nth_r _ _ _ M j _ E) as ([ty' g o] & N & T & O).
  cbn [v_type v_tags v_obj fst snd] in *. subst. eauto.
Qed.
Lemma looked s t f j d n x : agree s t -> usable t f j d n x ->
  exists ty p, nth_error t j = Some (ty, Some (d, n, x)) /\
    nth_error s j = Some (mkvar ty (Some (p_id d, n_id n)) (Some (d, n, p))) /\ stands p x /\ shape d x /\
    arg_ok s f j = true /\ takes f d = true /\
    forall R (client bad : R) k, unwrap client bad f s j k = k d n p.
Proof.
  intros M (ty & E & T & D). destruct (var_of _ _ _ _ _ _ _ M E) as (p & N & S & H).
  exists ty, p. repeat (split; [assumption|]). split; [unfold arg_ok; rewrite N; exact T|]. split; [exact D|].
  intros R client bad k. unfold unwrap. rewrite N. cbn [v_tags tag_switch].
  destruct f, d; try discriminate D; cbn [p_id]; rewrite rc_switch_id; unfold seen; cbn [v_obj form_eqb];
    rewrite counter_eqb_refl; reflexivity.
Qed.
Lemma live_arg s t f j : agree s t -> live t f j -> arg_ok s f j = true.
Proof. intros M (d & n & x & U). destruct (looked _ _ _ _ _ _ _ M U) as (ty & p & _ & _ & _ & _ & A & _). exact A. Qed.

(** Another variable holding nothing gets new tags: nothing to see. *)
Lemma tagged s t i ty g : agree s t -> nth_error t i = Some (ty, None) ->
  agree (set_tags s i g) t /\ nth_error (set_tags s i g) i = Some (mkvar ty g None).
Proof.
  intros M E. destruct (dead_of _ _ _ _ M E) as (g0 & N). unfold set_tags. rewrite N. cbn [v_type v_obj]. split.
  - rewrite <- (put_same t i _ E). apply side_put; [exact M|]. split; reflexivity.
  - rewrite (put_nth _ _ _ _ _ N), Nat.eqb_refl. reflexivity.
Qed.
Lemma stored s t j ty d n x p y : agree s t -> nth_error t j = Some (ty, Some (d, n, x)) ->
  stands p y -> shape d y -> agree (store s j p) (update t j y).
Proof.
  intros M E S H. destruct (var_of _ _ _ _ _ _ _ M E) as (q & N & _ & _). unfold store, update. rewrite N, E.
  apply side_put; [exact M|]. split; [reflexivity|]. split; [reflexivity|]. exists p. auto.
Qed.
Lemma update_eq (t : astate) j x ty d n y : nth_error t j = Some (ty, Some (d, n, y)) -> update t j x = put j (ty, Some (d, n, x)) t.
Proof. intros E. unfold update. rewrite E. reflexivity. Qed.
Lemma update_nth (t : astate) j x ty d n y i : nth_error t j = Some (ty, Some (d, n, y)) ->
  nth_error (update t j x) i = if Nat.eqb j i then Some (ty, Some (d, n, x)) else nth_error t i.
Proof. intros E. unfold update. rewrite E. apply (put_nth _ _ _ _ _ E). Qed.
Lemma shape_gone d x : shape d x -> shape d (gone x).
Proof. destruct d; exact (fun h => h). Qed.

(** ** What the calls on packets give *)

Definition yields (r : res packet) (b : pans) (x : pstate) : Prop :=
  (exists p, r = Ok p /\ stands p x /\ b = P_ans A_unit) \/ (exists e, r = Throw e /\ b = P_ans (A_err e)).

Lemma yields_of p r b x : snd (p_become p r) = b -> plain b -> stands (fst (p_become p r)) x -> yields r b x.
Proof.
  intros E P S. destruct (become_plain p r b E P) as [(q & -> & ->)|(e & -> & ->)]; cbn [p_become fst snd] in *; [left|right]; eauto.
Qed.
Lemma place_yields p x pl : stands p x -> (forall i, pl = Index i -> 0 <= i < 2 ^ 64) ->
  exists b x', pstep run_op x (into pl) b x' /\ yields (p_place p pl) b x' /\ (is_error b = false -> snd x' = snd x).
Proof.
  intros S OK.
  assert (PC : pcall_ok (into pl)) by (destruct pl; [exact I|exact (OK _ eq_refl)]).
  destruct (step_ok p x _ S PC) as (x' & St & S').
  assert (E : p_call p (into pl) = p_become p (p_place p pl)) by (destruct pl; reflexivity). rewrite E in *.
  assert (P : plain (snd (p_become p (p_place p pl)))) by (destruct pl; [eapply into_plain|eapply into_idx_plain]; exact St).
  eexists _, x'. split; [exact St|]. split; [now apply (yields_of p)|].
  intros _. destruct x as [v fin]. clear -St. destruct pl; cbn [into pstep] in St.
  - destruct v; destruct St as [-> _]; reflexivity.
  - destruct v; destruct St as [-> _]; reflexivity.
Qed.
Lemma finalize_yields p x addr : stands p x -> addr mod 8 = 0 ->
  exists b x', pstep run_op x (Finalize addr) b x' /\ yields (p_finalize addr p) b x' /\ (is_error b = false -> snd x' = true).
Proof.
  intros S OK. destruct (step_ok p x (Finalize addr) S OK) as (x' & St & S'). cbn [p_call] in *.
  eexists _, x'. split; [exact St|]. split; [apply (yields_of p); [reflexivity| |exact S']|].
  - eapply finalize_plain. exact St.
  - intros N. destruct x as [v fin]. cbn [pstep] in St. clear -St N.
    destruct v; [destruct St as [[-> _]|(_ & _ & _ & E)]; [reflexivity|rewrite E in N; discriminate N]|..];
      (destruct fin; destruct St as [-> E]; [reflexivity|rewrite E in N; discriminate N]).
Qed.
Lemma definalize_yields p x : stands p x -> exists q, p_definalize p = Ok q /\ stands q (fst x, false).
Proof.
  intros S. destruct (step_ok p x Definalize S I) as (x' & St & S'). cbn [p_call] in *.
  assert (P : plain (snd (p_become p (p_definalize p)))) by (eapply definalize_plain; exact St).
  destruct x as [v fin]. cbn [pstep] in St. destruct St as [-> E].
  destruct (become_plain p _ _ eq_refl P) as [(q & D & _)|(e & D & B)]; [|congruence].
  rewrite D in S'. eauto.
Qed.
Lemma stands_shape p x : stands p x -> is_finalized p = snd x.
Proof. intros (_ & _ & P). destruct p; [subst x; reflexivity|]. cbn. symmetry. apply P. Qed.

(** ** Placement new *)

Definition ended (i : nat) (ty : form) (t : astate) (r : made) (res : cstate * out) : Prop :=
  match r with
  | Made d n x => err_handler (snd res) = Code 0 /\ agree (fst res) (put i (ty, Some (d, n, x)) t)
  | Failed z => z <> 0 /\ err_handler (snd res) = Code z /\ agree (fst res) t
  end.

Lemma placed s t i ty d n p x : agree s t -> nth_error t i = Some (ty, None) ->
  nth_error s i = Some (mkvar ty (Some (p_id d, n_id n)) None) -> fits ty d = true -> stands p x -> shape d x ->
  place_new s i d n (Ok p) = (set_obj s i (Some (d, n, p)), Code no_error) /\
  agree (set_obj s i (Some (d, n, p))) (put i (ty, Some (d, n, x)) t).
Proof.
  intros M E N F S H. unfold place_new. rewrite N. cbn [v_type]. rewrite F. split; [reflexivity|].
  unfold set_obj. rewrite N. apply side_put; [exact M|]. split; [reflexivity|]. cbn. split; [reflexivity|]. eauto.
Qed.
Lemma grown s t i ty d n r b x : agree s t -> nth_error t i = Some (ty, None) ->
  nth_error s i = Some (mkvar ty (Some (p_id d, n_id n)) None) -> fits ty d = true ->
  yields r b x -> (is_error b = false -> shape d x) -> ended i ty t (outcome b d n x) (place_new s i d n r).
Proof.
  intros M E N F [(p & -> & S & ->)|(e & -> & ->)] H.
  - destruct (placed s t i ty d n p x M E N F S (H eq_refl)) as [-> A]. split; [reflexivity|exact A].
  - cbn. rewrite handle_code. split; [apply err_code_pos|]. split; [reflexivity|exact M].
Qed.
Lemma ended_handled i ty t r res : ended i ty t r res ->
  ended i ty t r (let '(s', o) := res in (s', err_handler o)).
Proof. destruct res as [s' o], r; cbn; destruct o; auto. Qed.
Lemma ended_dropped i ty t b d n x r : ended i ty t (outcome b d n x) r -> (forall z, snd r = Code z -> z = 0) ->
  ended i ty t (outcome b d n x) (dropped r).
Proof. destruct r as [s' o]. cbn [snd dropped]. intros H Z. destruct o; try exact H. rewrite (Z _ eq_refl) in H. exact H. Qed.
Lemma place_new_code s i d n r z : snd (place_new s i d n r) = Code z -> z = 0.
Proof. unfold place_new. destruct r; try discriminate; destruct (nth_error s i); try discriminate. destruct (fits _ _); cbn; unfold no_error; congruence. Qed.

(** ** Making objects *)

Lemma init_ok s t i ty d rc : agree s t -> nth_error t i = Some (ty, None) -> fits ty d = true ->
  ended i ty t (match counter_of rc with Some n => Made d n (nothing d) | None => Failed client_code end) (init s i d rc).
Proof.
  intros M E F. unfold init. destruct (tagged s t i ty (Some (p_id d, rc)) M E) as [M' N]. cbv zeta.
  set (s0 := set_tags _ _ _) in *. apply ended_handled.
  unfold construct at 1. rewrite N. cbn [v_tags]. rewrite rc_switch_of. destruct (counter_of rc) as [n|] eqn:C.
  - rewrite (counter_of_id _ _ C) in N.
    destruct (placed s0 t i ty d n (fresh d) (nothing d) M' E N F) as [-> A].
    + destruct d; try apply stands_null. split; [constructor; exact I|]. split; [constructor; exact I|].
      split; [reflexivity|]. apply rep_null_elem.
    + destruct d; reflexivity.
    + split; [reflexivity|exact A].
  - split; [discriminate|]. split; [reflexivity|exact M'].
Qed.

Lemma typed_new_same s i d n r : typed_new s i d n n r = place_new s i d n r.
Proof. unfold typed_new. now rewrite counter_eqb_refl. Qed.
Lemma safe_construct_same addr d n r : safe_construct addr d n n r = (p <- r ;; cast_to addr d p).
Proof. unfold safe_construct. destruct r; cbn; try reflexivity. now rewrite counter_eqb_refl. Qed.
Lemma safe_packet addr n r : safe_construct addr FPacket n n r = r.
Proof. rewrite safe_construct_same. destruct r; reflexivity. Qed.
(** To its own type nothing happens. *)
Lemma cast_own addr d p x : stands p x -> shape d x -> cast_to addr d p = Ok p.
Proof.
  intros (H & G & P) Sh. destruct d; cbn in *; [| |reflexivity].
  - destruct p as [v|bs m e]; [reflexivity|]. destruct P as [F _]. congruence.
  - destruct p as [v|bs m e]; [subst x; discriminate Sh|]. reflexivity.
Qed.

Lemma make_ok s t i m ty : agree s t -> nth_error t i = Some (ty, None) -> has_making m = true ->
  source_live t m -> making_ok m -> (any_destination m = false -> ty = returns m) ->
  (forall d, makes_form t m d -> fits ty d = true) ->
  exists r t1, makes run_op t m r t1 /\ ended i ty t1 r (make s i m).
Proof.
  intros M E HM SL OK TY FT.
  assert (SRC : forall f j g, live t f j -> exists d n x ty' p,
     usable t f j d n x /\ i <> j /\ nth_error t j = Some (ty', Some (d, n, x)) /\ stands p x /\ shape d x /\ takes f d = true /\
     tags_of s j = Some (p_id d, n_id n) /\ (forall d0, retag s d0 j = Some (p_id d0, n_id n)) /\
     forall k, access f (set_tags s i g) j k = (let '(s', o) := k d n p in (s', err_handler o))).
  { intros f j g (d & n & x & U). destruct (tagged s t i ty g M E) as [M' _].
    destruct (looked _ _ _ _ _ _ _ M' U) as (ty' & p & Et & Es' & S & Sh & _ & Tk & X).
    assert (NE : i <> j) by (intros ->; congruence).
    assert (Es : nth_error s j = Some (mkvar ty' (Some (p_id d, n_id n)) (Some (d, n, p)))).
    { revert Es'. unfold set_tags. destruct (nth_error s i) as [v|] eqn:Ei; [|auto]. rewrite (put_nth _ _ _ _ _ Ei).
      destruct (Nat.eqb_spec i j); [contradiction|auto]. }
    assert (G : tags_of s j = Some (p_id d, n_id n)) by (unfold tags_of; rewrite Es; reflexivity).
    exists d, n, x, ty', p. repeat (split; [assumption|]). split; [intros d0; unfold retag; rewrite G; reflexivity|].
    intros k. unfold access. rewrite X. reflexivity. }
  assert (CON : forall s0 g rc d n k, nth_error s0 i = Some (mkvar ty (Some (g, rc)) None) -> rc = n_id n ->
     construct (Some d) s0 i k = k d n).
  { intros s0 g rc d n k N ->. unfold construct. rewrite N. cbn [v_tags]. apply rc_switch_id. }
  assert (CONG : forall s0 d n k, nth_error s0 i = Some (mkvar ty (Some (p_id d, n_id n)) None) ->
     construct None s0 i k = k d n).
  { intros s0 d n k N. unfold construct. rewrite N. cbn [v_tags tag_switch]. destruct d; cbn [p_id]; apply rc_switch_id. }
  destruct m as [d rc|d rc v|f j|f j|f j pl|j|j addr|f j addr|f j].
  - eexists _, t. split; [split; reflexivity|]. apply (init_ok s t i ty d rc M E). apply FT. reflexivity.
  - eexists _, t. split; [split; reflexivity|]. cbn [make].
    pose proof (init_ok s t i ty d rc M E (FT d eq_refl)) as A. destruct (init s i d rc) as [s1 o] eqn:In.
    assert (O : exists z, o = Code z).
    { unfold init in In. destruct (construct _ _ _ _) as [s2 o2]. injection In as _ <-.
      destruct (counter_of rc); cbn [ended snd fst] in A; destruct o2; cbn in *; eauto; destruct A as [A B]; try discriminate A; try discriminate (proj1 B). }
    destruct O as [z ->]. destruct (counter_of rc) as [n|].
    + cbn [ended fst snd err_handler] in A. destruct A as [A B]. injection A as ->.
      assert (Et : nth_error (put i (ty, Some (d, n, nothing d)) t) i = Some (ty, Some (d, n, nothing d)))
        by (rewrite (put_nth _ _ _ _ _ E), Nat.eqb_refl; reflexivity).
      destruct (var_of _ _ _ _ _ _ _ B Et) as (p & Ns & _). unfold unwrap_as. rewrite Ns. cbn [v_tags]. rewrite rc_switch_id.
      unfold seen. cbn [v_obj]. rewrite form_eqb_refl, counter_eqb_refl. cbn [andb].
      split; [reflexivity|]. cbn [fst].
      assert (Sv : stands (PHeap v) (v, false)) by (apply stands_heap; apply OK).
      assert (Hs : shape d (v, false)) by (destruct d; [reflexivity|discriminate HM|exact I]).
      pose proof (stored _ _ _ _ _ _ _ _ _ B Et Sv Hs) as C. rewrite (update_eq _ _ _ _ _ _ _ Et) in C. revert C.
      assert (PP : forall (l : astate) a b, put i a (put i b l) = put i a l).
      { clear. intros l a b. revert i. induction l as [|z l IH]; intros [|i]; cbn; congruence. }
      rewrite PP. exact (fun h => h).
    + cbn [ended fst snd] in *. destruct A as (A1 & A2 & A3). injection A2 as ->. repeat split; assumption.
  - (* copy *)
    destruct f.
    1,2: destruct (SRC _ j (tags_of s j) SL) as (d & n & x & ty' & p & U & NE & Et & S & Sh & Tk & G & _ & X);
      apply takes_own in Tk; [|discriminate]; cbn [of_family] in Tk; subst d;
      eexists _, t; (split; [split; [reflexivity|eexists _, _, _; split; [exact U|reflexivity]]|]);
      cbn [make]; rewrite X; apply ended_handled;
      destruct (tagged s t i ty (tags_of s j) M E) as [M' N]; rewrite G in M', N |- *;
      rewrite (CON _ _ _ _ n _ N eq_refl); rewrite typed_new_same;
      (destruct (placed _ _ _ _ _ _ _ _ M' E N (FT _ eq_refl) S Sh) as [-> A]); (split; [reflexivity|exact A]).
    destruct (SRC _ j (tags_of s j) SL) as (d & n & x & ty' & p & U & NE & Et & S & Sh & Tk & G & _ & X).
    eexists _, t. split; [split; [reflexivity|eexists _, _, _; split; [exact U|reflexivity]]|].
    cbn [make]. rewrite X, G. apply ended_handled.
    destruct (tagged s t i ty (Some (p_id d, n_id n)) M E) as [M' N].
    rewrite (CONG _ _ _ _ N). rewrite safe_construct_same. cbn [bind]. rewrite (cast_own _ _ _ _ S Sh).
    destruct (placed _ _ _ _ _ _ _ _ M' E N (FT d (ex_intro _ n (ex_intro _ x U))) S Sh) as [-> A]. split; [reflexivity|exact A].
  - (* move *)
    assert (ST : forall s1 d n x ty' p, i <> j -> nth_error t j = Some (ty', Some (d, n, x)) -> stands p x -> shape d x ->
       agree s1 (put i (ty, Some (d, n, x)) t) -> agree (store s1 j (p_moved p)) (put i (ty, Some (d, n, x)) (update t j (gone x)))).
    { intros s1 d n x ty' p NE Et S Sh A.
      assert (E2 : nth_error (put i (ty, Some (d, n, x)) t) j = Some (ty', Some (d, n, x))).
      { rewrite (put_nth _ _ _ _ _ E). destruct (Nat.eqb_spec i j); [contradiction|exact Et]. }
      pose proof (stored _ _ _ _ _ _ _ _ _ A E2 (stands_moved _ _ S) (shape_gone _ _ Sh)) as C.
      rewrite (update_eq _ _ _ _ _ _ _ E2) in C. rewrite (update_eq _ _ _ _ _ _ _ Et), put_comm by exact NE. exact C. }
    destruct f.
    1,2: destruct (SRC _ j (tags_of s j) SL) as (d & n & x & ty' & p & U & NE & Et & S & Sh & Tk & G & _ & X);
      apply takes_own in Tk; [|discriminate]; cbn [of_family] in Tk; subst d;
      eexists _, _; (split; [eexists _, _, _; split; [exact U|split; reflexivity]|]);
      cbn [make]; rewrite X; apply ended_handled;
      destruct (tagged s t i ty (tags_of s j) M E) as [M' N]; rewrite G in M', N |- *;
      rewrite (CON _ _ _ _ n _ N eq_refl); rewrite typed_new_same;
      (destruct (placed _ _ _ _ _ _ _ _ M' E N (FT _ eq_refl) S Sh) as [-> A]); (split; [reflexivity|]);
      cbn [fst no_error]; eapply ST; eauto.
    destruct (SRC _ j (tags_of s j) SL) as (d & n & x & ty' & p & U & NE & Et & S & Sh & Tk & G & _ & X).
    eexists _, _. split; [eexists _, _, _; split; [exact U|split; reflexivity]|].
    cbn [make]. rewrite X, G. apply ended_handled.
    destruct (tagged s t i ty (Some (p_id d, n_id n)) M E) as [M' N].
    rewrite (CONG _ _ _ _ N). rewrite safe_construct_same. cbn [bind]. rewrite (cast_own _ _ _ _ S Sh).
    destruct (placed _ _ _ _ _ _ _ _ M' E N (FT d (ex_intro _ n (ex_intro _ x U))) S Sh) as [-> A]. split; [reflexivity|].
    cbn [fst]. eapply ST; eauto.
  - (* children *)
    assert (PO : forall k, pl = Index k -> 0 <= k < 2 ^ 64) by (intros k ->; exact OK).
    destruct f.
    1,2: destruct (SRC _ j (tags_of s j) SL) as (d & n & x & ty' & p & U & NE & Et & S & Sh & Tk & G & _ & X);
      apply takes_own in Tk; [|discriminate]; cbn [of_family] in Tk; subst d;
      destruct (place_yields p x pl S PO) as (b & x' & St & Y & K);
      eexists _, t; (split; [split; [reflexivity|eexists _, _, _, _, _; split; [exact U|split; [exact St|reflexivity]]]|]);
      cbn [make of_family]; rewrite X; apply ended_handled;
      destruct (tagged s t i ty (tags_of s j) M E) as [M' N]; rewrite G in M', N |- *;
      rewrite (CON _ _ _ _ n _ N eq_refl); rewrite typed_new_same;
      apply (grown _ _ _ _ _ _ _ _ _ M' E N (FT _ eq_refl) Y); intros NB; unfold shape in *; rewrite (K NB); exact Sh.
    destruct (SRC _ j (retag s FPacket j) SL) as (d & n & x & ty' & p & U & NE & Et & S & Sh & Tk & _ & G & X).
    destruct (place_yields p x pl S PO) as (b & x' & St & Y & K).
    eexists _, t. split; [split; [reflexivity|eexists _, _, _, _, _; split; [exact U|split; [exact St|reflexivity]]]|].
    cbn [make of_family]. rewrite X, G. apply ended_handled.
    destruct (tagged s t i ty (Some (p_id FPacket, n_id n)) M E) as [M' N].
    rewrite (CON _ _ _ _ n _ N eq_refl), safe_packet.
    apply (grown _ _ _ _ _ _ _ _ _ M' E N (FT _ eq_refl) Y). intros _. exact I.
  - (* to heap *)
    destruct (SRC Generic j (retag s FHeap j) SL) as (d & n & x & ty' & p & U & NE & Et & S & Sh & Tk & _ & G & X).
    destruct (definalize_yields p x S) as (q & D & Sq).
    eexists _, t. split; [split; [reflexivity|eexists _, _, _; split; [exact U|reflexivity]]|].
    cbn [make]. rewrite X, G. apply ended_handled.
    destruct (tagged s t i ty (Some (p_id FHeap, n_id n)) M E) as [M' N].
    rewrite (CON _ _ _ _ n _ N eq_refl), safe_construct_same, D. cbn [bind].
    rewrite (cast_own 0 FHeap _ _ Sq eq_refl).
    destruct (placed _ _ _ _ FHeap n _ _ M' E N (FT _ eq_refl) Sq eq_refl) as [-> A]. split; [reflexivity|exact A].
  - (* to buffer *)
    destruct (SRC Generic j (retag s FBuffer j) SL) as (d & n & x & ty' & p & U & NE & Et & S & Sh & Tk & _ & G & X).
    destruct (definalize_yields p x S) as (q & D & Sq).
    destruct (finalize_yields q _ addr Sq OK) as (b & x' & St & Y & K).
    eexists _, t. split; [split; [reflexivity|eexists _, _, _, _, _; split; [exact U|split; [exact St|reflexivity]]]|].
    cbn [make]. rewrite X, G. apply ended_handled.
    destruct (tagged s t i ty (Some (p_id FBuffer, n_id n)) M E) as [M' N].
    rewrite (CON _ _ _ _ n _ N eq_refl), safe_construct_same, D. cbn [bind cast_to].
    exact (grown _ _ _ _ FBuffer _ _ _ _ M' E N (FT _ eq_refl) Y K).
  - (* lower *)
    destruct f; [|discriminate HM|].
    + destruct (SRC _ j (retag s FBuffer j) SL) as (d & n & x & ty' & p & U & NE & Et & S & Sh & Tk & _ & G & X).
      destruct (finalize_yields p x addr S OK) as (b & x' & St & Y & K).
      eexists _, t. split; [split; [reflexivity|eexists _, _, _, _, _; split; [exact U|split; [exact St|reflexivity]]]|].
      cbn [make returns]. rewrite X, G. apply ended_handled.
      destruct (tagged s t i ty (Some (p_id FBuffer, n_id n)) M E) as [M' N].
      rewrite (CON _ _ _ _ n _ N eq_refl), typed_new_same.
      apply ended_dropped; [|intros z; apply place_new_code]. exact (grown _ _ _ _ FBuffer _ _ _ _ M' E N (FT _ eq_refl) Y K).
    + destruct (SRC _ j (retag s FPacket j) SL) as (d & n & x & ty' & p & U & NE & Et & S & Sh & Tk & _ & G & X).
      destruct (finalize_yields p x addr S OK) as (b & x' & St & Y & K).
      eexists _, t. split; [split; [reflexivity|eexists _, _, _, _, _; split; [exact U|split; [exact St|reflexivity]]]|].
      cbn [make returns]. rewrite X, G. apply ended_handled.
      destruct (tagged s t i ty (Some (p_id FPacket, n_id n)) M E) as [M' N].
      rewrite (CONG _ FPacket n _ N), safe_packet.
      apply (grown _ _ _ _ _ _ _ _ _ M' E N (FT _ eq_refl) Y). intros _. exact I.
  - (* lift *)
    destruct f; [discriminate HM| |].
    + destruct (SRC _ j (retag s FHeap j) SL) as (d & n & x & ty' & p & U & NE & Et & S & Sh & Tk & _ & G & X).
      destruct (definalize_yields p x S) as (q & D & Sq).
      eexists _, t. split; [split; [reflexivity|eexists _, _, _; split; [exact U|reflexivity]]|].
      cbn [make returns]. rewrite X, G. apply ended_handled.
      destruct (tagged s t i ty (Some (p_id FHeap, n_id n)) M E) as [M' N].
      rewrite (CON _ _ _ _ n _ N eq_refl), typed_new_same, D.
      destruct (placed _ _ _ _ FHeap n _ _ M' E N (FT _ eq_refl) Sq eq_refl) as [-> A]. split; [reflexivity|exact A].
    + destruct (SRC _ j (retag s FPacket j) SL) as (d & n & x & ty' & p & U & NE & Et & S & Sh & Tk & _ & G & X).
      destruct (definalize_yields p x S) as (q & D & Sq).
      eexists _, t. split; [split; [reflexivity|eexists _, _, _; split; [exact U|reflexivity]]|].
      cbn [make returns]. rewrite X, G. apply ended_handled.
      destruct (tagged s t i ty (Some (p_id FPacket, n_id n)) M E) as [M' N].
      rewrite (CONG _ FPacket n _ N), safe_packet, D.
      destruct (placed _ _ _ _ FPacket n _ _ M' E N (FT _ eq_refl) Sq I) as [-> A]. split; [reflexivity|exact A].
Qed.

(** ** By value: the new variable is the last one *)

Lemma nth_last {A} (l : list A) x j y : nth_error (l ++ [x]) j = Some y -> nth_error l j = Some y \/ (j = length l /\ y = x).
Proof.
  intros E. destruct (Nat.lt_ge_cases j (length l)) as [H|H].
  - rewrite nth_error_app1 in E by exact H. auto.
  - rewrite nth_error_app2 in E by exact H. destruct (j - length l)%nat as [|k] eqn:K; [|destruct k; discriminate E].
    injection E as <-. right. split; [lia|reflexivity].
Qed.
Lemma nth_lt {A} (l : list A) j y : nth_error l j = Some y -> (j < length l)%nat.
Proof. intros E. apply nth_error_Some. rewrite E. discriminate. Qed.
Lemma usable_ext (t : astate) ty f j d n x : usable (t ++ [(ty, None)]) f j d n x -> usable t f j d n x.
Proof. intros (ty' & E & H). exists ty'. split; [|exact H]. destruct (nth_last _ _ _ _ E) as [L|[_ L]]; [exact L|discriminate L]. Qed.
Lemma live_ext (t : astate) ty f j : live t f j -> live (t ++ [(ty, None)]) f j.
Proof.
  intros (d & n & x & ty' & E & H). exists d, n, x, ty'. split; [|exact H].
  rewrite nth_error_app1; [exact E|]. exact (nth_lt _ _ _ E).
Qed.
Lemma makes_ext (t : astate) ty m r t1 : makes run_op (t ++ [(ty, None)]) m r t1 ->
  exists t0, makes run_op t m r t0 /\ t1 = t0 ++ [(ty, None)] /\ length t0 = length t.
Proof.
  destruct m; cbn [makes]; intros H.
  - exists t. destruct H as [-> H]. auto.
  - exists t. destruct H as [-> H]. auto.
  - exists t. destruct H as (-> & d & n & x & U & H). apply usable_ext in U. split; [split; [reflexivity|]|]; eauto.
  - destruct H as (d & n & x & U & -> & ->). pose proof (usable_ext _ _ _ _ _ _ _ U) as U'. exists (update t j (gone x)).
    split; [exists d, n, x; auto|]. destruct U' as (ty' & E & _). destruct U as (ty2 & E2 & _).
    rewrite (update_eq _ _ _ _ _ _ _ E), (update_eq _ _ _ _ _ _ _ E2), put_length.
    assert (L : (j < length t)%nat) by exact (nth_lt _ _ _ E).
    rewrite nth_error_app1 in E2 by exact L. pose proof (eq_trans (eq_sym E) E2) as Q. injection Q as <-. rewrite put_app by exact L. auto.
  - exists t. destruct H as (-> & d & n & x & b & x' & U & H). apply usable_ext in U. split; [split; [reflexivity|]|auto].
    exists d, n, x, b, x'. auto.
  - exists t. destruct H as (-> & d & n & x & U & H). apply usable_ext in U. split; [split; [reflexivity|]|]; eauto.
  - exists t. destruct H as (-> & d & n & x & b & x' & U & H). apply usable_ext in U. split; [split; [reflexivity|]|auto].
    exists d, n, x, b, x'. auto.
  - exists t. destruct H as (-> & d & n & x & b & x' & U & H). apply usable_ext in U. split; [split; [reflexivity|]|auto].
    exists d, n, x, b, x'. auto.
  - exists t. destruct H as (-> & d & n & x & U & H). apply usable_ext in U. split; [split; [reflexivity|]|]; eauto.
Qed.

(** ** Changing what a handle holds *)

Definition writes (o : op) : bool := match o with Insert (VStr _ | VInt _) _ | Set_ (VStr _ | VInt _) _ | Erase (VStr _ | VInt _) => true | _ => false end.

Lemma iter_arr vs i : (i <= length vs)%nat -> iter_ans (VArr vs) i <> A_bad.
Proof.
  intros H. unfold iter_ans. cbn [h_end]. destruct (Nat.eqb_spec i (length vs)); [discriminate|].
  unfold h_deref. destruct (nth_error vs i) eqn:E; [discriminate|]. apply nth_error_None in E. lia.
Qed.
Lemma list_insert_len {A} i (x : A) l : length (list_insert i x l) = S (length l).
Proof. revert i. induction l as [|y l IH]; intros [|i]; cbn; try reflexivity. now rewrite IH. Qed.
Lemma list_set_len {A} i (x : A) l : length (list_set i x l) = length l.
Proof. revert i. induction l as [|y l IH]; intros [|i]; cbn; try reflexivity. now rewrite IH. Qed.
Lemma list_erase_len {A} i (l : list A) : (i < length l)%nat -> S (length (list_erase i l)) = length l.
Proof. revert i. induction l as [|y l IH]; intros [|i] H; cbn in *; try lia. rewrite IH; lia. Qed.

Lemma not_bad v o : heap_value v -> writes o = true -> snd (run_op v o) <> A_bad.
Proof.
  intros H W. destruct v as [fs|vs|s|z|d|b|].
  1:{ destruct (obj_op fs o (heap_okmap _ H)) as (fs' & _ & _ & St). intros B. rewrite B in St. clear B.
      destruct o as [k x|k x|k| | | | | | | | | | | | | | | | | | | | | | | |]; try discriminate W; destruct k; try discriminate W; cbn [map_step] in St.
      - destruct St as [A B]. destruct (Z.le_gt_cases (zlen s) 65535) as [L|L].
        + destruct (A L) as [_ C]. discriminate C.
        + destruct (B ltac:(lia)) as (_ & e & C & _). discriminate C.
      - destruct St as (_ & e & C & _). discriminate C.
      - destruct (the_map fs s); [destruct St as [_ C]; discriminate C|]. destruct St as (_ & e & C & _). discriminate C.
      - destruct St as (_ & e & C & _). discriminate C.
      - destruct St as [_ C]. destruct (the_map fs s); [|discriminate C].
        destruct C as [(k' & x & C & _)|[C _]]; discriminate C.
      - destruct St as (_ & e & C & _). discriminate C. }
  1:{ destruct o as [k x|k x|k| | | | | | | | | | | | | | | | | | | | | | | |]; try discriminate W; destruct k as [| |s|z| | |]; try discriminate W;
        cbn [run_op h_insert h_set h_erase h_erase_key h_erase_idx h_fields h_elements].
      - destruct (65535 <? zlen s); discriminate.
      - pose proof (Z.mod_pos_bound z (2 ^ 64) ltac:(lia)) as B. destruct (Z.ltb_spec (zlen vs) (z mod 2 ^ 64)); [discriminate|].
        cbn [bind mutated snd]. apply iter_arr. rewrite list_insert_len. unfold zlen in *. lia.
      - destruct (65535 <? zlen s); discriminate.
      - pose proof (Z.mod_pos_bound z (2 ^ 64) ltac:(lia)) as B. destruct (Z.leb_spec (zlen vs) (z mod 2 ^ 64)); [discriminate|].
        cbn [bind mutated snd]. apply iter_arr. rewrite list_set_len. unfold zlen in *. lia.
      - discriminate.
      - pose proof (Z.mod_pos_bound z (2 ^ 64) ltac:(lia)) as B. destruct (Z.leb_spec (zlen vs) (z mod 2 ^ 64)); cbn [bind mutated snd].
        + apply iter_arr. lia.
        + apply iter_arr. pose proof (list_erase_len (Z.to_nat (z mod 2 ^ 64)) vs) as L. unfold zlen in *. lia. }
  all: destruct o as [k x|k x|k| | | | | | | | | | | | | | | | | | | | | | | |]; try discriminate W; destruct k as [| |k|z'| | |]; try discriminate W;
    cbn [run_op h_insert h_set h_erase h_erase_key h_erase_idx h_fields h_elements bind mutated snd];
    try destruct (65535 <? zlen k); discriminate.
Qed.

Lemma key_writes (set : bool) p x : writes ((if set then Set_ else Insert) (key_value p) x) = true.
Proof. destruct set, p; reflexivity. Qed.
Lemma key_mutates o : writes o = true -> mutates o = true.
Proof. destruct o; try discriminate; reflexivity. Qed.
Lemma key_in_range p : place_ok p -> key_ok (key_value p).
Proof. destruct p as [k|i]; unfold place_ok, key_value, key_ok; [auto|]. intros H. destruct (Z.ltb_spec i (2 ^ 63)); lia. Qed.
Lemma put_call_ok (set : bool) p x : place_ok p -> heap_value x -> good_all x ->
  pcall_ok (Do ((if set then Set_ else Insert) (key_value p) x)).
Proof.
  intros P H G. pose proof (key_in_range p P) as K.
  assert (KV : heap_value (key_value p)).
  { destruct p as [k|i]; constructor; [apply P|]. exact K. }
  assert (KG : good_all (key_value p)) by (destruct p; constructor; exact I).
  destruct set; cbn [pcall_ok op_ok op_values]; repeat (split; [auto|]); [exact I|].
  destruct p as [k|i]; [apply P|exact I].
Qed.

Lemma shape_same d x y : snd y = snd x -> shape d x -> shape d y.
Proof. intros E. unfold shape. rewrite E. auto. Qed.
Lemma do_same m x o b x' : pstep m x (Do o) b x' -> snd x' = snd x.
Proof. destruct x as [v fin]. cbn [pstep]. destruct fin; intros [-> _]; reflexivity. Qed.

Lemma written p x o : stands p x -> writes o = true -> pcall_ok (Do o) ->
  exists x', pstep run_op x (Do o) (P_ans (snd (p_mutate p o))) x' /\ stands (fst (p_mutate p o)) x' /\
    snd x' = snd x /\ snd (p_mutate p o) <> A_bad.
Proof.
  intros S W OK. destruct (step_ok p x (Do o) S OK) as (x' & St & S').
  assert (E : p_call p (Do o) = (fst (p_mutate p o), P_ans (snd (p_mutate p o)))).
  { cbn [p_call]. assert (D : p_do p o = p_mutate p o) by (destruct o; try discriminate W; reflexivity).
    rewrite D. destruct (p_mutate p o); reflexivity. }
  rewrite E in *. cbn [fst snd] in *. exists x'. split; [exact St|]. split; [exact S'|].
  split; [exact (do_same _ _ _ _ _ St)|]. destruct p as [v|bs m e]; cbn [p_mutate].
  - assert (N : snd (run_op v o) <> A_bad).
    { apply not_bad; [|exact W]. destruct S as (H & _ & P). subst x. exact H. }
    destruct (run_op v o). exact N.
  - discriminate.
Qed.
Lemma coded_out s a : a <> A_bad -> coded (s, err_handler (out_of a)) = (s, R_code (code_of (P_ans a))).
Proof. intros N. destruct a; try reflexivity; [|contradiction]. cbn. rewrite handle_code. reflexivity. Qed.
Lemma form_case {A} (d : form) (x y : A) : match d with FBuffer => x | _ => y end = if form_eqb d FBuffer then x else y.
Proof. destruct d; reflexivity. Qed.

Lemma mutate_ok s t f i o : agree s t -> live t f i -> writes o = true -> pcall_ok (Do o) ->
  exists t', changed run_op t f i (Do o) (snd (coded (mutate f s i o))) t' /\ agree (fst (coded (mutate f s i o))) t'.
Proof.
  intros M (d & n & x & U) W OK. destruct (looked _ _ _ _ _ _ _ M U) as (ty & p & Et & Es & S & Sh & _ & Tk & X).
  unfold mutate, access, changed. rewrite X. rewrite form_case.
  destruct (form_eqb d FBuffer) eqn:B.
  - exists t. split; [|exact M]. exists d, n, x. rewrite B. auto.
  - destruct (written p x o S W OK) as (x' & St & S' & F & N). destruct (p_mutate p o) as [p' a]. cbn [fst snd] in *.
    rewrite (coded_out _ _ N). exists (update t i x'). split.
    + exists d, n, x. rewrite B. split; [exact U|]. exists (P_ans a), x'. auto.
    + cbn [fst]. exact (stored _ _ _ _ _ _ _ _ _ M Et S' (shape_same d x x' F Sh)).
Qed.

Lemma has_lookup fs k : heap_value (VObj fs) ->
  h_has_key (VObj fs) k = Ok (match lookup k fs with Some _ => true | None => false end).
Proof.
  intros H. destruct (obj_op fs (Has k) (heap_okmap _ H)) as (fs' & _ & _ & _ & St). cbn [run_op] in St.
  unfold answered in St. unfold h_has_key in *. cbn [h_fields bind mutated snd] in *. injection St as ->. reflexivity.
Qed.

(** What is left of an argument taken. *)
Lemma taken_left set p dst xd a d q y : stands dst xd -> stands q y -> is_finalized dst = false ->
  (forall k, set = false -> p = Named k -> (forall e, a <> A_err e) -> exists fs, dst = PHeap (VObj fs)) ->
  stands (taken set p dst a d q) (left_of set p xd (P_ans a) d y).
Proof.
  intros Sd Sq F OB. pose proof (stands_moved q y Sq) as G. unfold taken, left_of. rewrite <- (stands_shape q y Sq).
  destruct q as [v|bs m e]; cbn [is_finalized]; [|exact Sq].
  destruct dst as [w|]; [|discriminate F]. rewrite <- (stands_shape _ _ Sd). cbn [is_finalized].
  assert (D : forall d', d' <> FPacket ->
     stands (match a with
             | A_err _ => PHeap v
             | _ => match set, p with false, Named k => match h_has_key w k with Ok false => PHeap v | _ => p_moved (PHeap v) end
                    | _, _ => p_moved (PHeap v) end end)
            (if is_error (P_ans a) then y else match set, p, fst xd with
              | false, Named k, VObj fs => match lookup k fs with Some _ => gone y | None => y end | _, _, _ => gone y end)).
  { intros _ _. assert (X : xd = (w, false)) by apply Sd. subst xd. cbn [fst].
    destruct (is_error (P_ans a)) eqn:IE; [destruct a; try discriminate IE; exact Sq|].
    assert (NE : forall e, a <> A_err e) by (intros e ->; discriminate IE).
    assert (C : stands (match set, p with false, Named k => match h_has_key w k with Ok false => PHeap v | _ => p_moved (PHeap v) end
                    | _, _ => p_moved (PHeap v) end) (match set, p, w with
              | false, Named k, VObj fs => match lookup k fs with Some _ => gone y | None => y end | _, _, _ => gone y end)).
    { destruct set; [exact G|]. destruct p as [k|i]; [|exact G]. destruct (OB k eq_refl eq_refl NE) as (fs & W). injection W as ->.
      rewrite has_lookup by apply Sd. destruct (lookup k fs); assumption. }
    destruct a; try exact C. discriminate IE. }
  destruct d; [exact (D FHeap ltac:(discriminate))|exact (D FBuffer ltac:(discriminate))|exact G].
Qed.
Lemma left_shape set p xd b d y : snd (left_of set p xd b d y) = snd y.
Proof.
  unfold left_of. destruct (snd y) eqn:E; [exact E|].
  destruct d; [| |destruct (snd xd); exact E];
    (destruct (is_error b); [exact E|]; destruct set; [exact E|]; destruct p; [|exact E]; destruct (fst xd); try exact E; destruct (lookup _ _); exact E).
Qed.
Lemma insert_named v k x : (forall e, snd (run_op v (Insert (VStr k) x)) <> A_err e) -> exists fs, v = VObj fs.
Proof.
  intros N. destruct v; eauto; exfalso; cbn [run_op h_insert h_fields bind] in N;
    destruct (65535 <? zlen k); exact (N _ eq_refl).
Qed.
Lemma update_same (t : astate) j ty d n x : nth_error t j = Some (ty, Some (d, n, x)) -> update t j x = t.
Proof. intros E. rewrite (update_eq _ _ _ _ _ _ _ E). apply put_same. exact E. Qed.

Lemma put_ok s t f (set take : bool) i p j : agree s t -> live t f i -> live t f j -> i <> j -> place_ok p ->
  exists t', astep run_op t (Put f set take i p j) (snd (coded (put_dart f s set take i p j))) t' /\
    agree (fst (coded (put_dart f s set take i p j))) t'.
Proof.
  intros M (d & n & x & U) (d' & n' & y & V) NE OK.
  destruct (looked _ _ _ _ _ _ _ M U) as (ty & dst & Et & Es & S & Sh & _ & _ & X).
  destruct (looked _ _ _ _ _ _ _ M V) as (ty' & q & Et' & Es' & Sq & Shq & _ & _ & Y).
  unfold put_dart, access. rewrite X, Y, form_case. cbn [astep].
  destruct (form_eqb d FBuffer) eqn:B.
  { exists t. split; [|exact M]. exists d, n, x, d', n', y. rewrite B. auto. }
  destruct (counter_eqb n n') eqn:C.
  2:{ exists t. assert (E : forall o : cstate * aans, o = (s, R_code (match f with Generic => type_code | _ => client_code end)) ->
        (exists d0 n0 x0 d'0 n'0 y0, usable t f i d0 n0 x0 /\ usable t f j d'0 n'0 y0 /\
          (if form_eqb d0 FBuffer then snd o = R_code client_code /\ t = t
           else if negb (counter_eqb n0 n'0) then snd o = R_code (match f with Generic => type_code | _ => client_code end) /\ t = t
           else exists b x', pstep run_op x0 (Do ((if set then Set_ else Insert) (key_value p) (fst y0))) b x' /\
             snd o = R_code (code_of b) /\ t = update (update t i x') j (if take then left_of set p x0 b d'0 y0 else y0))) /\ agree (fst o) t).
      { intros o ->. split; [|exact M]. exists d, n, x, d', n', y. rewrite B, C. cbn [negb snd]. auto. }
      apply E. destruct f; reflexivity. }
  destruct (definalize_yields q y Sq) as (q' & D & S').
  assert (Q : q' = PHeap (fst y)).
  { destruct q' as [w|]; [|destruct S' as (_ & _ & F & _); discriminate F]. f_equal.
    destruct S' as (_ & _ & F). congruence. }
  rewrite D, Q.
  set (o := (if set then Set_ else Insert) (key_value p) (fst y)).
  assert (HY : heap_value (fst y) /\ good_all (fst y)) by (split; apply Sq).
  destruct (written dst x o S (key_writes set p (fst y)) (put_call_ok set p _ OK (proj1 HY) (proj2 HY))) as (x' & St & Sx & F & N).
  destruct dst as [v|bs m e].
  - destruct (p_mutate (PHeap v) o) as [dst' a] eqn:PM. cbn [fst snd] in *.
    assert (II : forall z, err_handler (err_handler z) = err_handler z) by (intros []; reflexivity). rewrite II.
    rewrite (coded_out _ _ N). cbn [fst snd]. eexists. split.
    + exists d, n, x, d', n', y. rewrite B, C. cbn [negb]. split; [exact U|]. split; [exact V|].
      exists (P_ans a), x'. split; [exact St|]. split; reflexivity.
    + pose proof (stored _ _ _ _ _ _ _ _ _ M Et Sx (shape_same d x x' F Sh)) as M2.
      assert (Et2 : nth_error (update t i x') j = Some (ty', Some (d', n', y))).
      { rewrite (update_nth _ _ _ _ _ _ _ _ Et). destruct (Nat.eqb_spec i j); [contradiction|exact Et']. }
      apply (stored _ _ _ _ _ _ _ _ _ M2 Et2).
      * destruct take; [|exact Sq]. apply taken_left; [exact S|exact Sq|reflexivity|].
        intros k -> -> NEr. cbn [p_mutate] in PM.
        assert (A : snd (run_op v o) = a) by (destruct (run_op v o); injection PM as _ ->; reflexivity).
        destruct (insert_named v k (fst y)) as (fs & ->); [|eauto]. intros e0 Ee. apply (NEr e0). rewrite <- A. exact Ee.
      * destruct take; [|exact Shq]. eapply shape_same; [apply left_shape|exact Shq].
  - assert (Fx : snd x = true) by apply S. cbn [p_mutate fst snd] in *.
    exists t. split; [|exact M]. exists d, n, x, d', n', y. rewrite B, C. cbn [negb]. split; [exact U|]. split; [exact V|].
    exists (P_ans (A_err state_error)), x'. split; [exact St|]. split; [reflexivity|].
    assert (x' = x) as ->.
    { destruct x as [v fin]. cbn [snd] in Fx. subst fin. cbn [pstep] in St. apply St. }
    rewrite (update_same _ _ _ _ _ _ Et).
    assert (L : (if take then left_of set p x (P_ans (A_err state_error)) d' y else y) = y).
    { destruct take; [|reflexivity]. unfold left_of. rewrite Fx. cbn [is_error]. destruct (snd y), d'; reflexivity. }
    rewrite L. symmetry. exact (update_same _ _ _ _ _ _ Et').
Qed.

(** ** Reading *)

Lemma has_answer p x k : stands p x ->
  exists b, pstep run_op x (Do (Has k)) b x /\
    ((exists q, p_has_key p k = Ok q /\ b = P_ans (A_bool q)) \/ (exists e, p_has_key p k = Throw e /\ b = P_ans (A_err e))).
Proof.
  intros S. destruct (step_ok p x (Do (Has k)) S) as (x' & St & _); [cbn; auto|]. cbn [p_call p_do p_read snd] in St.
  destruct x as [v fin].
  assert (E : ans_of (q <- p_has_key p k ;; Ok (A_bool q)) = snd (run_op v (Has k)) /\ x' = (v, fin)).
  { cbn [pstep] in St. destruct fin; cbn [mutates depends_on_form] in St.
    - destruct St as [-> A]. specialize (A eq_refl). split; [congruence|reflexivity].
    - destruct St as [-> A]. split; [congruence|]. cbn [run_op]. unfold answered.
      destruct (h_has_key v k); reflexivity. }
  destruct E as [E ->]. eexists. split; [exact St|]. revert E. cbn [run_op]. unfold answered, h_has_key.
  destruct (p_has_key p k) as [q|e| | |]; cbn [bind ans_of]; intros E; eauto; exfalso; destruct v; discriminate E.
Qed.
Lemma size_answer p x : stands p x ->
  exists b, pstep run_op x (Do Size) b x /\
    ((exists q, p_size p = Ok q /\ b = P_ans (A_size q)) \/ (exists e, p_size p = Throw e /\ b = P_ans (A_err e))).
Proof.
  intros S. destruct (step_ok p x (Do Size) S) as (x' & St & _); [cbn; auto|]. cbn [p_call p_do p_read snd] in St.
  destruct x as [v fin].
  assert (E : ans_of (q <- p_size p ;; Ok (A_size q)) = snd (run_op v Size) /\ x' = (v, fin)).
  { cbn [pstep] in St. destruct fin; cbn [mutates depends_on_form] in St.
    - destruct St as [-> A]. specialize (A eq_refl). split; [congruence|reflexivity].
    - destruct St as [-> A]. split; [congruence|]. cbn [run_op]. unfold answered. destruct (h_size v); reflexivity. }
  destruct E as [E ->]. eexists. split; [exact St|]. revert E. cbn [run_op]. unfold answered.
  destruct (p_size p) as [q|e| | |]; cbn [bind ans_of]; intros E; eauto; exfalso; destruct v; discriminate E.
Qed.
Lemma scalar_answer p x ty : stands p x -> readable ty = true ->
  exists b, pstep run_op x (Read ty) b x /\
    ((exists v, p_scalar ty p = Ok v /\ b = P_ans (A_value v)) \/ (exists e, p_scalar ty p = Throw e /\ b = P_ans (A_err e))).
Proof.
  intros S R. assert (T : scalar_type ty = true) by (destruct ty; try discriminate R; reflexivity).
  rewrite (stands_scalar p x ty S T). destruct x as [v fin]. cbn [fst pstep].
  eexists. split; [split; reflexivity|]. unfold h_scalar. rewrite (vtype_h v).
  destruct (utype_eqb (h_type v) ty); eauto.
Qed.

(** ** One call *)

Lemma coded_ended i ty t r res : ended i ty t r res -> snd res = err_handler (snd res) ->
  match r with
  | Made d n x => snd (coded res) = R_code no_error /\ agree (fst (coded res)) (put i (ty, Some (d, n, x)) t)
  | Failed z => snd (coded res) = R_code z /\ agree (fst (coded res)) t
  end.
Proof.
  destruct res as [s' o], r; cbn [ended snd fst coded]; intros H E; rewrite E.
  - destruct H as [-> A]. split; [reflexivity|exact A].
  - destruct H as (_ & -> & A). split; [reflexivity|exact A].
Qed.
Lemma access_handled f s i k : snd (access f s i k) = err_handler (snd (access f s i k)).
Proof. unfold access. destruct (unwrap _ _ _ _ _ _) as [s' o]. destruct o; reflexivity. Qed.
Lemma init_handled s i d rc : snd (init s i d rc) = err_handler (snd (init s i d rc)).
Proof. unfold init. destruct (construct _ _ _ _) as [s' o]. destruct o; reflexivity. Qed.
Lemma make_handled s i m : snd (make s i m) = err_handler (snd (make s i m)).
Proof.
  destruct m as [d rc|d rc v|f j|f j|f j pl|j|j addr|f j addr|f j]; cbn [make]; try apply access_handled; try apply init_handled;
    try (destruct f; apply access_handled).
  pose proof (init_handled s i d rc) as I. destruct (init s i d rc) as [s1 o]. cbn [snd] in *.
  destruct o as [[|z|z]|e|]; try exact I. destruct (unwrap_as _ _ _ _) as [s2 o2]. destruct o2; reflexivity.
Qed.

Theorem abi_step s t c : agree s t -> acall_ok c -> proper t c ->
  exists t', astep run_op t c (snd (a_call s c)) t' /\ agree (fst (a_call s c)) t'.
Proof.
  intros M OK P.
  assert (ARG : forall f i, live t f i -> arg_ok s f i = true) by (intros; eapply live_arg; eauto).
  assert (SRC : forall m, source_live t m -> source_ok s m = true).
  { intros m L. destruct m; cbn [source_live source_ok] in *; auto. }
  unfold a_call. destruct c as [d|i m|m|f i|f set take i p j|f set i p v|f i p|f i k|f i ty|f i ty|f i|f i|i].
  - exists (t ++ [(d, None)]). split; [split; reflexivity|]. apply side_app; [exact M|]. split; reflexivity.
  - destruct P as (HM & SL & ty & E & TY & FT).
    assert (C : compiles s (Construct i m) = true).
    { cbn [compiles]. rewrite HM, (SRC _ SL). unfold destination_ok. destruct (dead_of _ _ _ _ M E) as (g & ->). cbn [v_type andb].
      destruct (any_destination m); [reflexivity|]. rewrite (TY eq_refl). apply form_eqb_refl. }
    rewrite C. destruct (make_ok s t i m ty M E HM SL OK TY FT) as (r & t1 & Mk & En).
    apply coded_ended in En; [|apply make_handled].
    destruct r as [d n x|z]; destruct En as [En A]; eexists; (split; [|exact A]); exists ty; eexists; exists t1;
      (split; [exact E|]); (split; [exact Mk|]); cbn beta iota; auto.
  - destruct P as (HM & SL).
    assert (C : compiles s (Return_new m) = true) by (cbn [compiles]; rewrite HM, (SRC _ SL); reflexivity).
    rewrite C. cbv zeta.
    assert (L : length s = length t) by (clear -M; induction M; cbn; congruence). rewrite L.
    set (s0 := s ++ [mkvar (returns m) None None]). set (t0 := t ++ [(returns m, @None content)]).
    assert (M0 : agree s0 t0) by (apply side_app; [exact M|split; reflexivity]).
    assert (E0 : nth_error t0 (length t) = Some (returns m, None)).
    { unfold t0. rewrite nth_error_app2, Nat.sub_diag; [reflexivity|lia]. }
    assert (SL0 : source_live t0 m) by (destruct m; cbn [source_live] in *; try exact I; apply live_ext; exact SL).
    destruct (make_ok s0 t0 (length t) m (returns m) M0 E0 HM SL0 OK (fun _ => eq_refl)) as (r & t1 & Mk & En).
    { intros d F. assert (Q : d = returns m \/ returns m = FPacket).
      { destruct m; auto; destruct f; cbn in *; auto. }
      destruct Q as [->| ->]; [apply fits_refl|reflexivity]. }
    destruct (makes_ext _ _ _ _ _ Mk) as (t2 & Mk2 & -> & L2).
    pose proof (make_handled s0 (length t) m) as Hd.
    destruct (make s0 (length t) m) as [s1 o]. destruct r as [d n x|z]; cbn [ended fst snd] in *.
    + destruct En as [Eo A]. rewrite <- Hd in Eo. subst o. rewrite <- L2, put_last in A.
      eexists. split; [split; [reflexivity|]; eexists; exists t2; split; [exact Mk2|]; cbn beta iota; reflexivity|]. exact A.
    + destruct En as (Z0 & Eo & A). rewrite <- Hd in Eo. subst o.
      assert (En : nth_error (t2 ++ [(returns m, None)]) (length t) = Some (returns m, None)).
      { rewrite nth_error_app2, <- L2, Nat.sub_diag; [reflexivity|lia]. }
      destruct (dead_of _ _ _ _ A En) as (g & Ns).
      assert (A' : agree (put (length t) (mkvar (returns m) None None) s1) (t2 ++ [(returns m, None)])).
      { rewrite <- (put_same _ _ _ En). apply side_put; [exact A|]. split; reflexivity. }
      pose proof (init_ok _ _ (length t) (returns m) (returns m) 1 A' En (fits_refl _)) as In.
      pose proof (init_handled (put (length t) (mkvar (returns m) None None) s1) (length t) (returns m) 1) as Ih.
      destruct (init (put (length t) (mkvar (returns m) None None) s1) (length t) (returns m) 1) as [s2 o2].
      cbn [counter_of Z.eqb Pos.eqb ended fst snd] in In, Ih. destruct In as [Eo2 A2]. rewrite <- Ih in Eo2. subst o2.
      rewrite <- L2, put_last in A2. destruct m as [d rc|d rc v|f j|f j|f j pl|j|j addr|f j addr|f j].
      all: destruct z as [|z|z]; [contradiction| |]; cbn [fst snd];
        (eexists; split; [split; [reflexivity|]; eexists; exists t2; split; [exact Mk2|]; cbn beta iota; reflexivity|]); assumption.
  - cbn [compiles]. rewrite (ARG _ _ P). destruct P as (d & n & x & U).
    destruct (looked _ _ _ _ _ _ _ M U) as (ty & p & Et & Es & S & Sh & _ & _ & X).
    unfold access. rewrite X. cbn [err_handler coded fst snd]. exists (put i (ty, None) t). split.
    + exists ty, d, n, x. auto.
    + unfold set_obj. rewrite Es. apply side_put; [exact M|]. split; reflexivity.
  - destruct P as (C & NE & A & B). cbn [compiles]. rewrite C, (ARG _ _ A), (ARG _ _ B). cbn [andb].
    destruct (Nat.eqb_spec i j); [contradiction|]. apply put_ok; assumption.
  - destruct P as (C & PV & A). cbn [compiles]. rewrite C, PV, (ARG _ _ A). cbn [andb astep].
    apply mutate_ok; [exact M|exact A|apply key_writes|]. destruct OK as (O1 & O2 & O3). apply put_call_ok; assumption.
  - destruct P as (C & A). cbn [compiles]. rewrite C, (ARG _ _ A). cbn [andb astep].
    apply mutate_ok; [exact M|exact A|destruct p; reflexivity|]. cbn [pcall_ok op_ok op_values]. repeat (split; [|auto]).
    destruct p as [k|z]; [exact I|]. apply (key_in_range (Index z)). exact OK.
  - cbn [compiles]. rewrite (ARG _ _ P). destruct P as (d & n & x & U). exists t. split; [|exact M]. cbn [astep snd]. split; [reflexivity|].
    destruct (looked _ _ _ _ _ _ _ M U) as (ty & p & Et & Es & S & Sh & _ & _ & X).
    destruct (has_answer p x k S) as (b & St & R). exists d, n, x, b, x. split; [exact U|]. split; [exact St|].
    unfold look. rewrite X. destruct R as [(q & -> & ->)|(e & -> & ->)]; reflexivity.
  - destruct P as (R & NS & A). cbn [compiles]. rewrite R, (ARG _ _ A).
    assert (NSb : utype_eqb ty T_string = false) by (destruct ty; try reflexivity; contradiction). rewrite NSb. cbn [andb negb].
    destruct A as (d & n & x & U). exists t. split; [|exact M]. cbn [astep snd]. split; [reflexivity|].
    destruct (looked _ _ _ _ _ _ _ M U) as (ty' & p & Et & Es & S & Sh & _ & _ & X).
    destruct (scalar_answer p x ty S R) as (b & St & Q). exists d, n, x, b, x. split; [exact U|]. split; [exact St|].
    unfold look. rewrite X. destruct Q as [(q & -> & ->)|(e & -> & ->)]; [reflexivity|]. cbn. rewrite handle_code. reflexivity.
  - destruct P as (R & A). cbn [compiles]. rewrite R, (ARG _ _ A). cbn [andb].
    destruct A as (d & n & x & U). exists t. split; [|exact M]. cbn [astep snd]. split; [reflexivity|].
    destruct (looked _ _ _ _ _ _ _ M U) as (ty' & p & Et & Es & S & Sh & _ & _ & X).
    destruct (scalar_answer p x ty S R) as (b & St & Q). exists d, n, x, b, x. split; [exact U|]. split; [exact St|].
    unfold look. rewrite X. destruct Q as [(q & -> & ->)|(e & -> & ->)]; [reflexivity|]. destruct ty; reflexivity.
  - cbn [compiles]. rewrite (ARG _ _ P). destruct P as (d & n & x & U). exists t. split; [|exact M]. cbn [astep snd]. split; [reflexivity|].
    destruct (looked _ _ _ _ _ _ _ M U) as (ty & p & Et & Es & S & Sh & _ & _ & X).
    destruct (size_answer p x S) as (b & St & R). exists d, n, x, b, x. split; [exact U|]. split; [exact St|].
    unfold look. rewrite X. destruct R as [(q & -> & ->)|(e & -> & ->)]; reflexivity.
  - cbn [compiles]. rewrite (ARG _ _ P). destruct P as (d & n & x & U). exists t. split; [|exact M]. cbn [astep snd]. split; [reflexivity|].
    destruct (looked _ _ _ _ _ _ _ M U) as (ty & p & Et & Es & S & Sh & _ & _ & X).
    exists d, n, x, (P_type (vtype (fst x))), x. split; [exact U|]. split; [destruct x; split; reflexivity|].
    unfold look. rewrite X. rewrite (stands_type p x S). destruct (vtype (fst x)); reflexivity.
  - cbn [compiles]. rewrite (ARG _ _ P). destruct P as (d & n & x & U). exists t. split; [|exact M]. cbn [astep snd]. split; [reflexivity|].
    destruct (looked _ _ _ _ _ _ _ M U) as (ty & p & Et & Es & S & Sh & _ & _ & X).
    exists d, n, x, (P_flag (snd x)), x. split; [exact U|]. split; [destruct x; split; reflexivity|].
    unfold look. rewrite X. rewrite (stands_shape p x S). reflexivity.
Qed.

(** ** Whole programs *)

Theorem abi_run cs : forall s t, agree s t -> careful run_op t cs ->
  exists t', asteps run_op t cs (snd (a_run s cs)) t' /\ agree (fst (a_run s cs)) t'.
Proof.
  induction cs as [|c cs IH]; intros s t M C; cbn [a_run].
  - exists t. split; [constructor|exact M].
  - destruct C as (P & OK & C). destruct (abi_step s t c M OK P) as (t1 & St & M1).
    destruct (a_call s c) as [s1 a]. cbn [fst snd] in *. destruct (IH s1 t1 M1 (C _ _ St)) as (t2 & Sts & M2).
    destruct (a_run s1 cs) as [s2 l]. cbn [fst snd] in *. exists t2. split; [econstructor; eassumption|exact M2].
Qed.

Lemma astep_defined m s c a s' : astep m s c a s' -> a <> R_bad /\ a <> R_static.
Proof.
  assert (D : forall z, R_code z <> R_bad /\ R_code z <> R_static) by (intros; split; discriminate).
  destruct c as [d|i k|k|f i|f set take i p j|f set i p v|f i p|f i k|f i ty|f i ty|f i|f i|i]; cbn [astep]; intros H.
  - destruct H as [-> _]. split; discriminate.
  - destruct H as (ty & r & s1 & _ & _ & R). destruct r; destruct R as [-> _]; apply D.
  - destruct H as [-> _]. split; discriminate.
  - destruct H as (ty & d & n & x & _ & _ & -> & _). apply D.
  - destruct H as (d & n & x & d' & n' & y & _ & _ & H). destruct (form_eqb d FBuffer); [destruct H as [-> _]; apply D|].
    destruct (negb _); [destruct H as [-> _]; apply D|]. destruct H as (b & x' & _ & -> & _). apply D.
  - destruct H as (d & n & x & _ & H). destruct (form_eqb d FBuffer); [destruct H as [-> _]; apply D|]. destruct H as (b & x' & _ & -> & _). apply D.
  - destruct H as (d & n & x & _ & H). destruct (form_eqb d FBuffer); [destruct H as [-> _]; apply D|]. destruct H as (b & x' & _ & -> & _). apply D.
  - destruct H as (_ & d & n & x & b & x' & _ & _ & ->). split; discriminate.
  - destruct H as (_ & d & n & x & b & x' & _ & _ & ->). destruct b as [[]| |]; split; discriminate.
  - destruct H as (_ & d & n & x & b & x' & _ & _ & ->). destruct b as [[]| |], ty; split; discriminate.
  - destruct H as (_ & d & n & x & b & x' & _ & _ & ->). split; discriminate.
  - destruct H as (_ & d & n & x & b & x' & _ & _ & H). destruct b; try contradiction. rewrite H. split; discriminate.
  - destruct H as (_ & d & n & x & b & x' & _ & _ & H). destruct b; try contradiction. rewrite H. split; discriminate.
Qed.
