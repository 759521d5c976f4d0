(** Programs with the iterators of the C interface follow the machine of SpecIter.v. *)

From Coq Require Import ZArith List Bool Lia.
From Verif Require Import Base BaseFacts Keys Wire Read Enc ReadFacts Spec Buf BufFacts IterFacts HeapOps SpecOps HeapRun HistFacts SpecPacket Packet PacketFacts PacketRun
  Compare NestedFacts SpecWrap Wrap WrapFacts WrapTypes WrapRun PropsHeap SpecAbi Abi AbiRun SpecIter Iter.
Import ListNotations.
Open Scope Z_scope.

(** ** Members through iterators *)

Lemma rep_key bs m e fs i k x : represents bs m e (VObj fs) -> 0 <= i -> nth_error fs (Z.to_nat i) = Some (k, x) ->
  exists e', b_deref_key m e i = Ok e' /\ represents bs m e' (VStr k).
Proof.
  intros R Hi N. apply rep_object in R. destruct R as (o & -> & HV & H & F & A).
  cbn [b_deref_key b_object b_type simplify_type fst snd Z.eqb R_object R_array].
  pose proof (nth_error_split_z fs i Hi) as S. rewrite N in S. destruct S as (f1 & f2 & E & <-).
  assert (I : In (k, x) fs) by (rewrite E; apply in_elt).
  pose proof (load_key_spec m o f1 k x f2) as L. rewrite <- E in L.
  rewrite L; [|assumption|exact (fits_size _ F eq_refl)]. cbn [bind].
  eexists. split; [reflexivity|].
  pose proof (obj_slot m o f1 k x f2) as SL. rewrite <- E in SL. destruct (SL H) as (_ & Hk & _).
  pose proof (proj1 (heap_field _ _ _ HV I)) as Lk.
  assert (B : (65535 <? zlen k) = false) by (apply Z.ltb_ge; lia).
  split; [constructor; cbn [heap_node]; lia|]. cbn [fst snd]. split; [exact Hk|]. split; [cbn [Enc.fits]; lia|].
  unfold al. cbn [raw_type_of]. unfold identify_string. rewrite B. split.
  - assert (AL : alignment_of (if sso_bytes <? zlen k then R_string else R_small_string) = 2) by (destruct (sso_bytes <? zlen k); reflexivity).
    rewrite AL. rewrite Z.add_assoc. rewrite <- Z.add_mod_idemp_l by lia.
    replace ((bs + o) mod 2) with 0; [|].
    + cbn [Z.add]. unfold kpos. apply align_up_mod. lia.
    + symmetry. apply Z.mod_divide; [lia|]. apply Z.mod_divide in A; [|lia]. destruct A as (q & ->). exists (q * 4). lia.
  - destruct (sso_bytes <? zlen k); [left|right]; reflexivity.
Qed.

Lemma child_at keys p x l i y : stands p x -> children keys x = Some l -> nth_error l i = Some y ->
  exists q, p_star keys p (Z.of_nat i) = Ok q /\ stands q y.
Proof.
  intros (H & G & P) C N. unfold p_star. destruct x as [v fin]. cbn [fst snd children] in *.
  destruct keys, v as [fs|vs| | | | |]; try discriminate C; injection C as <-; rewrite nth_error_map in N.
  - destruct (nth_error fs i) as [[k w]|] eqn:E; [|discriminate N]. cbn in N. injection N as <-.
    pose proof (heap_field _ _ _ H (nth_error_In _ _ E)) as [Lk _].
    assert (HS : heap_value (VStr k)) by (constructor; cbn [heap_node]; lia).
    assert (GS : good_all (VStr k)) by (constructor; exact I).
    destruct p as [v|bs m e].
    + injection P as <- ->. unfold p_deref_key, visit. cbn [h_deref_key]. rewrite Nat2Z.id, E. cbn [bind]. eexists. split; [reflexivity|].
      split; [exact HS|]. split; [exact GS|reflexivity].
    + cbn [fst snd] in P. destruct P as [-> R]. unfold p_deref_key, visit.
      destruct (rep_key bs m e fs (Z.of_nat i) k w R) as (e' & -> & R'); [lia|rewrite Nat2Z.id; exact E|].
      cbn [bind]. eexists. split; [reflexivity|]. split; [exact HS|]. split; [exact GS|]. split; [reflexivity|exact R'].
  - destruct (nth_error fs i) as [[k w]|] eqn:E; [|discriminate N]. cbn in N. injection N as <-.
    pose proof (proj2 (heap_field _ _ _ H (nth_error_In _ _ E))) as HW.
    pose proof (proj2 (good_all_field _ _ _ G (nth_error_In _ _ E))) as GW.
    destruct p as [v|bs m e].
    + injection P as <- ->. unfold p_deref, visit. cbn [h_deref]. rewrite Nat2Z.id, E. cbn [bind]. eexists. split; [reflexivity|].
      split; [exact HW|]. split; [exact GW|reflexivity].
    + cbn [fst snd] in P. destruct P as [-> R]. unfold p_deref, visit.
      destruct (b_deref_spec bs m e _ (Z.of_nat i) w R) as (e' & -> & R'); [lia|rewrite Nat2Z.id; cbn [members]; rewrite nth_error_map, E; reflexivity|].
      cbn [bind]. eexists. split; [reflexivity|]. split; [exact HW|]. split; [exact GW|]. split; [reflexivity|exact R'].
  - destruct (nth_error vs i) as [w|] eqn:E; [|discriminate N]. cbn in N. injection N as <-.
    pose proof (heap_elem _ _ H (nth_error_In _ _ E)) as HW.
    pose proof (good_elem _ _ G (nth_error_In _ _ E)) as GW.
    destruct p as [v|bs m e].
    + injection P as <- ->. unfold p_deref, visit. cbn [h_deref]. rewrite Nat2Z.id, E. cbn [bind]. eexists. split; [reflexivity|].
      split; [exact HW|]. split; [exact GW|reflexivity].
    + cbn [fst snd] in P. destruct P as [-> R]. unfold p_deref, visit.
      destruct (b_deref_spec bs m e _ (Z.of_nat i) w R) as (e' & -> & R'); [lia|rewrite Nat2Z.id; exact E|].
      cbn [bind]. eexists. split; [reflexivity|]. split; [exact HW|]. split; [exact GW|]. split; [reflexivity|exact R'].
Qed.

Lemma begun keys p x : stands p x -> p_begin keys p = match children keys x with Some _ => Ok 0 | None => Throw type_error end.
Proof.
  intros S. unfold p_begin. rewrite (stands_type p x S). destruct x as [v fin]. destruct keys, v; reflexivity.
Qed.
Lemma stopped keys p x l : stands p x -> children keys x = Some l -> p_end keys p = Ok (zlen l).
Proof.
  intros (H & G & P) C. unfold zlen. destruct x as [v fin]. cbn [fst snd children] in *.
  destruct keys, v as [fs|vs| | | | |]; try discriminate C; injection C as <-; rewrite map_length; destruct p as [v|bs m e].
  - injection P as <- ->. reflexivity.
  - destruct P as [_ R]. cbn [fst] in R. cbn [p_end]. rewrite (key_end _ _ _ _ R). cbn [members]. rewrite zlen_map. reflexivity.
  - injection P as <- ->. reflexivity.
  - destruct P as [_ R]. cbn [fst] in R. cbn [p_end]. rewrite (b_end_members _ _ _ _ R eq_refl). cbn [members]. rewrite zlen_map. reflexivity.
  - injection P as <- ->. reflexivity.
  - destruct P as [_ R]. cbn [fst] in R. cbn [p_end]. rewrite (b_end_members _ _ _ _ R eq_refl). reflexivity.
Qed.

(** ** The relation *)

Definition ranges (o : option nat) (a : ahead) (r : range) : Prop :=
  match a with
  | Stale => r = Dangling
  | Ahead l =>
      (r = Valueless /\ o = None /\ l = []) \/
      exists src keys p x all cur, r = Walk src keys p (Z.of_nat cur) (zlen all) /\ stands p x /\ children keys x = Some all /\
        (cur <= length all)%nat /\ l = skipn cur all /\ o = (if snd x then None else Some src)
  end.
Definition walks (v : ivar) (w : option walker) : Prop :=
  match w with
  | None => i_obj v = None
  | Some (n, o, a) => exists d r, i_tags v = Some (p_id d, n_id n) /\ i_obj v = Some (d, n, r) /\ ranges o a r
  end.
Definition iagree (st : ist) (t : istate) : Prop := agree (fst st) (fst t) /\ Forall2 walks (snd st) (snd t).

Lemma poisoned l v w : walks v w -> walks (poison l v) (upset l w).
Proof.
  intros W. destruct w as [[[n o] a]|]; cbn [walks upset] in *.
  - destruct W as (d & r & T & O & R). unfold poison. rewrite O. cbn [i_tags i_obj].
    assert (Q : ranges o (match o with Some j => if among j l then Stale else a | None => a end) (poison_range l r)).
    { destruct a as [m|].
      - cbn [ranges] in R. destruct R as [(-> & -> & ->)|(src & keys & p & x & all & cur & -> & S & C & L & -> & ->)].
        + left. auto.
        + pose proof (stands_shape p x S) as F. destruct p as [v0|bs m e]; cbn [is_finalized] in F; rewrite <- F; cbn [poison_range].
          * destruct (among src l); [reflexivity|]. right. exists src, keys, (PHeap v0), x, all, cur. rewrite <- F. auto 10.
          * right. exists src, keys, (PBuf bs m e), x, all, cur. rewrite <- F. auto 10.
      - cbn [ranges] in R. subst r. cbn [poison_range]. destruct o as [j|]; [destruct (among j l)|]; reflexivity. }
    destruct o as [j|]; exists d, (poison_range l r); auto.
  - unfold poison. rewrite W. exact W.
Qed.
Lemma poisoned_all l v w : Forall2 walks v w -> Forall2 walks (map (poison l) v) (map (upset l) w).
Proof. induction 1; constructor; auto using poisoned. Qed.

Lemma range_end o l r : ranges o (Ahead l) r -> at_end r = Ok (match l with [] => true | _ => false end).
Proof.
  intros [(-> & _ & ->)|(src & keys & p & x & all & cur & -> & _ & _ & L & -> & _)]; [reflexivity|]. cbn [at_end]. f_equal.
  unfold zlen. destruct (skipn cur all) as [|y m] eqn:E.
  - assert (length (skipn cur all) = 0%nat) by (rewrite E; reflexivity). rewrite skipn_length in H. apply Z.eqb_eq. lia.
  - assert (length (skipn cur all) <> 0%nat) by (rewrite E; discriminate). rewrite skipn_length in H. apply Z.eqb_neq. lia.
Qed.
Lemma skipn_nth {A} n (l : list A) y m : skipn n l = y :: m -> nth_error l n = Some y /\ skipn (S n) l = m.
Proof.
  revert n. induction l as [|z l IH]; intros [|n] E; try discriminate E; cbn [skipn] in *.
  - injection E as -> ->. auto.
  - apply IH in E. exact E.
Qed.
Lemma range_here o y l r : ranges o (Ahead (y :: l)) r ->
  exists src keys p c e q, r = Walk src keys p c e /\ p_star keys p c = Ok q /\ stands q y /\ ranges o (Ahead l) (Walk src keys p (c + 1) e).
Proof.
  intros [(_ & _ & E)|(src & keys & p & x & all & cur & -> & S & C & L & E & Eo)]; [discriminate E|].
  destruct (skipn_nth _ _ _ _ (eq_sym E)) as [N Sk]. destruct (child_at _ _ _ _ _ _ S C N) as (q & Q & Sq).
  exists src, keys, p, (Z.of_nat cur), (zlen all), q. split; [reflexivity|]. split; [exact Q|]. split; [exact Sq|].
  right. exists src, keys, p, x, all, (Datatypes.S cur). rewrite Nat2Z.inj_succ, <- Z.add_1_r. split; [reflexivity|].
  split; [exact S|]. split; [exact C|]. split; [|split; [symmetry; exact Sk|exact Eo]].
  apply nth_error_Some. congruence.
Qed.
Lemma range_whole o l r : ranges o (Ahead l) r -> whole r = Ok r.
Proof. intros [(-> & _)|(src & keys & p & x & all & cur & -> & _)]; reflexivity. Qed.

(** ** Looking at an iterator *)

Lemma tag_switch_id R (client bad : R) d n k : tag_switch client bad Generic (Some (p_id d, n_id n)) k = k d n.
Proof. destruct d; cbn [tag_switch p_id]; apply rc_switch_id. Qed.
Lemma same_kind d n : form_eqb d d && counter_eqb n n = true.
Proof. now rewrite form_eqb_refl, counter_eqb_refl. Qed.

Lemma it_looked w t i n o a : Forall2 walks w t -> nth_error t i = Some (Some (n, o, a)) ->
  exists d r, nth_error w i = Some (mkivar (Some (p_id d, n_id n)) (Some (d, n, r))) /\ ranges o a r /\
    forall R (client bad : R) k, it_unwrap client bad w i k = k d n r.
Proof.
  intros F E. destruct (side_nth_r _ _ _ F i _ E) as ([g b] & N & d & r & T & O & Q). cbn [i_tags i_obj] in *. subst g b.
  exists d, r. split; [exact N|]. split; [exact Q|]. intros R client bad k. unfold it_unwrap. rewrite N. cbn [i_tags i_obj].
  rewrite tag_switch_id, same_kind. reflexivity.
Qed.
Lemma side_len {A B} (R : A -> B -> Prop) l m : Forall2 R l m -> length l = length m.
Proof. induction 1; cbn [length]; congruence. Qed.
Lemma it_has w t i c : Forall2 walks w t -> nth_error t i = Some c -> has_it w i = true.
Proof.
  intros F E. unfold has_it. apply Nat.ltb_lt. rewrite (side_len _ _ _ F). apply nth_error_Some. congruence.
Qed.
Lemma it_dead w t i g : Forall2 walks w t -> nth_error t i = Some None ->
  Forall2 walks (set_itags w i g) t /\ nth_error (set_itags w i g) i = Some (mkivar g None).
Proof.
  intros F E. destruct (side_nth_r _ _ _ F i _ E) as ([g0 b] & N & O). cbn [i_obj walks] in O. subst b.
  unfold set_itags. rewrite N. cbn [i_obj]. split.
  - rewrite <- (put_same t i _ E). apply side_put; [exact F|]. reflexivity.
  - rewrite (put_nth _ _ _ _ _ N), Nat.eqb_refl. reflexivity.
Qed.
Lemma it_set w t i d n r o a v : Forall2 walks w t -> nth_error w i = Some v -> i_tags v = Some (p_id d, n_id n) -> ranges o a r ->
  Forall2 walks (set_iobj w i (Some (d, n, r))) (put i (Some (n, o, a)) t).
Proof.
  intros F N T R. unfold set_iobj. rewrite N, T. apply side_put; [exact F|]. exists d, r. auto.
Qed.
Lemma it_clear w t i v : Forall2 walks w t -> nth_error w i = Some v -> Forall2 walks (set_iobj w i None) (put i None t).
Proof. intros F N. unfold set_iobj. rewrite N. apply side_put; [exact F|]. reflexivity. Qed.

Lemma constructed w i d n r : nth_error w i = Some (mkivar (Some (p_id d, n_id n)) None) ->
  it_construct w i d n r = match r with
    | Ok x => (set_iobj w i (Some (d, n, x)), Code no_error)
    | Throw e => (w, Thrown e)
    | _ => (w, Bad)
    end.
Proof.
  intros N. unfold it_construct, itags_of. rewrite N. cbn [i_tags]. rewrite tag_switch_id, same_kind. reflexivity.
Qed.

(** ** Every call *)

Lemma packet_var s t x c : agree s t -> nth_error t x = Some (FPacket, c) -> is_packet s x = true.
Proof.
  intros M E. unfold is_packet. destruct (side_nth_r _ _ _ M x _ E) as (v & -> & T & _). cbn [fst] in T. rewrite T. reflexivity.
Qed.

(** dart_iterator_get_err, into a variable that holds nothing *)
Lemma get_ok s w t u x i n o l : agree s t -> Forall2 walks w u ->
  nth_error u i = Some (Some (n, o, Ahead l)) -> nth_error t x = Some (FPacket, None) ->
  exists s1, it_get (s, w) x i = ((s1, w), Code (match l with [] => runtime_code | _ => no_error end)) /\
    agree s1 (match l with [] => t | y :: _ => put x (FPacket, Some (FPacket, n, y)) t end).
Proof.
  intros M F E D. destruct (it_looked _ _ _ _ _ _ F E) as (d & r & N & R & X).
  unfold it_get. unfold itags_of. rewrite N. cbn [i_tags].
  destruct (tagged s t x _ (Some (p_id FPacket, n_id n)) M D) as [M1 D1].
  set (s1 := set_tags s x (Some (p_id FPacket, n_id n))) in *. unfold it_access. cbn [snd]. rewrite X, (range_end _ _ _ R).
  destruct l as [|y l].
  - exists s1. split; [reflexivity|exact M1].
  - destruct (range_here _ _ _ _ R) as (src & keys & p & c & e & q & -> & Q & Sq & _). rewrite Q.
    unfold construct. rewrite D1. cbn [v_tags]. rewrite rc_switch_id. unfold typed_new. rewrite counter_eqb_refl.
    unfold place_new. rewrite D1. cbn [v_type]. cbn [fits it_dropped err_handler].
    eexists. split; [reflexivity|]. unfold set_obj. rewrite D1. cbn [v_type v_tags].
    apply side_put; [exact M1|]. split; [reflexivity|]. cbn [snd]. split; [reflexivity|]. exists q. repeat (split; [assumption || reflexivity|]). exact I.
Qed.

Lemma destroy_ok w u i n o a s : Forall2 walks w u -> nth_error u i = Some (Some (n, o, a)) ->
  exists w1, it_destroy (s, w) i = ((s, w1), Code no_error) /\ Forall2 walks w1 (put i None u).
Proof.
  intros F E. destruct (it_looked _ _ _ _ _ _ F E) as (d & r & N & R & X).
  unfold it_destroy, it_access. cbn [fst snd]. rewrite X. eexists. split; [reflexivity|]. eapply it_clear; eassumption.
Qed.

Lemma done_ok w u i n o l s : Forall2 walks w u -> nth_error u i = Some (Some (n, o, Ahead l)) ->
  it_done (s, w) i = Ok (match l with [] => true | _ => false end).
Proof.
  intros F E. destruct (it_looked _ _ _ _ _ _ F E) as (d & r & N & R & X). unfold it_done. cbn [snd]. rewrite X. apply (range_end _ _ _ R).
Qed.

Lemma copy_ok (take : bool) w u i j n o l s : Forall2 walks w u -> nth_error u i = Some None ->
  nth_error u j = Some (Some (n, o, Ahead l)) ->
  exists w1, it_copy (s, w) take i j = ((s, w1), Code no_error) /\
    Forall2 walks w1 (put i (Some (n, o, Ahead l)) (if take then put j (Some (n, None, Ahead [])) u else u)).
Proof.
  intros F D E. destruct (it_looked _ _ _ _ _ _ F E) as (d & r & N & R & X).
  assert (NE : i <> j) by congruence.
  unfold it_copy. unfold itags_of at 1 2. rewrite N. cbn [i_tags].
  destruct (it_dead w u i (Some (p_id d, n_id n)) F D) as [F1 D1].
  set (w1 := set_itags w i (Some (p_id d, n_id n))) in *.
  destruct (it_looked _ _ _ _ _ _ F1 E) as (d' & r' & N' & R' & X').
  assert (Q : d' = d /\ r' = r).
  { unfold w1, set_itags in N'. destruct (nth_error w i) as [v|] eqn:Ei; [|rewrite N in N'; injection N' as Ed Er; split; congruence].
    rewrite (put_nth _ _ _ _ _ Ei) in N'. destruct (Nat.eqb_spec i j); [contradiction|]. rewrite N in N'. injection N' as Ed Er. split; congruence. }
  destruct Q as [-> ->]. unfold it_access. cbn [snd]. rewrite X'. rewrite (constructed _ _ _ _ _ D1), (range_whole _ _ _ R).
  cbn [it_dropped err_handler]. eexists. split; [reflexivity|].
  destruct take.
  - assert (N2 : nth_error (set_iobj w1 i (Some (d, n, r))) j = Some (mkivar (Some (p_id d, n_id n)) (Some (d, n, r)))).
    { unfold set_iobj. rewrite D1. rewrite (put_nth _ _ _ _ _ D1). destruct (Nat.eqb_spec i j); [contradiction|]. exact N'. }
    rewrite put_comm by exact NE. eapply it_set; [|exact N2|reflexivity|].
    + eapply it_set; [exact F1|exact D1|reflexivity|exact R].
    + left. auto.
  - eapply it_set; [exact F1|exact D1|reflexivity|exact R].
Qed.

Theorem iter_step st t c : iagree st t -> iproper t c ->
  exists t', istep run_op t c (snd (i_call st c)) t' /\ iagree (fst (i_call st c)) t'.
Proof.
  intros [M F] P. destruct st as [s w], t as [t u]. cbn [fst snd] in M, F. cbn [iproper] in P.
  unfold i_call. destruct c as [c| |i|keys i j|i j|i j|i|x i|i|i|i|i x]; cbn [icompiles].
  - destruct P as [P OK]. destruct (abi_step s t c M OK P) as (t1 & St & M1). destruct (a_call s c) as [s1 a]. cbn [fst snd] in *.
    exists (t1, map (upset (touches c)) u). split; [exists t1; auto|]. split; [exact M1|]. apply poisoned_all. exact F.
  - exists (t, u ++ [None]). split; [split; reflexivity|]. split; [exact M|]. apply side_app; [exact F|reflexivity].
  - rewrite (it_has _ _ _ _ F P). destruct (it_dead w u i (Some (3, 1)) F P) as [F1 D1].
    rewrite (constructed _ _ FPacket Safe _ D1). cbn [it_coded fst snd].
    eexists. split; [split; [exact P|]; split; reflexivity|]. split; [exact M|]. cbn [snd].
    eapply it_set; [exact F1|exact D1|reflexivity|]. left. auto.
  - destruct P as [D (d & n & x & U)]. destruct (looked _ _ _ _ _ _ _ M U) as (ty & p & Et & Es & S & Sh & A & _ & X).
    rewrite (it_has _ _ _ _ F D), A. cbn [andb]. unfold it_from. unfold tags_of. rewrite Es. cbn [v_tags].
    destruct (it_dead w u i (Some (p_id d, n_id n)) F D) as [F1 D1]. rewrite X.
    rewrite (constructed _ _ d n _ D1), (begun keys p x S).
    destruct (children keys x) as [l|] eqn:C.
    + rewrite (stopped keys p x l S C). cbn [bind err_handler it_coded fst snd].
      eexists. split; [exists d, n, x; split; [exact D|]; split; [exact U|]; rewrite C; split; reflexivity|].
      split; [exact M|]. cbn [snd]. eapply it_set; [exact F1|exact D1|reflexivity|]. right.
      exists j, keys, p, x, l, 0%nat. split; [reflexivity|]. split; [exact S|]. split; [exact C|]. split; [lia|]. split; reflexivity.
    + cbn [bind err_handler handle it_coded fst snd].
      eexists. split; [exists d, n, x; split; [exact D|]; split; [exact U|]; rewrite C; split; reflexivity|].
      split; [exact M|exact F1].
  - destruct P as [D (n & o & l & E)]. rewrite (it_has _ _ _ _ F D), (it_has _ _ _ _ F E). cbn [andb].
    destruct (copy_ok false w u i j n o l s F D E) as (w1 & -> & F2). cbn [it_coded fst snd].
    eexists. split; [exists n, o, l; repeat (split; [assumption || reflexivity|]); reflexivity|]. split; [exact M|exact F2].
  - destruct P as [D (n & o & l & E)]. rewrite (it_has _ _ _ _ F D), (it_has _ _ _ _ F E). cbn [andb].
    destruct (copy_ok true w u i j n o l s F D E) as (w1 & -> & F2). cbn [it_coded fst snd].
    eexists. split; [exists n, o, l; repeat (split; [assumption || reflexivity|]); reflexivity|]. split; [exact M|exact F2].
  - destruct P as ([[n o] a] & E). rewrite (it_has _ _ _ _ F E).
    destruct (destroy_ok w u i n o a s F E) as (w1 & -> & F2). cbn [it_coded fst snd].
    eexists. split; [exists (n, o, a); repeat (split; [assumption || reflexivity|]); reflexivity|]. split; [exact M|exact F2].
  - destruct P as [(n & o & l & E) D]. rewrite (it_has _ _ _ _ F E), (packet_var _ _ _ _ M D). cbn [andb].
    destruct (get_ok s w t u x i n o l M F E D) as (s1 & -> & M1). cbn [it_coded fst snd].
    destruct l as [|y l].
    + eexists. split; [exists n, o, []; repeat (split; [assumption || reflexivity|]); reflexivity|]. split; [exact M1|exact F].
    + eexists. split; [exists n, o, (y :: l); repeat (split; [assumption || reflexivity|]); reflexivity|]. split; [exact M1|exact F].
  - destruct P as (n & o & l & E). rewrite (it_has _ _ _ _ F E). cbv zeta.
    assert (L : length s = length t) by exact (side_len _ _ _ M). rewrite L.
    set (s0 := s ++ [mkvar FPacket None None]). set (t0 := t ++ [(FPacket, @None content)]).
    assert (M0 : agree s0 t0) by (apply side_app; [exact M|split; reflexivity]).
    assert (E0 : nth_error t0 (length t) = Some (FPacket, None)).
    { unfold t0. rewrite nth_error_app2, Nat.sub_diag; [reflexivity|lia]. }
    destruct (get_ok s0 w t0 u (length t) i n o l M0 F E E0) as (s1 & G & M1).
    match goal with |- context [it_get ?a ?b ?c] => match type of G with _ = ?r => change (it_get a b c = r) in G end; rewrite G end. destruct l as [|y l].
    + cbn beta iota. change runtime_code with 5. cbn beta iota.
      destruct (dead_of _ _ _ _ M1 E0) as (g & Ns).
      assert (A' : agree (put (length t) (mkvar FPacket None None) s1) t0).
      { rewrite <- (put_same _ _ _ E0). apply side_put; [exact M1|]. split; reflexivity. }
      pose proof (init_ok _ _ (length t) FPacket FPacket 1 A' E0 eq_refl) as In.
      pose proof (init_handled (put (length t) (mkvar FPacket None None) s1) (length t) FPacket 1) as Ih.
      destruct (init (put (length t) (mkvar FPacket None None) s1) (length t) FPacket 1) as [s2 o2].
      cbn [counter_of Z.eqb Pos.eqb ended fst snd] in In, Ih. destruct In as [Eo2 A2]. rewrite <- Ih in Eo2. subst o2.
      unfold t0 in A2. rewrite put_last in A2. cbn [fst snd].
      eexists. split; [exists n, o, []; repeat (split; [assumption || reflexivity|]); reflexivity|]. split; [exact A2|exact F].
    + unfold t0 in M1. rewrite put_last in M1. unfold no_error. cbn beta iota. cbn [fst snd].
      eexists. split; [exists n, o, (y :: l); repeat (split; [assumption || reflexivity|]); reflexivity|]. split; [exact M1|exact F].
  - destruct P as (n & o & l & E). rewrite (it_has _ _ _ _ F E).
    destruct (it_looked _ _ _ _ _ _ F E) as (d & r & N & R & X). unfold it_next, it_access. cbn [snd fst]. rewrite X, (range_end _ _ _ R).
    destruct l as [|y l].
    + cbn [err_handler it_coded fst snd].
      eexists. split; [exists n, o, []; repeat (split; [assumption || reflexivity|]); reflexivity|]. cbn [tl].
      split; [exact M|]. apply (eq_ind u (fun z => Forall2 walks w z) F). symmetry. exact (put_same _ _ _ E).
    + destruct (range_here _ _ _ _ R) as (src & keys & p & c & e & q & -> & Q & Sq & R2). cbn [err_handler it_coded fst snd].
      eexists. split; [exists n, o, (y :: l); repeat (split; [assumption || reflexivity|]); reflexivity|]. cbn [tl].
      split; [exact M|]. cbn [snd]. eapply it_set; [exact F|exact N|reflexivity|exact R2].
  - destruct P as (n & o & l & E). rewrite (it_has _ _ _ _ F E). rewrite (done_ok w u i n o l s F E). cbn [fst snd].
    eexists. split; [exists n, o, l; repeat (split; [assumption || reflexivity|]); reflexivity|]. split; assumption.
  - destruct P as [(n & o & l & E) P]. rewrite (it_has _ _ _ _ F E). destruct l as [|y l].
    + destruct (destroy_ok w u i n o _ s F E) as (w1 & B & F2). destruct x as [x|].
      * destruct (P x eq_refl) as [(cc & Ex) L]. specialize (L n o E). rewrite (packet_var _ _ _ _ M Ex). cbn [andb].
        rewrite (done_ok w u i n o [] s F E), B. destruct (abi_step s t (Destroy Generic x) M I L) as (t1 & St & M1).
        destruct (a_call s (Destroy Generic x)) as [s2 a]. cbn [fst snd] in *.
        assert (Ea : a = R_code no_error) by (destruct St as (? & ? & ? & ? & _ & _ & Ea & _); exact Ea). subst a.
        eexists. split; [exists n, o, []; split; [exact E|]; split; [reflexivity|]; exists (R_code no_error), t1; split; [exact St|reflexivity]|].
        split; [exact M1|]. apply poisoned_all. exact F2.
      * cbn [andb]. rewrite (done_ok w u i n o [] s F E), B. cbn [fst snd].
        eexists. split; [exists n, o, []; split; [exact E|]; split; reflexivity|]. split; [exact M|exact F2].
    + assert (Q : match x with Some x => is_packet s x | None => true end = true).
      { destruct x as [x|]; [|reflexivity]. destruct (P x eq_refl) as [(cc & Ex) _]. apply (packet_var _ _ _ _ M Ex). }
      rewrite Q, (done_ok w u i n o (y :: l) s F E). cbn [andb fst snd].
      eexists. split; [exists n, o, (y :: l); split; [exact E|]; split; reflexivity|]. split; assumption.
Qed.

Theorem iter_run cs : forall st t, iagree st t -> icareful run_op t cs ->
  exists t', isteps run_op t cs (snd (i_run st cs)) t' /\ iagree (fst (i_run st cs)) t'.
Proof.
  induction cs as [|c cs IH]; intros st t M C; cbn [i_run].
  - exists t. split; [constructor|exact M].
  - destruct C as (P & C). destruct (iter_step st t c M P) as (t1 & St & M1).
    destruct (i_call st c) as [s1 a]. cbn [fst snd] in *. destruct (IH s1 t1 M1 (C _ _ St)) as (t2 & Sts & M2).
    destruct (i_run s1 cs) as [s2 l]. cbn [fst snd] in *. exists t2. split; [econstructor; eassumption|exact M2].
Qed.

Lemma istep_defined m t c a t' : istep m t c a t' -> a <> R_bad /\ a <> R_static.
Proof.
  destruct t as [s w]. destruct c as [c| |i|keys i j|i j|i j|i|x i|i|i|i|i x]; cbn [istep]; intros H.
  - destruct H as (s' & H & _). exact (astep_defined _ _ _ _ _ H).
  - destruct H as [-> _]. split; discriminate.
  - destruct H as (_ & -> & _). split; discriminate.
  - destruct H as (d & n & x & _ & _ & H). destruct (children keys x); destruct H as [-> _]; split; discriminate.
  - destruct H as (n & o & l & _ & _ & -> & _). split; discriminate.
  - destruct H as (n & o & l & _ & _ & -> & _). split; discriminate.
  - destruct H as (x & _ & -> & _). split; discriminate.
  - destruct H as (n & o & l & _ & _ & H). destruct l; destruct H as [-> _]; split; discriminate.
  - destruct H as (n & o & l & _ & -> & _). split; discriminate.
  - destruct H as (n & o & l & _ & -> & _). split; discriminate.
  - destruct H as (n & o & l & _ & -> & _). split; discriminate.
  - destruct H as (n & o & l & _ & H). destruct l; destruct H as [-> _]; split; discriminate.
Qed.
