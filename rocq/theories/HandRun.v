(** Programs that hand bytes in and out do what SpecHand.v says. *)

From Coq Require Import ZArith List Bool Lia.
From Coq Require Import ZifyBool ZifyNat.
From Verif Require Import Base BaseFacts Keys Wire Read Enc EncSize Spec ReadFacts Buf BufFacts WireMore Canon HeapOps HeapFacts NestedFacts HeapRun SpecPacket PacketFacts PacketRun
  SpecBufHold SpecHand BufHold Hand.
From Verif Require SpecAbi Abi.
From Verif Require Import BufHoldRun.
Import ListNotations.
Open Scope Z_scope.

(** ** The invariant *)

Definition at_rest (rs : list region) (r : nat) : Prop := nth r rs Gone <> Spoilt.
Definition is_mine (z : region) : bool := match z with Mine _ | Spoilt => true | _ => false end.
Definition mine (rs : list region) (d : nat) : Z := if is_mine (nth d rs Gone) then 1 else 0.

Definition good_at (l : blocks) (rs : list region) (e : elem) (via : nat) (v : value) : Prop :=
  (via < length l)%nat /\ v <> VNull /\ good_all v /\ b_type e = vtype v /\
  forall b, nth_error l via = Some (Some b) -> at_rest rs via -> base b mod 8 = 0 -> represents (base b) (bytes b) e v.
Definition grip (l : blocks) (rs : list region) (h : hold) (g : glimpse) : Prop :=
  match g with
  | None => b_type (raw h) = T_null /\ ref h = None
  | Some (d, (v, via)) =>
      home h = via /\ ref h = Some d /\ (exists v0, nth d rs Gone = Counted v0) /\ good_at l rs (raw h) via v
  end.
Definition carries (m : mem) (o n : Z) (v : value) : Prop :=
  n <> 0 /\ exists m', rd m o n = Ok m' /\ forall bs, bs mod 8 = 0 -> represents bs m' root v.
Definition aims (l : blocks) (rs : list region) (p : cptr) (q : pointer) : Prop :=
  match p, q with
  | None, None => True
  | Some (d, o, n), Some (r, v, start) =>
      d = r /\ (d < length l)%nat /\ (start = true -> o = 0) /\ (exists fs, v = VObj fs) /\ good_all v /\
      forall b, nth_error l d = Some (Some b) -> at_rest rs d ->
        carries (bytes b) o n v /\ (base b mod 8 = 0 -> represents (base b) (bytes b) (R_object, Some o) v)
  | _, _ => False
  end.
Definition zone_ok (z : region) (b : block) : Prop :=
  match z with
  | Counted v => base b mod 8 = 0 /\ (exists fs, v = VObj fs) /\ good_all v /\ represents (base b) (bytes b) root v
  | Mine a => a = (base b mod 8 =? 0)
  | Spoilt => True
  | Gone => False
  end.
Definition zones_ok (l : blocks) (rs : list region) : Prop :=
  length l = length rs /\ forall d b, nth_error l d = Some (Some b) -> zone_ok (nth d rs Gone) b.

Definition held (sp : hspec) (d : nat) : Z := cnt d (shows sp) + mine (regions sp) d.
Record Inv_at (l : blocks) (c : nat -> Z) (s : hstate) (sp : hspec) : Prop := {
  at_zones : zones_ok l (regions sp);
  at_counts : counts l c;
  at_bufs : Forall2 (grip l (regions sp)) (bufs s) (shows sp);
  at_ptrs : Forall2 (aims l (regions sp)) (ptrs s) (points sp);
  at_owned : owned s = map is_mine (regions sp) }.
Definition Inv (s : hstate) (sp : hspec) : Prop := Inv_at (store s) (held sp) s sp.

(** ** What may happen to memory behind handles and pointers *)

Record steady (l : blocks) (rs : list region) (l' : blocks) (rs' : list region) : Prop := {
  st_len : (length l <= length l')%nat;
  st_live : forall d b', (d < length l)%nat -> nth_error l' d = Some (Some b') -> at_rest rs' d ->
    at_rest rs d /\ exists b, nth_error l d = Some (Some b) /\ base b = base b' /\ bytes b = bytes b';
  st_docs : forall d v, (d < length l)%nat -> nth d rs Gone = Counted v -> nth d rs' Gone = Counted v }.

Lemma evolves_steady l l' rs : evolves l l' -> steady l rs l' rs.
Proof. intros [L E]. constructor; [assumption| |auto]. intros d b' D N A. split; [assumption|]. apply E; assumption. Qed.

Lemma good_steady l rs l' rs' e via v : steady l rs l' rs' -> good_at l rs e via v -> good_at l' rs' e via v.
Proof.
  intros [L E _] (D & N & G & T & R). split; [lia|]. split; [assumption|]. split; [assumption|]. split; [assumption|].
  intros b' B A M. destruct (E via b' D B A) as (A0 & b & B0 & E1 & E2). rewrite <- E1 in M. rewrite <- E1, <- E2. auto.
Qed.
Lemma grip_steady l rs l' rs' h g : steady l rs l' rs' -> length l = length rs -> grip l rs h g -> grip l' rs' h g.
Proof.
  intros S L. destruct g as [[d [v via]]|]; cbn [grip]; [|auto].
  intros (H & R & (v0 & C) & F). split; [assumption|]. split; [assumption|]. split; [|eapply good_steady; eassumption].
  exists v0. apply (st_docs _ _ _ _ S); [|assumption].
  destruct (Nat.lt_ge_cases d (length l)); [assumption|]. rewrite nth_overflow in C by lia. discriminate.
Qed.
Lemma aims_steady l rs l' rs' p q : steady l rs l' rs' -> aims l rs p q -> aims l' rs' p q.
Proof.
  intros [L E _]. destruct p as [[[d o] n]|], q as [[[r v] st]|]; cbn [aims]; auto.
  intros (-> & D & O & V & G & R). split; [reflexivity|]. split; [lia|]. split; [assumption|]. split; [assumption|].
  split; [assumption|]. intros b' B A. destruct (E r b' D B A) as (A0 & b & B0 & E1 & E2). rewrite <- E1, <- E2. auto.
Qed.

Lemma at_steady l c s sp l' c' rs' s' : Inv_at l c s sp -> steady l (regions sp) l' rs' -> zones_ok l' rs' -> counts l' c' ->
  bufs s' = bufs s -> ptrs s' = ptrs s -> owned s' = map is_mine rs' ->
  Inv_at l' c' s' (HS rs' (shows sp) (points sp)).
Proof.
  intros [Z C B P O] S Z' C' EB EP EO. constructor; cbn [regions shows points]; try assumption.
  - rewrite EB. eapply Forall2_impl2; [|exact B]. intros a g. apply grip_steady; [assumption|apply Z].
  - rewrite EP. eapply Forall2_impl2; [|exact P]. intros a g. apply aims_steady. assumption.
Qed.
Lemma at_evolves l c s sp l' c' : Inv_at l c s sp -> evolves l l' -> length l' = length l -> counts l' c' -> Inv_at l' c' s sp.
Proof.
  intros I E L C'. pose proof I as [[ZL Z] C B P O]. destruct sp as [rs sh po]. cbn [regions] in *.
  apply (at_steady l c s (HS rs sh po) l' c' rs s I); auto; [apply evolves_steady; assumption|].
  split; [congruence|]. intros d b N. destruct E as [_ E]. pose proof (nth_lt _ _ _ N).
  destruct (E d b ltac:(lia) N) as (b0 & N0 & A1 & A2). specialize (Z d b0 N0). unfold zone_ok in *.
  rewrite <- A1, <- A2. exact Z.
Qed.

(** ** Variables *)

Lemma cnt_set_g d (a : glimpse) (l : list glimpse) i : (i < length l)%nat ->
  cnt d (list_set i a l) = cnt d l - w d (nth i l None) + w d a.
Proof. exact (cnt_set d a l i). Qed.
Lemma set_ok l c s sp x t g : Inv_at l c s sp -> (x < length (shows sp))%nat -> grip l (regions sp) t g ->
  (forall d, c d = held sp d - w d (show sp x) + w d g) ->
  Inv (HSt l (list_set x t (bufs s)) (owned s) (ptrs s)) (set_show sp x g).
Proof.
  intros [Z C B P O] X T E. unfold Inv, set_show. cbn [store]. rewrite put_set by assumption.
  constructor; cbn [regions shows points bufs ptrs owned]; try assumption.
  - apply counts_ext with (c := c); [assumption|]. intros d. rewrite E. unfold held. cbn [shows regions].
    rewrite cnt_set_g by assumption. unfold show. lia.
  - apply Forall2_set; assumption.
Qed.
Lemma buf_at l c s sp x : Inv_at l c s sp -> (x < length (shows sp))%nat ->
  exists h, nth_error (bufs s) x = Some h /\ grip l (regions sp) h (show sp x).
Proof. intros I X. apply Forall2_at; [apply I|assumption]. Qed.
Lemma ptr_at l c s sp k : Inv_at l c s sp -> (k < length (points sp))%nat ->
  exists p, nth_error (ptrs s) k = Some p /\ aims l (regions sp) p (point sp k).
Proof. intros I X. apply Forall2_at; [apply I|assumption]. Qed.
Lemma mine_range rs d : 0 <= mine rs d <= 1.
Proof. unfold mine. destruct (is_mine _); lia. Qed.
Lemma held_show sp x d : w d (show sp x) <= held sp d.
Proof.
  unfold held. pose proof (cnt_at d (shows sp) x : w d (show sp x) <= cnt d (shows sp)).
  pose proof (mine_range (regions sp) d). lia.
Qed.
Lemma grip_ref l rs h g : grip l rs h g -> ref h = option_map fst g.
Proof. destruct g as [[d [v via]]|]; cbn [grip]; intros H; apply H. Qed.
Lemma one_w {A} d (g : option (nat * A)) : one d (option_map fst g) = w d g.
Proof. apply w_one. Qed.

Lemma hput_ok l c s sp x t g : Inv_at l c s sp -> (x < length (shows sp))%nat -> grip l (regions sp) t g ->
  (forall d, c d = held sp d + w d g) ->
  exists s', hput s l x t = Ok s' /\ Inv s' (set_show sp x g).
Proof.
  intros I X T E. destruct (buf_at _ _ _ _ _ I X) as (old & N & G). pose proof (grip_ref _ _ _ _ G) as R. unfold hput. rewrite N.
  destruct (release_ok l c (ref old) (at_counts _ _ _ _ I)) as (l1 & -> & C1 & V1 & L1).
  { intros d H. rewrite R in H. apply some_w in H. rewrite E. pose proof (held_show sp x d). pose proof (w_range d g). lia. }
  cbn [bind]. eexists. split; [reflexivity|].
  apply set_ok with (c := fun d => c d - one d (ref old)); try assumption.
  - eapply at_evolves; eassumption.
  - eapply grip_steady; [apply evolves_steady; eassumption|apply I|assumption].
  - intros d. rewrite E, R, one_w. lia.
Qed.
Lemma retain_held l c s sp r : Inv_at l c s sp -> (forall d, r = Some d -> 0 < c d) ->
  exists l', retain r l = Ok l' /\ Inv_at l' (fun d => c d + one d r) s sp /\ evolves l l'.
Proof.
  intros I P. destruct (retain_ok l c r (at_counts _ _ _ _ I) P) as (l' & E & C & V & L).
  exists l'. split; [assumption|]. split; [|assumption]. eapply at_evolves; eassumption.
Qed.
Lemma grip_counted sp x d : option_map fst (show sp x) = Some d -> 0 < held sp d.
Proof. intros E. apply some_w in E. pose proof (held_show sp x d). lia. Qed.

(** Documents the client owns are held by nobody. *)
Lemma mine_unheld l rs bs gs d : Forall2 (grip l rs) bs gs -> (forall v, nth d rs Gone <> Counted v) -> cnt d gs = 0.
Proof.
  intros F N. induction F as [|h g bs gs H F IH]; [reflexivity|]. rewrite cnt_cons, IH.
  destruct g as [[e [v via]]|]; [|reflexivity]. destruct H as (_ & _ & (v0 & C) & _). unfold w. cbn [holds_doc].
  destruct (Nat.eqb_spec d e) as [->|]; [|reflexivity]. destruct (N v0 C).
Qed.

Lemma sharing_cnt sp d : Z.of_nat (sharing sp d) = cnt d (shows sp).
Proof. reflexivity. Qed.

(** ** Looking *)
Lemma clear_live s sp e via : Inv s sp -> forall d v, clear sp (Some (d, (v, via))) -> good_at (store s) (regions sp) e via v ->
  exists b, nth_error (store s) via = Some (Some b) /\ represents (base b) (bytes b) e v.
Proof.
  intros I d v K (D & N & G & T & R). cbn [clear] in K. unfold zone in K.
  assert (P : 0 < held sp via /\ at_rest (regions sp) via).
  { unfold held, mine, at_rest. pose proof (mine_range (regions sp) via). pose proof (sharing_cnt sp via).
    destruct (nth via (regions sp) Gone); cbn [is_mine]; try contradiction; (split; [clear - K H0; lia|discriminate]). }
  destruct P as [P A]. destruct (counts_live _ _ via (at_counts _ _ _ _ I) P) as (b & E & _). exists b. split; [assumption|].
  apply R; [assumption..|]. pose proof (proj2 (at_zones _ _ _ _ I) via b E) as Z. unfold zone_ok in Z.
  destruct (nth via (regions sp) Gone); try contradiction; [apply Z|apply Z.eqb_eq; congruence].
Qed.
Lemma look_clear s sp h g : Inv s sp -> grip (store s) (regions sp) h g -> clear sp g ->
  match g with
  | None => is_null (raw h) = true /\ forall A (f : Z -> mem -> res A), look (store s) (raw h) (home h) f = f 0 []
  | Some (d, (v, via)) => is_null (raw h) = false /\ exists b, nth_error (store s) via = Some (Some b) /\
      represents (base b) (bytes b) (raw h) v /\
      forall A (f : Z -> mem -> res A), look (store s) (raw h) (home h) f = f (base b) (bytes b)
  end.
Proof.
  intros I G K. destruct g as [[d [v via]]|]; cbn [grip] in G.
  - destruct G as (HM & R & C & F). destruct (clear_live s sp (raw h) via I d v K F) as (b & E & RB).
    destruct F as (D & N & _ & T & _). pose proof (is_null_not _ _ T N) as Z. split; [assumption|]. exists b. split; [assumption|].
    split; [assumption|]. intros A f. unfold look. rewrite Z, HM, E. reflexivity.
  - destruct G as [T R]. split; [apply is_null_null; assumption|]. intros A f. unfold look. rewrite is_null_null by assumption. reflexivity.
Qed.

(** ** New blocks *)
Lemma grow_steady l rs b z : length l = length rs -> steady l rs (l ++ [Some b]) (rs ++ [z]).
Proof.
  intros L. constructor.
  - rewrite app_length. lia.
  - intros d b' D N A. rewrite nth_error_app1 in N by assumption. split; [|eauto].
    unfold at_rest in *. rewrite app_nth1 in A by lia. exact A.
  - intros d v D C. rewrite app_nth1 by lia. assumption.
Qed.
Lemma grow_at s sp z addr m : Inv s sp -> zone_ok z (Blk 1 addr m) ->
  let n := length (regions sp) in
  Inv_at (store (grow s (is_mine z) addr m)) (fun d => held sp d + if Nat.eqb d n then 1 else 0)
    (grow s (is_mine z) addr m) (add_zone sp z) /\
  length (store s) = n /\ nth n (regions sp ++ [z]) Gone = z /\
  nth_error (store (grow s (is_mine z) addr m)) n = Some (Some (Blk 1 addr m)) /\
  (forall d, held (add_zone sp z) d = held sp d + if Nat.eqb d n then (if is_mine z then 1 else 0) else 0).
Proof.
  intros I Z n. pose proof I as [[L ZO] C B P O].
  assert (NZ : nth n (regions sp ++ [z]) Gone = z) by (subst n; rewrite app_nth2, Nat.sub_diag by lia; reflexivity).
  assert (NL : nth_error (store s ++ [Some (Blk 1 addr m)]) n = Some (Some (Blk 1 addr m))).
  { subst n. rewrite nth_error_app2 by lia. replace (length (regions sp) - length (store s))%nat with 0%nat by lia. reflexivity. }
  split; [|split; [assumption|]; split; [assumption|]; split; [exact NL|]].
  - unfold add_zone. apply (at_steady _ _ _ _ _ _ _ _ I); cbn [grow store bufs ptrs owned]; auto.
    + apply grow_steady. assumption.
    + split; [rewrite !app_length; cbn; lia|]. intros d b N. destruct (Nat.lt_ge_cases d (length (store s))) as [Q|Q].
      * rewrite nth_error_app1 in N by assumption. rewrite app_nth1 by lia. apply ZO. assumption.
      * assert (d = n). { pose proof (nth_lt _ _ _ N) as W. rewrite app_length in W. cbn in W. subst n. lia. }
        subst d. rewrite NL in N. injection N as <-. rewrite NZ. exact Z.
    + intros d. specialize (C d). destruct (Nat.eqb_spec d n) as [->|Q].
      * rewrite NL. rewrite (proj2 (nth_error_None (store s) n)) in C by (subst n; lia). cbn [users]. lia.
      * destruct (Nat.lt_ge_cases d (length (store s))) as [W|W].
        -- rewrite nth_error_app1 by assumption. rewrite Z.add_0_r. exact C.
        -- rewrite (proj2 (nth_error_None (store s) d)) in C by assumption.
           rewrite (proj2 (nth_error_None _ d)) by (rewrite app_length; cbn; subst n; lia). lia.
    + rewrite O, map_app. reflexivity.
  - intros d. unfold held, add_zone, mine. cbn [shows regions]. destruct (Nat.eqb_spec d n) as [->|Q].
    + rewrite NZ. rewrite (nth_overflow (regions sp)) by (subst n; lia). cbn [is_mine]. lia.
    + destruct (Nat.lt_ge_cases d n) as [W|W]; [rewrite app_nth1 by assumption; lia|].
      rewrite !nth_overflow by (rewrite ?app_length; cbn; subst n; lia). lia.
Qed.

Lemma hfresh_ok s sp x addr m fs : Inv s sp -> (x < length (shows sp))%nat -> addr mod 8 = 0 ->
  represents addr m root (VObj fs) -> good_all (VObj fs) ->
  exists s', hfresh s x addr m = Ok s' /\ Inv s' (own_doc sp x (VObj fs)).
Proof.
  intros I X A R G. set (v := VObj fs). set (z := Counted v).
  assert (Z : zone_ok z (Blk 1 addr m)).
  { cbn [zone_ok z base bytes]. split; [assumption|]. split; [exists fs; reflexivity|]. split; assumption. }
  destruct (grow_at s sp z addr m I Z) as (I1 & L & NZ & NL & H). cbn [is_mine z] in *.
  unfold hfresh, own_doc. rewrite L.
  apply (hput_ok _ _ _ _ x (Hold root (length (regions sp)) (Some (length (regions sp)))) (Some (length (regions sp), (v, length (regions sp)))) I1 X).
  - cbn [grip raw home ref add_zone regions]. split; [reflexivity|]. split; [reflexivity|]. split; [exists v; exact NZ|].
    split; [exact (nth_lt _ _ _ NL)|]. split; [discriminate|]. split; [assumption|]. split; [reflexivity|].
    intros b' E _ _. rewrite NL in E. injection E as <-. exact R.
  - intros d. rewrite H. unfold w. cbn [holds_doc]. destruct (Nat.eqb _ _); lia.
Qed.

Lemma hopen_ok s sp x k addr p : Inv s sp -> (x < length (shows sp))%nat -> addr mod 8 = 0 ->
  aims (store s) (regions sp) p (point sp k) -> match point sp k with Some (r, _, _) => there sp r | None => False end ->
  exists s', hopen s x p addr = Ok s' /\ Inv s' (opened sp x (point sp k)).
Proof.
  intros I X A P T. destruct (point sp k) as [[[r v] st]|]; [|contradiction]. destruct p as [[[d o] n]|]; [|contradiction].
  destruct P as (-> & D & O & (fs & ->) & G & R). unfold there, zone in T.
  assert (Q : 0 < held sp r /\ at_rest (regions sp) r).
  { unfold held, mine, at_rest. pose proof (mine_range (regions sp) r). pose proof (sharing_cnt sp r).
    destruct (nth r (regions sp) Gone); cbn [is_mine]; try contradiction; (split; [clear - T H0; lia|discriminate]). }
  destruct Q as [Q AR]. destruct (counts_live _ _ r (at_counts _ _ _ _ I) Q) as (b & E & _).
  destruct (R b E AR) as ((NZ0 & m & RD & RM) & RB). set (z := Counted (VObj fs)).
  assert (Z : zone_ok z (Blk 1 addr m)).
  { cbn [zone_ok z base bytes]. split; [assumption|]. split; [exists fs; reflexivity|]. split; auto. }
  destruct (grow_at s sp z addr m I Z) as (I1 & L & NZ & NL & H). cbn [is_mine z] in *.
  unfold hopen, opened. replace (n =? 0) with false by lia. rewrite E, RD. cbn [bind]. rewrite L.
  apply (hput_ok _ _ _ _ x (Hold (R_object, Some o) r (Some (length (regions sp)))) (Some (length (regions sp), (VObj fs, r))) I1 X).
  - cbn [grip raw home ref add_zone regions]. split; [reflexivity|]. split; [reflexivity|]. split; [exists (VObj fs); exact NZ|].
    eapply (good_steady (store s) (regions sp)); [apply grow_steady; exact L|].
    split; [exact (nth_lt _ _ _ E)|]. split; [discriminate|]. split; [assumption|]. split; [reflexivity|].
    intros b' E' _. rewrite E in E'. injection E' as <-. exact RB.
  - intros a. rewrite H. unfold w. cbn [holds_doc]. destruct (Nat.eqb _ _); lia.
Qed.

(** ** The client's memory *)

Lemma obj_not_empty bs m fs : represents bs m root (VObj fs) -> zlen m <> 0.
Proof.
  intros R. destruct (root_size _ _ _ R) as (n & E). unfold rd_le in E. apply bind_Ok in E. destruct E as (x & E & _).
  destruct (rd_Ok _ _ _ _ E) as (? & ? & ? & _). change (Z.of_nat 4) with 4 in *. lia.
Qed.
Lemma rd_whole m : rd m 0 (zlen m) = Ok m.
Proof.
  unfold rd. pose proof (zlen_nonneg m). replace ((0 <=? 0) && (0 <=? zlen m) && (0 + zlen m <=? zlen m)) with true by lia.
  cbn [Z.to_nat skipn]. unfold zlen. rewrite Nat2Z.id, firstn_all. reflexivity.
Qed.
Lemma carries_whole m fs : (forall bs, bs mod 8 = 0 -> represents bs m root (VObj fs)) -> carries m 0 (zlen m) (VObj fs).
Proof.
  intros R. split; [|exists m; split; [apply rd_whole|assumption]].
  apply (obj_not_empty 0 m fs). apply R. reflexivity.
Qed.
Lemma carries_part bs m o fs : represents bs m (R_object, Some o) (VObj fs) ->
  exists n, rd_le m o 4 = Ok n /\ carries m o n (VObj fs).
Proof.
  intros R. destruct (rep_bytes _ _ _ _ R) as (bytes & E & RB).
  change (b_get_bytes m (R_object, Some o)) with (n <- rd_le m o 4 ;; rd m o n) in E.
  apply bind_Ok in E. destruct E as (n & E & RD). exists n. split; [assumption|]. split; [|exists bytes; auto].
  intros ->. pose proof (obj_not_empty 0 bytes fs (RB 0 eq_refl)). destruct (rd_Ok _ _ _ _ RD) as (_ & _ & _ & L). lia.
Qed.

Lemma set_ptr_ok s sp k p q : Inv s sp -> (k < length (points sp))%nat -> aims (store s) (regions sp) p q ->
  Inv (set_ptr s k p) (set_point sp k q).
Proof.
  intros [Z C B P W] K A. unfold Inv, set_ptr, set_point. rewrite put_set by assumption.
  constructor; cbn [store bufs ptrs owned regions shows points]; try assumption. apply Forall2_set; assumption.
Qed.
Lemma hgrant_ok s sp k addr m fs : Inv s sp -> (k < length (points sp))%nat -> good_all (VObj fs) ->
  (forall bs, bs mod 8 = 0 -> represents bs m root (VObj fs)) ->
  Inv (hgrant s k addr m) (own_region sp k (VObj fs) (addr mod 8 =? 0)).
Proof.
  intros I K G R. set (z := Mine (addr mod 8 =? 0)).
  destruct (grow_at s sp z addr m I eq_refl) as (I1 & L & NZ & NL & H). cbn [is_mine z] in *.
  unfold hgrant, own_region. rewrite L. apply set_ptr_ok; [|exact K|].
  - destruct I1 as [Z C B P W]. constructor; try assumption. apply counts_ext with (1 := C). intros d. symmetry. apply H.
  - cbn [aims]. split; [reflexivity|]. split; [exact (nth_lt _ _ _ NL)|]. split; [reflexivity|]. split; [eauto|]. split; [assumption|].
    intros b E _. rewrite NL in E. injection E as <-. cbn [base bytes]. split; [apply carries_whole; assumption|].
    intros A. exact (R addr A).
Qed.

Lemma rezone_len sp r z : (r < length (regions sp))%nat -> length (regions (set_zone sp r z)) = length (regions sp).
Proof. intros L. cbn. apply put_len. assumption. Qed.
Lemma zone_same rs r (z : region) : (r < length rs)%nat -> nth r (list_set r z rs) Gone = z.
Proof. apply nth_put_same. Qed.
Lemma zone_other rs r d (z : region) : r <> d -> nth d (list_set r z rs) Gone = nth d rs Gone.
Proof.
  intros N. destruct (nth_error rs d) as [y|] eqn:E.
  - rewrite (nth_error_nth _ _ _ E). apply nth_error_nth. rewrite set_other by congruence. assumption.
  - apply nth_error_None in E. rewrite !nth_overflow; rewrite ?set_len; auto.
Qed.
Lemma map_set {A B} (f : A -> B) x : forall l i, map f (list_set i x l) = list_set i (f x) (map f l).
Proof. induction l as [|a r IH]; intros [|i]; cbn; try reflexivity. rewrite IH. reflexivity. Qed.
Lemma set_id {A} (l : list A) x : forall i, nth_error l i = Some x -> list_set i x l = l.
Proof. induction l as [|a r IH]; intros [|i] E; cbn in *; try discriminate; [congruence|]. rewrite IH by assumption. reflexivity. Qed.

(** A block of the client's is touched, given away or freed. *)
Lemma rezone_at s sp r z o' : Inv s sp -> is_mine (zone sp r) = true ->
  (z <> Spoilt -> zone sp r <> Spoilt \/ o' = None) ->
  match o' with
  | Some b' => zone_ok z b' /\ users b' = 1 /\
      (z <> Spoilt -> exists b, nth_error (store s) r = Some (Some b) /\ base b = base b' /\ bytes b = bytes b')
  | None => z = Gone
  end ->
  Inv_at (list_set r o' (store s)) (fun d => held sp d - (if Nat.eqb d r then match o' with Some _ => 0 | None => 1 end else 0))
    (HSt (list_set r o' (store s)) (bufs s) (list_set r (is_mine z) (owned s)) (ptrs s)) (set_zone sp r z) /\
  (forall d, held (set_zone sp r z) d = held sp d - (if Nat.eqb d r then (if is_mine z then 0 else 1) else 0)) /\
  held sp r = 1 /\ (r < length (regions sp))%nat.
Proof.
  intros I M NS O'. pose proof I as [[L ZO] C B P W]. unfold zone in *.
  assert (RL : (r < length (regions sp))%nat).
  { destruct (Nat.lt_ge_cases r (length (regions sp))); [assumption|]. rewrite nth_overflow in M by lia. discriminate. }
  assert (H1 : held sp r = 1).
  { unfold held, mine. rewrite M. rewrite (mine_unheld _ _ _ _ r B); [reflexivity|]. intros v E. rewrite E in M. discriminate. }
  destruct (counts_live _ _ r C ltac:(lia)) as (b & EB & U).
  split; [|split; [|auto]].
  - unfold set_zone. rewrite put_set by assumption.
    apply (at_steady _ _ _ _ _ _ _ _ I); cbn [bufs ptrs owned]; auto.
    + constructor.
      * rewrite set_len. lia.
      * intros d b' D N A. destruct (Nat.eq_dec r d) as [<-|Q].
        -- rewrite set_same in N by assumption. injection N as ->. destruct O' as (_ & _ & S). unfold at_rest in *.
           rewrite zone_same in A by assumption. split; [|exact (S A)]. destruct (NS A) as [Y|Y]; [exact Y|discriminate].
        -- rewrite set_other in N by assumption. unfold at_rest in *. rewrite zone_other in A by assumption. eauto.
      * intros d v D E. destruct (Nat.eq_dec r d) as [<-|Q]; [rewrite E in M; discriminate|].
        rewrite zone_other by assumption. assumption.
    + split; [rewrite !set_len; assumption|]. intros d b' N. destruct (Nat.eq_dec r d) as [<-|Q].
      * rewrite set_same in N by lia. injection N as ->. rewrite zone_same by assumption. apply O'.
      * rewrite set_other in N by assumption. rewrite zone_other by assumption. apply ZO. assumption.
    + intros d. specialize (C d). destruct (Nat.eqb_spec d r) as [->|Q].
      * rewrite set_same by lia. destruct o' as [b'|]; [|lia]. destruct O' as (_ & -> & _). lia.
      * rewrite set_other by congruence. rewrite Z.sub_0_r. exact C.
    + rewrite W, map_set. reflexivity.
  - intros d. unfold held, set_zone, mine. cbn [shows regions]. rewrite put_set by assumption.
    destruct (Nat.eqb_spec d r) as [->|Q].
    + rewrite zone_same, M by assumption. destruct (is_mine z); lia.
    + rewrite zone_other by congruence. lia.
Qed.
Lemma owned_at s sp d : Inv s sp -> nth d (owned s) false = is_mine (zone sp d).
Proof. intros I. rewrite (at_owned _ _ _ _ I). change false with (is_mine Gone). apply map_nth. Qed.
Lemma live_mine s sp d : Inv s sp -> is_mine (zone sp d) = true ->
  exists b, nth_error (store s) d = Some (Some b) /\ users b = 1 /\ zone_ok (zone sp d) b.
Proof.
  intros I M. assert (H1 : held sp d = 1).
  { unfold held, mine. fold (zone sp d). rewrite M. rewrite (mine_unheld _ _ _ _ d (at_bufs _ _ _ _ I)); [reflexivity|].
    intros v E. unfold zone in M. rewrite E in M. discriminate. }
  destruct (counts_live _ _ d (at_counts _ _ _ _ I) ltac:(lia)) as (b & EB & U). exists b. split; [assumption|].
  split; [lia|]. apply (proj2 (at_zones _ _ _ _ I)). assumption.
Qed.

Lemma hfree_ok s sp p q : Inv s sp -> aims (store s) (regions sp) p q -> to_free sp q ->
  exists s', hfree s p = Ok s' /\ Inv s' (freed sp q).
Proof.
  intros I A F. destruct q as [[[r v] st]|], p as [[[d o] n]|]; cbn [aims] in A; try contradiction; cbn [hfree freed]; [|eauto].
  destruct A as (-> & D & Z0 & _). destruct F as [-> F]. rewrite (Z0 eq_refl).
  assert (M : is_mine (zone sp r) = true) by (destruct (zone sp r); try contradiction; reflexivity).
  destruct (live_mine s sp r I M) as (b & E & _). rewrite E, (owned_at s sp r I), M. cbn [andb Z.eqb].
  eexists. split; [reflexivity|].
  destruct (rezone_at s sp r Gone None I M ltac:(auto) eq_refl) as ([Z C B P W] & H & _ & _). cbn [is_mine] in *.
  constructor; try assumption. apply counts_ext with (1 := C). intros d. rewrite H. destruct (Nat.eqb d r); lia.
Qed.
Lemma hwrite_ok s sp k new r v st d o n : Inv s sp -> point sp k = Some (r, v, st) -> is_mine (zone sp r) = true ->
  aims (store s) (regions sp) (Some (d, o, n)) (point sp k) ->
  exists b, nth_error (store s) d = Some (Some b) /\ nth d (owned s) false = true /\
    Inv (HSt (list_set d (Some (Blk (users b) (base b) (overwrite o n new (bytes b)))) (store s)) (bufs s) (owned s) (ptrs s))
      (set_zone sp r Spoilt).
Proof.
  intros I E M A. rewrite E in A. cbn [aims] in A. destruct A as (-> & D & _).
  destruct (live_mine s sp r I M) as (b & EB & U & _). exists b. split; [assumption|]. split; [rewrite (owned_at s sp r I); assumption|].
  set (b' := Blk _ _ _).
  destruct (rezone_at s sp r Spoilt (Some b') I M) as ([Z C B P W] & H & _ & RL).
  { intros Q. congruence. }
  { split; [exact Logic.I|]. split; [exact U|]. congruence. }
  cbn [is_mine] in *.
  assert (SO : list_set r true (owned s) = owned s).
  { apply set_id. rewrite (at_owned _ _ _ _ I). unfold zone in M.
    rewrite nth_error_map. rewrite (nth_error_nth' _ Gone) by assumption. cbn. rewrite M. reflexivity. }
  rewrite SO in W. constructor; try assumption.
  apply counts_ext with (1 := C). intros d. rewrite H. destruct (Nat.eqb d r); lia.
Qed.

Lemma htake_ok s sp x p q : Inv s sp -> (x < length (shows sp))%nat -> aims (store s) (regions sp) p q -> to_give sp q ->
  match taken sp x q with
  | inl sp' => exists s', htake s x p = Ok s' /\ Inv s' sp'
  | inr e => htake s x p = Throw e
  end.
Proof.
  intros I X A F. destruct q as [[[r v] st]|], p as [[[d o] n]|]; cbn [aims] in A; try contradiction; cbn [htake taken]; [|reflexivity].
  destruct A as (-> & D & Z0 & (fs & ->) & G & R). destruct F as [-> F]. rewrite (Z0 eq_refl) in *. clear Z0.
  destruct (zone sp r) as [| a | |] eqn:ZE; try contradiction.
  assert (M : is_mine (zone sp r) = true) by (rewrite ZE; reflexivity).
  destruct (live_mine s sp r I M) as (b & E & U & ZO). rewrite ZE in ZO. cbn [zone_ok] in ZO.
  rewrite E, (owned_at s sp r I), M, Z.add_0_r. cbn [andb Z.eqb]. rewrite <- ZO. destruct a; [|reflexivity].
  destruct (R b E) as (_ & RB); [unfold at_rest; fold (zone sp r); rewrite ZE; discriminate|].
  symmetry in ZO. apply Z.eqb_eq in ZO. specialize (RB ZO).
  destruct (rezone_at s sp r (Counted (VObj fs)) (Some b) I M) as (I1 & H & H1 & RL).
  { rewrite ZE. left. discriminate. }
  { split; [|split; [assumption|eauto]]. cbn [zone_ok]. split; [assumption|]. split; [eauto|]. split; assumption. }
  rewrite (set_id _ _ _ E) in I1. cbn [is_mine] in *.
  apply (hput_ok _ _ _ _ x (Hold root r (Some r)) (Some (r, (VObj fs, r))) I1 X).
  - cbn [grip raw home ref]. split; [reflexivity|]. split; [reflexivity|].
    split. { exists (VObj fs). unfold set_zone. cbn [regions]. rewrite put_set by assumption. apply zone_same. assumption. }
    split; [exact (nth_lt _ _ _ E)|]. split; [discriminate|]. split; [assumption|]. split; [reflexivity|].
    intros b' E' _ _. rewrite E in E'. injection E' as <-. exact RB.
  - intros d. rewrite H. unfold w. cbn [holds_doc]. destruct (Nat.eqb d r); lia.
Qed.

(** ** Members *)
Lemma adopt_ok s sp d via b e v : Inv s sp -> 0 < held sp d -> (exists v0, nth d (regions sp) Gone = Counted v0) ->
  nth_error (store s) via = Some (Some b) -> represents (base b) (bytes b) e v -> good_all v ->
  exists l t, adopt (store s) e via (Some d) = Ok (l, t) /\ grip l (regions sp) t (in_doc d v via) /\
    Inv_at l (fun a => held sp a + w a (in_doc d v via)) s sp.
Proof.
  intros I P CD E R G. pose proof (represents_type _ _ _ _ R) as T.
  assert (Z : is_null e = match v with VNull => true | _ => false end) by (unfold is_null; rewrite T; destruct v; reflexivity).
  assert (GA : v <> VNull -> good_at (store s) (regions sp) e via v).
  { intros N. split; [exact (nth_lt _ _ _ E)|]. split; [assumption|]. split; [assumption|]. split; [assumption|].
    intros b' E' _ _. rewrite E in E'. injection E' as <-. exact R. }
  unfold adopt. destruct (retain_ok _ _ (Some d) (at_counts _ _ _ _ I)) as (l1 & -> & C1 & V1 & L1).
  { intros a H. injection H as <-. assumption. }
  cbn [bind]. rewrite Z. destruct v as [fs|vs|q|z|q|q|]; try (
    exists l1; eexists; split; [reflexivity|]; split;
    [cbn [in_doc grip raw home ref]; split; [reflexivity|]; split; [reflexivity|]; split; [exact CD|];
     eapply good_steady; [apply evolves_steady; exact V1|apply GA; discriminate]|];
    eapply at_evolves; [exact I|exact V1|exact L1|];
    apply counts_ext with (1 := C1); intros a; reflexivity).
  destruct (release_ok l1 _ (Some d) C1) as (l2 & -> & C2 & V2 & L2).
  { intros a H. injection H as <-. pose proof (one_range d (Some d)). lia. }
  cbn [bind]. exists l2. eexists. split; [reflexivity|]. cbn [in_doc]. split.
  - cbn [grip raw ref]. split; [exact T|reflexivity].
  - eapply at_evolves; [exact I|exact (evolves_trans _ _ _ V1 V2)|congruence|].
    apply counts_ext with (1 := C2). intros a. unfold w. cbn [holds_doc]. lia.
Qed.

Lemma hmove_ok s sp x y : Inv s sp -> (x < length (shows sp))%nat -> (y < length (shows sp))%nat ->
  exists s', hmove s x y = Ok s' /\
    Inv s' (if Nat.eqb x y then sp else set_show (set_show sp x (show sp y)) y None).
Proof.
  intros I X Y. unfold hmove. destruct (Nat.eqb_spec x y) as [->|N]; [eauto|].
  destruct (buf_at _ _ _ _ _ I Y) as (h & E & H). unfold hvar. rewrite E.
  set (s0 := HSt (store s) (list_set y null_hold (bufs s)) (owned s) (ptrs s)).
  assert (L : length (shows (set_show sp y None)) = length (shows sp)) by (cbn; apply put_len; assumption).
  assert (I0 : Inv_at (store s) (held sp) s0 (set_show sp y None)).
  { destruct I as [D C V J W]. constructor; cbn; try assumption.
    rewrite put_set by assumption. apply Forall2_set; [assumption|]. split; reflexivity. }
  destruct (hput_ok _ _ _ _ x h (show sp y) I0) as (s' & P & I').
  - rewrite L. assumption.
  - assumption.
  - intros d. unfold held. cbn [shows regions set_show]. rewrite put_set by assumption.
    rewrite cnt_set_g by assumption. unfold show, w. cbn [holds_doc]. lia.
  - assert (Q : exists s1, hput s (store s) x h = Ok s1 /\ store s1 = store s' /\
                list_set y null_hold (bufs s1) = bufs s' /\ owned s1 = owned s' /\ ptrs s1 = ptrs s').
    { unfold hput in *. cbn [bufs s0] in P. rewrite set_other in P by congruence.
      destruct (nth_error (bufs s) x) as [old|]; [|discriminate].
      destruct (release (ref old) (store s)) as [l1| | | |]; try discriminate. cbn [bind] in *.
      eexists. split; [reflexivity|]. apply Ok_inj in P. subst s'. cbn. rewrite set_comm by congruence. auto. }
    destruct Q as (s1 & -> & A & B & CC & DD). cbn [bind]. eexists. split; [reflexivity|].
    rewrite A, B, CC, DD. destruct s' as [a b' c' d']. cbn [store bufs owned ptrs].
    replace (set_show (set_show sp x (show sp y)) y None) with (set_show (set_show sp y None) x (show sp y));
      [exact I'|].
    unfold set_show. cbn [regions shows points]. f_equal.
    rewrite (put_set _ (shows sp) y), (put_set _ (shows sp) x) by assumption.
    rewrite !put_set by (rewrite set_len; assumption). apply set_comm. congruence.
Qed.

Lemma hdone_ok {r : res hstate} {a sp'} : (exists s', r = Ok s' /\ Inv s' sp') -> exists s', hdone a r = Ok (s', a) /\ Inv s' sp'.
Proof. intros (s' & -> & I). exists s'. split; [reflexivity|assumption]. Qed.
Lemma put_none_same sp x : (x < length (shows sp))%nat -> show sp x = None -> set_show sp x None = sp.
Proof.
  intros X E. unfold set_show. rewrite put_set by assumption. rewrite set_id; [destruct sp; reflexivity|].
  rewrite (nth_error_nth' _ None) by assumption. fold (show sp x). rewrite E. reflexivity.
Qed.
Lemma empty_dst s sp x : Inv s sp -> (x < length (shows sp))%nat -> show sp x = None ->
  exists s', hput s (store s) x null_hold = Ok s' /\ Inv s' sp /\ store s' = store s /\ ptrs s' = ptrs s.
Proof.
  intros I X E. destruct (hput_ok _ _ _ _ x null_hold None I X) as (s' & P & I').
  - split; reflexivity.
  - intros d. unfold w. cbn. lia.
  - exists s'. split; [assumption|]. rewrite put_none_same in I' by assumption. split; [assumption|].
    destruct (buf_at _ _ _ _ _ I X) as (h & N & G). rewrite E in G. destruct G as [_ R]. unfold hput in P. rewrite N, R in P.
    cbn [release bind] in P. apply Ok_inj in P. subst s'. auto.
Qed.
Lemma rc_cases {R} (client : R) rc (k : SpecAbi.counter -> R) :
  Abi.rc_switch client rc k = match SpecAbi.counter_of rc with Some c => k c | None => client end.
Proof.
  unfold Abi.rc_switch, SpecAbi.counter_of. destruct (Z.eqb_spec rc 1) as [->|N1]; [reflexivity|].
  destruct (Z.eqb_spec rc 2) as [->|N2]; [reflexivity|]. destruct rc as [|q|q]; try reflexivity.
  destruct q as [q|q|]; [reflexivity| |congruence]. destruct q; try reflexivity. congruence.
Qed.

(** ** One operation *)
Theorem h_step_ok s sp o : Inv s sp -> h_owes sp o -> h_clear sp o ->
  exists s', h_exec s o = Ok (s', snd (h_does sp o)) /\ Inv s' (fst (h_does sp o)).
Proof.
  intros I F K. pose proof (at_counts _ _ _ _ I) as C. destruct o; cbn [h_exec h_does h_owes h_clear fst snd] in *.
  - (* new *)
    destruct F as (X & A & T & H & G & R). destruct v as [fs| | | | | |]; try discriminate T.
    destruct (small_objects_finalize fs H R) as (m & E). rewrite E. cbn [htrying].
    apply hdone_ok. apply hfresh_ok; try assumption. apply (finalize_root fs m addr H E A).
  - (* copy *)
    destruct F as [X Y]. destruct (buf_at _ _ _ _ _ I Y) as (h & E & H). unfold hvar. rewrite E. apply hdone_ok.
    pose proof (grip_ref _ _ _ _ H) as RH.
    destruct (retain_held _ _ _ _ (ref h) I) as (l & -> & I1 & V).
    { intros d Q. rewrite RH in Q. exact (grip_counted _ _ _ Q). }
    cbn [bind]. apply (hput_ok _ _ _ _ x h (show sp y) I1 X).
    + eapply grip_steady; [apply evolves_steady; eassumption|apply I|assumption].
    + intros d. rewrite RH, one_w. reflexivity.
  - (* move *)
    destruct F as [X Y]. apply hdone_ok. apply hmove_ok; assumption.
  - (* reset *)
    apply hdone_ok. apply (hput_ok _ _ _ _ x null_hold None I F); [split; reflexivity|].
    intros d. unfold w. cbn. lia.
  - (* member *)
    destruct F as (X & Y & O). destruct (buf_at _ _ _ _ _ I Y) as (h & E & H). unfold hvar. rewrite E.
    pose proof (look_clear _ _ _ _ I H K) as L. pose proof (grip_ref _ _ _ _ H) as RH.
    destruct (show sp y) as [[d [v via]]|] eqn:EY; cbn [glimpsed].
    + destruct L as (Z & b & EB & R & ->). destruct H as (HM & _ & CD & (_ & _ & G & _)).
      pose proof (step_reaches n _ _ _ _ R G O) as S. destruct (reached n v) as [u|er]; cbn [reaches fst snd] in *.
      * destruct S as (GU & e' & -> & R'). cbn [htrying]. apply hdone_ok. rewrite HM, RH. cbn [option_map fst].
        destruct (adopt_ok s sp d via b e' u I (grip_counted sp y d ltac:(rewrite EY; reflexivity)) CD EB R' GU) as (l & t & -> & HT & I1).
        cbn [bind]. apply (hput_ok _ _ _ _ x t (in_doc d u via) I1 X HT). reflexivity.
      * rewrite S. cbn [htrying]. eauto.
    + destruct L as (Z & ->). destruct H as [TN _]. destruct (step_null n (raw h) 0 [] TN) as [-> ->].
      cbn [htrying fst snd]. eauto.
  - (* read *)
    destruct (buf_at _ _ _ _ _ I F) as (h & E & H). unfold hvar. rewrite E.
    pose proof (look_clear _ _ _ _ I H K) as L. destruct (show sp y) as [[d [v via]]|]; cbn [glimpsed].
    + destruct L as (Z & b & EB & R & ->). rewrite Z, (represents_value _ _ _ _ R). cbn [htrying]. eauto.
    + destruct L as (Z & ->). rewrite Z. cbn [htrying]. eauto.
  - (* count *)
    destruct (buf_at _ _ _ _ _ I F) as (h & E & H). unfold hvar. rewrite E. pose proof (grip_ref _ _ _ _ H) as RH. rewrite RH.
    destruct (show sp y) as [[d [v via]]|] eqn:EY; cbn [option_map fst use_count bind]; [|eauto].
    pose proof (grip_counted sp y d ltac:(rewrite EY; reflexivity)) as PD.
    destruct (counts_live _ _ d C PD) as (b & -> & ->). cbn [bind]. eexists. split; [|exact I]. do 3 f_equal.
    unfold held, mine. destruct H as (_ & _ & (v0 & ->) & _). cbn [is_mine]. rewrite Z.add_0_r. reflexivity.
  - (* share *)
    destruct F as [X Y]. destruct (buf_at _ _ _ _ _ I Y) as (h & E & H). unfold hvar. rewrite E.
    pose proof (grip_ref _ _ _ _ H) as RH.
    destruct (show sp y) as [[d [v via]]|] eqn:EY.
    2: { destruct H as [TN _]. rewrite (is_null_null _ TN). cbn [fst snd]. eauto. }
    destruct H as (HM & _ & (v0 & CD) & (_ & NV & G & T & _)). rewrite (is_null_not _ _ T NV).
    pose proof (grip_counted sp y d ltac:(rewrite EY; reflexivity)) as PD. rewrite RH. cbn [option_map fst snd]. apply hdone_ok.
    destruct (retain_held _ _ _ _ (Some d) I) as (l & -> & I1 & V).
    { intros a A. injection A as <-. assumption. }
    cbn [bind].
    destruct (counts_live _ _ d (at_counts _ _ _ _ I1)) as (b & EB & _); [pose proof (one_range d (Some d)); lia|].
    pose proof (proj2 (at_zones _ _ _ _ I1) d b EB) as ZO. rewrite CD in ZO. destruct ZO as (BA & (fs & ->) & GD & RD).
    unfold block_size. rewrite EB. destruct (root_size _ _ _ RD) as (z & ->). cbn [bind].
    unfold zone. rewrite CD. apply (hput_ok _ _ _ _ x _ (Some (d, (VObj fs, d))) I1 X).
    + cbn [grip raw home ref]. split; [reflexivity|]. split; [reflexivity|]. split; [eauto|].
      split; [exact (nth_lt _ _ _ EB)|]. split; [discriminate|]. split; [assumption|]. split; [reflexivity|].
      intros b' E' _ _. rewrite EB in E'. injection E' as <-. exact RD.
    + intros a. reflexivity.
  - (* open *)
    destruct F as (X & KP & A & T). destruct (ptr_at _ _ _ _ _ I KP) as (p & E & P). unfold hptr. rewrite E.
    destruct (hopen_ok s sp x k addr p I X A P T) as (s' & -> & I'). cbn [htrying]. eauto.
  - (* take *)
    destruct F as (X & KP & T). destruct (ptr_at _ _ _ _ _ I KP) as (p & E & P). unfold hptr. rewrite E.
    pose proof (htake_ok s sp x p _ I X P T) as H. destruct (taken sp x (point sp k)) as [sp'|er].
    + destruct H as (s' & -> & I'). cbn [htrying fst snd]. eauto.
    + rewrite H. cbn [htrying fst snd]. eauto.
  - (* load *)
    destruct F as (KP & T & H & G & R). destruct v as [fs| | | | | |]; try discriminate T.
    destruct (small_objects_finalize fs H R) as (m & E). rewrite E. cbn [htrying].
    destruct (ptr_at _ _ _ _ _ I KP) as (p & EP & _). unfold hptr. rewrite EP. eexists. split; [reflexivity|].
    apply hgrant_ok; try assumption. intros bs A. apply (finalize_root fs m bs H E A).
  - (* get *)
    destruct F as (KP & Y). destruct (buf_at _ _ _ _ _ I Y) as (h & E & H). unfold hvar. rewrite E.
    destruct (ptr_at _ _ _ _ _ I KP) as (p & EP & _). unfold hptr. rewrite EP.
    pose proof (look_clear _ _ _ _ I H K) as L. destruct (show sp y) as [[d [v via]]|].
    + destruct L as (Z & b & EB & R & ->). destruct H as (HM & _ & CD & (VL & NV & G & T & RW)).
      destruct v as [fs| | | | | |];
        try (rewrite object_not by (rewrite T; discriminate); cbn [htrying fst snd]; eauto; fail).
      destruct (rep_object _ _ _ _ R) as (off & ER & _). rewrite ER in *.
      change (b_object (R_object, Some off) (fun o => n <- rd_le (bytes b) o 4 ;; Ok (o, n)))
        with (n <- rd_le (bytes b) off 4 ;; Ok (off, n)).
      destruct (carries_part _ _ _ _ R) as (n & -> & CA). cbn [bind htrying fst snd]. eexists. split; [reflexivity|].
      rewrite HM. apply set_ptr_ok; try assumption. cbn [aims]. split; [reflexivity|]. split; [assumption|]. split; [discriminate|].
      split; [eauto|]. split; [assumption|]. intros b' E' AR. rewrite EB in E'. injection E' as <-. split; [assumption|]. auto.
    + destruct L as (Z & ->). destruct H as [TN _]. rewrite object_not by congruence. cbn [htrying fst snd]. eauto.
  - (* dup *)
    destruct F as (KP & Y & A). destruct (buf_at _ _ _ _ _ I Y) as (h & E & H). unfold hvar. rewrite E.
    destruct (ptr_at _ _ _ _ _ I KP) as (p & EP & _). unfold hptr. rewrite EP.
    pose proof (look_clear _ _ _ _ I H K) as L. destruct (show sp y) as [[d [v via]]|]; cbn [glimpsed].
    + destruct L as (Z & b & EB & R & ->). destruct H as (HM & _ & CD & (VL & NV & G & T & RW)).
      destruct v as [fs| | | | | |];
        try (unfold b_get_bytes; rewrite object_not by (rewrite T; discriminate); cbn [htrying fst snd]; eauto; fail).
      destruct (rep_bytes _ _ _ _ R) as (m & -> & RB). cbn [htrying fst snd]. eexists. split; [reflexivity|].
      replace true with (addr mod 8 =? 0) by lia. apply hgrant_ok; assumption.
    + destruct L as (Z & ->). destruct H as [TN _]. unfold b_get_bytes. rewrite object_not by congruence. cbn [htrying fst snd]. eauto.
  - (* point *)
    destruct F as [KP J]. destruct (ptr_at _ _ _ _ _ I KP) as (p & EP & _). destruct (ptr_at _ _ _ _ _ I J) as (q & EQ & Q).
    unfold hptr. rewrite EP, EQ. eexists. split; [reflexivity|]. apply set_ptr_ok; assumption.
  - (* write *)
    destruct F as [KP T]. destruct (ptr_at _ _ _ _ _ I KP) as (p & EP & P). unfold hptr. rewrite EP.
    destruct (point sp k) as [[[r v] st]|] eqn:EK; [|contradiction]. destruct p as [[[d o] n]|]; [|contradiction].
    assert (M : is_mine (zone sp r) = true) by (destruct (zone sp r); try contradiction; reflexivity).
    rewrite <- EK in P. destruct (hwrite_ok s sp k l r v st d o n I EK M P) as (b & -> & -> & I'). eauto.
  - (* free *)
    destruct F as [KP T]. destruct (ptr_at _ _ _ _ _ I KP) as (p & EP & P). unfold hptr. rewrite EP. apply hdone_ok.
    apply hfree_ok; assumption.
  - (* the C interface: copy *)
    destruct F as (X & NX & KP & A & T). destruct (ptr_at _ _ _ _ _ I KP) as (p & E & P). unfold hptr. rewrite E, rc_cases.
    destruct (SpecAbi.counter_of rc); cbn [fst snd]; [|eauto].
    destruct (empty_dst s sp x I X NX) as (s1 & -> & I1 & S1 & _). cbn [bind]. rewrite <- S1 in P.
    destruct (hopen_ok s1 sp x k addr p I1 X A P T) as (s' & -> & I'). eauto.
  - (* the C interface: take *)
    destruct F as (X & NX & KP & T). destruct (ptr_at _ _ _ _ _ I KP) as (p & E & P). unfold hptr. rewrite E, rc_cases.
    assert (TF : to_free sp (point sp k)).
    { destruct (point sp k) as [[[r v] st]|]; [|exact Logic.I]. destruct T as [-> T]. split; [reflexivity|].
      destruct (zone sp r); try contradiction. exact Logic.I. }
    destruct (SpecAbi.counter_of rc); cbn [fst snd].
    + destruct (empty_dst s sp x I X NX) as (s1 & -> & I1 & S1 & _). cbn [bind]. rewrite <- S1 in P.
      pose proof (htake_ok s1 sp x p _ I1 X P T) as H. destruct (taken sp x (point sp k)) as [sp'|er] eqn:ET; cbn [fst snd].
      * destruct H as (s' & -> & I'). eauto.
      * rewrite H. destruct (hfree_ok s1 sp p _ I1 P TF) as (s' & -> & I'). cbn [bind]. exists s'. split; [|assumption].
        assert (er = invalid_argument) as ->; [|reflexivity].
        unfold taken in ET. destruct (point sp k) as [[[r v] st]|]; [|congruence]. destruct (zone sp r) as [| [|] | |]; congruence.
    + destruct packet.
      * destruct (hfree_ok s sp p _ I P TF) as (s' & -> & I'). cbn [bind]. eauto.
      * cbn [bind]. eauto.
Qed.

Theorem h_run_ok ops : forall s sp, Inv s sp -> h_owes_all sp ops -> h_clear_all sp ops ->
  exists s', h_run s ops = Ok (s', snd (h_story sp ops)) /\ Inv s' (fst (h_story sp ops)).
Proof.
  induction ops as [|o r IH]; intros s sp I F K; cbn [h_run h_story fst snd]; [eauto|].
  destruct F as [F1 F2], K as [K1 K2]. destruct (h_step_ok s sp o I F1 K1) as (s1 & -> & I1). cbn [bind].
  destruct (h_does sp o) as [sp1 a]. cbn [fst snd] in *.
  destruct (IH s1 sp1 I1 F2 K2) as (s2 & -> & I2). cbn [bind]. destruct (h_story sp1 r) as [sp2 l]. cbn [fst snd] in *. eauto.
Qed.

Lemma h_start_ok n k : Inv (h_start n k) (h_blank n k).
Proof.
  constructor; cbn [h_start h_blank store bufs owned ptrs regions shows points].
  - split; [reflexivity|]. intros d b E. destruct d; discriminate.
  - intros d. unfold held, mine. cbn [h_blank shows regions].
    assert (Z : forall A q, cnt d (repeat (@None (nat * A)) q) = 0) by (intros A q; induction q; [reflexivity|cbn [repeat]; rewrite cnt_cons; unfold w; cbn; lia]).
    rewrite !Z. destruct d; reflexivity.
  - induction n; [constructor|]. cbn [repeat]. constructor; [split; reflexivity|assumption].
  - induction k; [constructor|]. cbn [repeat]. constructor; [exact Logic.I|assumption].
  - reflexivity.
Qed.
