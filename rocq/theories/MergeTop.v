(** inject and project on whole finalized objects. *)

From Coq Require Import ZArith List Lia Bool Sorted.
From Coq Require Import ZifyBool ZifyNat ZifyN.
From Verif Require Import Base BaseFacts Keys KeysFacts Dec Wire Read Buf Merge Enc EncSize Spec ReadFacts Lookup
  BufFacts Canon HeapFacts MergeFacts MergeEmit.
Import ListNotations.
Open Scope Z_scope.

(** ** Specification *)

(** The pairs of both objects, the incoming value winning, in key order. *)
Definition is_union (fb fi u : list (str * value)) : Prop :=
  StronglySorted key_lt (map fst u) /\
  forall k, lookup k u = match lookup k fi with Some x => Some x | None => lookup k fb end.

(** The pairs whose key was asked for, in key order. *)
Definition is_selection (fs : list (str * value)) (keys : list str) (u : list (str * value)) : Prop :=
  StronglySorted key_lt (map fst u) /\
  forall k, lookup k u = if in_dec (list_eq_dec Byte.byte_eq_dec) k keys then lookup k fs else None.

(** The block allocated for the result has room for it: its pairs, laid out
    behind a vtable sized for every pair that might be needed, end inside. *)
Definition room_union (fb fi u : list (str * value)) : Prop :=
  fend u (8 + 8 * (zlen fb + zlen fi)) <= esize (VObj fb) + esize (VObj fi).
Definition room_selection (fs : list (str * value)) (keys : list str) (u : list (str * value)) : Prop :=
  fend u (8 + 8 * zlen keys) <= esize (VObj fs).

(** A block holding the object's encoding with zeros in every unused byte, as
    finalizing leaves it. *)
Definition clean (m : mem) (o : Z) (fs : list (str * value)) : Prop := holdsQ filled m o (enc (VObj fs)).

(** ** Results *)

Lemma esize_mod8 fs : esize (VObj fs) mod 8 = 0.
Proof. rewrite esize_fend. apply align_up_mod. lia. Qed.

Lemma kv_sorted its fs : map kv its = fs -> StronglySorted key_lt (map fst fs) -> sortedi its.
Proof. intros <- H. rewrite sortedi_fst in H. exact H. Qed.

Lemma union_of ib ii fb fi u : map kv ib = fb -> map kv ii = fi -> sortedi ib -> sortedi ii ->
  is_union fb fi u -> map kv (munion ib ii) = u.
Proof.
  intros <- <- Sb Si [S L]. apply sorted_ext; [|assumption|].
  - rewrite sortedi_fst. apply munion_sorted; assumption.
  - intros k. rewrite L. apply munion_lookup; assumption.
Qed.

Lemma in_lookup fs k (x : value) : StronglySorted key_lt (map fst fs) -> In (k, x) fs -> lookup k fs = Some x.
Proof.
  induction fs as [|[j y] fs IH]; intros S I; [destruct I|]. cbn [map fst] in S. apply StronglySorted_inv in S.
  destruct S as [S F]. cbn [lookup]. destruct (list_eq_dec Byte.byte_eq_dec k j) as [->|N].
  - destruct I as [E|I]; [injection E as ->; reflexivity|]. exfalso. rewrite Forall_forall in F.
    apply (in_map fst) in I. apply F in I. exact (key_lt_irrefl _ I).
  - destruct I as [E|I]; [congruence|auto].
Qed.

Lemma union_in fb fi u k x : StronglySorted key_lt (map fst u) -> is_union fb fi u -> In (k, x) u -> In (k, x) fi \/ In (k, x) fb.
Proof.
  intros S [_ L] I. assert (E : lookup k u = Some x) by (apply in_lookup; assumption).
  rewrite L in E. destruct (lookup k fi) eqn:E2.
  - left. injection E as ->. apply lookup_in. assumption.
  - right. apply lookup_in. assumption.
Qed.

Section Merging.
  Variable Q : pat -> list byte -> Prop.
  Hypothesis Qapp : forall p q bs, Q (p ++ q) bs -> exists b1 b2, bs = b1 ++ b2 /\ Q p b1 /\ Q q b2.
  Hypothesis Qmatch : forall p bs, Q p bs -> matches p bs.

  Lemma merge_items bs m o fb bs' m' o' fi u :
    holdsQ Q m o (enc (VObj fb)) -> heap_value (VObj fb) -> fits (VObj fb) -> (bs + o) mod 8 = 0 ->
    holdsQ Q m' o' (enc (VObj fi)) -> heap_value (VObj fi) -> fits (VObj fi) -> (bs' + o') mod 8 = 0 ->
    is_union fb fi u ->
    (room_union fb fi u -> exists its, map kv its = u /\ Forall item_ok its /\
       Forall (fun it => Q (enc (i_val it)) (i_bytes it)) its /\
       merge_buffers (mk_source bs m o) (mk_source bs' m' o') =
       Ok (cobj its ++ zeros (esize (VObj fb) + esize (VObj fi) - esize (VObj u)))) /\
    (~ room_union fb fi u -> merge_buffers (mk_source bs m o) (mk_source bs' m' o') = Oob).
  Proof.
    intros H1 HV1 F1 A1 H2 HV2 F2 A2 U.
    destruct (source_items Q Qapp Qmatch bs m o fb H1 HV1 F1 A1) as (ib & Eb & Sb & Qb).
    destruct (source_items Q Qapp Qmatch bs' m' o' fi H2 HV2 F2 A2) as (ii & Ei & Si & Qi).
    assert (Tb : sortedi ib) by (apply (kv_sorted _ _ Eb), heap_sorted, HV1).
    assert (Ti : sortedi ii) by (apply (kv_sorted _ _ Ei), heap_sorted, HV2).
    destruct (each_unique_pair_spec _ _ _ _ Sb Si Tb Ti) as (ps & EP & FP).
    pose proof (union_of _ _ _ _ _ Eb Ei Tb Ti U) as EU.
    assert (EM : merge_buffers (mk_source bs m o) (mk_source bs' m' o') =
      build_object (esize (VObj fb) + esize (VObj fi)) (zlen fb + zlen fi) ps).
    { unfold merge_buffers. destruct Sb as (Cb & Bb & _). destruct Si as (Ci & Bi & _).
      rewrite Bb, Bi, Cb, Ci. cbn [bind]. rewrite EP. cbn [bind]. rewrite Eb, Ei.
      rewrite <- Eb, <- Ei, !zlen_map. reflexivity. }
    assert (G : zlen (munion ib ii) <= zlen fb + zlen fi).
    { rewrite <- Eb, <- Ei, !zlen_map. apply munion_len. }
    pose proof (esize_mod8 fb). pose proof (esize_mod8 fi).
    split; intros R; rewrite EM; unfold room_union in R.
    - exists (munion ib ii). split; [exact EU|]. split; [eapply pieces_items; eassumption|].
      split; [apply munion_Forall; assumption|].
      rewrite (build_ok _ _ _ _ FP G).
      + rewrite EU. reflexivity.
      + rewrite Z.add_mod, H, H0 by lia. reflexivity.
      + rewrite EU. exact R.
    - apply (build_oob _ _ _ _ FP G). rewrite EU. lia.
  Qed.
End Merging.

Lemma fend_aligned fs j : 0 <= j -> align_up (fend fs (8 + 8 * (zlen fs + j))) 8 = esize (VObj fs) + 8 * j.
Proof.
  intros. replace (8 + 8 * (zlen fs + j)) with (8 + 8 * zlen fs + 8 * j) by lia.
  rewrite fend_shift, esize_fend. apply align_up_shift. right; right; right; reflexivity.
Qed.

(** The result is no larger than the block. *)
Lemma fend_size u g total : zlen u <= g -> total mod 8 = 0 -> fend u (8 + 8 * g) <= total -> esize (VObj u) <= total.
Proof.
  intros G T H. pose proof (fend_aligned u (g - zlen u) ltac:(lia)) as E.
  replace (zlen u + (g - zlen u)) with g in E by lia.
  pose proof (align_up_mono _ _ 8 ltac:(lia) H) as M. rewrite (align_up_id total 8) in M by lia. lia.
Qed.

Lemma union_len fb fi u : is_union fb fi u -> StronglySorted key_lt (map fst u) -> zlen u <= zlen fb + zlen fi.
Proof.
  intros U S. assert (N : NoDup (map fst u)) by (apply sorted_nodup; assumption).
  assert (I : incl (map fst u) (map fst fb ++ map fst fi)).
  { intros k Ik. apply in_map_iff in Ik. destruct Ik as ([k' x] & <- & Ik). cbn [fst].
    apply in_or_app. destruct (union_in _ _ _ _ _ S U Ik) as [J|J]; [right|left]; apply (in_map fst) in J; exact J. }
  apply NoDup_incl_length in I; [|assumption]. rewrite app_length, !map_length in I. unfold zlen. lia.
Qed.

Lemma built_represents its u z bs : map kv its = u -> Forall item_ok its ->
  heap_value (VObj u) -> fits (VObj u) -> bs mod 8 = 0 ->
  represents bs (cobj its ++ zeros z) (R_object, Some 0) (VObj u).
Proof.
  intros <- O HV F A. split; [assumption|]. cbn [fst snd].
  split; [|split; [assumption|split; [rewrite Z.add_0_r; exact A|left; reflexivity]]].
  exists [], (cobj its), (zeros z). split; [reflexivity|]. split; [reflexivity|]. apply cobj_matches. assumption.
Qed.

Lemma heap_union fb fi u : heap_value (VObj fb) -> heap_value (VObj fi) -> is_union fb fi u -> heap_value (VObj u).
Proof.
  intros Hb Hi U. pose proof (proj1 U) as S. constructor; [exact S|]. rewrite Forall_forall. intros [k x] I.
  destruct (union_in _ _ _ _ _ S U I) as [J|J]; [apply (heap_field fi)|apply (heap_field fb)]; assumption.
Qed.
Lemma fits_union fb fi u : fits (VObj fb) -> fits (VObj fi) -> is_union fb fi u -> esize (VObj u) < 2 ^ 32 -> fits (VObj u).
Proof.
  intros Hb Hi U L. pose proof (proj1 U) as S. apply fits_obj. split; [|assumption]. rewrite Forall_forall. intros [k x] I.
  apply fits_obj in Hb, Hi. destruct Hb as [Hb _], Hi as [Hi _]. rewrite Forall_forall in Hb, Hi.
  destruct (union_in _ _ _ _ _ S U I) as [J|J]; auto.
Qed.

(** ** When there is room *)

(** Values needing alignment at most two never cost extra padding. *)
Definition wide (kx : str * value) : Z :=
  align_up (align_up (zlen (enc_str (fst kx))) (al (snd kx)) + esize (snd kx)) 2.
Fixpoint wides (fs : list (str * value)) : Z := match fs with [] => 0 | kx :: r => wide kx + wides r end.

Lemma wide_nonneg kx : 0 <= wide kx.
Proof.
  unfold wide. pose proof (al_pos (snd kx)).
  pose proof (align_up_ge (zlen (enc_str (fst kx))) (al (snd kx)) ltac:(lia)).
  pose proof (align_up_ge (align_up (zlen (enc_str (fst kx))) (al (snd kx)) + esize (snd kx)) 2 ltac:(lia)).
  pose proof (esize_nonneg (snd kx)). zlia.
Qed.
Lemma fend_wides fs : Forall (fun kx => al (snd kx) <= 2) fs -> forall pos, align_up (fend fs pos) 2 = align_up pos 2 + wides fs.
Proof.
  induction 1 as [|[k x] fs A F IH]; intros pos; [rewrite fend_nil; cbn [wides]; lia|].
  rewrite fend_cons, IH. cbn [wides]. unfold wide. cbn [fst snd] in *. unfold vpos, kpos.
  pose proof (align_up_mod pos 2 ltac:(lia)) as M. pose proof (al_pow2 x) as P.
  assert (AP : al x = 1 \/ al x = 2) by (unfold pow2_align in P; lia).
  assert (M2 : align_up pos 2 mod al x = 0) by (destruct AP as [-> | ->]; [apply Z.mod_1_r|assumption]).
  rewrite (align_up_add (align_up pos 2) (zlen (enc_str k)) (al x)) by (auto using al_pos). rewrite <- Z.add_assoc.
  rewrite (align_up_add (align_up pos 2) _ 2) by (auto || lia). lia.
Qed.

Lemma munion_wides : forall rb ri, wides (map kv (munion rb ri)) <= wides (map kv rb) + wides (map kv ri).
Proof.
  induction rb as [|b rb IHb]; intros ri; [rewrite munion_nil_l; cbn; lia|].
  induction ri as [|i ri IHi]; [rewrite munion_nil_r; cbn [map wides]; lia|]. rewrite munion_cons.
  pose proof (wide_nonneg (kv b)).
  destruct (dart_ltb (i_key b) (i_key i)); [|destruct (dart_ltb (i_key i) (i_key b))].
  - specialize (IHb (i :: ri)). cbn [map wides] in *. lia.
  - cbn [map wides] in *. lia.
  - specialize (IHb ri). cbn [map wides] in *. lia.
Qed.

Lemma plain_items fs : exists its, map kv its = fs.
Proof.
  exists (map (fun kx => mk_item (fst kx) (snd kx) []) fs). rewrite map_map. cbn.
  rewrite <- (map_id fs) at 2. apply map_ext. intros [k x]. reflexivity.
Qed.

Lemma room_small fb fi u : StronglySorted key_lt (map fst fb) -> StronglySorted key_lt (map fst fi) -> is_union fb fi u ->
  Forall (fun kx => al (snd kx) <= 2) (fb ++ fi) -> room_union fb fi u.
Proof.
  intros Sb Si U A. apply Forall_app in A. destruct A as [Ab Ai]. pose proof (proj1 U) as Su.
  assert (Au : Forall (fun kx => al (snd kx) <= 2) u).
  { rewrite Forall_forall in *. intros [k x] I. destruct (union_in _ _ _ _ _ Su U I); auto. }
  destruct (plain_items fb) as (ib & Eb). destruct (plain_items fi) as (ii & Ei).
  pose proof (union_of _ _ _ _ _ Eb Ei (kv_sorted _ _ Eb Sb) (kv_sorted _ _ Ei Si) U) as EU.
  pose proof (munion_wides ib ii) as W. rewrite EU, Eb, Ei in W.
  unfold room_union. rewrite !esize_fend.
  pose proof (fend_wides u Au (8 + 8 * (zlen fb + zlen fi))) as Eu.
  pose proof (fend_wides fb Ab (8 + 8 * zlen fb)) as Efb.
  pose proof (fend_wides fi Ai (8 + 8 * zlen fi)) as Efi.
  assert (Q : forall x, align_up x 2 <= align_up x 8).
  { intros x. unfold align_up. Z.div_mod_to_equations. lia. }
  pose proof (Q (fend fb (8 + 8 * zlen fb))). pose proof (Q (fend fi (8 + 8 * zlen fi))).
  pose proof (align_up_ge (fend u (8 + 8 * (zlen fb + zlen fi))) 2 ltac:(lia)).
  assert (E2 : forall n, align_up (8 + 8 * n) 2 = 8 + 8 * n).
  { intros n. apply align_up_id; [lia|]. Z.div_mod_to_equations. lia. }
  rewrite !E2 in *. lia.
Qed.

(** Incoming pairs that land next to each other fit. *)
Lemma room_block b1 d b2 fi : room_union (b1 ++ d ++ b2) fi (b1 ++ fi ++ b2).
Proof.
  unfold room_union. set (fb := b1 ++ d ++ b2). set (ni := zlen fi). set (nb := zlen fb).
  assert (0 <= ni) by (subst ni; zlia).
  rewrite !fend_app.
  set (q1 := fend b1 (8 + 8 * nb)).
  assert (P1 : fend b1 (8 + 8 * (nb + ni)) = q1 + 8 * ni).
  { replace (8 + 8 * (nb + ni)) with (8 + 8 * nb + 8 * ni) by lia. apply fend_shift. }
  rewrite P1.
  (* the incoming block *)
  set (up := align_up q1 8). set (dn := q1 / 8 * 8).
  assert (UP : exists a, up = 8 * a) by (exists ((q1 + (8 - 1)) / 8); subst up; unfold align_up; apply Z.mul_comm).
  destruct UP as (a & UP). assert (DN : exists c, dn = 8 * c) by (exists (q1 / 8); subst dn; apply Z.mul_comm). destruct DN as (c & DN).
  assert (q1 <= up) by (apply align_up_ge; lia).
  assert (dn <= q1) by (subst dn; Z.div_mod_to_equations; lia).
  assert (up <= dn + 8) by (subst dn up; unfold align_up; Z.div_mod_to_equations; lia).
  pose proof (esize_fend fi) as SI. fold ni in SI.
  pose proof (align_up_ge (fend fi (8 + 8 * ni)) 8 ltac:(lia)) as GI. rewrite <- SI in GI.
  assert (M1 : fend fi (q1 + 8 * ni) <= esize (VObj fi) + up - 8).
  { pose proof (fend_mono fi (q1 + 8 * ni) (8 + 8 * ni + 8 * (a - 1)) ltac:(lia)) as M. rewrite (fend_shift fi (8 + 8 * ni)) in M. lia. }
  (* the rest of the base *)
  assert (MI : exists e, esize (VObj fi) = 8 * e).
  { pose proof (esize_mod8 fi). exists (esize (VObj fi) / 8). Z.div_mod_to_equations. lia. }
  destruct MI as (e & MI).
  pose proof (fend_mono b2 _ _ M1) as M2.
  replace (esize (VObj fi) + up - 8) with (dn + 8 * (e + a - 1 - c)) in M2 by lia. rewrite (fend_shift b2 dn) in M2.
  pose proof (esize_fend fb) as SB. fold nb in SB.
  pose proof (align_up_ge (fend fb (8 + 8 * nb)) 8 ltac:(lia)) as GB. rewrite <- SB in GB.
  unfold fb in GB at 1. rewrite !fend_app in GB. fold q1 in GB.
  pose proof (fend_mono b2 dn (fend d q1) ltac:(pose proof (fend_ge d q1); lia)) as M3. lia.
Qed.

(** ** Projection *)
Lemma fend_filter (f : str * value -> bool) fs : forall p q, p <= q -> fend (filter f fs) p <= fend fs q.
Proof.
  induction fs as [|[k x] fs IH]; intros p q H; cbn [filter]; [rewrite !fend_nil; assumption|].
  destruct (f (k, x)).
  - rewrite !fend_cons. apply IH. pose proof (vpos_mono p q k x H). lia.
  - rewrite fend_cons. apply IH. pose proof (vpos_ge q k x). pose proof (kpos_ge q).
    pose proof (esize_nonneg x). zlia.
Qed.

Lemma filter_kv keys its : map kv (filter (wanted keys) its) =
  filter (fun kx => if in_dec (list_eq_dec Byte.byte_eq_dec) (fst kx) keys then true else false) (map kv its).
Proof.
  induction its as [|it its IH]; [reflexivity|]. cbn [filter map kv fst].
  destruct (in_dec (list_eq_dec Byte.byte_eq_dec) (i_key it) keys) as [I|N].
  - apply wanted_in in I. rewrite I. cbn [map]. rewrite IH. reflexivity.
  - destruct (wanted keys it) eqn:W; [apply wanted_in in W; contradiction|]. exact IH.
Qed.

Lemma sorted_filter (f : str * value -> bool) fs : StronglySorted key_lt (map fst fs) -> StronglySorted key_lt (map fst (filter f fs)).
Proof.
  induction fs as [|kx fs IH]; intros S; [constructor|]. cbn [map] in S. apply StronglySorted_inv in S. destruct S as [S F].
  cbn [filter]. destruct (f kx); [|auto]. cbn [map]. constructor; [auto|]. rewrite Forall_forall in *. intros k I.
  apply in_map_iff in I. destruct I as (y & <- & I). apply filter_In in I. apply F. apply in_map. apply I.
Qed.

Lemma selection_filter fs keys : StronglySorted key_lt (map fst fs) ->
  is_selection fs keys (filter (fun kx => if in_dec (list_eq_dec Byte.byte_eq_dec) (fst kx) keys then true else false) fs).
Proof.
  intros S. split; [apply sorted_filter; assumption|]. intros k.
  induction fs as [|[j x] fs IH]; [cbn; destruct (in_dec (list_eq_dec Byte.byte_eq_dec) k keys); reflexivity|].
  cbn [map fst] in S. apply StronglySorted_inv in S. destruct S as [S _]. specialize (IH S).
  cbn [filter fst]. destruct (in_dec (list_eq_dec Byte.byte_eq_dec) j keys) as [I|N]; cbn [lookup]; rewrite IH.
  - destruct (list_eq_dec Byte.byte_eq_dec k j) as [->|]; [|reflexivity]. destruct (in_dec (list_eq_dec Byte.byte_eq_dec) j keys); [reflexivity|contradiction].
  - destruct (list_eq_dec Byte.byte_eq_dec k j) as [->|]; [|reflexivity]. destruct (in_dec (list_eq_dec Byte.byte_eq_dec) j keys); [contradiction|reflexivity].
Qed.

Lemma selection_unique fs keys u : StronglySorted key_lt (map fst fs) -> is_selection fs keys u ->
  u = filter (fun kx => if in_dec (list_eq_dec Byte.byte_eq_dec) (fst kx) keys then true else false) fs.
Proof.
  intros S [Su L]. destruct (selection_filter fs keys S) as [Sf Lf]. apply sorted_ext; auto.
  intros k. rewrite L, Lf. reflexivity.
Qed.

Lemma selection_len fs keys u : StronglySorted key_lt (map fst fs) -> is_selection fs keys u -> zlen u <= zlen keys.
Proof.
  intros S U. pose proof (proj1 U) as Su.
  assert (I : incl (map fst u) keys).
  { intros k I. destruct (lookup k u) eqn:E.
    - rewrite (proj2 U) in E. destruct (in_dec (list_eq_dec Byte.byte_eq_dec) k keys); [assumption|discriminate].
    - exfalso. apply lookup_none in E. contradiction. }
  apply NoDup_incl_length in I; [|apply sorted_nodup; assumption]. rewrite map_length in I. unfold zlen. lia.
Qed.

Lemma room_enough fs keys u : StronglySorted key_lt (map fst fs) -> is_selection fs keys u ->
  zlen keys <= zlen fs -> room_selection fs keys u.
Proof.
  intros S U L. unfold room_selection. rewrite (selection_unique _ _ _ S U), esize_fend.
  pose proof (align_up_ge (fend fs (8 + 8 * zlen fs)) 8 ltac:(lia)).
  eapply Z.le_trans; [|exact H]. apply fend_filter. lia.
Qed.

Lemma selection_in fs keys u k x : StronglySorted key_lt (map fst fs) -> is_selection fs keys u -> In (k, x) u -> In (k, x) fs.
Proof. intros S U. rewrite (selection_unique _ _ _ S U). intros I. apply filter_In in I. apply I. Qed.

Lemma heap_selection fs keys u : heap_value (VObj fs) -> is_selection fs keys u -> heap_value (VObj u).
Proof.
  intros H U. constructor; [exact (proj1 U)|]. rewrite Forall_forall. intros [k x] I. apply (heap_field fs); [assumption|].
  eapply selection_in; eauto using heap_sorted.
Qed.
Lemma fits_selection fs keys u : StronglySorted key_lt (map fst fs) -> fits (VObj fs) -> is_selection fs keys u ->
  esize (VObj u) < 2 ^ 32 -> fits (VObj u).
Proof.
  intros S F U L. apply fits_obj. split; [|assumption]. rewrite Forall_forall. intros [k x] I.
  apply fits_obj in F. destruct F as [F _]. rewrite Forall_forall in F. apply F. eapply selection_in; eauto.
Qed.

Lemma weakly_sorted_sort keys : weakly_sorted (sort_by (fun k => k) keys).
Proof. apply (sort_by_sorted (fun k : str => k)). Qed.

Section Projections.
  Variable Q : pat -> list byte -> Prop.
  Hypothesis Qapp : forall p q bs, Q (p ++ q) bs -> exists b1 b2, bs = b1 ++ b2 /\ Q p b1 /\ Q q b2.
  Hypothesis Qmatch : forall p bs, Q p bs -> matches p bs.

  Lemma project_items bs m o fs keys u :
    holdsQ Q m o (enc (VObj fs)) -> heap_value (VObj fs) -> fits (VObj fs) -> (bs + o) mod 8 = 0 ->
    is_selection fs keys u ->
    (room_selection fs keys u -> exists its, map kv its = u /\ Forall item_ok its /\
       Forall (fun it => Q (enc (i_val it)) (i_bytes it)) its /\
       project_keys (mk_source bs m o) keys =
       Ok (cobj its ++ zeros (esize (VObj fs) - esize (VObj u)))) /\
    (~ room_selection fs keys u -> project_keys (mk_source bs m o) keys = Oob).
  Proof.
    intros H1 HV1 F1 A1 U. pose proof (heap_sorted _ HV1) as S.
    destruct (source_items Q Qapp Qmatch bs m o fs H1 HV1 F1 A1) as (ib & Eb & Sb & Qb).
    assert (Tb : sortedi ib) by (apply (kv_sorted _ _ Eb S)).
    destruct (project_each_pair_spec _ _ Sb _ Tb (weakly_sorted_sort keys)) as (ps & EP & FP).
    assert (EW : filter (wanted (sort_by (fun k => k) keys)) ib = filter (wanted keys) ib).
    { apply filter_ext. intros it. apply eq_iff_eq_true. rewrite !wanted_in. apply sort_by_in. }
    rewrite EW in FP.
    assert (EU : map kv (filter (wanted keys) ib) = u).
    { rewrite filter_kv, Eb. symmetry. apply selection_unique; assumption. }
    assert (EM : project_keys (mk_source bs m o) keys = build_object (esize (VObj fs)) (zlen keys) ps).
    { unfold project_keys. destruct Sb as (Cb & Bb & _). rewrite Bb. cbn [bind]. rewrite EP. cbn [bind].
      rewrite Eb, sort_by_len. reflexivity. }
    assert (G : zlen (filter (wanted keys) ib) <= zlen keys).
    { pose proof (selection_len _ _ _ S U) as L. rewrite <- EU, zlen_map in L. exact L. }
    split; intros R; rewrite EM; unfold room_selection in R.
    - exists (filter (wanted keys) ib). split; [exact EU|]. split; [eapply pieces_items; eassumption|].
      split; [rewrite Forall_forall in *; intros it I; apply Qb; apply filter_In in I; apply I|].
      rewrite (build_ok _ _ _ _ FP G); [rewrite EU; reflexivity|apply esize_mod8|rewrite EU; exact R].
    - apply (build_oob _ _ _ _ FP G). rewrite EU. lia.
  Qed.
End Projections.
