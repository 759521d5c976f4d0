(** The space computed before finalizing covers what finalizing writes. *)

From Coq Require Import ZArith List Lia Bool.
From Coq Require Import ZifyBool ZifyNat ZifyN.
From Verif Require Import Base BaseFacts Keys Dec Wire Enc.
Import ListNotations.
Open Scope Z_scope.
Ltac Zify.zify_post_hook ::= Z.div_mod_to_equations.

(** String and key lengths fit a 32-bit count. *)
Inductive short_strings : value -> Prop :=
| ss_obj fs : Forall (fun kv => zlen (fst kv) < 2 ^ 32 /\ short_strings (snd kv)) fs -> short_strings (VObj fs)
| ss_arr vs : Forall short_strings vs -> short_strings (VArr vs)
| ss_str s : zlen s < 2 ^ 32 -> short_strings (VStr s)
| ss_int z : short_strings (VInt z)
| ss_dec d : short_strings (VDec d)
| ss_bool b : short_strings (VBool b)
| ss_null : short_strings VNull.

Lemma align_up_mono x y a : 0 < a -> x <= y -> align_up x a <= align_up y a.
Proof.
  intros. unfold align_up. apply Z.mul_le_mono_nonneg_r; [lia|]. apply Z.div_le_mono; lia.
Qed.

Lemma str_upper_bound_enc s : zlen s < 2 ^ 32 -> str_upper_bound s = zlen (enc_str s).
Proof.
  intros B. pose proof (zlen_nonneg s). unfold str_upper_bound. rewrite str_w_identify, zlen_enc_str.
  unfold str_w, string_static_sizeof.
  destruct (65535 <? zlen s) eqn:E; rewrite Z.mod_small by (cbn; lia); lia.
Qed.

Lemma esize_nonneg v : 0 <= esize v.
Proof. apply zlen_nonneg. Qed.

Lemma seg_bound pos k x :
  zlen (seg enc pos k x) <= zlen (enc_str k) + al x + esize x.
Proof.
  rewrite zlen_seg. unfold esize, vpos, kpos.
  pose proof (align_up_lt pos 2 ltac:(lia)).
  pose proof (align_up_lt (align_up pos 2 + zlen (enc_str k)) (al x) (al_pos x)). lia.
Qed.
Lemma aseg_bound pos x : zlen (aseg enc pos x) <= al x - 1 + esize x.
Proof.
  rewrite zlen_aseg. unfold esize, apos.
  pose proof (align_up_lt pos (al x) (al_pos x)). lia.
Qed.

Definition ub_ok (v : value) : Prop :=
  forall u, upper_bound v = Ok u -> fits v /\ esize v <= u.

Lemma ub_fields_ok fs :
  Forall (fun kv => zlen (fst kv) < 2 ^ 32 /\ ub_ok (snd kv)) fs ->
  forall max max' pos,
    ub_fields upper_bound fs max = Ok max' ->
    Forall (fun kv => zlen (fst kv) < 2 ^ 32 /\ fits (snd kv)) fs /\
    zlen (enc_body enc fs pos) <= max' - max.
Proof.
  induction fs as [|[k x] r IH]; intros HF max max' pos E.
  - cbn in E. injection E as <-. split; [constructor|]. cbn. lia.
  - apply Forall_cons_iff in HF. destruct HF as [[Hk Hx] HF]. cbn [fst snd] in *.
    cbn [ub_fields] in E. apply bind_Ok in E. destruct E as (u & Eu & E).
    destruct (Hx _ Eu) as [Fx Sx].
    change (alignment_of R_string) with 2 in E. fold (al x) in E.
    destruct (IH HF _ _ (pos + zlen (seg enc pos k x)) E) as [Fr Sr].
    split; [constructor; auto|].
    cbn [enc_body]. rewrite zlen_app. pose proof (seg_bound pos k x).
    rewrite (str_upper_bound_enc k Hk) in Sr. lia.
Qed.

Lemma ub_elems_ok vs :
  Forall ub_ok vs ->
  forall max max' pos,
    ub_elems upper_bound vs max = Ok max' ->
    Forall fits vs /\ zlen (enc_abody enc vs pos) <= max' - max.
Proof.
  induction vs as [|x r IH]; intros HF max max' pos E.
  - cbn in E. injection E as <-. split; [constructor|]. cbn. lia.
  - apply Forall_cons_iff in HF. destruct HF as [Hx HF].
    cbn [ub_elems] in E. apply bind_Ok in E. destruct E as (u & Eu & E).
    destruct (Hx _ Eu) as [Fx Sx]. fold (al x) in E.
    destruct (IH HF _ _ (pos + zlen (aseg enc pos x)) E) as [Fr Sr].
    split; [constructor; auto|].
    cbn [enc_abody]. rewrite zlen_app. pose proof (aseg_bound pos x). lia.
Qed.

Theorem upper_bound_ok v : short_strings v -> ub_ok v.
Proof.
  induction v using value_ind'; intros SS u E; inversion SS; subst; clear SS.
  - assert (HF : Forall (fun kv => zlen (fst kv) < 2 ^ 32 /\ ub_ok (snd kv)) fs).
    { rewrite Forall_forall in *. intros kv I. destruct (H1 _ I). split; auto. }
    cbn [upper_bound] in E. apply bind_Ok in E. destruct E as (mx & Em & E).
    change (alignment_of R_object) with 8 in E.
    destruct (max_aggregate_size <? align_up mx 8) eqn:C; [discriminate|].
    injection E as <-. unfold max_aggregate_size in C.
    destruct (ub_fields_ok fs HF _ _ (8 + 8 * zlen fs) Em) as [Ff Sf].
    assert (esize (VObj fs) <= align_up mx 8).
    { rewrite esize_obj. apply align_up_mono; lia. }
    split; [|assumption]. apply fits_obj. split; [assumption|]. change (2 ^ 32) with 4294967296. lia.
  - assert (HF : Forall ub_ok vs) by (rewrite Forall_forall in *; auto).
    cbn [upper_bound] in E. apply bind_Ok in E. destruct E as (mx & Em & E).
    destruct (max_aggregate_size <? mx) eqn:C; [discriminate|].
    injection E as <-. unfold max_aggregate_size in C.
    destruct (ub_elems_ok vs HF _ _ (8 + 8 * zlen vs) Em) as [Ff Sf].
    assert (esize (VArr vs) <= mx) by (rewrite esize_arr; lia).
    split; [|assumption]. apply fits_arr. split; [assumption|]. change (2 ^ 32) with 4294967296. lia.
  - cbn in E. injection E as <-. split; [assumption|].
    unfold esize. cbn [enc]. rewrite zlen_sb, str_upper_bound_enc by assumption. lia.
  - cbn [upper_bound] in E. injection E as <-. split; [exact I|].
    unfold esize. cbn [enc]. rewrite zlen_sb, zlen_le_enc.
    destruct (identify_integer z =? R_short_integer); [lia|].
    destruct (identify_integer z =? R_integer); lia.
  - cbn [upper_bound] in E. injection E as <-. split; [exact I|].
    unfold esize. cbn [enc]. rewrite zlen_sb.
    destruct (fits_single d); rewrite zlen_le_enc; lia.
  - cbn [upper_bound] in E. injection E as <-. split; [exact I|].
    unfold esize. cbn [enc]. rewrite zlen_sb, zlen_le_enc. lia.
  - cbn [upper_bound] in E. injection E as <-. split; [exact I|]. cbn. lia.
Qed.

(** A value that fits can only be refused for its size. *)
Lemma upper_bound_cases v :
  (exists u, upper_bound v = Ok u /\ 0 <= u) \/ upper_bound v = Throw length_error.
Proof.
  assert (SB : forall s, 0 <= str_upper_bound s).
  { intros s. unfold str_upper_bound, string_static_sizeof.
    destruct (_ =? _); pose proof (Z.mod_pos_bound (zlen s) (2 ^ (8 * 4)) ltac:(lia));
      pose proof (Z.mod_pos_bound (zlen s) (2 ^ (8 * 2)) ltac:(lia)); lia. }
  induction v using value_ind'; cbn [upper_bound].
  - assert (HH : forall max, 0 <= max ->
      (exists u, ub_fields upper_bound fs max = Ok u /\ 0 <= u) \/
      ub_fields upper_bound fs max = Throw length_error).
    { induction fs as [|[k x] r IH]; intros max Hm; cbn [ub_fields]; [eauto|].
      apply Forall_cons_iff in H. destruct H as [Hx Hr]. cbn [snd] in Hx.
      destruct Hx as [(u & -> & Hu) | ->]; [|right; reflexivity]. cbn [bind].
      apply IH; [assumption|]. specialize (SB k). pose proof (al_pos x). fold (al x).
      change (alignment_of R_string) with 2. lia. }
    destruct (HH (8 + 8 * (zlen fs + 1))) as [(u & -> & Hu) | ->]; [zlia| |right; reflexivity].
    cbn [bind]. destruct (max_aggregate_size <? _); [right; reflexivity|left].
    eexists; split; [reflexivity|]. pose proof (align_up_ge u (alignment_of R_object) ltac:(cbn; lia)). lia.
  - assert (HH : forall max, 0 <= max ->
      (exists u, ub_elems upper_bound vs max = Ok u /\ 0 <= u) \/
      ub_elems upper_bound vs max = Throw length_error).
    { induction vs as [|x r IH]; intros max Hm; cbn [ub_elems]; [eauto|].
      apply Forall_cons_iff in H. destruct H as [Hx Hr].
      destruct Hx as [(u & -> & Hu) | ->]; [|right; reflexivity]. cbn [bind].
      apply IH; [assumption|]. pose proof (al_pos x). fold (al x). lia. }
    destruct (HH (8 + 8 * (zlen vs + 1))) as [(u & -> & Hu) | ->]; [zlia| |right; reflexivity].
    cbn [bind]. destruct (max_aggregate_size <? _); [right; reflexivity|left; eauto].
  - left. eauto.
  - left. eexists; split; [reflexivity|].
    destruct (identify_integer z =? R_short_integer); [lia|].
    destruct (identify_integer z =? R_integer); lia.
  - left. eexists; split; [reflexivity|]. destruct (fits_single d); lia.
  - left. eexists; split; [reflexivity|]. lia.
  - left. eexists; split; [reflexivity|]. lia.
Qed.

(** finalize writes the encoding at the start of a zero-filled block. *)
Theorem finalize_spec fs u :
  short_strings (VObj fs) -> upper_bound (VObj fs) = Ok u ->
  esize (VObj fs) <= u /\
  finalize (VObj fs) = Ok (fill (enc (VObj fs)) ++ zeros (u - esize (VObj fs))).
Proof.
  intros SS E. destruct (upper_bound_ok _ SS _ E) as [F S]. split; [assumption|].
  unfold finalize. rewrite E. cbn [bind].
  set (v := VObj fs) in *. pose proof (esize_nonneg v).
  replace u with (esize v + (u - esize v)) at 1 by lia.
  rewrite zeros_app by lia.
  pose proof (layout_spec v F [] (zeros (esize v)) (zeros (u - esize v))) as L.
  cbn [app] in L. rewrite (@zlen_nil byte) in L. rewrite L.
  - cbn [bind]. rewrite <- overlay_zeros. reflexivity.
  - apply Z.mod_0_l. pose proof (al_pos v). lia.
  - apply zlen_zeros. lia.
Qed.
