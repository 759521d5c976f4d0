(** What the merging and projecting constructors write, byte for byte, and
    exactly when they stay inside the block allocated for them. *)

From Coq Require Import ZArith List Lia Bool.
From Coq Require Import ZifyBool ZifyNat ZifyN.
From Verif Require Import Base BaseFacts Keys Dec Wire Read Buf Merge Enc EncSize Spec ReadFacts MergeFacts.
Import ListNotations.
Open Scope Z_scope.
Ltac Zify.zify_post_hook ::= Z.div_mod_to_equations.

(** ** Moving by a multiple of eight changes nothing but the offsets *)

Lemma align_up_shift x j a : pow2_align a -> align_up (x + 8 * j) a = align_up x a + 8 * j.
Proof. intros [-> | [-> | [-> | ->]]]; unfold align_up; lia. Qed.
Lemma kpos_shift pos j : kpos (pos + 8 * j) = kpos pos + 8 * j.
Proof. apply align_up_shift. right; left; reflexivity. Qed.
Lemma vpos_shift pos j k x : vpos (pos + 8 * j) k x = vpos pos k x + 8 * j.
Proof.
  unfold vpos. rewrite kpos_shift, <- align_up_shift by apply al_pow2. f_equal. lia.
Qed.
Lemma seg_shift pos j k x : seg enc (pos + 8 * j) k x = seg enc pos k x.
Proof.
  unfold seg. rewrite kpos_shift, vpos_shift. f_equal; [f_equal; lia|]. f_equal. f_equal. f_equal. lia.
Qed.
Lemma body_shift fs j : forall pos, enc_body enc fs (pos + 8 * j) = enc_body enc fs pos.
Proof.
  induction fs as [|[k x] fs IH]; intros pos; cbn [enc_body]; [reflexivity|].
  rewrite seg_shift. f_equal.
  rewrite <- (IH (pos + zlen (seg enc pos k x))). f_equal. lia.
Qed.

(** Where a run of pairs laid out from [pos] ends. *)
Definition fend (fs : list (str * value)) (pos : Z) : Z := pos + zlen (enc_body enc fs pos).
Lemma fend_nil pos : fend [] pos = pos.
Proof. unfold fend. cbn. lia. Qed.
Lemma fend_cons k x fs pos : fend ((k, x) :: fs) pos = fend fs (vpos pos k x + esize x).
Proof.
  unfold fend. cbn [enc_body]. rewrite zlen_app.
  replace (vpos pos k x + esize x) with (pos + zlen (seg enc pos k x)) by (rewrite zlen_seg; unfold esize; lia). lia.
Qed.
Lemma fend_app f1 f2 : forall pos, fend (f1 ++ f2) pos = fend f2 (fend f1 pos).
Proof.
  induction f1 as [|[k x] f1 IH]; intros pos; [rewrite fend_nil; reflexivity|].
  cbn [app]. rewrite !fend_cons. apply IH.
Qed.
Lemma fend_shift fs pos j : fend fs (pos + 8 * j) = fend fs pos + 8 * j.
Proof. unfold fend. rewrite body_shift. lia. Qed.
Lemma fend_ge fs pos : pos <= fend fs pos.
Proof. unfold fend. zlia. Qed.
Lemma vpos_mono p q k x : p <= q -> vpos p k x <= vpos q k x.
Proof.
  intros. unfold vpos, kpos. apply align_up_mono; [apply al_pos|].
  pose proof (align_up_mono p q 2 ltac:(lia) H). lia.
Qed.
Lemma fend_mono fs : forall p q, p <= q -> fend fs p <= fend fs q.
Proof.
  induction fs as [|[k x] fs IH]; intros p q H; [rewrite !fend_nil; assumption|].
  rewrite !fend_cons. apply IH. pose proof (vpos_mono p q k x H). lia.
Qed.
Lemma esize_fend fs : esize (VObj fs) = align_up (fend fs (8 + 8 * zlen fs)) 8.
Proof. rewrite esize_obj. reflexivity. Qed.

(** ** The bytes of a new object *)
Definition cseg (pos : Z) (it : item) : list byte :=
  zeros (kpos pos - pos) ++ enc_str (i_key it) ++
  zeros (vpos pos (i_key it) (i_val it) - (kpos pos + zlen (enc_str (i_key it)))) ++ i_bytes it.
Fixpoint cbody (its : list item) (pos : Z) : list byte :=
  match its with
  | [] => []
  | it :: r => cseg pos it ++ cbody r (pos + zlen (seg enc pos (i_key it) (i_val it)))
  end.
Fixpoint centries (its : list item) (pos : Z) : list byte :=
  match its with
  | [] => []
  | it :: r => obj_entry (raw_type_of (i_val it)) (kpos pos) (i_key it) ++
               centries r (pos + zlen (seg enc pos (i_key it) (i_val it)))
  end.

Lemma item_len it : item_ok it -> zlen (i_bytes it) = esize (i_val it).
Proof. intros [_ M]. symmetry. apply matches_len in M. exact M || (unfold esize; lia). Qed.

Lemma zlen_cseg pos it : item_ok it -> zlen (cseg pos it) = zlen (seg enc pos (i_key it) (i_val it)).
Proof.
  intros O. rewrite zlen_seg. unfold cseg. rewrite !zlen_app, (item_len _ O).
  pose proof (kpos_ge pos). pose proof (vpos_ge pos (i_key it) (i_val it)).
  rewrite !zlen_zeros by lia. unfold esize. lia.
Qed.
Lemma zlen_cbody its : Forall item_ok its -> forall pos, zlen (cbody its pos) = zlen (enc_body enc (map kv its) pos).
Proof.
  induction 1 as [|it its O F IH]; intros pos; [reflexivity|].
  cbn [cbody map enc_body kv]. rewrite !zlen_app, zlen_cseg, IH by assumption. reflexivity.
Qed.
Lemma zlen_centries its : forall pos, zlen (centries its pos) = 8 * zlen its.
Proof.
  induction its as [|it its IH]; intros pos; cbn [centries]; [reflexivity|].
  rewrite zlen_app, zlen_obj_entry, IH, zlen_cons. lia.
Qed.
Lemma cbody_shift its j : forall pos, cbody its (pos + 8 * j) = cbody its pos.
Proof.
  induction its as [|it its IH]; intros pos; cbn [cbody]; [reflexivity|].
  rewrite seg_shift.
  replace (pos + 8 * j + zlen (seg enc pos (i_key it) (i_val it)))
    with (pos + zlen (seg enc pos (i_key it) (i_val it)) + 8 * j) by lia.
  rewrite IH. f_equal. unfold cseg. rewrite kpos_shift, vpos_shift.
  f_equal; [f_equal; lia|]. f_equal. f_equal. f_equal. lia.
Qed.

(** ** The writes, pair by pair *)
Lemma entry_type_idem t : entry_type (entry_type t) = entry_type t.
Proof. unfold entry_type. destruct (t =? R_small_string) eqn:E; [reflexivity|]. rewrite E. reflexivity. Qed.
Lemma obj_entry_type t o k : obj_entry (entry_type t) o k = obj_entry t o k.
Proof. unfold obj_entry. rewrite entry_type_idem. reflexivity. Qed.
Lemma alignment_entry_type t : alignment_of (entry_type t) = alignment_of t.
Proof.
  unfold entry_type. destruct (t =? R_small_string) eqn:E; [|reflexivity].
  apply Z.eqb_eq in E. subst t. reflexivity.
Qed.

Lemma emit_ok its ps : Forall2 piece_ok ps its -> forall h c E V1 V2 B z i pos,
  zlen h = 4 -> zlen c = 4 -> zlen E = 8 * i -> zlen V1 = 8 * zlen its ->
  pos = 8 + 8 * i + zlen V1 + zlen V2 + zlen B -> c = le_enc 4 i ->
  zlen (cbody its pos) <= z ->
  emit_pairs ps (h ++ c ++ E ++ V1 ++ V2 ++ B ++ zeros z) pos i =
  Ok (h ++ le_enc 4 (i + zlen its) ++ E ++ centries its pos ++ V2 ++ B ++ cbody its pos ++
      zeros (z - zlen (cbody its pos)), pos + zlen (cbody its pos)).
Proof.
  induction 1 as [|p it ps its PO F IH]; intros h c E V1 V2 B z i pos Hh Hc HE HV1 Hpos Ec Hz.
  - cbn [emit_pairs centries cbody]. rewrite zlen_nil in *. apply zlen_0_nil in HV1. subst V1 c.
    rewrite !Z.sub_0_r, !Z.add_0_r. reflexivity.
  - cbn [emit_pairs cbody centries]. rewrite zlen_cons in *.
    destruct PO as (O & Pk & Pks & Pkb & Pt & Pvs & Pvb).
    change (alignment_of R_string) with 2. fold (kpos pos).
    rewrite Pk. cbn [bind].
    destruct (split_at V1 8) as (Va & Vb & -> & HVa); [zlia|]. rewrite zlen_app in HV1.
    rewrite <- !app_assoc.
    replace (h ++ c ++ E ++ Va ++ Vb ++ V2 ++ B ++ zeros z)
      with ((h ++ c ++ E) ++ Va ++ (Vb ++ V2 ++ B ++ zeros z)) by (rewrite <- !app_assoc; reflexivity).
    rewrite wr_app; [|rewrite !zlen_app; lia|rewrite zlen_obj_entry; assumption]. cbn [bind].
    rewrite Pks. cbn [bind]. rewrite Pkb. cbn [bind].
    pose proof (kpos_ge pos). pose proof (vpos_ge pos (i_key it) (i_val it)).
    pose proof (zlen_cseg pos it O) as LS. pose proof (zlen_seg enc pos (i_key it) (i_val it)) as LG.
    pose proof (item_len it O) as LI. unfold esize in LI.
    cbn [cbody] in Hz. rewrite zlen_app in Hz.
    set (g1 := kpos pos - pos) in *. set (kl := zlen (enc_str (i_key it))) in *.
    set (g2 := vpos pos (i_key it) (i_val it) - (kpos pos + kl)) in *.
    set (vl := zlen (i_bytes it)) in *.
    assert (Z0 : 0 <= kl) by (subst kl; zlia). assert (Z1 : 0 <= vl) by (subst vl; zlia).
    assert (z = g1 + (kl + (g2 + (vl + (z - zlen (cseg pos it)))))) as EZ by zlia.
    pose proof (zlen_nonneg (cbody its (pos + zlen (seg enc pos (i_key it) (i_val it))))).
    rewrite EZ. rewrite !zeros_app by lia. remember (z - zlen (cseg pos it)) as z'.
    rewrite Pt, obj_entry_type, alignment_entry_type.
    change (alignment_of (raw_type_of (i_val it))) with (al (i_val it)). fold kl.
    change (align_up (kpos pos + kl) (al (i_val it))) with (vpos pos (i_key it) (i_val it)).
    set (en := obj_entry (raw_type_of (i_val it)) (kpos pos) (i_key it)).
    assert (LE : zlen en = 8) by apply zlen_obj_entry.
    replace ((h ++ c ++ E) ++ en ++ Vb ++ V2 ++ B ++ zeros g1 ++ zeros kl ++ zeros g2 ++ zeros vl ++ zeros z')
      with ((h ++ c ++ E ++ en ++ Vb ++ V2 ++ B ++ zeros g1) ++ zeros kl ++ (zeros g2 ++ zeros vl ++ zeros z'))
      by (rewrite <- !app_assoc; reflexivity).
    rewrite wr_app; [|rewrite !zlen_app, zlen_zeros in * by lia; lia|rewrite zlen_zeros by lia; reflexivity].
    cbn [bind]. rewrite Pt in Pvs. rewrite Pvs. cbn [bind]. rewrite Pvb. cbn [bind].
    replace ((h ++ c ++ E ++ en ++ Vb ++ V2 ++ B ++ zeros g1) ++ enc_str (i_key it) ++ zeros g2 ++ zeros vl ++ zeros z')
      with ((h ++ c ++ E ++ en ++ Vb ++ V2 ++ B ++ zeros g1 ++ enc_str (i_key it) ++ zeros g2) ++ zeros vl ++ zeros z')
      by (rewrite <- !app_assoc; reflexivity).
    rewrite wr_app; [|rewrite !zlen_app, !zlen_zeros in * by lia; fold kl; lia|rewrite zlen_zeros by lia; reflexivity].
    cbn [bind]. unfold wr_le.
    replace ((h ++ c ++ E ++ en ++ Vb ++ V2 ++ B ++ zeros g1 ++ enc_str (i_key it) ++ zeros g2) ++ i_bytes it ++ zeros z')
      with (h ++ c ++ (E ++ en ++ Vb ++ V2 ++ B ++ zeros g1 ++ enc_str (i_key it) ++ zeros g2 ++ i_bytes it ++ zeros z'))
      by (rewrite <- !app_assoc; reflexivity).
    rewrite wr_app; [|lia|rewrite zlen_le_enc; assumption]. cbn [bind].
    replace (vpos pos (i_key it) (i_val it) + esize (i_val it)) with (pos + zlen (seg enc pos (i_key it) (i_val it)))
      by (unfold esize; lia).
    set (pos' := pos + zlen (seg enc pos (i_key it) (i_val it))) in *.
    replace (h ++ le_enc 4 (i + 1) ++ E ++ en ++ Vb ++ V2 ++ B ++ zeros g1 ++ enc_str (i_key it) ++ zeros g2 ++ i_bytes it ++ zeros z')
      with (h ++ le_enc 4 (i + 1) ++ (E ++ en) ++ Vb ++ V2 ++ (B ++ cseg pos it) ++ zeros z')
      by (unfold cseg; fold kl; fold g1; fold g2; rewrite <- !app_assoc; reflexivity).
    rewrite (IH h (le_enc 4 (i + 1)) (E ++ en) Vb V2 (B ++ cseg pos it) z' (i + 1) pos');
      [|assumption|apply zlen_le_enc|rewrite zlen_app; lia|lia|rewrite zlen_app in *; lia|reflexivity|lia].
    rewrite zlen_app. replace (i + 1 + zlen its) with (i + (1 + zlen its)) by lia.
    replace (z' - zlen (cbody its pos')) with (z - (zlen (cseg pos it) + zlen (cbody its pos'))) by lia.
    rewrite <- EZ, <- !app_assoc. do 2 f_equal. lia.
Qed.

Lemma wr_oob m o bs : zlen m < o + zlen bs -> wr m o bs = Oob.
Proof. intros. unfold wr. replace (o + zlen bs <=? zlen m) with false by lia. rewrite andb_false_r. reflexivity. Qed.
Lemma wr_cases m o bs : wr m o bs = Oob \/ exists m', wr m o bs = Ok m' /\ zlen m' = zlen m /\ o + zlen bs <= zlen m.
Proof.
  destruct (wr m o bs) eqn:E.
  - right. eexists. split; [reflexivity|]. split; [eapply wr_len; eassumption|].
    unfold wr in E. destruct (o + zlen bs <=? zlen m) eqn:E2; [lia|]. rewrite andb_false_r in E. discriminate.
  - unfold wr in E. destruct (_ && _) in E; discriminate.
  - left. reflexivity.
  - unfold wr in E. destruct (_ && _) in E; discriminate.
  - unfold wr in E. destruct (_ && _) in E; discriminate.
Qed.

(** If the pairs do not fit, the writes leave the block. *)
Lemma emit_oob its ps : Forall2 piece_ok ps its -> its <> [] -> forall m pos i,
  zlen m < fend (map kv its) pos -> emit_pairs ps m pos i = Oob.
Proof.
  induction 1 as [|p it ps its PO F IH]; intros NE m pos i H; [congruence|].
  cbn [map] in H. unfold kv at 1 in H. rewrite fend_cons in H. cbn [emit_pairs].
  destruct PO as (O & Pk & Pks & Pkb & Pt & Pvs & Pvb).
  change (alignment_of R_string) with 2. fold (kpos pos).
  rewrite Pk. cbn [bind].
  destruct (wr_cases m (8 + 8 * i) (obj_entry (p_type p) (kpos pos) (i_key it))) as [-> | (m1 & -> & L1 & _)]; [reflexivity|].
  cbn [bind]. rewrite Pks. cbn [bind]. rewrite Pkb. cbn [bind].
  destruct (wr_cases m1 (kpos pos) (enc_str (i_key it))) as [-> | (m2 & -> & L2 & B2)]; [reflexivity|].
  cbn [bind]. rewrite Pvs. cbn [bind]. rewrite Pvb. cbn [bind].
  rewrite Pt, alignment_entry_type.
  change (align_up (kpos pos + zlen (enc_str (i_key it))) (alignment_of (raw_type_of (i_val it))))
    with (vpos pos (i_key it) (i_val it)).
  destruct (wr_cases m2 (vpos pos (i_key it) (i_val it)) (i_bytes it)) as [-> | (m3 & -> & L3 & B3)]; [reflexivity|].
  cbn [bind]. unfold wr_le.
  destruct (wr_cases m3 4 (le_enc 4 (i + 1))) as [-> | (m4 & -> & L4 & _)]; [reflexivity|]. cbn [bind].
  pose proof (item_len it O) as LI.
  destruct its as [|it' its].
  - cbn [map] in H. rewrite fend_nil in H. lia.
  - apply IH; [discriminate|]. cbn [map] in *. lia.
Qed.

(** ** Realigning *)
Lemma adjust_spec its : forall (A R : list byte) i diff pos,
  zlen A = 8 + 8 * i -> (exists j, diff = 8 * j) ->
  adjust_offsets (A ++ centries its pos ++ R) diff i (length its) =
  Ok (A ++ centries its (pos - diff) ++ R).
Proof.
  induction its as [|it its IH]; intros A R i diff pos HA HJ; cbn [length adjust_offsets centries]; [reflexivity|].
  set (k := i_key it). set (x := i_val it). unfold entry_offset.
  unfold obj_entry at 1 2. rewrite <- !app_assoc.
  rewrite rd_le_app by (rewrite HA; lia). cbn [bind]. unfold wr_le.
  rewrite wr_app; [|rewrite HA; lia|rewrite !zlen_le_enc; reflexivity]. cbn [bind].
  set (tl := le_enc 1 (entry_type (raw_type_of x)) ++ le_enc 1 (prefix_len (cstr k)) ++ prefix_bytes (cstr k)).
  set (pos' := pos + zlen (seg enc pos k x)).
  assert (EN : le_enc 4 (kpos pos mod 2 ^ (8 * Z.of_nat 4) - diff) = le_enc 4 (kpos pos - diff)).
  { rewrite <- (le_enc_mod 4 (kpos pos mod _ - diff)), <- (le_enc_mod 4 (kpos pos - diff)). f_equal.
    apply Zminus_mod_idemp_l. }
  rewrite EN.
  replace (A ++ le_enc 4 (kpos pos - diff) ++ le_enc 1 (entry_type (raw_type_of x)) ++
     le_enc 1 (prefix_len (cstr k)) ++ prefix_bytes (cstr k) ++ centries its pos' ++ R)
    with ((A ++ le_enc 4 (kpos pos - diff) ++ tl) ++ centries its pos' ++ R)
    by (unfold tl; rewrite <- !app_assoc; reflexivity).
  rewrite IH; [|unfold tl; rewrite !zlen_app, !zlen_le_enc, zlen_prefix_bytes; lia|assumption].
  destruct HJ as (j & ->).
  replace (pos - 8 * j) with (pos + 8 * - j) by lia. rewrite kpos_shift, seg_shift. fold k x.
  replace (pos' - 8 * j) with (pos + 8 * - j + zlen (seg enc pos k x)) by (unfold pos'; lia).
  replace (kpos pos - 8 * j) with (kpos pos + 8 * - j) by lia.
  unfold obj_entry, tl. rewrite <- !app_assoc. reflexivity.
Qed.

Lemma rd_any m o n : 0 <= o -> 0 <= n -> o + n <= zlen m -> exists bs, rd m o n = Ok bs.
Proof. intros. apply rd_bounds. auto. Qed.

Lemma realign_ok its guess (h c V2 B : list byte) z : let n := zlen its in
  Forall item_ok its ->
  zlen h = 4 -> zlen c = 4 -> zlen V2 = 8 * (guess - n) -> n < guess ->
  B = cbody its (8 + 8 * guess) -> 0 <= z ->
  realign (h ++ c ++ centries its (8 + 8 * guess) ++ V2 ++ B ++ zeros z) guess n (8 + 8 * guess + zlen B) =
  Ok (h ++ c ++ centries its (8 + 8 * n) ++ B ++ zeros (8 * (guess - n) + z), 8 + 8 * n + zlen B).
Proof.
  intros n FO Hh Hc HV N EB Hz. unfold realign.
  assert (N0 : 0 <= n) by (unfold n; zlia).
  replace (guess <? n) with false by lia.
  set (E := centries its (8 + 8 * guess)). assert (HE : zlen E = 8 * n) by apply zlen_centries.
  unfold entry_rawtype, rd_le.
  destruct (rd_any (h ++ c ++ E ++ V2 ++ B ++ zeros z) (0 + 8 + 8 * 0 + 4) (Z.of_nat 1)) as (tb & ->);
    [lia|lia|rewrite !zlen_app; zlia|]. cbn [bind].
  assert (ED : align_up (8 + 8 * n) (alignment_of (le_dec tb)) = 8 + 8 * n).
  { apply align_up_id; [apply alignment_pos|]. apply mod8_mod; [apply alignment_pow2|]. lia. }
  rewrite ED.
  replace (8 + 8 * guess - (8 + 8 * n)) with (8 * (guess - n)) by lia.
  replace (8 + 8 * guess + zlen B - (8 + 8 * guess)) with (zlen B) by lia.
  replace (h ++ c ++ E ++ V2 ++ B ++ zeros z) with ((h ++ c ++ E ++ V2) ++ B ++ zeros z)
    by (rewrite <- !app_assoc; reflexivity).
  rewrite rd_app; [|rewrite !zlen_app; lia|reflexivity]. cbn [bind].
  destruct (split_at (V2 ++ B) (zlen B)) as (X & Y & EXY & HX); [rewrite zlen_app; zlia|].
  assert (HY : zlen Y = zlen V2).
  { assert (zlen (V2 ++ B) = zlen (X ++ Y)) by (rewrite EXY; reflexivity). rewrite !zlen_app in *. lia. }
  replace ((h ++ c ++ E ++ V2) ++ B ++ zeros z) with ((h ++ c ++ E) ++ X ++ (Y ++ zeros z))
    by (rewrite (app_assoc X), <- EXY, <- !app_assoc; reflexivity).
  rewrite wr_app; [|rewrite !zlen_app; lia|assumption]. cbn [bind].
  replace (Z.to_nat n) with (length its) by (unfold n, zlen; lia).
  replace ((h ++ c ++ E) ++ B ++ Y ++ zeros z) with ((h ++ c) ++ E ++ (B ++ Y ++ zeros z))
    by (rewrite <- !app_assoc; reflexivity).
  unfold E. rewrite adjust_spec; [|rewrite zlen_app; lia|eexists; reflexivity]. cbn [bind].
  replace (8 + 8 * guess - 8 * (guess - n)) with (8 + 8 * n) by lia.
  set (E' := centries its (8 + 8 * n)). assert (HE' : zlen E' = 8 * n) by apply zlen_centries.
  replace ((h ++ c) ++ E' ++ B ++ Y ++ zeros z) with ((h ++ c ++ E' ++ B) ++ Y ++ zeros z)
    by (rewrite <- !app_assoc; reflexivity).
  rewrite wr_app; [|rewrite !zlen_app; lia|rewrite zlen_zeros by lia; lia]. cbn [bind].
  rewrite <- zeros_app by lia. rewrite <- !app_assoc. do 2 f_equal. lia.
Qed.

(** ** The new object *)
Definition cobj (its : list item) : list byte :=
  let start := 8 + 8 * zlen its in
  le_enc 4 (esize (VObj (map kv its))) ++ le_enc 4 (zlen its) ++
  centries its start ++ cbody its start ++
  zeros (esize (VObj (map kv its)) - fend (map kv its) start).

Lemma fend_cbody its pos : Forall item_ok its -> pos + zlen (cbody its pos) = fend (map kv its) pos.
Proof. intros. unfold fend. rewrite zlen_cbody by assumption. reflexivity. Qed.

Lemma pieces_items ps its : Forall2 piece_ok ps its -> Forall item_ok its.
Proof. induction 1 as [|p it ps its P F IH]; constructor; [apply P|assumption]. Qed.
Lemma Forall2_zlen {A B} (R : A -> B -> Prop) l r : Forall2 R l r -> zlen l = zlen r.
Proof. induction 1 as [|a b l r _ _ IH]; [reflexivity|]. rewrite !zlen_cons, IH. reflexivity. Qed.

Lemma zlen_cobj its : Forall item_ok its -> zlen (cobj its) = esize (VObj (map kv its)).
Proof.
  intros F. unfold cobj. cbv zeta. set (st := 8 + 8 * zlen its).
  pose proof (fend_cbody its st F) as E. pose proof (esize_fend (map kv its)) as S.
  rewrite zlen_map in S. fold st in S. pose proof (align_up_ge (fend (map kv its) st) 8 ltac:(lia)).
  rewrite !zlen_app, !zlen_le_enc, zlen_centries, zlen_zeros by lia. lia.
Qed.

Theorem build_ok total guess ps its :
  Forall2 piece_ok ps its -> zlen its <= guess -> total mod 8 = 0 ->
  fend (map kv its) (8 + 8 * guess) <= total ->
  build_object total guess ps = Ok (cobj its ++ zeros (total - esize (VObj (map kv its)))).
Proof.
  intros F G T H. pose proof (pieces_items _ _ F) as FO.
  set (st := 8 + 8 * guess) in *. pose proof (fend_cbody its st FO) as FE.
  pose proof (fend_ge (map kv its) st). pose proof (zlen_nonneg its).
  unfold build_object, wr_le. fold st.
  assert (Z8 : zeros total = zeros 4 ++ zeros 4 ++ [] ++ zeros (8 * zlen its) ++ zeros (8 * (guess - zlen its)) ++ [] ++
                             zeros (total - st)).
  { cbn [app]. rewrite <- !zeros_app by lia. f_equal. lia. }
  rewrite Z8.
  rewrite wr_app; [|reflexivity|reflexivity]. cbn [bind].
  rewrite (emit_ok its ps F); [|reflexivity|reflexivity|reflexivity|rewrite zlen_zeros by lia; reflexivity
    |rewrite !zlen_zeros by lia; change (zlen (@nil byte)) with 0; unfold st in *; lia|reflexivity|lia].
  cbn [bind app]. change (0 + zlen its) with (zlen its).
  rewrite (Forall2_zlen _ _ _ F).
  set (n := zlen its) in *. set (z := total - st - zlen (cbody its st)).
  set (st' := 8 + 8 * n).
  assert (SH : cbody its st' = cbody its st).
  { unfold st, st'. replace (8 + 8 * guess) with (8 + 8 * n + 8 * (guess - n)) by lia. symmetry. apply cbody_shift. }
  assert (SF : fend (map kv its) st = fend (map kv its) st' + 8 * (guess - n)).
  { unfold st, st'. rewrite <- fend_shift. f_equal. lia. }
  assert (SE : esize (VObj (map kv its)) = align_up (fend (map kv its) st') 8).
  { rewrite esize_fend, zlen_map. reflexivity. }
  pose proof (fend_cbody its st' FO) as FE'.
  assert (EM : (if n =? guess then Ok (zeros 4 ++ le_enc 4 n ++ centries its st ++ zeros (8 * (guess - n)) ++ cbody its st ++ zeros z, st + zlen (cbody its st))
      else realign (zeros 4 ++ le_enc 4 n ++ centries its st ++ zeros (8 * (guess - n)) ++ cbody its st ++ zeros z) guess n (st + zlen (cbody its st)))
    = Ok (zeros 4 ++ le_enc 4 n ++ centries its st' ++ cbody its st' ++ zeros (8 * (guess - n) + z), fend (map kv its) st')).
  { rewrite SH. destruct (n =? guess) eqn:C.
    - apply Z.eqb_eq in C. replace (8 * (guess - n)) with 0 by lia. rewrite zeros_0. cbn [app].
      unfold st', st. rewrite C, Z.add_0_l. fold st. do 2 f_equal. assumption.
    - unfold st at 1. rewrite realign_ok; [|assumption|reflexivity|apply zlen_le_enc|rewrite zlen_zeros by lia; reflexivity
        |lia|reflexivity|unfold z; lia]. fold n. fold st'. do 2 f_equal. rewrite <- FE', SH. reflexivity. }
  match goal with |- bind _ ?f = _ => refine (eq_trans (f_equal (fun r => bind r f) EM) _) end. cbn [bind]. change (alignment_of R_object) with 8. rewrite <- SE.
  match goal with |- wr (zeros 4 ++ ?r) 0 ?b = _ => change (zeros 4 ++ r) with ([] ++ zeros 4 ++ r) end.
  rewrite wr_app by reflexivity. cbn [app]. unfold cobj. fold n. fold st'. cbv zeta.
  rewrite <- !app_assoc. rewrite <- zeros_app.
  - do 6 f_equal. unfold z. lia.
  - rewrite SE. pose proof (align_up_ge (fend (map kv its) st') 8 ltac:(lia)). lia.
  - assert (align_up (fend (map kv its) st') 8 <= align_up total 8) by (apply align_up_mono; lia).
    rewrite (align_up_id total 8) in H2 by lia. lia.
Qed.

(** Exactly when there is room. *)
Theorem build_oob total guess ps its :
  Forall2 piece_ok ps its -> zlen its <= guess ->
  total < fend (map kv its) (8 + 8 * guess) ->
  build_object total guess ps = Oob.
Proof.
  intros F G H. unfold build_object, wr_le.
  destruct (wr_cases (zeros total) 4 (le_enc 4 0)) as [-> | (m & -> & L & B)]; [reflexivity|]. cbn [bind].
  rewrite zlen_le_enc in B.
  assert (L' : zlen m = total).
  { rewrite L. apply zlen_zeros. unfold zeros in B. rewrite zlen_repeat in B. lia. }
  destruct its as [|it its].
  - inversion F. subst ps. cbn [emit_pairs bind]. cbn [map] in H. rewrite fend_nil in H. rewrite zlen_nil in *.
    destruct (0 =? guess) eqn:C.
    + exfalso. lia.
    + unfold realign. replace (guess <? 0) with false by lia. unfold entry_rawtype, rd_le.
      unfold rd at 1. destruct (_ && _); [|reflexivity]. cbn [bind].
      unfold rd. replace (_ + _ <=? zlen m) with false by lia. rewrite andb_false_r. reflexivity.
  - rewrite (emit_oob (it :: its) ps F); [reflexivity|discriminate|lia].
Qed.

(** ** What the new object says *)
Lemma matches_app p q b1 b2 : matches p b1 -> matches q b2 -> matches (p ++ q) (b1 ++ b2).
Proof. intros. apply Forall2_app; assumption. Qed.
Lemma matches_sb bs : matches (sb bs) bs.
Proof. induction bs as [|b bs IH]; constructor; [reflexivity|exact IH]. Qed.
Lemma matches_gap n : matches (gap n) (zeros n).
Proof.
  unfold gap, zeros. generalize (Z.to_nat n). intros k. induction k as [|k IH]; constructor; [reflexivity|exact IH].
Qed.
Lemma fill_sb bs : fill (sb bs) = bs.
Proof. unfold fill, sb. rewrite map_map. apply map_id. Qed.
Lemma fill_gap n : fill (gap n) = zeros n.
Proof. unfold fill, gap, zeros. generalize (Z.to_nat n). intros k. induction k as [|k IH]; cbn; [reflexivity|f_equal; exact IH]. Qed.

Lemma centries_matches its : forall pos, enc_entries enc (map kv its) pos = sb (centries its pos).
Proof.
  induction its as [|it its IH]; intros pos; [reflexivity|].
  cbn [map kv enc_entries centries]. rewrite sb_app, <- IH. reflexivity.
Qed.

Lemma cobj_matches its : Forall item_ok its -> matches (enc (VObj (map kv its))) (cobj its).
Proof.
  intros F. cbn [enc]. rewrite zlen_map. unfold cobj. cbv zeta.
  rewrite esize_fend, zlen_map. unfold fend. set (st := 8 + 8 * zlen its).
  apply matches_app; [apply matches_sb|]. apply matches_app; [apply matches_sb|].
  rewrite centries_matches. apply matches_app; [apply matches_sb|].
  apply matches_app; [|apply matches_gap].
  generalize st. induction F as [|it its O F IH]; intros pos; [constructor|].
  cbn [map kv enc_body cbody]. apply matches_app; [|apply IH].
  unfold seg, cseg. apply matches_app; [apply matches_gap|]. apply matches_app; [apply matches_sb|].
  apply matches_app; [apply matches_gap|]. apply O.
Qed.

Lemma cobj_filled its : Forall (fun it => filled (enc (i_val it)) (i_bytes it)) its ->
  cobj its = fill (enc (VObj (map kv its))).
Proof.
  intros F. cbn [enc]. rewrite zlen_map. unfold cobj. cbv zeta.
  rewrite esize_fend, zlen_map. unfold fend. set (st := 8 + 8 * zlen its).
  rewrite !fill_app, !fill_sb, centries_matches, fill_sb, fill_gap. do 3 f_equal.
  f_equal. clearbody st.
  generalize st. induction F as [|it its O F IH]; intros pos; [reflexivity|].
  cbn [map kv enc_body cbody]. rewrite fill_app, <- IH. f_equal.
  unfold seg, cseg. rewrite !fill_app, !fill_gap, fill_sb. rewrite O. reflexivity.
Qed.
