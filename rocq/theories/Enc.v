(** What layout writes, as a function of the value alone.

    A pattern says which bytes of a region are written ([Some b]) and which are
    left as they were ([None]: alignment padding and the three unused bytes of an
    array entry).  [layout_spec] shows that Wire.layout on any memory overlays
    exactly this pattern; everything about positions, sizes and canonical bytes is
    then a fact about the pattern. *)

From Coq Require Import ZArith List Lia Bool.
From Coq Require Import ZifyBool ZifyNat ZifyN.
From Verif Require Import Base BaseFacts Keys Dec Wire.
Import ListNotations.
Open Scope Z_scope.
Ltac Zify.zify_post_hook ::= Z.div_mod_to_equations.

(** ** Induction over values *)
Section ValueInd.
  Variable P : value -> Prop.
  Hypothesis HObj : forall fs, Forall (fun kv => P (snd kv)) fs -> P (VObj fs).
  Hypothesis HArr : forall vs, Forall P vs -> P (VArr vs).
  Hypothesis HStr : forall s, P (VStr s).
  Hypothesis HInt : forall z, P (VInt z).
  Hypothesis HDec : forall d, P (VDec d).
  Hypothesis HBool : forall b, P (VBool b).
  Hypothesis HNull : P VNull.
  Fixpoint value_ind' (v : value) : P v :=
    match v with
    | VObj fs => HObj fs ((fix go (fs : list (str * value)) : Forall (fun kv => P (snd kv)) fs :=
        match fs with
        | [] => Forall_nil _
        | kv :: r => Forall_cons kv (value_ind' (snd kv)) (go r)
        end) fs)
    | VArr vs => HArr vs ((fix go (vs : list value) : Forall P vs :=
        match vs with
        | [] => Forall_nil _
        | x :: r => Forall_cons x (value_ind' x) (go r)
        end) vs)
    | VStr s => HStr s
    | VInt z => HInt z
    | VDec d => HDec d
    | VBool b => HBool b
    | VNull => HNull
    end.
End ValueInd.

(** ** Patterns *)
Definition pat := list (option byte).
Definition sb (bs : list byte) : pat := map Some bs.
Definition gap (n : Z) : pat := repeat None (Z.to_nat n).

Fixpoint overlay (p : pat) (old : list byte) : list byte :=
  match p, old with
  | Some b :: p', _ :: o' => b :: overlay p' o'
  | None :: p', x :: o' => x :: overlay p' o'
  | _, _ => []
  end.

Definition fill (p : pat) : list byte :=
  map (fun c => match c with Some b => b | None => x00 end) p.

Lemma zlen_sb bs : zlen (sb bs) = zlen bs.
Proof. apply zlen_map. Qed.
Lemma zlen_gap n : 0 <= n -> zlen (gap n) = n.
Proof. intros. unfold gap. rewrite zlen_repeat. lia. Qed.
Lemma zlen_gap_max n : zlen (gap n) = Z.max 0 n.
Proof. unfold gap. rewrite zlen_repeat. lia. Qed.
Lemma sb_app a b : sb (a ++ b) = sb a ++ sb b.
Proof. apply map_app. Qed.
Lemma zlen_fill p : zlen (fill p) = zlen p.
Proof. apply zlen_map. Qed.
Lemma fill_app a b : fill (a ++ b) = fill a ++ fill b.
Proof. apply map_app. Qed.

Lemma overlay_len p old : zlen old = zlen p -> zlen (overlay p old) = zlen p.
Proof.
  revert old. induction p as [|[b|] p IH]; intros [|x old]; rewrite ?zlen_cons, ?zlen_nil; intros H;
    try reflexivity; try (exfalso; zlia);
    cbn [overlay]; rewrite !zlen_cons, IH; lia.
Qed.
Lemma overlay_app p q o1 o2 :
  zlen o1 = zlen p -> overlay (p ++ q) (o1 ++ o2) = overlay p o1 ++ overlay q o2.
Proof.
  revert o1. induction p as [|[b|] p IH]; intros [|x o1]; rewrite ?zlen_cons, ?zlen_nil; intros H;
    try reflexivity; try (exfalso; zlia);
    cbn [app overlay]; rewrite IH by lia; reflexivity.
Qed.
Lemma overlay_sb bs old : zlen old = zlen bs -> overlay (sb bs) old = bs.
Proof.
  revert old. induction bs as [|b bs IH]; intros [|x old]; rewrite ?zlen_cons, ?zlen_nil; intros H;
    try reflexivity; try (exfalso; zlia).
  cbn [sb map overlay]. fold (sb bs). rewrite IH by lia. reflexivity.
Qed.
Lemma overlay_gap n old : zlen old = zlen (gap n) -> overlay (gap n) old = old.
Proof.
  unfold gap. rewrite zlen_repeat. generalize (Z.to_nat n). intros k. revert old.
  induction k as [|k IH]; intros [|x old]; rewrite ?zlen_cons, ?zlen_nil; intros H; try reflexivity;
    try (exfalso; zlia).
  cbn [repeat overlay]. rewrite IH by lia. reflexivity.
Qed.
Lemma overlay_zeros p : overlay p (zeros (zlen p)) = fill p.
Proof.
  unfold zeros, zlen. rewrite Nat2Z.id.
  induction p as [|[b|] p IH]; cbn [length repeat overlay fill map]; [reflexivity|f_equal; exact IH..].
Qed.

Lemma split_at {A} (l : list A) n :
  0 <= n <= zlen l -> exists a b, l = a ++ b /\ zlen a = n.
Proof.
  intros H. exists (firstn (Z.to_nat n) l), (skipn (Z.to_nat n) l).
  rewrite firstn_skipn. split; [reflexivity|]. unfold zlen in *. rewrite firstn_length. lia.
Qed.

(** ** The encoder *)
Definition str_w (s : str) : nat := if 65535 <? zlen s then 4%nat else 2%nat.
Definition enc_str (s : str) : list byte := le_enc (str_w s) (zlen s) ++ s ++ [x00].

Definition al (v : value) : Z := alignment_of (raw_type_of v).

(** Key and value of one pair, laid out at relative position [pos]. *)
Definition kpos (pos : Z) : Z := align_up pos 2.
Definition vpos (pos : Z) (k : str) (x : value) : Z := align_up (kpos pos + zlen (enc_str k)) (al x).
Definition seg (e : value -> pat) (pos : Z) (k : str) (x : value) : pat :=
  gap (kpos pos - pos) ++ sb (enc_str k) ++
  gap (vpos pos k x - (kpos pos + zlen (enc_str k))) ++ e x.

Definition enc_entries (e : value -> pat) :=
  fix go (fs : list (str * value)) (pos : Z) : pat :=
    match fs with
    | [] => []
    | (k, x) :: r =>
        sb (obj_entry (raw_type_of x) (kpos pos) k) ++ go r (pos + zlen (seg e pos k x))
    end.

Definition enc_body (e : value -> pat) :=
  fix go (fs : list (str * value)) (pos : Z) : pat :=
    match fs with
    | [] => []
    | (k, x) :: r => seg e pos k x ++ go r (pos + zlen (seg e pos k x))
    end.

Definition apos (pos : Z) (x : value) : Z := align_up pos (al x).
Definition aseg (e : value -> pat) (pos : Z) (x : value) : pat := gap (apos pos x - pos) ++ e x.

Definition enc_aentries (e : value -> pat) :=
  fix go (vs : list value) (pos : Z) : pat :=
    match vs with
    | [] => []
    | x :: r => (sb (arr_entry (raw_type_of x) (apos pos x)) ++ gap 3) ++
                go r (pos + zlen (aseg e pos x))
    end.

Definition enc_abody (e : value -> pat) :=
  fix go (vs : list value) (pos : Z) : pat :=
    match vs with
    | [] => []
    | x :: r => aseg e pos x ++ go r (pos + zlen (aseg e pos x))
    end.

Fixpoint enc (v : value) : pat :=
  match v with
  | VObj fs =>
      let start := 8 + 8 * zlen fs in
      let bd := enc_body enc fs start in
      let total := align_up (start + zlen bd) 8 in
      sb (le_enc 4 total) ++ sb (le_enc 4 (zlen fs)) ++ enc_entries enc fs start ++ bd ++
      gap (total - (start + zlen bd))
  | VArr vs =>
      let start := 8 + 8 * zlen vs in
      let bd := enc_abody enc vs start in
      sb (le_enc 4 (start + zlen bd)) ++ sb (le_enc 4 (zlen vs)) ++ enc_aentries enc vs start ++ bd
  | VStr s => sb (enc_str s)
  | VInt z =>
      sb (le_enc (if identify_integer z =? R_short_integer then 2%nat
                  else if identify_integer z =? R_integer then 4%nat else 8%nat) z)
  | VDec d => sb (if fits_single d then le_enc 4 (narrow d) else le_enc 8 d)
  | VBool b => sb (le_enc 1 (if b then 1 else 0))
  | VNull => []
  end.

Definition esize (v : value) : Z := zlen (enc v).

(** What layout needs of a value: string lengths representable in their length
    field, keys within the limit insert() enforces, aggregate sizes below 2^32. *)
Fixpoint fits (v : value) : Prop :=
  match v with
  | VObj fs =>
      (fix go (fs : list (str * value)) : Prop :=
         match fs with [] => True | (k, x) :: r => (zlen k < 2 ^ 32 /\ fits x) /\ go r end) fs
      /\ esize (VObj fs) < 2 ^ 32
  | VArr vs =>
      (fix go (vs : list value) : Prop :=
         match vs with [] => True | x :: r => fits x /\ go r end) vs
      /\ esize (VArr vs) < 2 ^ 32
  | VStr s => zlen s < 2 ^ 32
  | _ => True
  end.

Lemma fits_obj fs :
  fits (VObj fs) <->
  Forall (fun kv => zlen (fst kv) < 2 ^ 32 /\ fits (snd kv)) fs /\ esize (VObj fs) < 2 ^ 32.
Proof.
  cbn [fits].
  match goal with |- ?A /\ ?B <-> ?C /\ ?B => enough (A <-> C) by tauto end.
  induction fs as [|[k x] r IH]; [split; auto|].
  rewrite Forall_cons_iff, IH. cbn [fst snd]. tauto.
Qed.
Lemma fits_arr vs :
  fits (VArr vs) <-> Forall fits vs /\ esize (VArr vs) < 2 ^ 32.
Proof.
  cbn [fits].
  match goal with |- ?A /\ ?B <-> ?C /\ ?B => enough (A <-> C) by tauto end.
  induction vs as [|x r IH]; [split; auto|].
  rewrite Forall_cons_iff, IH. tauto.
Qed.

(** ** Small facts *)
Lemma alignment_pow2 t : pow2_align (alignment_of t).
Proof.
  unfold alignment_of, pow2_align.
  repeat match goal with |- context [if ?b then _ else _] => destruct b end; auto.
Qed.
Lemma alignment_pos t : 0 < alignment_of t.
Proof. apply pow2_align_pos, alignment_pow2. Qed.
Lemma al_pow2 v : pow2_align (al v). Proof. apply alignment_pow2. Qed.
Lemma al_pos v : 0 < al v. Proof. apply alignment_pos. Qed.
Lemma kpos_ge pos : pos <= kpos pos.
Proof. apply align_up_ge; lia. Qed.
Lemma vpos_ge pos k x : kpos pos + zlen (enc_str k) <= vpos pos k x.
Proof. apply align_up_ge, al_pos. Qed.
Lemma apos_ge pos x : pos <= apos pos x.
Proof. apply align_up_ge, al_pos. Qed.

Lemma zlen_prefix_bytes s : zlen (prefix_bytes s) = 2.
Proof. destruct s as [|a [|b s]]; reflexivity. Qed.
Lemma zlen_obj_entry t o k : zlen (obj_entry t o k) = 8.
Proof. unfold obj_entry. rewrite !zlen_app, !zlen_le_enc, zlen_prefix_bytes. lia. Qed.
Lemma zlen_arr_entry t o : zlen (arr_entry t o) = 5.
Proof. unfold arr_entry. rewrite !zlen_app, !zlen_le_enc. lia. Qed.
Lemma zlen_enc_str s : zlen (enc_str s) = Z.of_nat (str_w s) + zlen s + 1.
Proof. unfold enc_str. rewrite !zlen_app, zlen_le_enc. cbn. lia. Qed.

Lemma zlen_seg e pos k x :
  zlen (seg e pos k x) = vpos pos k x + zlen (e x) - pos.
Proof.
  unfold seg. rewrite !zlen_app, zlen_sb.
  pose proof (kpos_ge pos). pose proof (vpos_ge pos k x).
  rewrite !zlen_gap by lia. lia.
Qed.
Lemma zlen_aseg e pos x : zlen (aseg e pos x) = apos pos x + zlen (e x) - pos.
Proof.
  unfold aseg. rewrite zlen_app. pose proof (apos_ge pos x). rewrite zlen_gap by lia. lia.
Qed.
Lemma zlen_enc_entries e fs pos : zlen (enc_entries e fs pos) = 8 * zlen fs.
Proof.
  revert pos. induction fs as [|[k x] r IH]; intros pos; [reflexivity|].
  cbn [enc_entries]. rewrite zlen_app, zlen_sb, zlen_obj_entry, IH, zlen_cons. lia.
Qed.
Lemma zlen_enc_aentries e vs pos : zlen (enc_aentries e vs pos) = 8 * zlen vs.
Proof.
  revert pos. induction vs as [|x r IH]; intros pos; [reflexivity|].
  cbn [enc_aentries]. rewrite !zlen_app, zlen_sb, zlen_arr_entry, IH, zlen_cons, zlen_gap by lia. lia.
Qed.

Lemma esize_obj fs :
  esize (VObj fs) = align_up (8 + 8 * zlen fs + zlen (enc_body enc fs (8 + 8 * zlen fs))) 8.
Proof.
  unfold esize. cbn [enc]. rewrite !zlen_app, !zlen_sb, !zlen_le_enc, zlen_enc_entries.
  pose proof (align_up_ge (8 + 8 * zlen fs + zlen (enc_body enc fs (8 + 8 * zlen fs))) 8 ltac:(lia)).
  rewrite zlen_gap by lia. lia.
Qed.
Lemma esize_arr vs :
  esize (VArr vs) = 8 + 8 * zlen vs + zlen (enc_abody enc vs (8 + 8 * zlen vs)).
Proof.
  unfold esize. cbn [enc]. rewrite !zlen_app, !zlen_sb, !zlen_le_enc, zlen_enc_aentries. lia.
Qed.

Lemma str_w_identify (s : str) :
  (identify_string (zlen s) =? R_big_string) = (65535 <? zlen s).
Proof.
  unfold identify_string. destruct (65535 <? zlen s); [reflexivity|].
  destruct (sso_bytes <? zlen s); reflexivity.
Qed.

(** ** layout writes the encoder's pattern *)

Lemma wr_string_spec (pre old post : mem) w s :
  zlen old = Z.of_nat w + zlen s + 1 ->
  wr_string (pre ++ old ++ post) w (zlen pre) s =
  Ok (pre ++ (le_enc w (zlen s) ++ s ++ [x00]) ++ post).
Proof.
  intros L. pose proof (zlen_nonneg s).
  destruct (split_at old (Z.of_nat w)) as (o1 & o' & -> & L1); [lia|].
  rewrite zlen_app in L.
  destruct (split_at o' (zlen s)) as (o2 & o3 & -> & L2); [lia|].
  rewrite zlen_app in L.
  unfold wr_string, wr_le.
  rewrite <- (app_assoc o1).
  rewrite wr_app by (rewrite ?zlen_le_enc; lia). cbn [bind].
  rewrite <- (app_assoc o2), (app_assoc pre).
  rewrite wr_app by (rewrite ?zlen_app, ?zlen_le_enc; lia). cbn [bind].
  rewrite (app_assoc (pre ++ _) s).
  rewrite wr_app; [|rewrite ?zlen_app, ?zlen_le_enc; lia|cbn; lia].
  rewrite <- !app_assoc. reflexivity.
Qed.

Lemma find_sizeof_string pre s post :
  zlen s < 2 ^ 32 ->
  find_sizeof (pre ++ enc_str s ++ post) (identify_string (zlen s)) (zlen pre) =
  Ok (zlen (enc_str s)).
Proof.
  intros B. pose proof (zlen_nonneg s). rewrite zlen_enc_str.
  unfold enc_str, str_w, identify_string. rewrite <- (app_assoc (le_enc _ _)).
  destruct (65535 <? zlen s) eqn:E; [|destruct (sso_bytes <? zlen s)]; cbn [find_sizeof];
    unfold find_sizeof; cbn [Z.eqb R_null R_object R_array R_small_string R_string R_big_string orb Pos.eqb];
    rewrite rd_le_app_small by (cbn; lia); reflexivity.
Qed.

Lemma layout_str_spec pre old post s :
  zlen s < 2 ^ 32 -> zlen old = zlen (enc_str s) ->
  layout_str (pre ++ old ++ post) (zlen pre) s = Ok (pre ++ enc_str s ++ post, zlen (enc_str s)).
Proof.
  intros B L. unfold layout_str. rewrite str_w_identify.
  rewrite zlen_enc_str in L. unfold str_w in L.
  replace (if 65535 <? zlen s then wr_string (pre ++ old ++ post) 4 (zlen pre) s
           else wr_string (pre ++ old ++ post) 2 (zlen pre) s)
    with (Ok (pre ++ enc_str s ++ post)).
  - cbn [bind]. rewrite find_sizeof_string by assumption. reflexivity.
  - unfold enc_str, str_w. destruct (65535 <? zlen s); rewrite wr_string_spec by lia; reflexivity.
Qed.

Lemma find_sizeof_obj m o : find_sizeof m R_object o = rd_le m o 4.
Proof. reflexivity. Qed.
Lemma find_sizeof_arr m o : find_sizeof m R_array o = rd_le m o 4.
Proof. reflexivity. Qed.

Definition layout_ok (v : value) : Prop :=
  forall pre old post,
    zlen pre mod al v = 0 -> zlen old = esize v ->
    layout (pre ++ old ++ post) (zlen pre) v =
    Ok (pre ++ overlay (enc v) old ++ post, esize v).

(** The object constructor's loop, started with the header and the entries so far
    in [A], the remaining vtable in [eold], earlier fields in [B]. *)
Lemma layout_fields_spec o (fs : list (str * value)) :
  o mod 8 = 0 ->
  Forall (fun kv => zlen (fst kv) < 2 ^ 32 /\ layout_ok (snd kv)) fs ->
  forall (A eold B bold post : mem) i,
    zlen A = o + 8 + 8 * i -> zlen eold = 8 * zlen fs ->
    let pos := zlen A + zlen eold + zlen B - o in
    zlen bold = zlen (enc_body enc fs pos) ->
    layout_fields layout o fs (A ++ eold ++ B ++ bold ++ post) pos i =
    Ok (A ++ overlay (enc_entries enc fs pos) eold ++ B ++ overlay (enc_body enc fs pos) bold ++ post,
        pos + zlen (enc_body enc fs pos)).
Proof.
  intros Ho. induction fs as [|[k x] r IH]; intros HF A eold B bold post i HA He pos Hb.
  - cbn [enc_body] in Hb. rewrite zlen_nil in He, Hb.
    apply zlen_0_nil in He, Hb. subst eold bold.
    cbn [layout_fields enc_entries enc_body overlay]. rewrite zlen_nil. f_equal. f_equal. lia.
  - apply Forall_cons_iff in HF. destruct HF as [[Hk Hx] HF]. cbn [fst snd] in Hk, Hx.
    cbn [layout_fields].
    change (alignment_of R_string) with 2.
    replace (align_up (o + pos) 2) with (o + kpos pos)
      by (unfold kpos; rewrite align_up_add; lia).
    replace (o + kpos pos - o) with (kpos pos) by lia.
    (* split the vtable and the body *)
    pose proof (zlen_nonneg r).
    rewrite zlen_cons in He.
    destruct (split_at eold 8) as (e0 & er & -> & L0); [lia|].
    rewrite zlen_app in He.
    cbn [enc_body] in Hb. rewrite zlen_app in Hb.
    pose proof (zlen_nonneg (enc_body enc r (pos + zlen (seg enc pos k x)))).
    destruct (split_at bold (zlen (seg enc pos k x))) as (bs & br & -> & Ls);
      [pose proof (zlen_nonneg (seg enc pos k x)); lia|].
    rewrite zlen_app in Hb.
    pose proof (zlen_seg enc pos k x) as Lseg. unfold seg in Lseg, Ls.
    set (g1 := gap (kpos pos - pos)) in *.
    set (ks := enc_str k) in *.
    set (g2 := gap (vpos pos k x - (kpos pos + zlen ks))) in *.
    rewrite !zlen_app, zlen_sb in Ls.
    pose proof (kpos_ge pos). pose proof (vpos_ge pos k x). fold ks in H2.
    assert (G1 : zlen g1 = kpos pos - pos) by (apply zlen_gap; lia).
    assert (G2 : zlen g2 = vpos pos k x - (kpos pos + zlen ks)) by (apply zlen_gap; lia).
    pose proof (zlen_nonneg ks). pose proof (zlen_nonneg (enc x)).
    destruct (split_at bs (zlen g1)) as (b1 & bs2 & -> & Lb1); [lia|].
    rewrite zlen_app in Ls.
    destruct (split_at bs2 (zlen ks)) as (b2 & bs3 & -> & Lb2); [lia|].
    rewrite zlen_app in Ls.
    destruct (split_at bs3 (zlen g2)) as (b3 & b4 & -> & Lb3); [lia|].
    rewrite zlen_app in Ls.
    (* entry *)
    rewrite <- (app_assoc e0).
    rewrite wr_app by (rewrite ?zlen_obj_entry; lia). cbn [bind].
    (* key *)
    rewrite <- !app_assoc.
    replace (A ++ obj_entry (raw_type_of x) (kpos pos) k ++ er ++ B ++ b1 ++ b2 ++ b3 ++ b4 ++ br ++ post)
      with ((A ++ obj_entry (raw_type_of x) (kpos pos) k ++ er ++ B ++ b1) ++ b2 ++ (b3 ++ b4 ++ br ++ post))
      by (rewrite <- !app_assoc; reflexivity).
    replace (o + kpos pos) with (zlen (A ++ obj_entry (raw_type_of x) (kpos pos) k ++ er ++ B ++ b1)).
    2:{ rewrite !zlen_app, zlen_obj_entry. unfold pos in *. rewrite zlen_app in *. lia. }
    rewrite layout_str_spec by (fold ks; lia). fold ks. cbn [bind].
    replace (align_up (o + (kpos pos + zlen ks)) (alignment_of (raw_type_of x))) with (o + vpos pos k x).
    2:{ unfold vpos. fold ks. symmetry. apply align_up_add; [apply al_pos|].
        apply mod8_mod; [apply al_pow2|assumption]. }
    replace (o + vpos pos k x - o) with (vpos pos k x) by lia.
    (* value *)
    set (P := A ++ obj_entry (raw_type_of x) (kpos pos) k ++ er ++ B ++ b1).
    assert (LP : zlen P = o + kpos pos).
    { unfold P. rewrite !zlen_app, zlen_obj_entry. unfold pos in *. rewrite zlen_app in *. lia. }
    replace (P ++ ks ++ b3 ++ b4 ++ br ++ post) with ((P ++ ks ++ b3) ++ b4 ++ (br ++ post))
      by (rewrite <- !app_assoc; reflexivity).
    assert (LP3 : zlen (P ++ ks ++ b3) = o + vpos pos k x) by (rewrite !zlen_app; lia).
    rewrite <- LP3.
    rewrite Hx.
    2:{ rewrite LP3. unfold vpos. rewrite <- Z.add_mod_idemp_l by (pose proof (al_pos x); lia).
        rewrite (mod8_mod (al x) o) by (auto using al_pow2). rewrite Z.add_0_l.
        apply align_up_mod, al_pos. }
    2:{ unfold esize. lia. }
    cbn [bind].
    (* the rest *)
    set (X := overlay (enc x) b4).
    assert (LX : zlen X = zlen (enc x)) by (apply overlay_len; lia).
    assert (Hpos : pos + zlen (seg enc pos k x) = vpos pos k x + esize x).
    { rewrite zlen_seg. unfold esize. lia. }
    specialize (IH HF (A ++ obj_entry (raw_type_of x) (kpos pos) k) er (B ++ b1 ++ ks ++ b3 ++ X) br post (i + 1)).
    cbv zeta in IH.
    assert (E : zlen (A ++ obj_entry (raw_type_of x) (kpos pos) k) + zlen er + zlen (B ++ b1 ++ ks ++ b3 ++ X) - o
                = vpos pos k x + esize x).
    { rewrite !zlen_app, zlen_obj_entry. unfold pos, esize in *. rewrite zlen_app in *. lia. }
    rewrite E in IH.
    replace ((P ++ ks ++ b3) ++ X ++ br ++ post)
      with ((A ++ obj_entry (raw_type_of x) (kpos pos) k) ++ er ++ (B ++ b1 ++ ks ++ b3 ++ X) ++ br ++ post)
      by (unfold P; rewrite <- !app_assoc; reflexivity).
    rewrite IH; cycle 1.
    + rewrite zlen_app, zlen_obj_entry. lia.
    + lia.
    + rewrite zlen_seg in Hpos. rewrite !zlen_app, zlen_seg, Hpos in Hb. unfold esize in *. lia.
    + cbn [enc_entries enc_body]. rewrite Hpos.
      rewrite overlay_app by (rewrite zlen_sb, zlen_obj_entry; lia).
      rewrite overlay_sb by (rewrite zlen_obj_entry; lia).
      unfold seg. fold ks g1 g2. rewrite <- !app_assoc.
      rewrite (overlay_app g1) by lia. replace (overlay g1 b1) with b1 by (symmetry; apply overlay_gap; exact Lb1).
      rewrite (overlay_app (sb ks)) by (rewrite zlen_sb; lia). rewrite overlay_sb by lia.
      rewrite (overlay_app g2) by lia. replace (overlay g2 b3) with b3 by (symmetry; apply overlay_gap; exact Lb3).
      rewrite (overlay_app (enc x)) by lia. fold X.
      apply f_equal, f_equal2; [rewrite <- !app_assoc; reflexivity|].
      rewrite !zlen_app, zlen_sb. unfold esize. lia.
Qed.

Lemma layout_elems_spec o (vs : list value) :
  o mod 8 = 0 -> Forall layout_ok vs ->
  forall (A eold B bold post : mem) i,
    zlen A = o + 8 + 8 * i -> zlen eold = 8 * zlen vs ->
    let pos := zlen A + zlen eold + zlen B - o in
    zlen bold = zlen (enc_abody enc vs pos) ->
    layout_elems layout o vs (A ++ eold ++ B ++ bold ++ post) pos i =
    Ok (A ++ overlay (enc_aentries enc vs pos) eold ++ B ++ overlay (enc_abody enc vs pos) bold ++ post,
        pos + zlen (enc_abody enc vs pos)).
Proof.
  intros Ho. induction vs as [|x r IH]; intros HF A eold B bold post i HA He pos Hb.
  - cbn [enc_abody] in Hb. rewrite zlen_nil in He, Hb.
    apply zlen_0_nil in He, Hb. subst eold bold.
    cbn [layout_elems enc_aentries enc_abody overlay]. rewrite zlen_nil. f_equal. f_equal. lia.
  - apply Forall_cons_iff in HF. destruct HF as [Hx HF].
    cbn [layout_elems].
    replace (align_up (o + pos) (alignment_of (raw_type_of x))) with (o + apos pos x).
    2:{ unfold apos. symmetry. apply align_up_add; [apply al_pos|].
        apply mod8_mod; [apply al_pow2|assumption]. }
    replace (o + apos pos x - o) with (apos pos x) by lia.
    pose proof (zlen_nonneg r).
    rewrite zlen_cons in He.
    destruct (split_at eold 5) as (e0 & er' & -> & L0); [lia|].
    rewrite zlen_app in He.
    destruct (split_at er' 3) as (e1 & er & -> & L1); [lia|].
    rewrite zlen_app in He.
    cbn [enc_abody] in Hb. rewrite zlen_app in Hb.
    pose proof (zlen_nonneg (enc_abody enc r (pos + zlen (aseg enc pos x)))).
    destruct (split_at bold (zlen (aseg enc pos x))) as (bs & br & -> & Ls);
      [pose proof (zlen_nonneg (aseg enc pos x)); lia|].
    rewrite zlen_app in Hb.
    pose proof (zlen_aseg enc pos x) as Lseg. unfold aseg in Ls.
    set (g1 := gap (apos pos x - pos)) in *.
    rewrite !zlen_app in Ls.
    pose proof (apos_ge pos x).
    assert (G1 : zlen g1 = apos pos x - pos) by (apply zlen_gap; lia).
    pose proof (zlen_nonneg (enc x)).
    destruct (split_at bs (zlen g1)) as (b1 & b4 & -> & Lb1); [lia|].
    rewrite zlen_app in Ls, Hb.
    assert (Epos : pos = zlen A + (5 + 3 + zlen er) + zlen B - o).
    { unfold pos. rewrite !zlen_app. lia. }
    clearbody pos.
    set (en := arr_entry (raw_type_of x) (apos pos x)).
    assert (Len : zlen en = 5) by apply zlen_arr_entry.
    rewrite <- !app_assoc.
    rewrite wr_app by lia. cbn [bind].
    replace (A ++ en ++ e1 ++ er ++ B ++ b1 ++ b4 ++ br ++ post)
      with ((A ++ en ++ e1 ++ er ++ B ++ b1) ++ b4 ++ (br ++ post))
      by (rewrite <- !app_assoc; reflexivity).
    set (P := A ++ en ++ e1 ++ er ++ B ++ b1).
    assert (LP : zlen P = o + apos pos x) by (unfold P; rewrite !zlen_app; lia).
    rewrite <- LP.
    rewrite Hx.
    2:{ rewrite LP. unfold apos. rewrite <- Z.add_mod_idemp_l by (pose proof (al_pos x); lia).
        rewrite (mod8_mod (al x) o) by (auto using al_pow2). rewrite Z.add_0_l.
        apply align_up_mod, al_pos. }
    2:{ unfold esize. lia. }
    cbn [bind].
    set (X := overlay (enc x) b4).
    assert (LX : zlen X = zlen (enc x)) by (apply overlay_len; lia).
    assert (Hpos : pos + zlen (aseg enc pos x) = apos pos x + esize x) by (unfold esize; lia).
    specialize (IH HF (A ++ en ++ e1) er (B ++ b1 ++ X) br post (i + 1)).
    cbv zeta in IH.
    assert (E : zlen (A ++ en ++ e1) + zlen er + zlen (B ++ b1 ++ X) - o = apos pos x + esize x).
    { rewrite !zlen_app. unfold esize in *. lia. }
    rewrite E in IH.
    replace (P ++ X ++ br ++ post)
      with ((A ++ en ++ e1) ++ er ++ (B ++ b1 ++ X) ++ br ++ post)
      by (unfold P; rewrite <- !app_assoc; reflexivity).
    rewrite IH; cycle 1.
    + rewrite !zlen_app. lia.
    + lia.
    + rewrite Hpos in Hb. lia.
    + cbn [enc_aentries enc_abody]. rewrite Hpos. fold en.
      rewrite <- !app_assoc.
      rewrite (overlay_app (sb en)) by (rewrite zlen_sb; lia). rewrite overlay_sb by lia.
      rewrite (overlay_app (gap 3)) by (rewrite zlen_gap; lia).
      rewrite overlay_gap by (rewrite zlen_gap; lia).
      unfold aseg. fold g1. rewrite <- !app_assoc.
      rewrite (overlay_app g1) by lia.
      replace (overlay g1 b1) with b1 by (symmetry; apply overlay_gap; exact Lb1).
      rewrite (overlay_app (enc x)) by lia. fold X.
      apply f_equal, f_equal2; [rewrite <- !app_assoc; reflexivity|].
      rewrite !zlen_app. unfold esize. lia.
Qed.

Lemma layout_scalar n z pre old post t :
  zlen old = Z.of_nat n -> find_sizeof (pre ++ le_enc n z ++ post) t (zlen pre) = Ok (Z.of_nat n) ->
  (m <- wr_le (pre ++ old ++ post) (zlen pre) n z ;;
   sz <- find_sizeof m t (zlen pre) ;; Ok (m, sz)) =
  Ok (pre ++ overlay (sb (le_enc n z)) old ++ post, Z.of_nat n).
Proof.
  intros L F. unfold wr_le. rewrite wr_app by (rewrite ?zlen_le_enc; lia). cbn [bind].
  rewrite F. cbn [bind]. rewrite overlay_sb by (rewrite zlen_le_enc; lia). reflexivity.
Qed.

Theorem layout_spec v : fits v -> layout_ok v.
Proof.
  induction v using value_ind'; intros F pre old post Ha Ho.
  - (* object *)
    apply fits_obj in F. destruct F as [F S].
    assert (HF : Forall (fun kv => zlen (fst kv) < 2 ^ 32 /\ layout_ok (snd kv)) fs).
    { rewrite Forall_forall in *. intros kv I. destruct (F _ I). auto. }
    change (al (VObj fs)) with 8 in Ha.
    pose proof (esize_obj fs) as ES. pose proof (zlen_nonneg fs).
    set (start := 8 + 8 * zlen fs) in *.
    set (bd := enc_body enc fs start) in *.
    pose proof (align_up_ge (start + zlen bd) 8 ltac:(lia)) as AG.
    set (total := align_up (start + zlen bd) 8) in *.
    pose proof (zlen_nonneg bd).
    destruct (split_at old 4) as (h1 & old' & -> & L1); [lia|]. rewrite zlen_app in Ho.
    destruct (split_at old' 4) as (h2 & old'' & -> & L2); [lia|]. rewrite zlen_app in Ho.
    destruct (split_at old'' (8 * zlen fs)) as (eo & old3 & -> & L3); [lia|]. rewrite zlen_app in Ho.
    destruct (split_at old3 (zlen bd)) as (bo & tl & -> & L4); [lia|]. rewrite zlen_app in Ho.
    cbn [layout]. unfold wr_le. change (alignment_of R_object) with 8.
    rewrite <- !app_assoc. rewrite (app_assoc pre h1).
    rewrite wr_app by (rewrite ?zlen_app, ?zlen_le_enc; lia). cbn [bind].
    pose proof (layout_fields_spec (zlen pre) fs Ha HF
                  ((pre ++ h1) ++ le_enc 4 (zlen fs)) eo [] bo (tl ++ post) 0) as LF.
    cbv zeta in LF.
    assert (EA : zlen ((pre ++ h1) ++ le_enc 4 (zlen fs)) = zlen pre + 8)
      by (rewrite !zlen_app, zlen_le_enc; lia).
    rewrite EA, (@zlen_nil byte), L3 in LF.
    replace (zlen pre + 8 + 8 * zlen fs + 0 - zlen pre) with start in LF by lia.
    fold bd in LF. rewrite !app_nil_l in LF.
    replace ((pre ++ h1) ++ le_enc 4 (zlen fs) ++ eo ++ bo ++ tl ++ post)
      with (((pre ++ h1) ++ le_enc 4 (zlen fs)) ++ eo ++ bo ++ tl ++ post)
      by (rewrite <- !app_assoc; reflexivity).
    fold start. rewrite LF by lia. cbn [bind]. fold total.
    rewrite <- !app_assoc.
    rewrite wr_app by (rewrite ?zlen_le_enc; lia). cbn [bind].
    rewrite find_sizeof_obj.
    rewrite rd_le_app_small; [|reflexivity|cbn in *; lia].
    cbn [bind]. rewrite ES. apply f_equal, f_equal2; [|reflexivity].
    cbn [enc]. fold start. fold bd. fold total.
    rewrite (overlay_app (sb (le_enc 4 total))) by (rewrite zlen_sb, zlen_le_enc; lia).
    rewrite (overlay_app (sb (le_enc 4 (zlen fs)))) by (rewrite zlen_sb, zlen_le_enc; lia).
    rewrite !overlay_sb by (rewrite zlen_le_enc; lia).
    rewrite (overlay_app (enc_entries enc fs start)) by (rewrite zlen_enc_entries; lia).
    rewrite (overlay_app bd) by lia.
    rewrite (overlay_gap (total - (start + zlen bd))) by (rewrite zlen_gap; lia).
    rewrite <- !app_assoc. reflexivity.
  - (* array *)
    apply fits_arr in F. destruct F as [F S].
    assert (HF : Forall layout_ok vs).
    { rewrite Forall_forall in *. auto. }
    change (al (VArr vs)) with 8 in Ha.
    pose proof (esize_arr vs) as ES. pose proof (zlen_nonneg vs).
    set (start := 8 + 8 * zlen vs) in *.
    set (bd := enc_abody enc vs start) in *.
    pose proof (zlen_nonneg bd).
    destruct (split_at old 4) as (h1 & old' & -> & L1); [lia|]. rewrite zlen_app in Ho.
    destruct (split_at old' 4) as (h2 & old'' & -> & L2); [lia|]. rewrite zlen_app in Ho.
    destruct (split_at old'' (8 * zlen vs)) as (eo & bo & -> & L3); [lia|]. rewrite zlen_app in Ho.
    cbn [layout]. unfold wr_le.
    rewrite <- !app_assoc. rewrite (app_assoc pre h1).
    rewrite wr_app by (rewrite ?zlen_app, ?zlen_le_enc; lia). cbn [bind].
    pose proof (layout_elems_spec (zlen pre) vs Ha HF
                  ((pre ++ h1) ++ le_enc 4 (zlen vs)) eo [] bo post 0) as LF.
    cbv zeta in LF.
    assert (EA : zlen ((pre ++ h1) ++ le_enc 4 (zlen vs)) = zlen pre + 8)
      by (rewrite !zlen_app, zlen_le_enc; lia).
    rewrite EA, (@zlen_nil byte), L3 in LF.
    replace (zlen pre + 8 + 8 * zlen vs + 0 - zlen pre) with start in LF by lia.
    fold bd in LF. rewrite !app_nil_l in LF.
    replace ((pre ++ h1) ++ le_enc 4 (zlen vs) ++ eo ++ bo ++ post)
      with (((pre ++ h1) ++ le_enc 4 (zlen vs)) ++ eo ++ bo ++ post)
      by (rewrite <- !app_assoc; reflexivity).
    fold start. rewrite LF by lia. cbn [bind].
    rewrite <- !app_assoc.
    rewrite wr_app by (rewrite ?zlen_le_enc; lia). cbn [bind].
    rewrite find_sizeof_arr.
    rewrite rd_le_app_small; [|reflexivity|cbn in *; lia].
    cbn [bind]. rewrite ES. apply f_equal, f_equal2; [|reflexivity].
    cbn [enc]. fold start. fold bd.
    rewrite (overlay_app (sb (le_enc 4 (start + zlen bd)))) by (rewrite zlen_sb, zlen_le_enc; lia).
    rewrite (overlay_app (sb (le_enc 4 (zlen vs)))) by (rewrite zlen_sb, zlen_le_enc; lia).
    rewrite !overlay_sb by (rewrite zlen_le_enc; lia).
    rewrite (overlay_app (enc_aentries enc vs start)) by (rewrite zlen_enc_aentries; lia).
    rewrite <- !app_assoc. reflexivity.
  - (* string *)
    cbn [fits] in F. unfold esize in *. cbn [enc layout] in *. rewrite zlen_sb in *.
    rewrite layout_str_spec by lia. rewrite overlay_sb by lia. reflexivity.
  - (* integer *)
    unfold esize in *. cbn [enc layout] in *. rewrite zlen_sb, zlen_le_enc in *.
    apply layout_scalar; [lia|].
    unfold identify_integer, find_sizeof.
    destruct ((2147483647 <? z) || (z <? -2147483648)); [reflexivity|].
    destruct ((32767 <? z) || (z <? -32768)); reflexivity.
  - (* decimal *)
    unfold esize in *. cbn [enc layout] in *. rewrite zlen_sb in *.
    unfold identify_decimal.
    destruct (fits_single d); rewrite zlen_le_enc in *; apply layout_scalar; (lia || reflexivity).
  - (* boolean *)
    unfold esize in *. cbn [enc layout] in *. rewrite zlen_sb in *. rewrite zlen_le_enc in *.
    apply layout_scalar; [lia|reflexivity].
  - (* null *)
    unfold esize in *. cbn [enc layout] in *. rewrite zlen_nil in Ho.
    apply zlen_0_nil in Ho. subst old. reflexivity.
Qed.
