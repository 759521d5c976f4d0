(** Building a finalized object straight from keys and values. *)

From Coq Require Import ZArith List Lia Bool Sorted Permutation.
From Coq Require Import ZifyBool ZifyNat ZifyN.
From Verif Require Import Base BaseFacts Keys KeysFacts Dec Wire Read Buf Merge Enc EncSize Spec ReadFacts Lookup
  BufFacts Canon HeapFacts MergeFacts MergeEmit MergeTop.
Import ListNotations.
Open Scope Z_scope.

(** ** Arguments *)

(** The value an argument stands for.  A mutable value must be small enough for
    the library to size it; a finalized one must hold what it claims to. *)
Definition stands_for (Q : pat -> list byte -> Prop) (a : arg) (v : value) : Prop :=
  match a with
  | ArgHeap w => w = v /\ heap_value v /\ exists u, upper_bound v = Ok u
  | ArgBuf bs m e => represents bs m e v /\
      match snd e with Some o => holdsQ Q m o (enc v) | None => True end
  end.

Lemma scalar_string m e bs v : represents bs m e v ->
  b_scalar T_string m e = match v with VStr s => Ok (VStr s) | _ => Throw type_error end.
Proof.
  intros R. destruct v;
    try (rewrite (b_scalar_spec _ _ _ _ T_string R eq_refl) by discriminate; reflexivity);
    unfold b_scalar; rewrite (represents_type _ _ _ _ R); reflexivity.
Qed.

Lemma sv_eqb_eq a b : sv_eqb a b = true <-> a = b.
Proof.
  unfold sv_eqb. pose proof (sv_compare_spec a b) as H. rewrite Z.eqb_eq. intuition.
Qed.

Lemma matches_sb_eq l : forall bs, matches (sb l) bs -> bs = l.
Proof.
  induction l as [|c l IH]; intros bs M; inversion M as [|? ? ? ? H1 H2]; subst; [reflexivity|].
  f_equal; [|apply IH; assumption]. symmetry. exact H1 || exact H1.
Qed.

Section Args.
  Variable Q : pat -> list byte -> Prop.
  Hypothesis Qfill : forall p, Q p (fill p).
  Hypothesis Qmatch : forall p bs, Q p bs -> matches p bs.

  Lemma arg_strv_spec a v : stands_for Q a v ->
    arg_strv a = match v with VStr s => Ok s | _ => Throw type_error end.
  Proof.
    destruct a as [w|bs m e]; cbn [stands_for arg_strv].
    - intros (-> & _). destruct v; reflexivity.
    - intros (R & _). rewrite (scalar_string _ _ _ _ R). destruct v; reflexivity.
  Qed.

  Lemma arg_heap a v : stands_for Q a v -> heap_value v.
  Proof. destruct a; cbn [stands_for]; [tauto|]. intros ((H & _) & _). exact H. Qed.

  Lemma arg_fits a v : stands_for Q a v -> fits v.
  Proof.
    destruct a as [w|bs m e]; cbn [stands_for].
    - intros (_ & H & u & U). apply (upper_bound_ok v (plain_short _ (heap_plain _ H)) u U).
    - intros ((_ & R) & _). destruct (snd e).
      + apply R.
      + destruct R as [_ ->]. exact I.
  Qed.

  Lemma arg_type_spec a v : stands_for Q a v ->
    arg_type a = raw_type_of v \/ arg_type a = entry_type (raw_type_of v).
  Proof.
    destruct a as [w|bs m e]; cbn [stands_for arg_type].
    - intros (-> & _). left; reflexivity.
    - intros ((_ & R) & _). destruct e as [t [o|]]; cbn [fst snd] in *.
      + apply R.
      + destruct R as [-> ->]. left; reflexivity.
  Qed.
  Lemma arg_align a v : stands_for Q a v -> alignment_of (arg_type a) = al v.
  Proof.
    intros S. destruct (arg_type_spec a v S) as [-> | ->]; [reflexivity|]. apply alignment_entry_type.
  Qed.
  Lemma arg_entry a v o k : stands_for Q a v -> obj_entry (arg_type a) o k = obj_entry (raw_type_of v) o k.
  Proof.
    intros S. destruct (arg_type_spec a v S) as [-> | ->]; [reflexivity|]. apply obj_entry_type.
  Qed.

  Lemma arg_ub a v : stands_for Q a v -> exists n, arg_upper_bound a = Ok n /\ esize v <= n.
  Proof.
    intros S. destruct a as [w|bs m e].
    - destruct S as (-> & H & u & U). exists u. split; [exact U|].
      apply (upper_bound_ok v (plain_short _ (heap_plain _ H)) u U).
    - destruct S as ((HV & R) & _). destruct e as [t [o|]]; cbn [arg_upper_bound fst snd] in *.
      + destruct R as (H & F & A & T). exists (esize v). split; [|lia].
        apply sizeof_spec; auto. exact (every_node _ _ _ (heap_plain _ HV)).
      + destruct R as [-> ->]. exists 0. split; [reflexivity|]. cbn. lia.
  Qed.

  Lemma arg_layout_spec a v : stands_for Q a v ->
    exists vb, Q (enc v) vb /\
    forall pre old post, zlen pre mod al v = 0 -> old = zeros (esize v) ->
      arg_layout (pre ++ old ++ post) (zlen pre) a = Ok (pre ++ vb ++ post, esize v).
  Proof.
    intros S. destruct a as [w|bs m e].
    - destruct S as (-> & H & u & U). exists (fill (enc v)). split; [apply Qfill|].
      intros pre old post A ->. cbn [arg_layout].
      rewrite (layout_spec v); [|apply (upper_bound_ok v (plain_short _ (heap_plain _ H)) u U)|assumption
        |apply zlen_zeros, esize_nonneg].
      unfold esize at 1. rewrite overlay_zeros. reflexivity.
    - destruct S as ((HV & R) & HQ). destruct e as [t [o|]]; cbn [arg_layout fst snd] in *.
      + destruct R as (H & F & A & T).
        destruct (holdsQ_copy Q Qmatch _ _ _ HQ) as (vb & RD & QV). exists vb. split; [exact QV|].
        intros pre old post A' ->.
        rewrite (sizeof_spec m o v t H F (every_node _ _ _ (heap_plain _ HV)) T). cbn [bind].
        fold (esize v) in RD. rewrite RD. cbn [bind]. rewrite wr_app; [reflexivity|reflexivity|].
        rewrite zlen_zeros by apply esize_nonneg. apply Qmatch, matches_len in QV. exact QV.
      + destruct R as [-> ->]. exists []. split; [apply (Qfill [])|]. intros pre old post _ ->. reflexivity.
  Qed.

  (** ** Pairs *)
  Definition pair_ok (p : mpair) (kx : str * value) : Prop :=
    mp_str p = fst kx /\ stands_for Q (mp_key p) (VStr (fst kx)) /\ stands_for Q (mp_val p) (snd kx).

  (** Bytes needed at most by the pairs from any position on. *)
  Lemma pair_bytes p kx : pair_ok p kx -> zlen (fst kx) <= 65535 -> exists kb vb,
    arg_upper_bound (mp_key p) = Ok kb /\ arg_upper_bound (mp_val p) = Ok vb /\ 0 <= kb /\ 0 <= vb /\
    alignment_of (arg_type (mp_key p)) = 2 /\ alignment_of (arg_type (mp_val p)) = al (snd kx) /\
    forall pos, zlen (seg enc pos (fst kx) (snd kx)) <= kb + 2 - 1 + (vb + al (snd kx) - 1).
  Proof.
    intros (_ & SK & SV) KL.
    destruct (arg_ub _ _ SK) as (kb & EK & LK). destruct (arg_ub _ _ SV) as (vb & EV & LV).
    exists kb, vb. pose proof (esize_nonneg (VStr (fst kx))). pose proof (esize_nonneg (snd kx)).
    assert (AK : al (VStr (fst kx)) = 2).
    { unfold al. cbn [raw_type_of]. unfold identify_string.
      replace (65535 <? zlen (fst kx)) with false by lia. destruct (sso_bytes <? _); reflexivity. }
    rewrite (arg_align _ _ SK), (arg_align _ _ SV), AK.
    repeat (split; [assumption || lia|]). intros pos. rewrite zlen_seg.
    change (esize (VStr (fst kx))) with (zlen (sb (enc_str (fst kx)))) in LK. rewrite zlen_sb in LK.
    unfold vpos, kpos, esize in *.
    pose proof (align_up_lt pos 2 ltac:(lia)).
    pose proof (align_up_lt (align_up pos 2 + zlen (enc_str (fst kx))) (al (snd kx)) (al_pos (snd kx))). lia.
  Qed.

  Lemma max_loop_ok ps fs : Forall2 pair_ok ps fs -> StronglySorted key_lt (map fst fs) ->
    Forall (fun kx => zlen (fst kx) <= 65535) fs -> forall prev bytes,
    match prev, fs with Some q, kx :: _ => fst kx <> q | _, _ => True end ->
    exists n, max_bytes_loop prev ps bytes = Ok (bytes + n) /\ 0 <= n /\
      forall pos, zlen (enc_body enc fs pos) <= n.
  Proof.
    induction 1 as [|p [k x] ps fs P F IH]; intros S KL prev bytes HP; cbn [max_bytes_loop].
    - exists 0. rewrite Z.add_0_r. split; [reflexivity|]. split; [lia|]. intros. cbn. lia.
    - pose proof (proj1 P) as EK. cbn [fst] in *. rewrite EK.
      replace (match prev with Some q => sv_eqb k q | None => false end) with false.
      2: { destruct prev as [q|]; [|reflexivity]. symmetry. destruct (sv_eqb k q) eqn:E; [|reflexivity].
           apply sv_eqb_eq in E. contradiction. }
      inversion KL as [|? ? KL1 KL2]; subst. cbn [fst] in KL1.
      replace (65535 <? zlen (mp_str p)) with false by lia.
      destruct (pair_bytes p (mp_str p, x) P KL1) as (kb & vb & -> & -> & K0 & V0 & -> & -> & B). cbn [bind fst snd] in *.
      apply StronglySorted_inv in S. destruct S as [S FS].
      destruct (IH S KL2 (Some (mp_str p)) (bytes + (kb + 2 - 1) + (vb + al x - 1))) as (n & -> & N0 & NB).
      { destruct fs as [|[j y] fs]; [exact I|]. cbn [fst]. intros ->. inversion FS as [|? ? L]; subst.
        exact (key_lt_irrefl _ L). }
      pose proof (al_pos x).
      exists (kb + 2 - 1 + (vb + al x - 1) + n). split; [f_equal; lia|]. split; [lia|].
      intros pos. cbn [enc_body]. rewrite zlen_app. specialize (B pos). specialize (NB (pos + zlen (seg enc pos (mp_str p) x))). lia.
  Qed.

  (** Equal neighbours or a long key are refused. *)
  Lemma max_loop_bad ps fs : Forall2 pair_ok ps fs -> StronglySorted key_le (map fst fs) -> forall prev bytes,
    ~ (NoDup (map fst fs) /\ Forall (fun kx => zlen (fst kx) <= 65535) fs) \/
    match prev, fs with Some q, kx :: _ => fst kx = q | _, _ => False end ->
    max_bytes_loop prev ps bytes = Throw invalid_argument.
  Proof.
    induction 1 as [|p [k x] ps fs P F IH]; intros S prev bytes HB; cbn [max_bytes_loop].
    - exfalso. destruct HB as [HB|HB]; [apply HB; split; constructor|destruct prev; exact HB].
    - pose proof (proj1 P) as EK. cbn [fst] in *. rewrite EK.
      destruct (match prev with Some q => sv_eqb k q | None => false end) eqn:EP; [reflexivity|].
      destruct (65535 <? zlen k) eqn:EL; [reflexivity|].
      destruct HB as [HB|HB].
      2: { exfalso. destruct prev as [q|]; [|exact HB]. apply sv_eqb_eq in HB. congruence. }
      rewrite EK in P |- * || idtac.
      destruct (pair_bytes p (k, x) P) as (kb & vb & -> & -> & K0 & V0 & _); [cbn [fst]; lia|]. cbn [bind].
      cbn [map fst] in S. apply StronglySorted_inv in S. destruct S as [S FS]. apply (IH S).
      destruct fs as [|[j y] fs].
      + left. intros _. apply HB. split; [repeat constructor; intros []|repeat constructor]. cbn [fst]. lia.
      + destruct (list_eq_dec Byte.byte_eq_dec j k) as [->|N]; [right; reflexivity|]. left. intros [ND KL].
        apply HB. cbn [map fst] in *. split; [|constructor; [cbn [fst]; lia|assumption]].
        constructor; [|assumption]. intros I. destruct I as [->|I]; [contradiction|].
        apply StronglySorted_inv in S. destruct S as [_ S]. rewrite Forall_forall in S, FS.
        pose proof (FS j (or_introl eq_refl)) as L1. pose proof (S k I) as L2.
        unfold key_le in *. destruct (key_lt_total j k) as [?|[?|?]]; [tauto|congruence|tauto].
  Qed.

  (** ** The writes *)
  Lemma layout_pairs_ok ps fs : Forall2 pair_ok ps fs -> Forall (fun kx => zlen (fst kx) <= 65535) fs ->
    exists its, map kv its = fs /\ Forall item_ok its /\
      Forall (fun it => Q (enc (i_val it)) (i_bytes it)) its /\
    forall A V1 B z i pos,
      zlen A = 8 + 8 * i -> zlen V1 = 8 * zlen its -> pos = 8 + 8 * i + zlen V1 + zlen B ->
      zlen (cbody its pos) <= z ->
      layout_pairs ps (A ++ V1 ++ B ++ zeros z) pos i =
      Ok (A ++ centries its pos ++ B ++ cbody its pos ++ zeros (z - zlen (cbody its pos)),
          pos + zlen (cbody its pos)).
  Proof.
    induction 1 as [|p [k x] ps fs P F IH]; intros KL.
    - exists []. split; [reflexivity|]. split; [constructor|]. split; [constructor|].
      intros A V1 B z i pos HA HV Hp Hz. change (zlen (@nil item)) with 0 in HV. apply zlen_0_nil in HV. subst V1.
      cbn [layout_pairs centries cbody]. change (zlen (@nil byte)) with 0. rewrite !Z.sub_0_r, !Z.add_0_r. reflexivity.
    - inversion KL as [|? ? KL1 KL2]; subst. cbn [fst] in KL1.
      destruct (IH KL2) as (its & EI & OI & QI & HI).
      destruct P as (EK & SK & SV). cbn [fst snd] in *.
      destruct (arg_layout_spec _ _ SK) as (kb & QK & LK). destruct (arg_layout_spec _ _ SV) as (vb & QV & LV).
      assert (kb = enc_str k) as ->.
      { apply Qmatch in QK. cbn [enc] in QK. apply matches_sb_eq. exact QK. }
      set (it := mk_item k x vb).
      assert (OK : item_ok it) by (split; [exact KL1|apply Qmatch; exact QV]).
      exists (it :: its). split; [cbn [map]; rewrite EI; reflexivity|]. split; [constructor; assumption|].
      split; [constructor; assumption|].
      intros A V1 B z i pos HA HV Hp Hz. cbn [layout_pairs centries cbody].
      change (alignment_of R_string) with 2. fold (kpos pos). rewrite zlen_cons in HV.
      destruct (split_at V1 8) as (Va & Vb & -> & HVa); [zlia|]. rewrite zlen_app in HV, Hp.
      rewrite EK, (arg_entry _ _ _ _ SV), (arg_align _ _ SV). cbn [i_key i_val].
      rewrite <- !app_assoc. rewrite wr_app; [|lia|rewrite zlen_obj_entry; assumption]. cbn [bind].
      cbn [cbody] in Hz. rewrite zlen_app in Hz.
      pose proof (zlen_cseg pos it OK) as LS. pose proof (zlen_seg enc pos k x) as LG.
      change (seg enc pos (i_key it) (i_val it)) with (seg enc pos k x) in *.
      pose proof (kpos_ge pos). pose proof (vpos_ge pos k x).
      pose proof (item_len it OK) as LI. cbn [i_val i_bytes it] in LI.
      set (g1 := kpos pos - pos) in *. set (kl := zlen (enc_str k)) in *.
      set (g2 := vpos pos k x - (kpos pos + kl)) in *.
      assert (Z0 : 0 <= kl) by (subst kl; zlia). pose proof (esize_nonneg x) as Z1.
      pose proof (zlen_nonneg (cbody its (pos + zlen (seg enc pos k x)))) as Z2.
      assert (z = g1 + (kl + (g2 + (esize x + (z - zlen (cseg pos it)))))) as EZ by (unfold esize in *; lia).
      rewrite EZ. rewrite !zeros_app by lia. remember (z - zlen (cseg pos it)) as z'.
      set (en := obj_entry (raw_type_of x) (kpos pos) k).
      assert (LE : zlen en = 8) by apply zlen_obj_entry.
      replace (A ++ en ++ Vb ++ B ++ zeros g1 ++ zeros kl ++ zeros g2 ++ zeros (esize x) ++ zeros z')
        with ((A ++ en ++ Vb ++ B ++ zeros g1) ++ zeros kl ++ (zeros g2 ++ zeros (esize x) ++ zeros z'))
        by (rewrite <- !app_assoc; reflexivity).
      assert (P1 : kpos pos = zlen (A ++ en ++ Vb ++ B ++ zeros g1)) by (rewrite !zlen_app, zlen_zeros in *; lia).
      assert (AK : al (VStr k) = 2).
      { unfold al. cbn [raw_type_of]. unfold identify_string.
        replace (65535 <? zlen k) with false by lia. destruct (sso_bytes <? _); reflexivity. }
      assert (EK' : esize (VStr k) = kl) by (unfold esize; cbn [enc]; apply zlen_sb).
      rewrite P1 at 1. rewrite LK; [|rewrite <- P1, AK; apply align_up_mod; lia|rewrite EK'; reflexivity].
      cbn [bind]. rewrite EK'.
      change (align_up (kpos pos + kl) (al x)) with (vpos pos k x).
      replace ((A ++ en ++ Vb ++ B ++ zeros g1) ++ enc_str k ++ zeros g2 ++ zeros (esize x) ++ zeros z')
        with ((A ++ en ++ Vb ++ B ++ zeros g1 ++ enc_str k ++ zeros g2) ++ zeros (esize x) ++ zeros z')
        by (rewrite <- !app_assoc; reflexivity).
      assert (P2 : vpos pos k x = zlen (A ++ en ++ Vb ++ B ++ zeros g1 ++ enc_str k ++ zeros g2)).
      { rewrite !zlen_app, !zlen_zeros in * by lia. fold kl. lia. }
      rewrite P2 at 1. rewrite LV; [|rewrite <- P2; apply align_up_mod, al_pos|reflexivity].
      cbn [bind].
      replace (vpos pos k x + esize x) with (pos + zlen (seg enc pos k x)) by (unfold esize; lia).
      set (pos' := pos + zlen (seg enc pos k x)) in *.
      replace ((A ++ en ++ Vb ++ B ++ zeros g1 ++ enc_str k ++ zeros g2) ++ vb ++ zeros z')
        with ((A ++ en) ++ Vb ++ (B ++ cseg pos it) ++ zeros z')
        by (unfold cseg; cbn [i_key i_val i_bytes it]; fold kl; fold g1; fold g2; rewrite <- !app_assoc; reflexivity).
      rewrite (HI (A ++ en) Vb (B ++ cseg pos it) z' (i + 1) pos');
        [|rewrite zlen_app; lia|lia|rewrite zlen_app in *; lia|lia].
      rewrite zlen_app.
      replace (z' - zlen (cbody its pos')) with (z - (zlen (cseg pos it) + zlen (cbody its pos'))) by lia.
      rewrite <- EZ, <- !app_assoc. do 2 f_equal. lia.
  Qed.

  (** ** The whole call *)
  Lemma max_bytes_ok ps fs : Forall2 pair_ok ps fs -> StronglySorted key_lt (map fst fs) ->
    Forall (fun kx => zlen (fst kx) <= 65535) fs ->
    exists n, max_bytes ps = Ok n /\ esize (VObj fs) <= n.
  Proof.
    intros F S KL. unfold max_bytes.
    destruct (max_loop_ok ps fs F S KL None 0 I) as (n & -> & N0 & NB). cbn [bind].
    eexists. split; [reflexivity|]. rewrite (Forall2_zlen _ _ _ F), esize_fend. unfold fend.
    specialize (NB (8 + 8 * zlen fs)). change (alignment_of R_object) with 8.
    pose proof (align_up_mono (8 + 8 * zlen fs + zlen (enc_body enc fs (8 + 8 * zlen fs))) (0 + n + (8 + 8 * (zlen fs + 1))) 8
      ltac:(lia) ltac:(lia)). zlia.
  Qed.

  Lemma build_buffer_sorted ps fs : Forall2 pair_ok (sort_by mp_str ps) fs -> StronglySorted key_lt (map fst fs) ->
    Forall (fun kx => zlen (fst kx) <= 65535) fs ->
    exists n its, map kv its = fs /\ Forall item_ok its /\
      Forall (fun it => Q (enc (i_val it)) (i_bytes it)) its /\
      esize (VObj fs) <= n /\ build_buffer ps = Ok (cobj its ++ zeros (n - esize (VObj fs))).
  Proof.
    intros F S KL. unfold build_buffer. set (ps' := sort_by mp_str ps) in *. cbv zeta.
    destruct (max_bytes_ok ps' fs F S KL) as (n & -> & LN). cbn [bind].
    destruct (layout_pairs_ok ps' fs F KL) as (its & EI & OI & QI & HL).
    exists n, its. split; [exact EI|]. split; [exact OI|]. split; [exact QI|]. split; [exact LN|].
    assert (EZ : zlen fs = zlen its) by (rewrite <- EI; apply zlen_map).
    rewrite (Forall2_zlen _ _ _ F), EZ.
    set (st := 8 + 8 * zlen its). pose proof (fend_cbody its st OI) as FE. rewrite EI in FE.
    pose proof (esize_fend fs) as SE. rewrite EZ in SE. fold st in SE.
    pose proof (align_up_ge (fend fs st) 8 ltac:(lia)) as AG. rewrite <- SE in AG.
    pose proof (fend_ge fs st). pose proof (zlen_nonneg its).
    assert (Z8 : zeros n = zeros 4 ++ zeros 4 ++ zeros (8 * zlen its) ++ zeros (n - st)).
    { rewrite <- !zeros_app by lia. f_equal. lia. }
    rewrite Z8. unfold wr_le. rewrite wr_app by reflexivity. cbn [bind].
    replace (zeros 4 ++ le_enc 4 (zlen its) ++ zeros (8 * zlen its) ++ zeros (n - st))
      with ((zeros 4 ++ le_enc 4 (zlen its)) ++ zeros (8 * zlen its) ++ [] ++ zeros (n - st))
      by (rewrite <- app_assoc; reflexivity).
    rewrite (HL (zeros 4 ++ le_enc 4 (zlen its)) (zeros (8 * zlen its)) [] (n - st) 0 st);
      [|rewrite zlen_app, zlen_le_enc; reflexivity|rewrite zlen_zeros by lia; reflexivity
       |rewrite zlen_zeros by lia; change (zlen (@nil byte)) with 0; lia|lia].
    cbn [bind app]. change (alignment_of R_object) with 8. rewrite FE, <- SE.
    rewrite <- app_assoc.
    match goal with |- wr (zeros 4 ++ ?r) 0 ?b = _ => change (zeros 4 ++ r) with ([] ++ zeros 4 ++ r) end.
    rewrite wr_app by reflexivity. cbn [app]. unfold cobj. cbv zeta. fold st. rewrite EI.
    rewrite <- !app_assoc. rewrite <- zeros_app by lia. do 6 f_equal. lia.
  Qed.

  Lemma sort_insert_pairs p kx ps fs : pair_ok p kx -> Forall2 pair_ok ps fs ->
    Forall2 pair_ok (sort_insert mp_str p ps) (sort_insert fst kx fs).
  Proof.
    intros P F. induction F as [|q ky ps fs Q' F IH]; cbn [sort_insert]; [constructor; [assumption|constructor]|].
    rewrite (proj1 P), (proj1 Q'). destruct (dart_ltb (fst ky) (fst kx));
      [constructor; assumption|constructor; [assumption|constructor; assumption]].
  Qed.
  Lemma sort_pairs ps fs : Forall2 pair_ok ps fs -> Forall2 pair_ok (sort_by mp_str ps) (sort_by fst fs).
  Proof. induction 1; cbn [sort_by]; [constructor|]. apply sort_insert_pairs; assumption. Qed.
End Args.

(** ** Sorting pairs by key *)
Lemma sort_map_fst (fs : list (str * value)) : StronglySorted key_le (map fst (sort_by fst fs)).
Proof.
  pose proof (sort_by_sorted (fst : str * value -> str) fs) as H.
  induction H as [|x l S IH F]; cbn [map]; constructor; [assumption|].
  rewrite Forall_forall in *. intros k I. apply in_map_iff in I. destruct I as (y & <- & I). apply F. assumption.
Qed.

Lemma sort_keys_perm {A} (key : A -> str) l : Permutation (sort_by key l) l.
Proof.
  assert (P : forall x l, Permutation (sort_insert key x l) (x :: l)).
  { intros x r. induction r as [|y r IH]; cbn [sort_insert]; [apply Permutation_refl|].
    destruct (dart_ltb (key y) (key x)); [|apply Permutation_refl].
    eapply Permutation_trans; [apply perm_skip; exact IH|]. apply perm_swap. }
  induction l as [|x l IH]; cbn [sort_by]; [constructor|].
  eapply Permutation_trans; [apply P|]. apply perm_skip. assumption.
Qed.

Lemma weak_strict ks : StronglySorted key_le ks -> NoDup ks -> StronglySorted key_lt ks.
Proof.
  induction 1 as [|k ks S IH F]; intros N; constructor; inversion N; subst; [auto|].
  rewrite Forall_forall in *. intros j I. specialize (F j I). unfold key_le in F.
  destruct (key_lt_total k j) as [?|[->|?]]; [assumption|contradiction|contradiction].
Qed.

Lemma sort_strict (fs : list (str * value)) : NoDup (map fst fs) -> StronglySorted key_lt (map fst (sort_by fst fs)).
Proof.
  intros N. apply weak_strict; [apply sort_map_fst|]. eapply Permutation_NoDup; [|exact N].
  apply Permutation_map, Permutation_sym, sort_keys_perm.
Qed.

Lemma lookup_perm (l r : list (str * value)) : Permutation l r -> NoDup (map fst l) -> forall k, lookup k l = lookup k r.
Proof.
  induction 1 as [|[j x] l r P IH|[j x] [i y] l|l m r P1 IH1 P2 IH2]; intros N k; cbn [lookup map fst] in *.
  - reflexivity.
  - inversion N; subst. rewrite IH by assumption. reflexivity.
  - destruct (list_eq_dec Byte.byte_eq_dec k i) as [->|]; [|reflexivity].
    destruct (list_eq_dec Byte.byte_eq_dec i j) as [->|]; [|reflexivity].
    exfalso. inversion N as [|? ? H]; subst. apply H. left; reflexivity.
  - rewrite IH1 by assumption. apply IH2. eapply Permutation_NoDup; [apply Permutation_map; exact P1|exact N].
Qed.

Lemma sort_lookup (fs : list (str * value)) k : NoDup (map fst fs) -> lookup k (sort_by fst fs) = lookup k fs.
Proof. intros N. symmetry. apply lookup_perm; [apply Permutation_sym, sort_keys_perm|assumption]. Qed.

(** The sorted list does not depend on the order the pairs came in. *)
Lemma sort_perm {A} (key : A -> str) (l r : list A) : Permutation l r -> NoDup (map key l) -> sort_by key l = sort_by key r.
Proof.
  intros P N.
  assert (U : forall a c, StronglySorted key_lt (map key a) -> StronglySorted key_lt (map key c) -> Permutation a c -> a = c).
  { clear. induction a as [|x a IH]; intros c Sa Sc P.
    - apply Permutation_nil in P. congruence.
    - destruct c as [|y c]; [apply Permutation_sym, Permutation_nil in P; discriminate|].
      cbn [map] in *. apply StronglySorted_inv in Sa, Sc. destruct Sa as [Sa Fa], Sc as [Sc Fc].
      rewrite Forall_forall in Fa, Fc.
      assert (x = y) as ->.
      { assert (Ix : In x (y :: c)) by (eapply Permutation_in; [exact P|left; reflexivity]).
        assert (Iy : In y (x :: a)) by (eapply Permutation_in; [apply Permutation_sym; exact P|left; reflexivity]).
        destruct Ix as [->|Ix]; [reflexivity|]. destruct Iy as [->|Iy]; [reflexivity|]. exfalso.
        apply (key_lt_asym (key x) (key y)); [apply Fa|apply Fc]; apply in_map; assumption. }
      f_equal. apply IH; try assumption. apply Permutation_cons_inv in P. assumption. }
  assert (S : forall q, NoDup (map key q) -> StronglySorted key_lt (map key (sort_by key q))).
  { intros q Nq. apply weak_strict.
    - pose proof (sort_by_sorted key q) as H. induction H as [|x t S IH F]; cbn [map]; constructor; [assumption|].
      rewrite Forall_forall in *. intros k I. apply in_map_iff in I. destruct I as (y & <- & I). apply F. assumption.
    - eapply Permutation_NoDup; [|exact Nq]. apply Permutation_map, Permutation_sym, sort_keys_perm. }
  apply U; [apply S; assumption|apply S; eapply Permutation_NoDup; [apply Permutation_map; exact P|assumption]|].
  eapply Permutation_trans; [apply sort_keys_perm|]. eapply Permutation_trans; [exact P|].
  apply Permutation_sym, sort_keys_perm.
Qed.

(** ** make_object *)

(** The arguments of make_object for a list of pairs. *)
Fixpoint flat {A} (l : list (A * A)) : list A :=
  match l with [] => [] | (k, x) :: r => k :: x :: flat r end.

Definition pairs_stand (Q : pat -> list byte -> Prop) (args : list (arg * arg)) (fs : list (str * value)) : Prop :=
  Forall2 (fun a kx => stands_for Q (fst a) (VStr (fst kx)) /\ stands_for Q (snd a) (snd kx)) args fs.

Lemma pair_up_ok Q args fs : pairs_stand Q args fs ->
  exists ps, pair_up (flat args) = Ok ps /\ Forall2 (pair_ok Q) ps fs.
Proof.
  induction 1 as [|[a c] [k x] args fs [SK SV] F (ps & IH & P)]; [exists []; split; [reflexivity|constructor]|].
  cbn [flat pair_up fst snd] in *. rewrite (arg_strv_spec Q _ _ SK). cbn [bind]. rewrite IH. cbn [bind].
  eexists. split; [reflexivity|]. constructor; [|assumption]. split; [reflexivity|]. split; assumption.
Qed.

Lemma make_object_ok (Q : pat -> list byte -> Prop) args fs :
  (forall p, Q p (fill p)) -> (forall p bs, Q p bs -> matches p bs) ->
  pairs_stand Q args fs -> NoDup (map fst fs) -> Forall (fun kx => zlen (fst kx) <= 65535) fs ->
  exists n its, map kv its = sort_by fst fs /\ Forall item_ok its /\
    Forall (fun it => Q (enc (i_val it)) (i_bytes it)) its /\
    esize (VObj (sort_by fst fs)) <= n /\
    make_object (flat args) = Ok (cobj its ++ zeros (n - esize (VObj (sort_by fst fs)))).
Proof.
  intros Qf Qm P N KL. destruct (pair_up_ok Q args fs P) as (ps & E & F). unfold make_object. rewrite E. cbn [bind].
  apply build_buffer_sorted; [assumption|assumption|apply sort_pairs; assumption|apply sort_strict; assumption|].
  rewrite Forall_forall in *. intros kx I. apply KL. apply sort_by_in in I. exact I.
Qed.

Lemma make_object_bad (Q : pat -> list byte -> Prop) args fs : (forall p bs, Q p bs -> matches p bs) ->
  pairs_stand Q args fs -> ~ (NoDup (map fst fs) /\ Forall (fun kx => zlen (fst kx) <= 65535) fs) ->
  make_object (flat args) = Throw invalid_argument.
Proof.
  intros Qm P B. destruct (pair_up_ok Q args fs P) as (ps & E & F). unfold make_object. rewrite E. cbn [bind].
  unfold build_buffer, max_bytes. rewrite (max_loop_bad Q Qm _ _ (sort_pairs Q _ _ F) (sort_map_fst fs)); [reflexivity|].
  left. intros [N KL]. apply B. split.
  - eapply Permutation_NoDup; [|exact N]. apply Permutation_map, sort_keys_perm.
  - rewrite Forall_forall in *. intros kx I. apply KL. apply sort_by_in. exact I.
Qed.
