(** Facts about comparison: decimals, contents of sorted objects, heap == heap. *)

From Coq Require Import ZArith List Bool Lia Sorted.
From Verif Require Import Base Keys BaseFacts KeysFacts Dec SpecDec Wire Spec Enc Canon BufFacts HeapStr HeapStrFacts SpecCmp Compare.
Import ListNotations.
Open Scope Z_scope.

(** ** Decimals *)
Lemma d_parts d : 0 <= d < 2 ^ 64 ->
  d = d_sign d * 2 ^ 63 + d_exp d * 2 ^ 52 + d_man d /\
  (d_sign d = 0 \/ d_sign d = 1) /\ 0 <= d_exp d < 2048 /\ 0 <= d_man d < 2 ^ 52.
Proof.
  intros R. unfold d_sign, d_exp, d_man.
  change (2 ^ 64) with 18446744073709551616 in R.
  change (2 ^ 63) with 9223372036854775808. change (2 ^ 52) with 4503599627370496. change (2 ^ 11) with 2048.
  assert (E : d / 9223372036854775808 = d / 4503599627370496 / 2048).
  { rewrite Z.div_div by lia. reflexivity. }
  rewrite E. clear E. Z.div_mod_to_equations. lia.
Qed.

Definition mag (e n : Z) : Z := if e =? 0 then n else (2 ^ 52 + n) * 2 ^ (e - 1).

Lemma mag_nonneg e n : 0 <= e -> 0 <= n -> 0 <= mag e n.
Proof.
  intros E N. unfold mag. destruct (e =? 0); [assumption|]. apply Z.mul_nonneg_nonneg; [|apply Z.pow_nonneg; lia].
  change (2 ^ 52) with 4503599627370496. lia.
Qed.
Lemma mag_lt e n e' n' : 0 <= e < e' -> 0 <= n < 2 ^ 52 -> 0 <= n' -> mag e n < mag e' n'.
Proof.
  intros E N N'. unfold mag. destruct (Z.eqb_spec e' 0); [lia|].
  assert (P : 1 <= 2 ^ (e' - 1)) by (pose proof (Z.pow_pos_nonneg 2 (e' - 1)); lia).
  destruct (Z.eqb_spec e 0) as [->|NE].
  - apply Z.lt_le_trans with (2 ^ 52 + n'); [lia|]. nia.
  - replace (e' - 1) with ((e - 1) + 1 + (e' - e - 1)) by lia. rewrite !Z.pow_add_r by lia.
    assert (1 <= 2 ^ (e' - e - 1)) by (pose proof (Z.pow_pos_nonneg 2 (e' - e - 1)); lia).
    assert (1 <= 2 ^ (e - 1)) by (pose proof (Z.pow_pos_nonneg 2 (e - 1)); lia).
    change (2 ^ 1) with 2. apply Z.lt_le_trans with (2 ^ 52 * 2 * 2 ^ (e - 1)); [nia|].
    assert (0 <= 2 ^ 52) by (apply Z.pow_nonneg; lia).
    replace ((2 ^ 52 + n') * (2 ^ (e - 1) * 2 * 2 ^ (e' - e - 1))) with
      ((2 ^ 52 + n') * 2 * 2 ^ (e - 1) * 2 ^ (e' - e - 1)) by ring.
    apply Z.le_trans with ((2 ^ 52 + n') * 2 * 2 ^ (e - 1)); [nia|]. nia.
Qed.
Lemma mag_inj e n e' n' : 0 <= e -> 0 <= e' -> 0 <= n < 2 ^ 52 -> 0 <= n' < 2 ^ 52 ->
  mag e n = mag e' n' -> e = e' /\ n = n'.
Proof.
  intros E E' N N' M. destruct (Z.lt_trichotomy e e') as [L|[->|L]].
  - pose proof (mag_lt e n e' n'). lia.
  - split; [reflexivity|]. unfold mag in M. destruct (Z.eqb_spec e' 0); [assumption|].
    apply Z.mul_reg_r in M; [lia|]. apply Z.pow_nonzero; lia.
  - pose proof (mag_lt e' n' e n). lia.
Qed.
Lemma mag_zero e n : 0 <= e -> 0 <= n -> mag e n = 0 -> e = 0 /\ n = 0.
Proof.
  intros E N. unfold mag. destruct (Z.eqb_spec e 0); [auto|]. intros M. exfalso.
  assert (0 < 2 ^ 52) by (apply Z.pow_pos_nonneg; lia).
  assert (0 < 2 ^ (e - 1)) by (apply Z.pow_pos_nonneg; lia). nia.
Qed.

Lemma denote_cases d : denote64 d =
  if d_exp d =? 2047 then (if d_man d =? 0 then FInf (negb (d_sign d =? 0)) else FNaN)
  else FFin (sgn (d_sign d) (mag (d_exp d) (d_man d))).
Proof. unfold denote64, mag. destruct (d_exp d =? 2047); [reflexivity|]. destruct (d_exp d =? 0); reflexivity. Qed.

Lemma nan_denote d : d_is_nan d = true <-> denote64 d = FNaN.
Proof.
  rewrite denote_cases. unfold d_is_nan. destruct (d_exp d =? 2047), (d_man d =? 0); cbn; split; congruence.
Qed.

Lemma zero_denote d : 0 <= d < 2 ^ 64 -> (d_is_zero d = true <-> denote64 d = FFin 0).
Proof.
  intros R. destruct (d_parts d R) as (_ & S & E & M). rewrite denote_cases. unfold d_is_zero.
  rewrite andb_true_iff, !Z.eqb_eq. split.
  - intros [E0 M0]. rewrite E0, M0. cbn. unfold sgn. destruct (d_sign d =? 0); reflexivity.
  - destruct (d_exp d =? 2047); [destruct (d_man d =? 0); discriminate|]. intros F. injection F as F.
    apply mag_zero; try lia. unfold sgn in F. destruct (d_sign d =? 0); lia.
Qed.

Theorem ieee_denote a b : 0 <= a < 2 ^ 64 -> 0 <= b < 2 ^ 64 ->
  (ieee_eqb a b = true <-> denote64 a = denote64 b /\ denote64 a <> FNaN).
Proof.
  intros A B. unfold ieee_eqb. rewrite !andb_true_iff, orb_true_iff, andb_true_iff, !negb_true_iff, Z.eqb_eq.
  rewrite (zero_denote a A), (zero_denote b B). pose proof (nan_denote a) as NA. pose proof (nan_denote b) as NB.
  split.
  - intros [[HA HB] [->|[-> ->]]].
    + split; [reflexivity|]. intros E. apply NB in E. congruence.
    + split; [reflexivity|discriminate].
  - intros [E N]. split.
    + split; [destruct (d_is_nan a)|destruct (d_is_nan b)]; try reflexivity; exfalso.
      * apply N. apply NA. reflexivity.
      * apply N. rewrite E. apply NB. reflexivity.
    + destruct (d_parts a A) as (PA & SA & EA & MA). destruct (d_parts b B) as (PB & SB & EB & MB).
      rewrite !denote_cases in *.
      destruct (Z.eqb_spec (d_exp a) 2047) as [XA|XA], (Z.eqb_spec (d_exp b) 2047) as [XB|XB].
      * left. destruct (Z.eqb_spec (d_man a) 0) as [YA|]; [|contradiction].
        destruct (Z.eqb_spec (d_man b) 0) as [YB|]; [|discriminate]. injection E as E.
        rewrite PA, PB, XA, XB, YA, YB. destruct SA as [SA|SA], SB as [SB|SB]; rewrite SA, SB in *; cbn in E; congruence.
      * destruct (d_man a =? 0); discriminate.
      * destruct (d_man b =? 0); discriminate.
      * injection E as E.
        pose proof (mag_nonneg (d_exp a) (d_man a)). pose proof (mag_nonneg (d_exp b) (d_man b)).
        destruct (Z.eq_dec (mag (d_exp a) (d_man a)) 0) as [ZA|ZA].
        { right. rewrite ZA in *.
          assert (ZB : mag (d_exp b) (d_man b) = 0).
          { unfold sgn in E. destruct (d_sign a =? 0), (d_sign b =? 0); lia. }
          rewrite ZB. unfold sgn. destruct (d_sign a =? 0), (d_sign b =? 0); split; reflexivity. }
        left. destruct (mag_inj (d_exp a) (d_man a) (d_exp b) (d_man b)) as [X Y]; try lia.
        { unfold sgn in E. destruct (d_sign a =? 0), (d_sign b =? 0); lia. }
        rewrite PA, PB, X, Y. do 2 f_equal. f_equal. rewrite X, Y in *.
        destruct SA as [SA|SA], SB as [SB|SB]; rewrite SA, SB in *; cbn in E; lia.
Qed.

(** Leaving out the negative zero and NaN, equal numbers are equal patterns. *)
Lemma denote_same a b : 0 <= a < 2 ^ 64 -> 0 <= b < 2 ^ 64 -> denote64 a = denote64 b -> denote64 a <> FNaN ->
  a <> 2 ^ 63 -> b <> 2 ^ 63 -> a = b.
Proof.
  intros A B E N NA NB. pose proof (proj2 (ieee_denote a b A B) (conj E N)) as I. unfold ieee_eqb in I.
  rewrite !andb_true_iff, orb_true_iff, andb_true_iff, Z.eqb_eq in I. destruct I as [_ [I|[I J]]]; [assumption|].
  unfold d_is_zero in I, J. rewrite andb_true_iff, !Z.eqb_eq in I, J.
  destruct (d_parts a A) as (PA & SA & _). destruct (d_parts b B) as (PB & SB & _). destruct I as [I1 I2], J as [J1 J2].
  rewrite I1, I2 in PA. rewrite J1, J2 in PB. destruct SA as [SA|SA], SB as [SB|SB]; rewrite SA in PA; rewrite SB in PB; lia.
Qed.

(** ** Objects with sorted keys *)
Definition field_eq (a b : str * value) : Prop := fst a = fst b /\ content_eq (snd a) (snd b).

Lemma field_eq_lookup fs gs : Forall2 field_eq fs gs ->
  (forall k x, lookup k fs = Some x -> exists y, lookup k gs = Some y /\ content_eq x y) /\
  (forall k, lookup k fs = None -> lookup k gs = None).
Proof.
  induction 1 as [|[k x] [k' y] fs gs [K C] F [IH1 IH2]]; [split; [discriminate|reflexivity]|].
  cbn [fst snd] in *. subst k'. split; intros j; cbn [lookup].
  - destruct (list_eq_dec Byte.byte_eq_dec j k); [|apply IH1]. intros z Z. injection Z as <-. eauto.
  - destruct (list_eq_dec Byte.byte_eq_dec j k); [discriminate|apply IH2].
Qed.

(** Two sorted lists with the same keys have them in the same order. *)
Lemma sorted_keys (l r : list str) : StronglySorted key_lt l -> StronglySorted key_lt r ->
  (forall k, In k l <-> In k r) -> l = r.
Proof.
  intros S1 S2 E.
  assert (X : map (fun k => (k, tt)) l = map (fun k => (k, tt)) r).
  { assert (M : forall l, map fst (map (fun k : str => (k, tt)) l) = l).
    { intros q. rewrite map_map. apply map_id. }
    apply sorted_ext; rewrite ?M; try assumption. intros k.
    assert (G : forall l, lookup k (map (fun k => (k, tt)) l) = if in_dec (list_eq_dec Byte.byte_eq_dec) k l then Some tt else None).
    { induction l0 as [|a l0 IH]; [reflexivity|]. cbn [map lookup]. rewrite IH.
      destruct (list_eq_dec Byte.byte_eq_dec k a) as [->|NE].
      - destruct (in_dec (list_eq_dec Byte.byte_eq_dec) a (a :: l0)) as [|N]; [reflexivity|]. exfalso. apply N. left. reflexivity.
      - destruct (in_dec (list_eq_dec Byte.byte_eq_dec) k l0) as [I|N], (in_dec (list_eq_dec Byte.byte_eq_dec) k (a :: l0)) as [I'|N']; try reflexivity; exfalso.
        + apply N'. right. assumption.
        + destruct I' as [->|I']; [apply NE; reflexivity|contradiction]. }
    rewrite !G. destruct (in_dec (list_eq_dec Byte.byte_eq_dec) k l) as [I|N], (in_dec (list_eq_dec Byte.byte_eq_dec) k r) as [I'|N']; try reflexivity; exfalso.
    - apply N'. apply E. assumption.
    - apply N. apply E. assumption. }
  apply (f_equal (map fst)) in X. rewrite !map_map in X. cbn [fst] in X. rewrite !map_id in X. exact X.
Qed.

Lemma lookup_none_in {A} k (fs : list (str * A)) : lookup k fs = None <-> ~ In k (map fst fs).
Proof.
  induction fs as [|[j x] fs IH]; cbn [lookup map fst In]; [tauto|].
  destruct (list_eq_dec Byte.byte_eq_dec k j) as [->|NE]; [split; [discriminate|tauto]|].
  rewrite IH. split; [intros N [E|I]; [congruence|tauto]|tauto].
Qed.

Lemma content_obj fs gs : StronglySorted key_lt (map fst fs) -> StronglySorted key_lt (map fst gs) ->
  (content_eq (VObj fs) (VObj gs) <-> Forall2 field_eq fs gs).
Proof.
  intros S1 S2. split.
  - intros C. inversion C as [? ? A B| | | | | |]; subst. clear C.
    assert (K : map fst fs = map fst gs).
    { apply sorted_keys; try assumption. intros k. split; intros I.
      - destruct (lookup k fs) as [x|] eqn:L; [|apply lookup_none_in in L; contradiction].
        destruct (A k x L) as (y & L' & _). destruct (in_dec (list_eq_dec Byte.byte_eq_dec) k (map fst gs)) as [|N]; [assumption|].
        apply lookup_none_in in N. congruence.
      - destruct (in_dec (list_eq_dec Byte.byte_eq_dec) k (map fst fs)) as [|N]; [assumption|].
        apply lookup_none_in, B, lookup_none_in in N. contradiction. }
    assert (P : forall k x, In (k, x) fs -> exists y, lookup k gs = Some y /\ content_eq x y).
    { intros k x I. apply A. apply sorted_in_lookup; assumption. }
    assert (Q : forall k y, In (k, y) gs -> lookup k gs = Some y).
    { intros k y I. apply sorted_in_lookup; assumption. }
    clear A B S1 S2.
    enough (G : forall (lk : str -> option value) fs gs, map fst fs = map fst gs ->
      (forall k x, In (k, x) fs -> exists y, lk k = Some y /\ content_eq x y) ->
      (forall k y, In (k, y) gs -> lk k = Some y) -> Forall2 field_eq fs gs).
    { apply (G (fun k => lookup k gs)); assumption. }
    clear. intros lk. induction fs as [|[k x] fs IH]; intros [|[j y] gs] K P Q; try discriminate; constructor.
    + cbn [map fst] in K. injection K as -> K. destruct (P j x) as (z & L & C); [left; reflexivity|].
      rewrite (Q j y) in L by (left; reflexivity). injection L as <-. split; [reflexivity|exact C].
    + cbn [map fst] in K. injection K as -> K. apply IH; [assumption|..]; intros; [apply P|apply Q]; right; assumption.
  - intros F. apply field_eq_lookup in F. destruct F. constructor; assumption.
Qed.

(** ** Heaps *)

(** One storage has one content. *)
Inductive tagged (M : Z -> hv) : hv -> Prop :=
| tg_obj st fs : M st = HObj st fs -> Forall (fun kv => tagged M (snd kv)) fs -> tagged M (HObj st fs)
| tg_arr st vs : M st = HArr st vs -> Forall (tagged M) vs -> tagged M (HArr st vs)
| tg_str s : tagged M (HStr s) | tg_int z : tagged M (HInt z) | tg_dec d : tagged M (HDec d)
| tg_bool b : tagged M (HBool b) | tg_null : tagged M HNull.

Section hv_ind.
  Variable P : hv -> Prop.
  Hypothesis Ho : forall st fs, Forall (fun kv => P (snd kv)) fs -> P (HObj st fs).
  Hypothesis Ha : forall st vs, Forall P vs -> P (HArr st vs).
  Hypothesis Hs : forall s, P (HStr s).
  Hypothesis Hi : forall z, P (HInt z).
  Hypothesis Hd : forall d, P (HDec d).
  Hypothesis Hb : forall b, P (HBool b).
  Hypothesis Hn : P HNull.
  Fixpoint hv_ind' (x : hv) : P x :=
    match x with
    | HObj st fs => Ho st fs ((fix go l : Forall (fun kv => P (snd kv)) l :=
        match l with [] => Forall_nil _ | kv :: r => Forall_cons _ (hv_ind' (snd kv)) (go r) end) fs)
    | HArr st vs => Ha st vs ((fix go l : Forall P l :=
        match l with [] => Forall_nil _ | v :: r => Forall_cons _ (hv_ind' v) (go r) end) vs)
    | HStr s => Hs s | HInt z => Hi z | HDec d => Hd d | HBool b => Hb b | HNull => Hn
    end.
End hv_ind.

(** The loops as [all2]. *)
Definition hfield (same : bool) (a b : str * hv) : bool :=
  (same || str_same (fst a) (fst b)) && hcmp same (snd a) (snd b).
Lemma hcmp_obj s fs t gs : hcmp false (HObj s fs) (HObj t gs) = (zlen fs =? zlen gs) && all2 (hfield (s =? t)) fs gs.
Proof.
  cbn [hcmp]. f_equal. revert gs. induction fs as [|[k a] fs IH]; intros [|[j b] gs]; try reflexivity.
  cbn [all2]. rewrite <- IH. reflexivity.
Qed.
Lemma hcmp_arr s vs t ws : hcmp false (HArr s vs) (HArr t ws) = (zlen vs =? zlen ws) && all2 (hcmp (s =? t)) vs ws.
Proof.
  reflexivity.
Qed.
Lemma hcmp_true x y : hcmp true x y = true.
Proof. destruct x; reflexivity. Qed.

Lemma all2_forall {A} (f : A -> A -> bool) l r : all2 f l r = true <-> Forall2 (fun a b => f a b = true) l r.
Proof.
  revert r. induction l as [|a l IH]; intros [|b r]; cbn [all2]; split; intros H; try discriminate; try constructor;
    try (inversion H; fail); try reflexivity.
  - apply andb_true_iff in H. apply H.
  - apply andb_true_iff in H. apply IH. apply H.
  - inversion H; subst. apply andb_true_iff. split; [assumption|]. apply IH. assumption.
Qed.
Lemma forall2_zlen {A B} (R : A -> B -> Prop) l r : Forall2 R l r -> zlen l = zlen r.
Proof. induction 1; [reflexivity|]. rewrite !zlen_cons. lia. Qed.

Lemma sized_all2 {A} (f : A -> A -> bool) l r :
  (zlen l =? zlen r) && all2 f l r = true <-> Forall2 (fun a b => f a b = true) l r.
Proof.
  rewrite andb_true_iff, all2_forall, Z.eqb_eq. split; [tauto|]. intros F. split; [|assumption].
  apply (forall2_zlen _ _ _ F).
Qed.

(** Strings *)
Lemma cstr_len s : zlen (cstr s) <= zlen s.
Proof. induction s as [|c s IH]; cbn [cstr]; [lia|]. destruct (byte_eqb c x00); rewrite ?zlen_cons; [change (zlen (@nil byte)) with 0; pose proof (zlen_nonneg s); lia|lia]. Qed.
Lemma cstr_full s : zlen (cstr s) = zlen s -> cstr s = s.
Proof.
  induction s as [|c s IH]; cbn [cstr]; [reflexivity|]. destruct (byte_eqb c x00).
  - rewrite zlen_cons. change (zlen (@nil byte)) with 0. pose proof (zlen_nonneg s). lia.
  - rewrite !zlen_cons. intros E. f_equal. apply IH. lia.
Qed.
Lemma str_same_spec s t : str_same s t = true <-> zlen s = zlen t /\ cstr s = cstr t.
Proof.
  unfold str_same. rewrite andb_true_iff, Z.eqb_eq. destruct (list_eq_dec Byte.byte_eq_dec (cstr s) (cstr t)); intuition congruence.
Qed.
Lemma str_same_eq s t : ~ In x00 s -> str_same s t = true -> s = t.
Proof.
  intros N. rewrite str_same_spec. intros [L C]. rewrite (cstr_id s N) in C. rewrite C. apply cstr_full. rewrite <- C. assumption.
Qed.
Lemma str_same_refl s : str_same s s = true.
Proof. apply str_same_spec. auto. Qed.

(** ... as the layouts compute it. *)
Theorem str_same_layouts s t h g : string_held s h -> string_held t g -> hstring_eqb h g = Ok (str_same s t).
Proof.
  intros H G. destruct (held_eqb s t h g H G) as (q & -> & Q). f_equal. pose proof (str_same_spec s t).
  destruct q, (str_same s t); try reflexivity; exfalso; intuition congruence.
Qed.

Lemma erase_obj st fs : erase (HObj st fs) = VObj (map (fun kv => (fst kv, erase (snd kv))) fs).
Proof. reflexivity. Qed.
Lemma erase_keys fs : map fst (map (fun kv : str * hv => (fst kv, erase (snd kv))) fs) = map fst fs.
Proof. rewrite map_map. reflexivity. Qed.

Lemma content_refl v : heap_value v -> nan_free v -> content_eq v v.
Proof.
  induction v as [fs IH|vs IH|s|z|d|b|] using value_ind'; intros H N; try (constructor; fail).
  - apply content_obj; [apply heap_sorted; assumption..|]. inversion N as [? _ F| | | | | |]; subst.
    inversion H as [? _ F'| | | | | |]; subst. clear H N.
    induction fs as [|[k x] fs IHf]; constructor.
    + apply Forall_cons_iff in IH, F, F'. destruct IH, F as [[_ F] _], F' as [[_ F'] _]. split; [reflexivity|]. auto.
    + apply Forall_cons_iff in IH, F, F'. destruct IH, F, F'. auto.
  - constructor. inversion N as [|? _ F| | | | |]; subst. inversion H as [|? _ F'| | | | |]; subst. clear H N.
    induction vs as [|x vs IHv]; constructor; apply Forall_cons_iff in IH, F, F'; destruct IH, F, F'; auto.
  - inversion N; subst. constructor; [reflexivity|assumption].
Qed.

Lemma content_sym v : forall w, heap_value v -> heap_value w -> content_eq v w -> content_eq w v.
Proof.
  induction v as [fs IH|vs IH|s|z|d|b|] using value_ind'; intros w H1 H2 C; inversion C as [? gs| ? ws F| | | ? d' E N | |]; subst;
    try (constructor; fail).
  - apply content_obj in C; [|apply heap_sorted; assumption..]. apply content_obj; [apply heap_sorted; assumption..|].
    inversion H1 as [? _ F1| | | | | |]; subst. inversion H2 as [? _ F2| | | | | |]; subst.
    clear H H0 H1 H2. revert IH F1 F2. induction C as [|[k x] [j y] fs gs [K X] C IHC]; intros IH F1 F2; constructor;
      apply Forall_cons_iff in IH, F1, F2; destruct IH as [IH0 IH], F1 as [[? F10] F1], F2 as [[? F20] F2]; cbn [fst snd] in *.
    + split; [symmetry; assumption|]. apply IH0; assumption.
    + apply IHC; assumption.
  - constructor. inversion H1 as [|? _ F1| | | | |]; subst. inversion H2 as [|? _ F2| | | | |]; subst.
    clear C H1 H2. revert IH F1 F2. induction F as [|x y vs ws X F IHF]; intros IH F1 F2; constructor;
      apply Forall_cons_iff in IH, F1, F2; destruct IH, F1, F2; auto.
  - constructor; [symmetry; assumption|]. rewrite <- E. assumption.
Qed.

(** What equal addresses stand for. *)
Lemma tagged_obj M s fs t gs : tagged M (HObj s fs) -> tagged M (HObj t gs) -> s = t -> fs = gs.
Proof. intros A B ->. inversion A as [? ? E| | | | | |]; subst. inversion B as [? ? E'| | | | | |]; subst. congruence. Qed.
Lemma tagged_arr M s vs t ws : tagged M (HArr s vs) -> tagged M (HArr t ws) -> s = t -> vs = ws.
Proof. intros A B ->. inversion A as [|? ? E| | | | |]; subst. inversion B as [|? ? E'| | | | |]; subst. congruence. Qed.

Lemma forall2_map {A B C D} (R : C -> D -> Prop) (f : A -> C) (g : B -> D) l r :
  Forall2 R (map f l) (map g r) <-> Forall2 (fun a b => R (f a) (g b)) l r.
Proof.
  revert r. induction l as [|a l IH]; intros [|b r]; cbn [map]; split; intros H; inversion H; subst; constructor; auto; apply IH; assumption.
Qed.
Lemma forall2_impl {A B} (R S : A -> B -> Prop) l r : Forall2 R l r ->
  (forall a b, In a l -> In b r -> R a b -> S a b) -> Forall2 S l r.
Proof.
  induction 1 as [|a b l r X F IH]; intros H; constructor.
  - apply H; [left; reflexivity..|assumption].
  - apply IH. intros. apply H; [right; assumption..|assumption].
Qed.
Lemma forall2_diag {A} (R : A -> A -> Prop) l : (forall a, In a l -> R a a) -> Forall2 R l l.
Proof. induction l as [|a l IH]; intros H; constructor; [apply H; left; reflexivity|apply IH; intros; apply H; right; assumption]. Qed.

Theorem hcmp_spec M x : forall q y, tagged M x -> tagged M y -> (q = true -> x = y) ->
  heap_value (erase x) -> heap_value (erase y) -> nul_free (erase x) -> nan_free (erase x) ->
  (hcmp q x y = true <-> content_eq (erase x) (erase y)).
Proof.
  induction x as [s fs IH|s vs IH|s|z|d|b|] using hv_ind'; intros q y T1 T2 Q H1 H2 NU NA;
    (destruct q; [rewrite <- (Q eq_refl), hcmp_true; split; [intros _; apply content_refl; assumption|reflexivity]|]);
    destruct y as [t gs|t ws|s'|z'|d'|b'|]; try (split; [discriminate|intros C; inversion C]; fail).
  - rewrite hcmp_obj, sized_all2. rewrite !erase_obj in *.
    rewrite content_obj by (apply heap_sorted; assumption). rewrite forall2_map.
    destruct (Z.eqb_spec s t) as [E|NE].
    + assert (fs = gs) by (apply (tagged_obj M s fs t gs); assumption). subst gs. split; intros _.
      * apply forall2_diag. intros [k a] I. split; [reflexivity|]. cbn [fst snd]. apply content_refl.
        -- apply (heap_field _ k _ H1). apply (in_map (fun kv => (fst kv, erase (snd kv))) fs (k, a) I).
        -- inversion NA as [? _ F| | | | | |]; subst. rewrite Forall_forall in F.
           apply (F (k, erase a)). apply (in_map (fun kv => (fst kv, erase (snd kv))) fs (k, a) I).
      * apply forall2_diag. intros [k a] I. unfold hfield. cbn [fst snd]. rewrite hcmp_true. reflexivity.
    + inversion T1 as [? ? _ G1| | | | | |]; subst. inversion T2 as [? ? _ G2| | | | | |]; subst.
      inversion NU as [? _ U| | | | | |]; subst. inversion NA as [? _ A| | | | | |]; subst.
      rewrite Forall_forall in IH, G1, G2, U, A.
      assert (P : forall a b, In a fs -> In b gs ->
        (hfield false a b = true <-> field_eq (fst a, erase (snd a)) (fst b, erase (snd b)))).
      { intros [k a] [j b] I J. pose proof (in_map (fun kv => (fst kv, erase (snd kv))) _ _ I) as I'.
        pose proof (in_map (fun kv => (fst kv, erase (snd kv))) _ _ J) as J'. cbn [fst snd] in I', J'.
        unfold hfield, field_eq. cbn [fst snd orb]. rewrite andb_true_iff.
        rewrite (IH _ I false b (G1 _ I) (G2 _ J)); cbn [snd]; try discriminate;
          [|apply (heap_field _ _ _ H1 I')|apply (heap_field _ _ _ H2 J')|apply (U _ I')|apply (A _ I')].
        split; intros [X Y]; (split; [|exact Y]).
        - apply str_same_eq; [apply (U _ I')|exact X].
        - subst j. apply str_same_refl. }
      split; intros F; (eapply forall2_impl; [exact F|]); intros a b I J; apply P; assumption.
  - rewrite hcmp_arr, sized_all2. cbn [erase] in *.
    assert (CA : forall l r, content_eq (VArr l) (VArr r) <-> Forall2 content_eq l r).
    { intros l r. split; [intros C; inversion C; assumption|constructor; assumption]. }
    rewrite CA, forall2_map. destruct (Z.eqb_spec s t) as [E|NE].
    + assert (vs = ws) by (apply (tagged_arr M s vs t ws); assumption). subst ws. split; intros _.
      * apply forall2_diag. intros a I. apply content_refl.
        -- apply (heap_elem _ _ H1). apply in_map. assumption.
        -- inversion NA as [|? _ F| | | | |]; subst. rewrite Forall_forall in F. apply F. apply in_map. assumption.
      * apply forall2_diag. intros a I. apply hcmp_true.
    + inversion T1 as [|? ? _ G1| | | | |]; subst. inversion T2 as [|? ? _ G2| | | | |]; subst.
      inversion NU as [|? _ U| | | | |]; subst. inversion NA as [|? _ A| | | | |]; subst.
      rewrite Forall_forall in IH, G1, G2, U, A.
      assert (P : forall a b, In a vs -> In b ws -> (hcmp false a b = true <-> content_eq (erase a) (erase b))).
      { intros a b I J. pose proof (in_map erase _ _ I) as I'. pose proof (in_map erase _ _ J) as J'.
        apply (IH _ I false b (G1 _ I) (G2 _ J)); try discriminate;
          [apply (heap_elem _ _ H1 I')|apply (heap_elem _ _ H2 J')|apply (U _ I')|apply (A _ I')]. }
      split; intros F; (eapply forall2_impl; [exact F|]); intros a b I J; apply P; assumption.
  - cbn [hcmp erase] in *. inversion NU as [| |? N| | | |]; subst. split.
    + intros E. apply str_same_eq in E; [|assumption]. subst. constructor.
    + intros C. inversion C; subst. apply str_same_refl.
  - cbn [hcmp erase] in *. rewrite Z.eqb_eq. split; [intros ->; constructor|intros C; inversion C; reflexivity].
  - cbn [hcmp erase] in *. inversion H1 as [| | | |? R| |]; subst. inversion H2 as [| | | |? R'| |]; subst.
    rewrite (ieee_denote _ _ R R'). split; [intros []; constructor; assumption|intros C; inversion C; auto].
  - cbn [hcmp erase] in *. rewrite eqb_true_iff. split; [intros ->; constructor|intros C; inversion C; reflexivity].
  - split; [constructor|reflexivity].
Qed.

(** Symmetric and transitive whatever is compared. *)
Lemma str_same_sym s t : str_same s t = str_same t s.
Proof. apply eq_true_iff_eq. rewrite !str_same_spec. intuition congruence. Qed.
Lemma ieee_sym a b : ieee_eqb a b = ieee_eqb b a.
Proof.
  unfold ieee_eqb. rewrite (Z.eqb_sym a b), (andb_comm (d_is_zero a)), (andb_comm (negb (d_is_nan a))). reflexivity.
Qed.
Lemma ieee_trans a b c : ieee_eqb a b = true -> ieee_eqb b c = true -> ieee_eqb a c = true.
Proof.
  unfold ieee_eqb. rewrite !andb_true_iff, !orb_true_iff, !andb_true_iff, !Z.eqb_eq. intuition (subst; auto).
Qed.

Theorem hcmp_sym x : forall q y, hcmp q x y = hcmp q y x.
Proof.
  induction x as [s fs IH|s vs IH|s|z|d|b|] using hv_ind'; intros q y; (destruct q; [rewrite !hcmp_true; reflexivity|]);
    destruct y as [t gs|t ws|s'|z'|d'|b'|]; try reflexivity.
  - rewrite !hcmp_obj, (Z.eqb_sym s t), (Z.eqb_sym (zlen fs)). f_equal. revert gs.
    induction fs as [|a fs IHf]; intros [|b gs]; try reflexivity. apply Forall_cons_iff in IH. destruct IH as [IH0 IH].
    cbn [all2]. rewrite (IHf IH). f_equal. unfold hfield. rewrite str_same_sym, IH0. reflexivity.
  - rewrite !hcmp_arr, (Z.eqb_sym s t), (Z.eqb_sym (zlen vs)). f_equal. revert ws.
    induction vs as [|a vs IHf]; intros [|b ws]; try reflexivity. apply Forall_cons_iff in IH. destruct IH as [IH0 IH].
    cbn [all2]. rewrite (IHf IH). f_equal. apply IH0.
  - apply str_same_sym.
  - apply Z.eqb_sym.
  - apply ieee_sym.
  - cbn [hcmp]. destruct b, b'; reflexivity.
Qed.

Lemma forall2_trans3 {A} (R S T : A -> A -> Prop) l : forall m r, Forall2 R l m -> Forall2 S m r ->
  (forall a b c, In a l -> In b m -> In c r -> R a b -> S b c -> T a c) -> Forall2 T l r.
Proof.
  induction l as [|a l IH]; intros m r F G H; inversion F as [|? b ? m' X F']; subst; inversion G as [|? c ? r' Y G']; subst; constructor.
  - apply (H a b c); [left; reflexivity..|assumption|assumption].
  - apply (IH m' r' F' G'). intros. apply (H a0 b0 c0); try (right; assumption); assumption.
Qed.

Theorem hcmp_trans M x : forall y z, tagged M x -> tagged M y -> tagged M z ->
  hcmp false x y = true -> hcmp false y z = true -> hcmp false x z = true.
Proof.
  induction x as [s fs IH|s vs IH|s|n|d|b|] using hv_ind'; intros y z T1 T2 T3 A B;
    destruct y as [t gs|t ws|s'|n'|d'|b'|]; try discriminate; destruct z as [u hs|u us|s''|n''|d''|b''|]; try discriminate.
  - destruct (Z.eqb_spec s t) as [E|NE].
    { rewrite <- (tagged_obj M s fs t gs T1 T2 E), <- E in B. exact B. }
    destruct (Z.eqb_spec t u) as [E|NE'].
    { rewrite (tagged_obj M t gs u hs T2 T3 E), E in A. exact A. }
    rewrite hcmp_obj, sized_all2 in *. rewrite (proj2 (Z.eqb_neq s t) NE) in A. rewrite (proj2 (Z.eqb_neq t u) NE') in B.
    inversion T1 as [? ? _ G1| | | | | |]; subst. inversion T2 as [? ? _ G2| | | | | |]; subst. inversion T3 as [? ? _ G3| | | | | |]; subst.
    rewrite Forall_forall in IH, G1, G2, G3.
    eapply forall2_trans3; [exact A|exact B|]. intros a b c I J K X Y. cbn beta in X, Y. unfold hfield in *.
    apply andb_true_iff in X, Y. destruct X as [X1 X2], Y as [Y1 Y2]. cbn [orb] in X1, Y1.
    apply andb_true_iff. split.
    + apply orb_true_iff. right. apply str_same_spec in X1, Y1. apply str_same_spec. destruct X1, Y1. split; congruence.
    + destruct (s =? u); [apply hcmp_true|]. apply (IH _ I (snd b) (snd c)); auto.
  - destruct (Z.eqb_spec s t) as [E|NE].
    { rewrite <- (tagged_arr M s vs t ws T1 T2 E), <- E in B. exact B. }
    destruct (Z.eqb_spec t u) as [E|NE'].
    { rewrite (tagged_arr M t ws u us T2 T3 E), E in A. exact A. }
    rewrite hcmp_arr, sized_all2 in *. rewrite (proj2 (Z.eqb_neq s t) NE) in A. rewrite (proj2 (Z.eqb_neq t u) NE') in B.
    inversion T1 as [|? ? _ G1| | | | |]; subst. inversion T2 as [|? ? _ G2| | | | |]; subst. inversion T3 as [|? ? _ G3| | | | |]; subst.
    rewrite Forall_forall in IH, G1, G2, G3.
    eapply forall2_trans3; [exact A|exact B|]. intros a b c I J K X Y. cbn beta in X, Y.
    destruct (s =? u); [apply hcmp_true|]. apply (IH _ I b c); auto.
  - cbn [hcmp] in *. rewrite str_same_spec in *. destruct A, B. split; congruence.
  - cbn [hcmp] in *. lia.
  - cbn [hcmp] in *. apply (ieee_trans _ _ _ A B).
  - cbn [hcmp] in *. rewrite eqb_true_iff in *. congruence.
  - reflexivity.
Qed.
