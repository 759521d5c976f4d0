(** Facts: scalars are read as SpecYaml says, and documents with scalar keys become
    the values they mean. *)

From Coq Require Import ZArith List Bool String Lia Sorted Floats.SpecFloat ZifyBool.
From Verif Require Import Base BaseFacts Keys KeysFacts Wire Float Spec SpecArith ArithSpec SpecDec HeapOps HeapFacts SpecJson Json JsonFacts SpecYaml Yaml YamlNum.
Import Init.Byte.
Import ListNotations.
Open Scope Z_scope.

(** ** Scalars *)

Lemma skip_more g n t : 0 <= n -> skip (zlen g + n) (g ++ t) = skip n t.
Proof.
  intros N. unfold skip, zlen. rewrite Z2Nat.inj_add, Nat2Z.id by lia. rewrite skipn_app. rewrite skipn_all2 by lia. cbn [app].
  f_equal. lia.
Qed.

Lemma strtoll_shape s (g : str) neg t : c_sign s = (neg, zlen g) -> skip (zlen g) s = t ->
  snd (fst (strtoll s)) = (if snd (whole t) =? 0 then 0 else zlen g + snd (whole t)).
Proof.
  intros C S. unfold strtoll. rewrite C, S. destruct (whole t) as [m n]. cbn [snd]. destruct (n =? 0); [reflexivity|].
  destruct (_ <? _); [reflexivity|]. destruct (_ <=? _); reflexivity.
Qed.
Lemma digit_starts c : is_digit 10 c = true -> starts_number c = true.
Proof. intros D. unfold starts_number. now rewrite D. Qed.
Lemma sign_starts g neg t : sign_text g neg -> starts_number (first t) = true -> starts_number (first (g ++ t)) = true.
Proof. intros [| |] S; [exact S|reflexivity|reflexivity]. Qed.
Lemma whole_starts t m : whole_number t m -> starts_number (first t) = true.
Proof.
  intros [p u z P N|u z L N|u z L N].
  - destruct P as [-> | ->]; reflexivity.
  - destruct L as [r ->]. reflexivity.
  - apply numeral_iff in N; [|lia]. destruct N as (N & A & _). destruct A; [congruence|]. now apply digit_starts.
Qed.
Lemma int_starts s z : int_literal s z -> starts_number (first s) = true.
Proof. intros (g & t & neg & m & -> & G & W & _). eapply sign_starts; [eassumption|]. eapply whole_starts. eassumption. Qed.
Lemma float_starts s neg num den : float_literal s neg num den -> starts_number (first s) = true.
Proof.
  intros (g & t & -> & G & F). eapply sign_starts; [eassumption|]. destruct F as [i f fd e x m num0 den0 LZ [z I] F E NE N P|p i fd e x m num0 den0 P [z I] E N Q].
  - apply numeral_iff in I; [|lia]. destruct I as (NI & A & _). destruct A; [congruence|]. now apply digit_starts.
  - destruct P as [-> | ->]; reflexivity.
Qed.
Lemma stop_no_start c : stop c = true -> starts_number c = false.
Proof. intros S. apply stop_cases in S. destruct S as [-> | [-> | ->]]; reflexivity. Qed.

(** everything about a literal with a point or an exponent *)
Theorem float_complete rt s neg num den : float_literal s neg num den ->
  snd (fst (strtoll s)) <> zlen s /\ stop (first (skip (snd (fst (strtoll s))) s)) = true /\ 0 <= num /\ 0 < den /\
  strtod rt s = (bits_of_sf (to_double neg num den), zlen s,
    sf_infinite (to_double neg num den) || ((0 <? num) && (num * 2 ^ 1022 <? den) && rt num den)).
Proof.
  intros (g & t & -> & G & F). destruct (real_complete t num den F) as (R & L & ST & P & S1 & S2 & N0 & D0).
  pose proof (c_sign_app g neg t G S1 S2) as C. pose proof (strtoll_shape _ g neg t C (skip_app g t)) as H. rewrite H.
  replace (snd (whole t) =? 0) with false by lia. rewrite zlen_app. split; [lia|]. rewrite skip_more by lia. split; [assumption|].
  split; [assumption|]. split; [assumption|]. unfold strtod. rewrite C, skip_app, R. reflexivity.
Qed.
Theorem float_sound rt s d : starts_number (first s) = true -> stop (first (skip (snd (fst (strtoll s))) s)) = true -> strtod rt s = (d, zlen s, false) ->
  exists neg num den, float_literal s neg num den /\ ~ too_large num den /\ rounded (signed neg num * 2 ^ 1074) den neg d.
Proof.
  intros SN ST E. destruct (c_sign_spec s) as (g & t & neg & Es & G & C & S & _). pose proof (strtoll_shape s g neg t C S) as H.
  rewrite H in ST. destruct (snd (whole t) =? 0) eqn:Z.
  - exfalso. rewrite skip_0 in ST. apply stop_no_start in ST. congruence.
  - pose proof (whole_bound t) as B. subst s. rewrite skip_more in ST by lia. unfold strtod in E. rewrite C, S in E.
    destruct (real t) as [[[num den] n]|] eqn:R.
    + apply triple_inv in E. destruct E as (E1 & E2 & E3). rewrite zlen_app in E2. assert (n = zlen t) as -> by lia.
      pose proof (real_sound t num den R ltac:(lia) ST) as F. destruct (real_complete t num den F) as (_ & _ & _ & _ & _ & _ & N0 & D0).
      exists neg, num, den. split; [exists g, t; repeat split; assumption|]. apply orb_false_iff in E3. destruct E3 as [E3 _].
      split; [rewrite <- (to_double_infinite neg num den N0 D0); congruence|]. rewrite <- E1. now apply to_double_rounded.
    + exfalso. apply triple_inv in E. destruct E as (_ & E2 & _). symmetry in E2. apply zlen_zero in E2. rewrite E2 in SN. discriminate.
Qed.

Lemma maybe_number rt s : starts_number (first s) = true ->
  match parse_maybe_number rt s with
  | An_integer z => int_literal s z /\ - 2 ^ 63 <= z < 2 ^ 63
  | A_decimal d => exists neg num den, float_literal s neg num den /\ ~ too_large num den /\ rounded (signed neg num * 2 ^ 1074) den neg d
  | No_number => (forall z, int_literal s z -> ~ (- 2 ^ 63 <= z < 2 ^ 63)) /\
      (forall neg num den, float_literal s neg num den -> too_large num den \/ tiny num den)
  end.
Proof.
  intros SN. assert (NE : s <> []) by (intros ->; discriminate).
  unfold parse_maybe_number. destruct (strtoll s) as [[z n] e] eqn:E.
  destruct (negb e && (n =? zlen s)) eqn:F.
  - apply andb_prop in F. destruct F as [F1 F2]. apply negb_true_iff in F1. apply Z.eqb_eq in F2. subst. now apply strtoll_sound.
  - assert (I : forall z', int_literal s z' -> ~ (- 2 ^ 63 <= z' < 2 ^ 63)).
    { intros z' L R. apply strtoll_complete in L. rewrite E in L. apply triple_inv in L. destruct L as (_ & -> & ->).
      replace (z' <? - 2 ^ 63) with false in F by lia. replace (2 ^ 63 <=? z') with false in F by lia. rewrite Z.eqb_refl in F. discriminate. }
    fold (stop (first (skip n s))). destruct (stop (first (skip n s))) eqn:ST.
    + destruct (strtod rt s) as [[d n2] e2] eqn:D. destruct (negb e2 && (n2 =? zlen s)) eqn:F'.
      * apply andb_prop in F'. destruct F' as [F1 F2]. apply negb_true_iff in F1. apply Z.eqb_eq in F2. subst.
        apply (float_sound rt s d SN); [rewrite E; exact ST|exact D].
      * split; [exact I|]. intros neg num den L. destruct (float_complete rt s neg num den L) as (_ & _ & N0 & D0 & D').
        rewrite D in D'. apply triple_inv in D'. destruct D' as (_ & -> & ->). rewrite Z.eqb_refl, andb_true_r in F'.
        apply negb_false_iff, orb_true_iff in F'. destruct F' as [F'|F'].
        -- left. now apply (to_double_infinite neg num den).
        -- right. unfold tiny. lia.
    + split; [exact I|]. intros neg num den L. destruct (float_complete rt s neg num den L) as (_ & X & _). rewrite E in X. cbn [fst snd] in X. congruence.
Qed.

Lemma c_text_whole s : ~ In x00 s -> c_text s = s.
Proof.
  induction s as [|c s IH]; intros H; [reflexivity|]. cbn [c_text]. destruct (byte_eqb_spec c x00) as [->|N]; [destruct H; left; reflexivity|].
  f_equal. apply IH. intros J. apply H. right. assumption.
Qed.
Lemma strcmp_spec s w : ~ In x00 s -> (strcmp_is s w = true <-> s = w).
Proof.
  intros H. unfold strcmp_is. rewrite (c_text_whole s H). destruct (list_eq_dec Byte.byte_eq_dec s w); split; congruence.
Qed.
Lemma no_literal s : starts_number (first s) = false ->
  (forall z, int_literal s z -> ~ (- 2 ^ 63 <= z < 2 ^ 63)) /\ (forall neg num den, float_literal s neg num den -> too_large num den \/ tiny num den).
Proof.
  intros H. split.
  - intros z L. apply int_starts in L. congruence.
  - intros neg num den L. apply float_starts in L. congruence.
Qed.

Theorem parse_scalar_value rt s : ~ In x00 s -> scalar_value s (parse_scalar rt s).
Proof.
  intros H. unfold parse_scalar.
  destruct (byte_eqb_spec (first s) x6e) as [N|N].
  - assert (SN : starts_number (first s) = false) by (rewrite N; reflexivity). destruct (no_literal s SN) as [L1 L2].
    destruct (strcmp_is s (lit "null")) eqn:E.
    + apply strcmp_spec in E; [|assumption]. subst s. constructor.
    + constructor; auto; intros ->; try discriminate.
  - assert (NN : s <> lit "null") by (intros ->; apply N; reflexivity).
    destruct (byte_eqb (first s) x74 || byte_eqb (first s) x66) eqn:T.
    + assert (SN : starts_number (first s) = false).
      { apply orb_prop in T. destruct T as [T|T]; [destruct (byte_eqb_spec (first s) x74) as [X|]|destruct (byte_eqb_spec (first s) x66) as [X|]]; try discriminate; rewrite X; reflexivity. }
      destruct (no_literal s SN) as [L1 L2].
      destruct (strcmp_is s (lit "true")) eqn:E1.
      * cbn [orb]. apply strcmp_spec in E1; [|assumption]. subst s. constructor.
      * cbn [orb]. destruct (strcmp_is s (lit "false")) eqn:E2.
        -- apply strcmp_spec in E2; [|assumption]. subst s. constructor.
        -- constructor; auto; intros X.
           ++ apply (strcmp_spec s _ H) in X. congruence.
           ++ apply (strcmp_spec s _ H) in X. congruence.
    + assert (NT : s <> lit "true") by (intros ->; discriminate). assert (NF : s <> lit "false") by (intros ->; discriminate).
      destruct (starts_number (first s)) eqn:SN.
      * pose proof (maybe_number rt s SN) as M. destruct (parse_maybe_number rt s) as [z|d|].
        -- destruct M. now apply scalar_int.
        -- destruct M as (neg & num & den & A & B & C). now apply (scalar_dec s neg num den).
        -- destruct M. constructor; assumption.
      * destruct (no_literal s SN) as [L1 L2]. constructor; assumption.
Qed.

(** A scalar has one value, unless it is a tiny number. *)
Lemma int_unique s z z' : int_literal s z -> int_literal s z' -> - 2 ^ 63 <= z < 2 ^ 63 -> - 2 ^ 63 <= z' < 2 ^ 63 -> z = z'.
Proof.
  intros A B R R'. apply strtoll_complete in A, B. rewrite A in B. apply triple_inv in B. destruct B as (B & _).
  replace (z <? - 2 ^ 63) with false in B by lia. replace (2 ^ 63 <=? z) with false in B by lia.
  replace (z' <? - 2 ^ 63) with false in B by lia. replace (2 ^ 63 <=? z') with false in B by lia. exact B.
Qed.
Lemma int_not_float s z neg num den : int_literal s z -> float_literal s neg num den -> False.
Proof.
  intros A B. apply strtoll_complete in A. destruct (float_complete (fun _ _ => false) s neg num den B) as (X & _). rewrite A in X. cbn [fst snd] in X. congruence.
Qed.
Lemma sign_float g neg t num den : sign_text g neg -> float_body t num den -> c_sign (g ++ t) = (neg, zlen g) /\ real t = Some (num, den, zlen t).
Proof. intros G F. destruct (real_complete t num den F) as (R & _ & _ & _ & S1 & S2 & _). split; [now apply c_sign_app|exact R]. Qed.
Lemma float_unique s neg num den neg' num' den' : float_literal s neg num den -> float_literal s neg' num' den' -> neg = neg' /\ num = num' /\ den = den'.
Proof.
  intros (g & t & E & G & F) (g' & t' & E' & G' & F'). destruct (sign_float g neg t num den G F) as [C R]. destruct (sign_float g' neg' t' num' den' G' F') as [C' R'].
  rewrite <- E in C. rewrite <- E' in C'. rewrite C in C'. apply pair_inv in C'. destruct C' as [-> L].
  assert (T : t = t') by (rewrite <- (skip_app g t), <- (skip_app g' t'), <- E, <- E', L; reflexivity). subst t'.
  rewrite R in R'. apply some_inv, triple_inv in R'. tauto.
Qed.

Theorem scalar_unique s v w : scalar_value s v -> scalar_value s w -> v = w \/ exists neg num den, float_literal s neg num den /\ tiny num den.
Proof.
  assert (WN : forall w, starts_number (first w) = false -> (forall z, ~ int_literal w z) /\ (forall neg num den, ~ float_literal w neg num den)).
  { intros x H. split; intros; intros L; [apply int_starts in L|apply float_starts in L]; congruence. }
  pose proof (WN (lit "null") eq_refl) as [N1 N2]. pose proof (WN (lit "true") eq_refl) as [T1 T2]. pose proof (WN (lit "false") eq_refl) as [F1 F2].
  intros A B. destruct A as [| | |s z L R|s neg num den d L T R|s A1 A2 A3 A4 A5]; inversion B as [Q|Q|Q|? z' L' R' |? neg' num' den' d' L' T' R' |? B1 B2 B3 B4 B5]; subst;
    try (left; reflexivity); try congruence; try discriminate; try (exfalso; congruence);
    try (exfalso; eapply N1; eassumption); try (exfalso; eapply N2; eassumption);
    try (exfalso; eapply T1; eassumption); try (exfalso; eapply T2; eassumption);
    try (exfalso; eapply F1; eassumption); try (exfalso; eapply F2; eassumption);
    try (exfalso; eapply int_not_float; eassumption).
  - left. f_equal. eapply int_unique; eassumption.
  - exfalso. eapply B4; eassumption.
  - left. f_equal. destruct (float_unique _ _ _ _ _ _ _ L L') as (<- & <- & <-). destruct (float_complete (fun _ _ => false) _ _ _ _ L) as (_ & _ & _ & D & _). eapply rounded_unique; eassumption.
  - destruct (B5 _ _ _ L) as [X|X]; [contradiction|]. right. exists neg, num, den. split; assumption.
  - exfalso. eapply A4; eassumption.
  - destruct (A5 _ _ _ L') as [X|X]; [contradiction|]. right. exists neg', num', den'. split; assumption.
Qed.
