(** What is written is a text of the grammar, and which one. *)

From Coq Require Import ZArith List Bool Lia String Sorted.
From Coq Require Import ZifyBool ZifyNat ZifyN.
From Verif Require Import Base BaseFacts Keys KeysFacts Dec Wire Read Buf Spec SpecDec ReadFacts Canon HeapOps HeapFacts Packet SpecJson SpecText
  Enc BufFacts Lookup NestedFacts SpecCmp Compare CompareFacts Json JsonFacts JsonWrite Text TextRead.
Import ListNotations.
Open Scope list_scope.
Open Scope Z_scope.

(** ** Strings *)
Lemma hex_hex_digit z : 0 <= z < 16 -> hex (hex_digit z) = Some z.
Proof.
  intros B. unfold hex, hex_digit. rewrite b2z_z2b. destruct (z <? 10) eqn:E.
  - rewrite Z.mod_small by lia. replace ((48 <=? 48 + z) && (48 + z <=? 57)) with true by lia. f_equal. lia.
  - rewrite Z.mod_small by lia. replace ((48 <=? 55 + z) && (55 + z <=? 57)) with false by lia.
    replace ((65 <=? 55 + z) && (55 + z <=? 70)) with true by lia. f_equal. lia.
Qed.
Lemma write_char_spec c t s : chars t s -> chars (write_char c ++ t) (c :: s).
Proof.
  intros H. unfold write_char. destruct (byte_eqb_spec c quote) as [->|NQ]; [apply (ch_escape quote quote); [reflexivity|exact H]|].
  destruct (byte_eqb_spec c backslash) as [->|NB]; [apply (ch_escape backslash backslash); [reflexivity|exact H]|].
  destruct (32 <=? b2z c) eqn:P; [apply ch_plain; try assumption; lia|].
  destruct (byte_eqb_spec c x08) as [->|_]; [apply (ch_escape x62 x08); [reflexivity|exact H]|].
  destruct (byte_eqb_spec c x09) as [->|_]; [apply (ch_escape x74 x09); [reflexivity|exact H]|].
  destruct (byte_eqb_spec c x0a) as [->|_]; [apply (ch_escape x6e x0a); [reflexivity|exact H]|].
  destruct (byte_eqb_spec c x0c) as [->|_]; [apply (ch_escape x66 x0c); [reflexivity|exact H]|].
  destruct (byte_eqb_spec c x0d) as [->|_]; [apply (ch_escape x72 x0d); [reflexivity|exact H]|].
  pose proof (b2z_range c) as R. assert (D : 0 <= b2z c / 16 < 2) by (split; [apply Z.div_pos; lia|apply Z.div_lt_upper_bound; lia]).
  assert (M : 0 <= b2z c mod 16 < 16) by (apply Z.mod_pos_bound; lia).
  replace (c :: s) with (utf8 (b2z c) ++ s).
  2:{ unfold utf8. replace (b2z c <? 128) with true by lia. rewrite z2b_b2z. reflexivity. }
  apply (ch_unicode [x30; x30; hex_digit (b2z c / 16); hex_digit (b2z c mod 16)] (b2z c)); [|lia|exact H].
  eexists _, _, _, _, 0, 0, (b2z c / 16), (b2z c mod 16). split; [reflexivity|]. split; [reflexivity|]. split; [reflexivity|].
  split; [apply hex_hex_digit; lia|]. split; [apply hex_hex_digit; lia|]. pose proof (Z.div_mod (b2z c) 16). lia.
Qed.
Lemma write_string_spec s : string_text (write_string s) s.
Proof.
  exists (flat_map write_char s). split; [reflexivity|]. induction s as [|c s IH]; [constructor|]. apply write_char_spec. exact IH.
Qed.
Lemma one_line_app a b : one_line a -> one_line b -> one_line (a ++ b).
Proof. intros A B. apply Forall_app. split; assumption. Qed.
Lemma write_char_line c : one_line (write_char c).
Proof.
  unfold write_char. destruct (byte_eqb c quote); [repeat constructor; cbn; lia|].
  destruct (byte_eqb c backslash); [repeat constructor; cbn; lia|].
  destruct (32 <=? b2z c) eqn:P; [constructor; [lia|constructor]|].
  destruct (byte_eqb c x08); [repeat constructor; cbn; lia|]. destruct (byte_eqb c x09); [repeat constructor; cbn; lia|].
  destruct (byte_eqb c x0a); [repeat constructor; cbn; lia|]. destruct (byte_eqb c x0c); [repeat constructor; cbn; lia|].
  destruct (byte_eqb c x0d); [repeat constructor; cbn; lia|].
  pose proof (b2z_range c) as R. assert (D : 0 <= b2z c / 16 < 2) by (split; [apply Z.div_pos; lia|apply Z.div_lt_upper_bound; lia]).
  assert (M : 0 <= b2z c mod 16 < 16) by (apply Z.mod_pos_bound; lia).
  assert (G : forall z, 0 <= z < 16 -> 32 <= b2z (hex_digit z)).
  { intros z B. unfold hex_digit. rewrite b2z_z2b. destruct (z <? 10); rewrite Z.mod_small; lia. }
  do 4 (constructor; [cbn; lia|]). constructor; [apply G; lia|]. constructor; [apply G; lia|constructor].
Qed.
Lemma write_string_line s : one_line (write_string s).
Proof.
  constructor; [cbn; lia|]. apply one_line_app; [|constructor; [cbn; lia|constructor]].
  induction s as [|c s IH]; [constructor|]. apply one_line_app; [apply write_char_line|exact IH].
Qed.

(** ** Whole numbers *)
Lemma number_of_app t c : forall a, number_of a (t ++ [c]) = number_of a t * 10 + (b2z c - 48).
Proof. induction t as [|x t IH]; intros a; cbn [app number_of]; [reflexivity|]. apply IH. Qed.
Lemma digit_of z : 0 <= z < 10 -> digit (z2b (48 + z)) /\ b2z (z2b (48 + z)) - 48 = z.
Proof. intros B. unfold digit. rewrite b2z_z2b, Z.mod_small by lia. lia. Qed.
Lemma write_nat_spec n : forall z, 0 <= z < 10 ^ Z.of_nat n -> (0 < n)%nat ->
  digits (write_nat n z) /\ number_of 0 (write_nat n z) = z /\ (0 < z -> forall r, write_nat n z <> x30 :: r) /\
  (z = 0 -> write_nat n z = [x30]).
Proof.
  induction n as [|n IH]; intros z B P; [lia|]. cbn [write_nat]. destruct (z <? 10) eqn:E.
  - destruct (digit_of z) as [D V]; [lia|]. split; [split; [discriminate|constructor; [exact D|constructor]]|]. split; [cbn [number_of]; lia|].
    split; [|intros ->; reflexivity]. intros Z0 r X. assert (Y : z2b (48 + z) = x30) by (revert X; generalize (z2b (48 + z)); congruence). rewrite Y in V. change (48 - 48 = z) in V. lia.
  - assert (Dz : 0 <= z / 10 < 10 ^ Z.of_nat n).
    { split; [apply Z.div_pos; lia|]. apply Z.div_lt_upper_bound; [lia|]. rewrite Nat2Z.inj_succ, Z.pow_succ_r in B by lia. lia. }
    assert (Pn : (0 < n)%nat) by (destruct n; [cbn in B; lia|lia]).
    destruct (IH (z / 10) Dz Pn) as ((N & F) & V & H & _). pose proof (Z.mod_pos_bound z 10). destruct (digit_of (z mod 10)) as [D W]; [lia|].
    split; [split; [destruct (write_nat n (z / 10)); discriminate|apply Forall_app; split; [exact F|constructor; [exact D|constructor]]]|].
    split; [rewrite number_of_app, V, W; pose proof (Z.div_mod z 10); lia|]. split; [|lia]. intros _ r X.
    assert (0 < z / 10) by (apply Z.div_str_pos; lia).
    destruct (write_nat n (z / 10)) as [|c q] eqn:Q; [congruence|]. cbn [app] in X. injection X as X _. apply (H H1 q). congruence.
Qed.
Lemma write_nat_text z : 0 <= z < 10 ^ 20 -> nat_text (write_nat 20 z) /\ number_of 0 (write_nat 20 z) = z.
Proof.
  intros B. destruct (write_nat_spec 20 z) as (D & V & H & Z0); [exact B|lia|]. split; [|exact V]. split; [exact D|].
  intros c r E. destruct (Z.eq_dec z 0) as [->|N]; [rewrite Z0 in E by reflexivity; discriminate E|]. apply (H ltac:(lia) (c :: r)). exact E.
Qed.
Lemma write_int_spec z : - 2 ^ 63 <= z < 2 ^ 63 -> int_text (write_int z) z.
Proof.
  intros B. assert (2 ^ 63 < 10 ^ 20) by reflexivity. unfold write_int. destruct (z <? 0) eqn:E.
  - destruct (write_nat_text (- z)) as [N V]; [lia|]. replace z with (- number_of 0 (write_nat 20 (- z))) at 2 by lia. apply int_neg. exact N.
  - destruct (write_nat_text z) as [N V]; [lia|]. rewrite <- V at 2. apply int_pos. exact N.
Qed.
Lemma number_line t : Forall (fun c => numberb c = true) t -> one_line t.
Proof.
  apply Forall_impl. intros c H. unfold numberb in H. rewrite !orb_true_iff in H.
  assert (G : forall x, 32 <= b2z x -> byte_eqb c x = true -> 32 <= b2z c) by (intros x L E; destruct (byte_eqb_spec c x); [subst; exact L|discriminate]).
  destruct H as [[[[[H|H]|H]|H]|H]|H]; [unfold digitb in H; lia|..]; (eapply G; [|exact H]; cbn; lia).
Qed.

(** ** Values *)
Section Writer.
  Variable dt : Z -> str.
  Variable rd : str -> Z.
  Hypothesis P : prints dt.

  Fixpoint text (v : value) : str :=
    match v with
    | VObj fs => x7b :: (fix go first fs := match fs with
                         | [] => [x7d]
                         | (k, x) :: r => (if first : bool then [] else [x2c]) ++ write_string k ++ x3a :: text x ++ go false r
                         end) true fs
    | VArr vs => x5b :: (fix go first vs := match vs with
                         | [] => [x5d]
                         | x :: r => (if first : bool then [] else [x2c]) ++ text x ++ go false r
                         end) true vs
    | VStr s => write_string s
    | VInt z => write_int z
    | VDec d => if d_exp d =? 2047 then [] else dt d
    | VBool b => lit (if b then "true" else "false")
    | VNull => lit "null"
    end.
  Fixpoint members_str (first : bool) (fs : list (str * value)) : str :=
    match fs with
    | [] => [x7d]
    | (k, x) :: r => (if first then [] else [x2c]) ++ write_string k ++ x3a :: text x ++ members_str false r
    end.
  Fixpoint elements_str (first : bool) (vs : list value) : str :=
    match vs with
    | [] => [x5d]
    | x :: r => (if first then [] else [x2c]) ++ text x ++ elements_str false r
    end.
  Lemma text_obj fs : text (VObj fs) = x7b :: members_str true fs.
  Proof. reflexivity. Qed.
  Lemma text_arr vs : text (VArr vs) = x5b :: elements_str true vs.
  Proof. reflexivity. Qed.

  Lemma write_event_scalar e st r s :
    (forall st, write_event dt e st = (fst (separator st) ++ s, snd (separator st))) ->
    write_events dt (e :: r) st = fst (separator st) ++ s ++ write_events dt r (snd (separator st)).
  Proof. intros H. cbn [write_events]. rewrite H, <- app_assoc. reflexivity. Qed.
  Ltac scalar := apply write_event_scalar; let st := fresh in intros st; cbn [write_event]; destruct (separator st); reflexivity.

  Lemma write_tokens v : forall st es,
    write_events dt (tokens v ++ es) st = fst (separator st) ++ text v ++ write_events dt es (snd (separator st)).
  Proof.
    induction v as [fs IH|vs IH|s|z|d|b|] using value_ind'; intros st es.
    - cbn [tokens app write_events write_event]. destruct (separator st) as [s1 st1]. cbn [fst snd]. rewrite <- app_assoc, text_obj. cbn [app].
      f_equal. f_equal.
      assert (G : forall n first, Nat.even n = true -> (first = match n with O => true | _ => false end) ->
        write_events dt ((flat_map (fun kv => EKey (fst kv) :: tokens (snd kv)) fs ++ [EEndObject]) ++ es) ((false, n) :: st1) =
        members_str first fs ++ write_events dt es st1); [|apply (G 0%nat); reflexivity].
      induction IH as [|[k x] r Hx _ IHr]; intros n first E F; [reflexivity|].
      cbn [flat_map fst snd members_str app]. rewrite <- !app_assoc. cbn [app write_events write_event separator].
      rewrite <- !app_assoc. cbn [snd] in Hx. rewrite Hx. cbn [separator fst snd].
      replace (Nat.even (S n)) with false by (rewrite Nat.even_succ, <- Nat.negb_even, E; reflexivity).
      rewrite <- app_assoc in IHr. cbn [app] in IHr. rewrite (IHr (S (S n)) false); [|exact E|reflexivity]. rewrite E, F. destruct n; cbn [app]; rewrite <- ?app_assoc; reflexivity.
    - cbn [tokens app write_events write_event]. destruct (separator st) as [s1 st1]. cbn [fst snd]. rewrite <- app_assoc, text_arr. cbn [app].
      f_equal. f_equal.
      assert (G : forall n first, (first = match n with O => true | _ => false end) ->
        write_events dt ((flat_map tokens vs ++ [EEndArray]) ++ es) ((true, n) :: st1) =
        elements_str first vs ++ write_events dt es st1); [|apply (G 0%nat); reflexivity].
      induction IH as [|x r Hx _ IHr]; intros n first F; [reflexivity|].
      cbn [flat_map elements_str app]. rewrite <- !app_assoc. cbn [app]. rewrite Hx. cbn [separator fst snd].
      rewrite <- app_assoc in IHr. cbn [app] in IHr. rewrite (IHr (S n) false); [|reflexivity]. rewrite F. destruct n; reflexivity.
    - scalar.
    - scalar.
    - scalar.
    - scalar.
    - scalar.
  Qed.
  Lemma write_all v : write_events dt (tokens v) [] = text v.
  Proof. rewrite <- (app_nil_r (tokens v)), write_tokens. cbn [separator fst snd write_events app]. apply app_nil_r. Qed.

  Definition again (d : Z) : Z := rd (dt d).

  Lemma finite_exp d : (exists k, denote64 d = FFin k) -> d_exp d =? 2047 = false.
  Proof. intros [k E]. unfold denote64 in E. destruct (d_exp d =? 2047); [|reflexivity]. destruct (d_man d =? 0); discriminate. Qed.
  Lemma says_obj fs : says (VObj fs) = JObj (map (fun kv => (fst kv, says (snd kv))) fs).
  Proof. reflexivity. Qed.

  Lemma text_strict v : heap_value v -> finite_decimals v -> strict rd (text v) (says (redec again v)) /\ one_line (text v).
  Proof.
    assert (W : white []) by constructor.
    induction v as [fs IH|vs IH|s|z|d|b|] using value_ind'; intros H F.
    - assert (A : Forall (fun kv => strict rd (text (snd kv)) (says (redec again (snd kv))) /\ one_line (text (snd kv))) fs).
      { inversion F as [? _ G| | | | | |]; subst. rewrite Forall_forall in *. intros [k x] J. apply (IH _ J).
        - apply (heap_field _ _ _ H J).
        - apply (G _ J). }
      clear IH H F. rewrite text_obj. cbn [redec says]. rewrite map_map. cbn [fst snd].
      assert (L : forall q, one_line (members_str q fs)).
      { induction A as [|[k x] r [_ Ax] _ IHr]; intros q; cbn [members_str]; [constructor; [cbn; lia|constructor]|].
        apply one_line_app; [destruct q; repeat constructor; cbn; lia|]. apply one_line_app; [apply write_string_line|].
        constructor; [cbn; lia|]. apply one_line_app; [exact Ax|apply IHr]. }
      split; [|constructor; [cbn; lia|apply L]]. clear L. destruct fs as [|kx r].
      { apply (strict_no_members rd []). exact W. }
      assert (G : exists t, members_str true (kx :: r) = t ++ [x7d] /\
        strict_members rd t (map (fun kv => (fst kv, says (redec again (snd kv)))) (kx :: r))).
      { revert kx A. induction r as [|ky r IHr]; intros [k x] A; inversion A as [|? ? [Sx _] A']; subst; cbn [snd fst] in Sx.
        - exists ([] ++ write_string k ++ [] ++ x3a :: [] ++ text x ++ []). split.
          + cbn [members_str app]. rewrite <- !app_assoc. cbn [app]. rewrite app_nil_r. reflexivity.
          + cbn [map fst snd]. apply (strict_member rd [] (write_string k) k [] [] (text x) _ []); try exact W; [apply write_string_spec|exact Sx].
        - destruct (IHr ky A') as (t & E & M). exists ([] ++ write_string k ++ [] ++ x3a :: [] ++ text x ++ [] ++ x2c :: t). split.
          + cbn [members_str app] in E |- *. destruct ky as [k2 x2]. cbn [app] in E |- *. rewrite E. repeat (progress (rewrite <- ?app_assoc; cbn [app])). reflexivity.
          + cbn [map fst snd] in M |- *. apply (strict_more_members rd [] (write_string k) k [] [] (text x) _ []); try exact W; [apply write_string_spec|exact Sx|exact M]. }
      destruct G as (t & -> & M). apply strict_object. exact M.
    - assert (A : Forall (fun x => strict rd (text x) (says (redec again x)) /\ one_line (text x)) vs).
      { inversion F as [|? _ G| | | | |]; subst. rewrite Forall_forall in *. intros x J. apply (IH _ J).
        - apply (heap_elem _ _ H J).
        - apply (G _ J). }
      clear IH H F. rewrite text_arr. cbn [redec says]. rewrite map_map.
      assert (L : forall q, one_line (elements_str q vs)).
      { induction A as [|x r [_ Ax] _ IHr]; intros q; cbn [elements_str]; [constructor; [cbn; lia|constructor]|].
        apply one_line_app; [destruct q; repeat constructor; cbn; lia|]. apply one_line_app; [exact Ax|apply IHr]. }
      split; [|constructor; [cbn; lia|apply L]]. clear L. destruct vs as [|x r].
      { apply (strict_no_elements rd []). exact W. }
      assert (G : exists t, elements_str true (x :: r) = t ++ [x5d] /\
        strict_elements rd t (map (fun y => says (redec again y)) (x :: r))).
      { revert x A. induction r as [|y r IHr]; intros x A; inversion A as [|? ? [Sx _] A']; subst.
        - exists ([] ++ text x ++ []). split.
          + cbn [elements_str app]. rewrite <- !app_assoc. reflexivity.
          + apply (strict_element rd [] (text x) _ []); try exact W. exact Sx.
        - destruct (IHr y A') as (t & E & M). exists ([] ++ text x ++ [] ++ x2c :: t). split.
          + cbn [elements_str app] in E |- *. rewrite E. repeat (progress (rewrite <- ?app_assoc; cbn [app])). reflexivity.
          + apply (strict_more_elements rd [] (text x) _ []); try exact W; [exact Sx|exact M]. }
      destruct G as (t & -> & M). apply strict_array. exact M.
    - split; [apply strict_string, write_string_spec|apply write_string_line].
    - inversion H as [| | |? B| | |]; subst. cbn in B. assert (B' : - 2 ^ 63 <= z < 2 ^ 63) by exact B. pose proof (write_int_spec z B') as I.
      split; [apply strict_int; assumption|]. apply number_line. eapply int_text_number. exact I.
    - inversion F as [| | | |? D| |]; subst. cbn in D. pose proof (finite_exp d D) as X. destruct D as [k D]. pose proof (P d k D) as T.
      cbn [text redec says]. rewrite X. split; [apply strict_double; exact T|]. apply number_line. apply (numeric_chars rd _ (JDec (rd (dt d)))). apply numeric_double. exact T.
    - split; [destruct b; constructor|]. destruct b; repeat constructor; cbn; lia.
    - split; [constructor|]. repeat constructor; cbn; lia.
  Qed.
End Writer.

(** ** Zero bytes *)
Lemma cstr_stop t r : ~ In x00 t -> cstr (t ++ x00 :: r) = t.
Proof.
  induction t as [|c t IH]; intros N; [reflexivity|]. cbn [app cstr]. rewrite byte_eqb_neq; [|intros ->; apply N; left; reflexivity].
  f_equal. apply IH. intros J. apply N. right. exact J.
Qed.
Lemma cstr_all t : ~ In x00 t -> cstr t = t.
Proof.
  induction t as [|c t IH]; intros N; [reflexivity|]. cbn [cstr]. rewrite byte_eqb_neq; [|intros ->; apply N; left; reflexivity].
  f_equal. apply IH. intros J. apply N. right. exact J.
Qed.
Lemma one_line_zero t : one_line t -> ~ In x00 t.
Proof. intros F J. unfold one_line in F. rewrite Forall_forall in F. specialize (F _ J). cbn in F. lia. Qed.

Lemma to_json_text dt n p v : prints dt -> heap_value v -> finite_decimals v -> (depth v < n)%nat -> shows p v ->
  to_json dt n p = Ok (text dt v).
Proof.
  intros P H F L S. unfold to_json. rewrite (serialize_spec v n p L S). cbn [bind]. f_equal. rewrite write_all. apply cstr_stop.
  apply one_line_zero. apply (text_strict dt (fun _ => 0) P v H F).
Qed.
