(** The reader reads exactly the texts of the grammar, each as its document. *)

From Coq Require Import ZArith List Bool Lia String.
From Coq Require Import ZifyBool ZifyNat ZifyN.
From Verif Require Import Base BaseFacts Keys KeysFacts Wire Spec SpecDec SpecJson SpecText Json Text.
Import ListNotations.
Open Scope list_scope.
Open Scope Z_scope.

Definition starts (p : byte -> bool) (t : str) : Prop := match t with [] => False | c :: _ => p c = true end.

Lemma span_app p a r : Forall (fun c => p c = true) a -> ~ starts p r -> span p (a ++ r) = (a, r).
Proof.
  intros F N. induction F as [|c a E F IH].
  - destruct r as [|c r]; [reflexivity|]. cbn [app span]. cbn [starts] in N. destruct (p c); [congruence|reflexivity].
  - cbn [app span]. rewrite E, IH. reflexivity.
Qed.
Lemma span_split p t a r : span p t = (a, r) -> t = a ++ r /\ Forall (fun c => p c = true) a /\ ~ starts p r.
Proof.
  revert a r. induction t as [|c t IH]; intros a r E.
  - injection E as <- <-. split; [reflexivity|]. split; [constructor|exact (fun x => x)].
  - cbn [span] in E. destruct (p c) eqn:P.
    + destruct (span p t) as [b q]. injection E as <- <-. destruct (IH b q eq_refl) as (-> & F & N).
      split; [reflexivity|]. split; [constructor; assumption|assumption].
    + injection E as <- <-. split; [reflexivity|]. split; [constructor|]. cbn [starts]. congruence.
Qed.

Ltac beq := repeat match goal with
  | |- context [byte_eqb ?a ?a] => rewrite (byte_eqb_refl a)
  end.

(** ** White space *)
Lemma spaceb_spec c : spaceb c = true <-> is_space c.
Proof.
  unfold spaceb, is_space. rewrite !orb_true_iff. cbn [In].
  destruct (byte_eqb_spec c x20), (byte_eqb_spec c x09), (byte_eqb_spec c x0a), (byte_eqb_spec c x0d); subst; intuition congruence.
Qed.
Lemma white_forall w : white w <-> Forall (fun c => spaceb c = true) w.
Proof. unfold white. split; apply Forall_impl; intros c; apply spaceb_spec. Qed.
Lemma white_app a c : white a -> white c -> white (a ++ c).
Proof. apply Forall_app_2 || (intros; apply Forall_app; split; assumption). Qed.

Lemma skip_white w r : white w -> ~ starts spaceb r -> skip (w ++ r) = r.
Proof. intros W N. unfold skip. rewrite span_app; [reflexivity|apply white_forall; exact W|exact N]. Qed.
Lemma skip_id r : ~ starts spaceb r -> skip r = r.
Proof. intros N. apply (skip_white [] r); [constructor|exact N]. Qed.
Lemma skip_all w : white w -> skip w = [].
Proof. intros W. rewrite <- (app_nil_r w). apply skip_white; [exact W|exact (fun x => x)]. Qed.
Lemma skip_split t : exists w, white w /\ t = w ++ skip t /\ ~ starts spaceb (skip t).
Proof.
  unfold skip. destruct (span spaceb t) as [a r] eqn:E. apply span_split in E. destruct E as (-> & F & N).
  exists a. split; [apply white_forall; exact F|]. split; [reflexivity|exact N].
Qed.

(** ** Strings *)
Lemma read_hex4_spec a b c d z : hex4 [a; b; c; d] z <-> read_hex4 a b c d = Some z.
Proof.
  unfold read_hex4. split.
  - intros (a' & b' & c' & d' & x & y & u & v & E & A & B & C & D & ->). injection E as <- <- <- <-. rewrite A, B, C, D. reflexivity.
  - intros E. destruct (hex a) as [x|] eqn:A; [|discriminate]. destruct (hex b) as [y|] eqn:B; [|discriminate].
    destruct (hex c) as [u|] eqn:C; [|discriminate]. destruct (hex d) as [v|] eqn:D; [|discriminate]. injection E as <-.
    exists a, b, c, d, x, y, u, v. auto 10.
Qed.
Lemma escape_u e x : escape e = Some x -> byte_eqb e x75 = false.
Proof. intros E. apply byte_eqb_neq. intros ->. discriminate. Qed.

Lemma read_chars_spec c s r : chars c s -> read_chars (c ++ quote :: r) = Some (s, r).
Proof.
  induction 1 as [|c t s NQ NB L _ IH|e c t s E _ IH|h z t s H N _ IH|h l y z t s H G Y Z _ IH].
  - reflexivity.
  - cbn [app read_chars]. rewrite (byte_eqb_neq _ _ NQ), (byte_eqb_neq _ _ NB). replace (32 <=? b2z c) with true by lia. rewrite IH. reflexivity.
  - cbn [app read_chars]. change (byte_eqb backslash quote) with false. change (byte_eqb backslash backslash) with true. cbn iota.
    rewrite (escape_u _ _ E), E, IH. reflexivity.
  - pose proof H as H'. destruct H' as (a & b & c & d & _ & _ & _ & _ & -> & _). change (lit "\u") with [backslash; x75].
    cbn [app read_chars]. change (byte_eqb backslash quote) with false. change (byte_eqb backslash backslash) with true.
    change (byte_eqb x75 x75) with true. cbn iota. apply read_hex4_spec in H. rewrite H.
    replace ((55296 <=? z) && (z <? 57344)) with false by lia. rewrite IH. reflexivity.
  - pose proof H as H'. destruct H' as (a & b & c & d & _ & _ & _ & _ & -> & _).
    pose proof G as G'. destruct G' as (a' & b' & c' & d' & _ & _ & _ & _ & -> & _). change (lit "\u") with [backslash; x75].
    cbn [app read_chars]. change (byte_eqb backslash quote) with false. change (byte_eqb backslash backslash) with true.
    change (byte_eqb x75 x75) with true. cbn iota. apply read_hex4_spec in H. apply read_hex4_spec in G. rewrite H, G.
    replace ((55296 <=? y) && (y <? 57344)) with true by lia. cbn [andb].
    replace (y <? 56320) with true by lia. replace (56320 <=? z) with true by lia. replace (z <? 57344) with true by lia. cbn [andb].
    rewrite IH. reflexivity.
Qed.

Lemma read_chars_sound n : forall t s r, (List.length t < n)%nat -> read_chars t = Some (s, r) -> exists c, t = c ++ quote :: r /\ chars c s.
Proof.
  induction n as [|n IH]; intros t s r L E; [lia|]. destruct t as [|c t]; [discriminate|]. cbn [List.length] in L. cbn [read_chars] in E.
  destruct (byte_eqb_spec c quote) as [->|NQ].
  { injection E as <- <-. exists []. split; [reflexivity|constructor]. }
  destruct (byte_eqb_spec c backslash) as [->|NB].
  - destruct t as [|e t]; [discriminate|]. cbn [List.length] in L. destruct (byte_eqb_spec e x75) as [->|NU].
    + destruct t as [|h1 [|h2 [|h3 [|h4 t]]]]; try discriminate E. cbn [List.length] in L.
      destruct (read_hex4 h1 h2 h3 h4) as [y|] eqn:H; [|discriminate]. apply read_hex4_spec in H.
      destruct ((55296 <=? y) && (y <? 57344)) eqn:R.
      * destruct t as [|b [|u [|l1 [|l2 [|l3 [|l4 t]]]]]]; try discriminate E. cbn [List.length] in L.
        destruct (read_hex4 l1 l2 l3 l4) as [z|] eqn:G; [|discriminate]. apply read_hex4_spec in G.
        destruct (byte_eqb_spec b backslash) as [->|]; [|discriminate]. destruct (byte_eqb_spec u x75) as [->|]; [|discriminate]. cbn [andb] in E.
        destruct ((y <? 56320) && (56320 <=? z) && (z <? 57344)) eqn:Q; [|discriminate].
        destruct (read_chars t) as [[s' r']|] eqn:C; [|discriminate].
        assert (L' : (List.length t < n)%nat) by (clear - L; lia).
        destruct (IH t s' r' L' C) as (c & -> & CH).
        remember (utf8 (65536 + (y - 55296) * 1024 + (z - 56320))) as p eqn:P.
        assert (s = p ++ s' /\ r = r') as [-> ->] by (clear - E; injection E as <- <-; split; reflexivity).
        exists (lit "\u" ++ [h1; h2; h3; h4] ++ lit "\u" ++ [l1; l2; l3; l4] ++ c).
        split; [reflexivity|]. rewrite P. apply andb_prop in Q. destruct Q as [Q Q3]. apply andb_prop in Q. destruct Q as [Q1 Q2].
        clear - H G CH R Q1 Q2 Q3. apply andb_prop in R. destruct R as [R1 R2].
        apply ch_pair; [exact H|exact G|split; [apply Z.leb_le; exact R1|apply Z.ltb_lt; exact Q1]
          |split; [apply Z.leb_le; exact Q2|apply Z.ltb_lt; exact Q3]|exact CH].
      * destruct (read_chars t) as [[s' r']|] eqn:C; [|discriminate]. injection E as <- <-.
        destruct (IH t s' r' ltac:(lia) C) as (c & -> & CH). exists (lit "\u" ++ [h1; h2; h3; h4] ++ c).
        split; [reflexivity|]. apply ch_unicode; try assumption; lia.
    + destruct (escape e) as [x|] eqn:X; [|discriminate]. destruct (read_chars t) as [[s' r']|] eqn:C; [|discriminate]. injection E as <- <-.
      destruct (IH t s' r' ltac:(lia) C) as (c & -> & CH). exists (backslash :: e :: c). split; [reflexivity|]. apply ch_escape; assumption.
  - destruct (32 <=? b2z c) eqn:P; [|discriminate]. destruct (read_chars t) as [[s' r']|] eqn:C; [|discriminate]. injection E as <- <-.
    destruct (IH t s' r' ltac:(lia) C) as (d & -> & CH). exists (c :: d). split; [reflexivity|]. apply ch_plain; try assumption. lia.
Qed.

(** ** Numbers *)
Lemma digitb_spec c : digitb c = true <-> digit c.
Proof. unfold digitb, digit. lia. Qed.
Lemma digits_forall t : Forall digit t <-> Forall (fun c => digitb c = true) t.
Proof. split; apply Forall_impl; intros c; apply digitb_spec. Qed.
Lemma digit_number c : digitb c = true -> numberb c = true.
Proof. unfold numberb. intros ->. reflexivity. Qed.
Lemma digits_number t : Forall digit t -> Forall (fun c => numberb c = true) t.
Proof. apply Forall_impl. intros c H. apply digit_number, digitb_spec, H. Qed.

Lemma whole_spec i : Forall digit i -> (whole i = true <-> nat_text i).
Proof.
  intros F. unfold whole, nat_text, digits. destruct i as [|c [|x r]].
  - split; [discriminate|]. intros [[N _] _]. congruence.
  - split; [|reflexivity]. intros _. split; [split; [congruence|exact F]|]. intros ? ? E. discriminate E.
  - destruct (byte_eqb_spec c x30) as [->|N]; cbn [negb].
    + split; [discriminate|]. intros [_ H]. exfalso. apply (H x r eq_refl).
    + split; [|reflexivity]. intros _. split; [split; [congruence|exact F]|]. intros ? ? E. congruence.
Qed.

Lemma int_text_number i z : int_text i z -> Forall (fun c => numberb c = true) i.
Proof. intros [t [[_ F] _]|t [[_ F] _]]; [|constructor; [reflexivity|]]; apply digits_number; exact F. Qed.
Lemma fraction_number f : fraction f -> Forall (fun c => numberb c = true) f.
Proof. intros [->|(r & -> & _ & F)]; [constructor|]. constructor; [reflexivity|apply digits_number; exact F]. Qed.
Lemma exponent_number e : exponent e -> Forall (fun c => numberb c = true) e.
Proof.
  intros [->|(c & s & r & -> & C & S & _ & F)]; [constructor|]. constructor.
  - destruct C as [<-|[<-|[]]]; reflexivity.
  - apply Forall_app. split; [|apply digits_number; exact F]. destruct S as [<-|[<-|[<-|[]]]]; repeat constructor.
Qed.

(** What the reader looks at first. *)
Definition unsigned (t : str) : bool * str :=
  match t with c :: r => if byte_eqb c x2d then (true, r) else (false, t) | [] => (false, t) end.
Lemma digit_head c r : digit c -> unsigned (c :: r) = (false, c :: r).
Proof. intros D. cbn [unsigned]. rewrite byte_eqb_neq; [reflexivity|]. intros ->. change (48 <= 45 <= 57) in D. lia. Qed.
Lemma unsigned_nat i r : nat_text i -> unsigned (i ++ r) = (false, i ++ r).
Proof. intros [[N F] _]. destruct F as [|c i D F]; [congruence|]. apply digit_head. exact D. Qed.
Definition signed (neg : bool) (z : Z) := if neg then - z else z.
Lemma int_text_split t z : int_text t z -> exists neg i, nat_text i /\ z = signed neg (number_of 0 i) /\
  forall r, unsigned (t ++ r) = (neg, i ++ r).
Proof.
  intros [i H|i H].
  - exists false, i. split; [exact H|]. split; [reflexivity|]. intros r. apply unsigned_nat. exact H.
  - exists true, i. split; [exact H|]. split; [reflexivity|]. intros r. reflexivity.
Qed.
Lemma unsigned_int t neg r i : unsigned t = (neg, i ++ r) -> nat_text i -> exists u, t = u ++ r /\ int_text u (signed neg (number_of 0 i)).
Proof.
  intros E N. destruct t as [|c t]; cbn [unsigned] in E.
  - injection E as <- E. destruct i; [destruct N as [[N _] _]; congruence|discriminate].
  - destruct (byte_eqb_spec c x2d) as [->|NM].
    + injection E as <- ->. exists (x2d :: i). split; [reflexivity|]. apply int_neg. exact N.
    + injection E as <- E. exists i. split; [exact E|]. apply int_pos. exact N.
Qed.

Lemma not_digit c r : digitb c = false -> ~ starts digitb (c :: r).
Proof. cbn [starts]. congruence. Qed.

Lemma read_exponent_spec e : read_exponent e = true <-> exponent e.
Proof.
  split.
  - destruct e as [|c r]; [intros _; left; reflexivity|]. cbn [read_exponent]. intros E. apply andb_prop in E. destruct E as [C E].
    assert (K : In c [x65; x45]).
    { apply orb_prop in C. destruct C as [C|C]; [destruct (byte_eqb_spec c x65)|destruct (byte_eqb_spec c x45)]; subst; cbn; auto; discriminate. }
    assert (G : forall q, match span digitb q with (_ :: _, []) => true | _ => false end = true -> digits q).
    { intros q H. destruct (span digitb q) as [[|x a] [|y b]] eqn:Q; try discriminate H. apply span_split in Q. destruct Q as (-> & F & _).
      rewrite app_nil_r. split; [congruence|apply digits_forall; exact F]. }
    right. destruct r as [|g r']; [discriminate E|]. destruct (byte_eqb_spec g x2b) as [->|NP].
    + exists c, [x2b], r'. split; [reflexivity|]. split; [exact K|]. split; [cbn; auto|]. apply G. exact E.
    + destruct (byte_eqb_spec g x2d) as [->|NM].
      * exists c, [x2d], r'. split; [reflexivity|]. split; [exact K|]. split; [cbn; auto|]. apply G. exact E.
      * exists c, [], (g :: r'). split; [reflexivity|]. split; [exact K|]. split; [cbn; auto|]. apply G. exact E.
  - intros [->|(c & s & r & -> & C & S & N & F)]; [reflexivity|]. cbn [read_exponent].
    assert (K : byte_eqb c x65 || byte_eqb c x45 = true) by (destruct C as [<-|[<-|[]]]; reflexivity). rewrite K. cbn [andb].
    assert (G : match span digitb r with (_ :: _, []) => true | _ => false end = true).
    { rewrite <- (app_nil_r r), span_app; [|apply digits_forall; exact F|exact (fun x => x)]. destruct r; [congruence|reflexivity]. }
    destruct S as [<-|[<-|[<-|[]]]]; cbn [app]; [|exact G|exact G]. inversion F as [|x q D F']; subst; [congruence|].
    assert (byte_eqb x x2b = false) by (apply byte_eqb_neq; intros ->; unfold digit in D; cbn in D; lia).
    assert (byte_eqb x x2d = false) by (apply byte_eqb_neq; intros ->; unfold digit in D; cbn in D; lia).
    rewrite H, H0. exact G.
Qed.
Lemma exponent_head e : exponent e -> ~ starts digitb e /\ match e with c :: _ => byte_eqb c x2e = false | [] => True end.
Proof.
  intros [->|(c & s & r & -> & C & _)]; [split; [exact (fun x => x)|exact Logic.I]|].
  destruct C as [<-|[<-|[]]]; (split; [apply not_digit; reflexivity|reflexivity]).
Qed.
Lemma fraction_head f e : fraction f -> exponent e -> ~ starts digitb (f ++ e).
Proof. intros [->|(r & -> & _)] E; [apply (exponent_head e E)|]. apply not_digit. reflexivity. Qed.
Lemma read_fraction_spec t : read_fraction t = true <-> exists f e, t = f ++ e /\ fraction f /\ exponent e.
Proof.
  split.
  - destruct t as [|c r]; [intros _; exists [], []; split; [reflexivity|split; left; reflexivity]|]. cbn [read_fraction].
    destruct (byte_eqb_spec c x2e) as [->|N].
    + destruct (span digitb r) as [[|x a] b] eqn:Q; [discriminate|]. intros E. apply span_split in Q. destruct Q as (-> & F & _).
      exists (x2e :: x :: a), b. split; [reflexivity|]. split; [|apply read_exponent_spec; exact E]. right.
      exists (x :: a). split; [reflexivity|]. split; [congruence|apply digits_forall; exact F].
    + intros E. exists [], (c :: r). split; [reflexivity|]. split; [left; reflexivity|apply read_exponent_spec; exact E].
  - intros (f & e & -> & [->|(r & -> & N & F)] & E).
    + cbn [app]. pose proof (exponent_head e E) as [_ H]. destruct e as [|c e]; [reflexivity|]. cbn [read_fraction]. rewrite H.
      apply read_exponent_spec. exact E.
    + cbn [app read_fraction]. change (byte_eqb x2e x2e) with true. cbn iota.
      rewrite span_app; [|apply digits_forall; exact F|apply (exponent_head e E)]. destruct r; [congruence|]. apply read_exponent_spec. exact E.
Qed.

Section Reader.
  Variable rd : str -> Z.

  Inductive numeric : str -> jdoc -> Prop :=
  | numeric_int t z : int_text t z -> - 2 ^ 63 <= z < 2 ^ 63 -> numeric t (JInt z)
  | numeric_uint t z : int_text t z -> 2 ^ 63 <= z < 2 ^ 64 -> numeric t (JUint z)
  | numeric_huge t z : int_text t z -> ~ (- 2 ^ 63 <= z < 2 ^ 64) -> numeric t (JDec (rd t))
  | numeric_double t : double_text t -> numeric t (JDec (rd t)).

  Lemma read_number_unfold t : read_number rd t =
    let '(neg, r) := unsigned t in
    let '(i, r) := span digitb r in
    if whole i then
      match r with
      | [] =>
          let z := signed neg (number_of 0 i) in
          if (- 2 ^ 63 <=? z) && (z <? 2 ^ 63) then Some (JInt z)
          else if (2 ^ 63 <=? z) && (z <? 2 ^ 64) then Some (JUint z)
          else Some (JDec (rd t))
      | _ => if read_fraction r then Some (JDec (rd t)) else None
      end
    else None.
  Proof. reflexivity. Qed.

  Lemma read_number_spec t d : read_number rd t = Some d <-> numeric t d.
  Proof.
    rewrite read_number_unfold. split.
    - destruct (unsigned t) as [neg r0] eqn:U. destruct (span digitb r0) as [i r] eqn:S. apply span_split in S. destruct S as (-> & F & N).
      apply digits_forall in F. destruct (whole i) eqn:W; [|discriminate]. apply (whole_spec i F) in W. cbv zeta.
      destruct (unsigned_int _ _ _ _ U W) as (u & -> & IT). destruct r as [|c r].
      + rewrite app_nil_r. destruct ((- 2 ^ 63 <=? signed neg (number_of 0 i)) && (signed neg (number_of 0 i) <? 2 ^ 63)) eqn:A.
        { intros E. injection E as <-. constructor; [exact IT|lia]. }
        destruct ((2 ^ 63 <=? signed neg (number_of 0 i)) && (signed neg (number_of 0 i) <? 2 ^ 64)) eqn:B.
        { intros E. injection E as <-. constructor; [exact IT|lia]. }
        intros E. injection E as <-. eapply numeric_huge; [exact IT|lia].
      + destruct (read_fraction (c :: r)) eqn:R; [|discriminate]. intros E. injection E as <-. apply read_fraction_spec in R.
        destruct R as (f & e & E & Hf & He). rewrite E. apply numeric_double. exists u, (signed neg (number_of 0 i)), f, e.
        split; [exact IT|]. split; [exact Hf|]. split; [exact He|]. split; [rewrite <- E; discriminate|reflexivity].
    - assert (G : forall t z, int_text t z -> exists neg i, z = signed neg (number_of 0 i) /\ nat_text i /\ unsigned t = (neg, i) /\ span digitb i = (i, []) /\ whole i = true).
      { intros u z H. destruct (int_text_split u z H) as (neg & i & N & -> & U). specialize (U []). rewrite !app_nil_r in U.
        exists neg, i. split; [reflexivity|]. split; [exact N|]. split; [exact U|]. split.
        - rewrite <- (app_nil_r i) at 1. apply span_app; [apply digits_forall, N|exact (fun x => x)].
        - apply (whole_spec i); [apply N|exact N]. }
      intros H. destruct H as [t z H B|t z H B|t z H B|t H].
      + destruct (G t z H) as (neg & i & -> & N & -> & -> & ->). cbv zeta.
        replace ((- 2 ^ 63 <=? signed neg (number_of 0 i)) && (signed neg (number_of 0 i) <? 2 ^ 63)) with true by lia. reflexivity.
      + destruct (G t z H) as (neg & i & -> & N & -> & -> & ->). cbv zeta.
        replace ((- 2 ^ 63 <=? signed neg (number_of 0 i)) && (signed neg (number_of 0 i) <? 2 ^ 63)) with false by lia.
        replace ((2 ^ 63 <=? signed neg (number_of 0 i)) && (signed neg (number_of 0 i) <? 2 ^ 64)) with true by lia. reflexivity.
      + destruct (G t z H) as (neg & i & -> & N & -> & -> & ->). cbv zeta.
        replace ((- 2 ^ 63 <=? signed neg (number_of 0 i)) && (signed neg (number_of 0 i) <? 2 ^ 63)) with false by lia.
        replace ((2 ^ 63 <=? signed neg (number_of 0 i)) && (signed neg (number_of 0 i) <? 2 ^ 64)) with false by lia. reflexivity.
      + destruct H as (u & z & f & e & IT & Hf & He & NE & ->). destruct (int_text_split u z IT) as (neg & i & N & -> & U).
        rewrite U. rewrite span_app; [|apply digits_forall, N|apply fraction_head; assumption].
        rewrite (proj2 (whole_spec i (proj2 (proj1 N))) N).
        rewrite (proj2 (read_fraction_spec (f ++ e))) by (exists f, e; auto).
        destruct (f ++ e); [congruence|reflexivity].
  Qed.

  Lemma numeric_chars t d : numeric t d -> Forall (fun c => numberb c = true) t.
  Proof.
    intros [? ? H _|? ? H _|? ? H _|? (i & z & f & e & A & B & C & _ & ->)]; try (eapply int_text_number; exact H).
    apply Forall_app. split; [eapply int_text_number; exact A|]. apply Forall_app. split; [apply fraction_number|apply exponent_number]; assumption.
  Qed.
  (** It starts with a digit or a minus sign. *)
  Lemma numeric_head t d : numeric t d -> exists c r, t = c :: r /\ (digitb c = true \/ c = x2d).
  Proof.
    assert (G : forall u z, int_text u z -> exists c r, u = c :: r /\ (digitb c = true \/ c = x2d)).
    { intros u z [t' [[N F] _]|t' _]; [|eexists _, _; split; [reflexivity|right; reflexivity]].
      inversion F as [|c r D F']; subst; [congruence|]. exists c, r. split; [reflexivity|left; apply digitb_spec; exact D]. }
    intros [? ? H _|? ? H _|? ? H _|? (i & z & f & e & A & _ & _ & _ & ->)]; try (eapply G; exact H).
    destruct (G _ _ A) as (c & r & -> & H). exists c, (r ++ f ++ e). split; [reflexivity|exact H].
  Qed.
  Lemma numeric_strict t d : numeric t d -> strict rd t d.
  Proof. intros [? ? H B|? ? H B|? ? H B|? H]; econstructor; eassumption. Qed.

  (** ** Values *)
  Definition open_end (r : str) : Prop := ~ starts numberb r.

  Scheme strict_ind3 := Induction for strict Sort Prop
    with strict_members_ind3 := Induction for strict_members Sort Prop
    with strict_elements_ind3 := Induction for strict_elements Sort Prop.
  Combined Scheme strict_mut from strict_ind3, strict_members_ind3, strict_elements_ind3.

  Lemma number_heads c : digitb c = true \/ c = x2d ->
    byte_eqb c x7b = false /\ byte_eqb c x5b = false /\ byte_eqb c quote = false /\ byte_eqb c x74 = false /\
    byte_eqb c x66 = false /\ byte_eqb c x6e = false /\ spaceb c = false /\ c <> x5d /\ c <> x7d.
  Proof.
    intros [H| ->]; [|repeat apply conj; (reflexivity || discriminate)].
    assert (G : forall x, digitb x = false -> c <> x) by (intros x E ->; congruence).
    repeat apply conj; try (apply byte_eqb_neq, G; reflexivity); try (apply G; reflexivity).
    unfold spaceb. rewrite !byte_eqb_neq by (apply G; reflexivity). reflexivity.
  Qed.
  Lemma strict_head t d : strict rd t d -> exists c r, t = c :: r /\ spaceb c = false /\ c <> x5d /\ c <> x7d.
  Proof.
    assert (G : forall u e, numeric u e -> exists c r, u = c :: r /\ spaceb c = false /\ c <> x5d /\ c <> x7d).
    { intros u e H. destruct (numeric_head _ _ H) as (c & r & -> & K). exists c, r. split; [reflexivity|].
      apply (number_heads c) in K. tauto. }
    intros H. destruct H as [w W|t ms H|w W|t ds H|t s (c & -> & _)|t z H B|t z H B|t z H B|t H| | |];
      try (eexists _, _; split; [reflexivity|]; split; [reflexivity|]; split; discriminate);
      eapply G; [eapply numeric_int|eapply numeric_uint|eapply numeric_huge|eapply numeric_double]; eassumption.
  Qed.
  Lemma strict_start t d r : strict rd t d -> ~ starts spaceb (t ++ r).
  Proof. intros H. destruct (strict_head _ _ H) as (c & q & -> & S & _). cbn [app starts]. congruence. Qed.
  Lemma open_white w c r : white w -> numberb c = false -> open_end (w ++ c :: r).
  Proof.
    intros W N. unfold open_end. destruct W as [|x w X W]; cbn [app starts]; [congruence|].
    destruct X as [<-|[<-|[<-|[<-|[]]]]]; discriminate.
  Qed.
  Lemma literal_app w r : literal w (w ++ r) = Some r.
  Proof. induction w as [|c w IH]; [destruct r; reflexivity|]. cbn [app literal]. rewrite byte_eqb_refl. exact IH. Qed.
  Lemma literal_sound w : forall t r, literal w t = Some r -> t = w ++ r.
  Proof.
    induction w as [|c w IH]; intros t r E; [destruct t; injection E as <-; reflexivity|]. destruct t as [|x t]; [discriminate|]. cbn [literal] in E.
    destruct (byte_eqb_spec c x) as [->|]; [|discriminate]. cbn [app]. f_equal. apply IH. exact E.
  Qed.
  Lemma read_numeric n t d r : numeric t d -> open_end r -> read_value rd (S n) (t ++ r) = Some (d, r).
  Proof.
    intros H O. destruct (numeric_head _ _ H) as (c & q & E & K). destruct (number_heads c K) as (A1 & A2 & A3 & A4 & A5 & A6 & _).
    replace (t ++ r) with (c :: q ++ r) by (rewrite E; reflexivity). cbn [read_value]. rewrite A1, A2, A3, A4, A5, A6.
    change (c :: q ++ r) with ((c :: q) ++ r). rewrite <- E.
    rewrite span_app; [|eapply numeric_chars; exact H|exact O]. rewrite (proj2 (read_number_spec t d) H). reflexivity.
  Qed.
  Lemma not_space c r : spaceb c = false -> ~ starts spaceb (c :: r).
  Proof. cbn [starts]. congruence. Qed.
  (** A string, behind white space. *)
  Lemma read_string_at kt k r : string_text kt k -> exists q, kt ++ r = quote :: q /\ read_chars q = Some (k, r).
  Proof.
    intros (c & -> & H). exists (c ++ quote :: r). split; [cbn [app]; rewrite <- app_assoc; reflexivity|]. apply read_chars_spec. exact H.
  Qed.

  Ltac len := repeat (rewrite ?app_length in *; cbn [List.length] in *); lia.

  Lemma members_start t ms : strict_members rd t ms -> exists w q, white w /\ t = w ++ quote :: q.
  Proof.
    intros H. inversion H as [w1 kt k w2 w3 u d w4 W (c & E & _)|w1 kt k w2 w3 u d w4 r ms' W (c & E & _)]; subst;
      (eexists w1, _; split; [exact W|]; cbn [app]; reflexivity).
  Qed.
  Lemma elements_start t ds : strict_elements rd t ds -> exists w c q, white w /\ t = w ++ c :: q /\ spaceb c = false /\ c <> x5d.
  Proof.
    intros H. inversion H as [w1 u d w2 W U W2|w1 u d w2 r ds' W U W2 R]; subst; destruct (strict_head _ _ U) as (c & q & -> & S & N & _);
      (eexists w1, c, _; split; [exact W|]; split; [cbn [app]; reflexivity|]; split; assumption).
  Qed.

  Theorem read_complete :
    (forall t d, strict rd t d -> forall n r, (List.length t < n)%nat -> open_end r -> read_value rd n (t ++ r) = Some (d, r)) /\
    (forall t ms, strict_members rd t ms -> forall n m r, (List.length t < n)%nat -> (List.length t < m)%nat -> read_members (read_value rd n) m (t ++ x7d :: r) = Some (ms, r)) /\
    (forall t ds, strict_elements rd t ds -> forall n m r, (List.length t < n)%nat -> (List.length t < m)%nat -> read_elements (read_value rd n) m (t ++ x5d :: r) = Some (ds, r)).
  Proof.
    apply (strict_mut rd (fun t d _ => forall n r, (List.length t < n)%nat -> open_end r -> read_value rd n (t ++ r) = Some (d, r))
      (fun t ms _ => forall n m r, (List.length t < n)%nat -> (List.length t < m)%nat -> read_members (read_value rd n) m (t ++ x7d :: r) = Some (ms, r))
      (fun t ds _ => forall n m r, (List.length t < n)%nat -> (List.length t < m)%nat -> read_elements (read_value rd n) m (t ++ x5d :: r) = Some (ds, r))).
    - intros w W n r L O. destruct n as [|n]; [lia|]. cbn [app read_value]. change (byte_eqb x7b x7b) with true. cbn iota.
      rewrite <- app_assoc. cbn [app]. rewrite skip_white; [reflexivity|exact W|apply not_space; reflexivity].
    - intros t ms H IH n r L O. destruct n as [|n]; [lia|]. cbn [app read_value]. change (byte_eqb x7b x7b) with true. cbn iota.
      rewrite <- app_assoc. cbn [app]. destruct (members_start _ _ H) as (w & q & W & E).
      replace (skip (t ++ x7d :: r)) with (quote :: q ++ x7d :: r).
      2:{ rewrite E, <- app_assoc. cbn [app]. rewrite skip_white; [reflexivity|exact W|apply not_space; reflexivity]. }
      change (byte_eqb quote x7d) with false. cbn iota. rewrite IH by len. reflexivity.
    - intros w W n r L O. destruct n as [|n]; [lia|]. cbn [app read_value]. change (byte_eqb x5b x7b) with false. change (byte_eqb x5b x5b) with true. cbn iota.
      rewrite <- app_assoc. cbn [app]. rewrite skip_white; [reflexivity|exact W|apply not_space; reflexivity].
    - intros t ds H IH n r L O. destruct n as [|n]; [lia|]. cbn [app read_value]. change (byte_eqb x5b x7b) with false. change (byte_eqb x5b x5b) with true. cbn iota.
      rewrite <- app_assoc. cbn [app]. destruct (elements_start _ _ H) as (w & c & q & W & E & S & N).
      replace (skip (t ++ x5d :: r)) with (c :: q ++ x5d :: r).
      2:{ rewrite E, <- app_assoc. cbn [app]. rewrite skip_white; [reflexivity|exact W|apply not_space; exact S]. }
      rewrite (byte_eqb_neq _ _ N). cbn iota. rewrite IH by len. reflexivity.
    - intros t s H n r L O. destruct n as [|n]; [lia|]. destruct (read_string_at t s r H) as (q & -> & E). cbn [read_value].
      change (byte_eqb quote x7b) with false. change (byte_eqb quote x5b) with false. change (byte_eqb quote quote) with true. cbn iota. rewrite E. reflexivity.
    - intros t z H B n r L O. destruct n as [|n]; [lia|]. apply read_numeric; [apply numeric_int|]; assumption.
    - intros t z H B n r L O. destruct n as [|n]; [lia|]. apply read_numeric; [apply numeric_uint|]; assumption.
    - intros t z H B n r L O. destruct n as [|n]; [lia|]. apply read_numeric; [eapply numeric_huge|]; eassumption.
    - intros t H n r L O. destruct n as [|n]; [lia|]. apply read_numeric; [apply numeric_double|]; assumption.
    - intros n r L O. destruct n as [|n]; [lia|]. reflexivity.
    - intros n r L O. destruct n as [|n]; [lia|]. reflexivity.
    - intros n r L O. destruct n as [|n]; [lia|]. reflexivity.
    - intros w1 kt k w2 w3 t d w4 W1 K W2 W3 H IH W4 n m r L L2. destruct m as [|m]; [lia|].
      rewrite <- !app_assoc. cbn [app]. rewrite <- !app_assoc. destruct (read_string_at kt k (w2 ++ x3a :: w3 ++ t ++ w4 ++ x7d :: r) K) as (q & E & R).
      cbn [read_members]. rewrite skip_white; [|exact W1|rewrite E; apply not_space; reflexivity]. rewrite E.
      change (byte_eqb quote quote) with true. cbn iota. rewrite R.
      rewrite skip_white; [|exact W2|apply not_space; reflexivity]. change (byte_eqb x3a x3a) with true. cbn iota.
      rewrite skip_white; [|exact W3|eapply strict_start; exact H]. rewrite IH; [|len|apply open_white; [exact W4|reflexivity]].
      rewrite skip_white; [reflexivity|exact W4|apply not_space; reflexivity].
    - intros w1 kt k w2 w3 t d w4 u ms W1 K W2 W3 H IH W4 M IHM n m r L L2. destruct m as [|m]; [lia|].
      rewrite <- !app_assoc. cbn [app]. rewrite <- !app_assoc. cbn [app]. destruct (read_string_at kt k (w2 ++ x3a :: w3 ++ t ++ w4 ++ x2c :: u ++ x7d :: r) K) as (q & E & R).
      cbn [read_members]. rewrite skip_white; [|exact W1|rewrite E; apply not_space; reflexivity]. rewrite E.
      change (byte_eqb quote quote) with true. cbn iota. rewrite R.
      rewrite skip_white; [|exact W2|apply not_space; reflexivity]. change (byte_eqb x3a x3a) with true. cbn iota.
      rewrite skip_white; [|exact W3|eapply strict_start; exact H]. rewrite IH; [|len|apply open_white; [exact W4|reflexivity]].
      rewrite skip_white; [|exact W4|apply not_space; reflexivity]. change (byte_eqb x2c x7d) with false. change (byte_eqb x2c x2c) with true. cbn iota.
      rewrite IHM by len. reflexivity.
    - intros w1 t d w2 W1 H IH W2 n m r L L2. destruct m as [|m]; [lia|]. rewrite <- !app_assoc. cbn [read_elements].
      rewrite skip_white; [|exact W1|eapply strict_start; exact H]. rewrite IH; [|len|apply open_white; [exact W2|reflexivity]].
      rewrite skip_white; [reflexivity|exact W2|apply not_space; reflexivity].
    - intros w1 t d w2 u ds W1 H IH W2 M IHM n m r L L2. destruct m as [|m]; [lia|]. rewrite <- !app_assoc. cbn [app]. cbn [read_elements].
      rewrite skip_white; [|exact W1|eapply strict_start; exact H]. rewrite IH; [|len|apply open_white; [exact W2|reflexivity]].
      rewrite skip_white; [|exact W2|apply not_space; reflexivity]. change (byte_eqb x2c x5d) with false. change (byte_eqb x2c x2c) with true. cbn iota.
      rewrite IHM by len. reflexivity.
  Qed.

  Lemma members_sound n : (forall t d r, read_value rd n t = Some (d, r) -> exists u, t = u ++ r /\ strict rd u d) ->
    forall m t ms r, read_members (read_value rd n) m t = Some (ms, r) -> exists u, t = u ++ x7d :: r /\ strict_members rd u ms.
  Proof.
    intros IHv. induction m as [|m IHm]; [discriminate|]. intros t ms r E. cbn [read_members] in E. destruct (skip_split t) as (w1 & W1 & S1 & _). destruct (skip t) as [|q t1]; [discriminate|].
      destruct (byte_eqb_spec q quote) as [->|]; [|discriminate]. destruct (read_chars t1) as [[k t2]|] eqn:R; [|discriminate].
      destruct (read_chars_sound _ _ _ _ (Nat.lt_succ_diag_r _) R) as (c & -> & CH).
      destruct (skip_split t2) as (w2 & W2 & S2 & _). destruct (skip t2) as [|x t3]; [discriminate|].
      destruct (byte_eqb_spec x x3a) as [->|]; [|discriminate]. destruct (skip_split t3) as (w3 & W3 & S3 & _).
      destruct (read_value rd n (skip t3)) as [[d t4]|] eqn:V; [|discriminate]. destruct (IHv _ _ _ V) as (u & Eu & H).
      destruct (skip_split t4) as (w4 & W4 & S4 & _). destruct (skip t4) as [|e t5]; [discriminate|].
      assert (K : string_text (quote :: c ++ [quote]) k) by (exists c; split; [reflexivity|exact CH]).
      destruct (byte_eqb_spec e x7d) as [->|].
      + injection E as <- <-. exists (w1 ++ (quote :: c ++ [quote]) ++ w2 ++ x3a :: w3 ++ u ++ w4).
        split; [|apply strict_member; assumption]. rewrite S1, S2, S3, Eu, S4. repeat (progress (rewrite <- ?app_assoc; cbn [app])). reflexivity.
      + destruct (byte_eqb_spec e x2c) as [->|]; [|discriminate]. destruct (read_members (read_value rd n) m t5) as [[ms' r']|] eqn:M; [|discriminate].
        injection E as <- <-. destruct (IHm _ _ _ M) as (u2 & -> & HM).
        exists (w1 ++ (quote :: c ++ [quote]) ++ w2 ++ x3a :: w3 ++ u ++ w4 ++ x2c :: u2).
        split; [|apply strict_more_members; assumption]. rewrite S1, S2, S3, Eu, S4. repeat (progress (rewrite <- ?app_assoc; cbn [app])). reflexivity.
  Qed.
  Lemma elements_sound n : (forall t d r, read_value rd n t = Some (d, r) -> exists u, t = u ++ r /\ strict rd u d) ->
    forall m t ds r, read_elements (read_value rd n) m t = Some (ds, r) -> exists u, t = u ++ x5d :: r /\ strict_elements rd u ds.
  Proof.
    intros IHv. induction m as [|m IHe]; [discriminate|]. intros t ds r E. cbn [read_elements] in E. destruct (skip_split t) as (w1 & W1 & S1 & _).
      destruct (read_value rd n (skip t)) as [[d t4]|] eqn:V; [|discriminate]. destruct (IHv _ _ _ V) as (u & Eu & H).
      destruct (skip_split t4) as (w4 & W4 & S4 & _). destruct (skip t4) as [|e t5]; [discriminate|].
      destruct (byte_eqb_spec e x5d) as [->|].
      + injection E as <- <-. exists (w1 ++ u ++ w4).
        split; [|apply strict_element; assumption]. rewrite S1, Eu, S4, <- !app_assoc. reflexivity.
      + destruct (byte_eqb_spec e x2c) as [->|]; [|discriminate]. destruct (read_elements (read_value rd n) m t5) as [[ms' r']|] eqn:M; [|discriminate].
        injection E as <- <-. destruct (IHe _ _ _ M) as (u2 & -> & HM).
        exists (w1 ++ u ++ w4 ++ x2c :: u2).
        split; [|apply strict_more_elements; assumption]. rewrite S1, Eu, S4, <- !app_assoc. reflexivity.
  Qed.

  Theorem read_sound n : forall t d r, read_value rd n t = Some (d, r) -> exists u, t = u ++ r /\ strict rd u d.
  Proof.
    induction n as [|n IHv]; [discriminate|]. intros t d r E. destruct t as [|c t]; [discriminate|]. cbn [read_value] in E.
      destruct (byte_eqb_spec c x7b) as [->|N1].
      { destruct (skip_split t) as (w & W & S & _). destruct (skip t) as [|x q]; [discriminate|]. destruct (byte_eqb_spec x x7d) as [->|].
        - injection E as <- <-. exists (x7b :: w ++ [x7d]). split; [rewrite S; cbn [app]; rewrite <- app_assoc; reflexivity|]. constructor. exact W.
        - destruct (read_members (read_value rd n) n t) as [[ms r']|] eqn:M; [|discriminate]. injection E as <- <-. destruct (members_sound n IHv _ _ _ _ M) as (u & -> & H).
          exists (x7b :: u ++ [x7d]). split; [cbn [app]; rewrite <- app_assoc; reflexivity|]. constructor. exact H. }
      destruct (byte_eqb_spec c x5b) as [->|N2].
      { destruct (skip_split t) as (w & W & S & _). destruct (skip t) as [|x q]; [discriminate|]. destruct (byte_eqb_spec x x5d) as [->|].
        - injection E as <- <-. exists (x5b :: w ++ [x5d]). split; [rewrite S; cbn [app]; rewrite <- app_assoc; reflexivity|]. constructor. exact W.
        - destruct (read_elements (read_value rd n) n t) as [[ms r']|] eqn:M; [|discriminate]. injection E as <- <-. destruct (elements_sound n IHv _ _ _ _ M) as (u & -> & H).
          exists (x5b :: u ++ [x5d]). split; [cbn [app]; rewrite <- app_assoc; reflexivity|]. constructor. exact H. }
      destruct (byte_eqb_spec c quote) as [->|N3].
      { destruct (read_chars t) as [[s r']|] eqn:R; [|discriminate]. injection E as <- <-.
        destruct (read_chars_sound _ _ _ _ (Nat.lt_succ_diag_r _) R) as (q & -> & H). exists (quote :: q ++ [quote]).
        split; [cbn [app]; rewrite <- app_assoc; reflexivity|]. constructor. exists q. split; [reflexivity|exact H]. }
      destruct (byte_eqb_spec c x74) as [->|N4].
      { destruct (literal (lit "true") (x74 :: t)) as [r'|] eqn:R; [|discriminate]. injection E as <- <-. apply literal_sound in R.
        exists (lit "true"). split; [exact R|constructor]. }
      destruct (byte_eqb_spec c x66) as [->|N5].
      { destruct (literal (lit "false") (x66 :: t)) as [r'|] eqn:R; [|discriminate]. injection E as <- <-. apply literal_sound in R.
        exists (lit "false"). split; [exact R|constructor]. }
      destruct (byte_eqb_spec c x6e) as [->|N6].
      { destruct (literal (lit "null") (x6e :: t)) as [r'|] eqn:R; [|discriminate]. injection E as <- <-. apply literal_sound in R.
        exists (lit "null"). split; [exact R|constructor]. }
      destruct (span numberb (c :: t)) as [a r'] eqn:S. destruct (read_number rd a) as [d'|] eqn:R; [|discriminate]. injection E as <- <-.
      apply span_split in S. destruct S as (S & _ & _). exists a. split; [exact S|]. apply numeric_strict, read_number_spec. exact R.
  Qed.

  Theorem read_text_spec t d : read_text rd t = Some d <-> json_document rd t d.
  Proof.
    unfold read_text. split.
    - destruct (skip_split t) as (w1 & W1 & S1 & _). destruct (read_value rd (S (List.length t)) (skip t)) as [[d' r]|] eqn:V; [|discriminate].
      destruct (read_sound _ _ _ _ V) as (u & Eu & H). destruct (skip_split r) as (w2 & W2 & S2 & _). intros E.
      exists w1, u, w2. destruct (skip r) as [|c q].
      + injection E as <-. split; [exact W1|]. split; [exact H|]. split; [exact W2|]. left. rewrite S1, Eu, S2, app_nil_r. reflexivity.
      + destruct (byte_eqb_spec c x00) as [->|]; [|discriminate]. injection E as <-. split; [exact W1|]. split; [exact H|]. split; [exact W2|].
        right. exists q. rewrite S1, Eu, S2. reflexivity.
    - intros (w1 & u & w2 & W1 & H & W2 & E).
      assert (G : exists r, t = w1 ++ u ++ r /\ open_end r /\ match skip r with [] => True | c :: _ => c = x00 end).
      { destruct E as [->|(q & ->)].
        - exists w2. split; [reflexivity|]. split; [|rewrite skip_all by exact W2; exact Logic.I].
          destruct W2 as [|x w X W]; [exact (fun x => x)|]. unfold open_end. cbn [starts]. destruct X as [<-|[<-|[<-|[<-|[]]]]]; discriminate.
        - exists (w2 ++ x00 :: q). split; [reflexivity|]. split; [apply open_white; [exact W2|reflexivity]|].
          rewrite skip_white; [reflexivity|exact W2|apply not_space; reflexivity]. }
      destruct G as (r & -> & O & Q). rewrite skip_white; [|exact W1|eapply strict_start; exact H].
      rewrite (proj1 read_complete u d H); [|rewrite !app_length; lia|exact O]. destruct (skip r) as [|c q]; [reflexivity|]. rewrite Q. reflexivity.
  Qed.
End Reader.
