(** Properties of conversion between packets and C++ values: C36 (integers), C37
    (containers round trip), C38 (comparison is exact). *)

From Coq Require Import ZArith List Bool Lia String Sorted Permutation.
From Verif Require Import Base BaseFacts Keys KeysFacts Dec SpecDec Wire Spec SpecCmp Ordered HeapOps HeapFacts Compare
  SpecConv Float Conv ConvBase ConvRead ConvNum ConvStore ConvBack ConvSelf ConvExact SpecJson.
Import ListNotations.
Open Scope string_scope.
Open Scope list_scope.
Open Scope Z_scope.

(** ** C36 *)

(** Every integer type of at most 64 bits, every value of it. *)
Theorem c36_exact i z : (1 <= it_bytes i <= 8)%nat -> in_range i z ->
  exists w, to_dart (TInt i) (CInt z) = Ok (VInt w) /\ - 2 ^ 63 <= w < 2 ^ 63 /\
    (z < 2 ^ 63 -> w = z) /\ (2 ^ 63 <= z -> w = z - 2 ^ 64) /\
    from_dart (TInt i) (VInt w) = Ok (CInt z) /\ cmp (TInt i) (VInt w) (CInt z) = Ok true.
Proof.
  intros Hi Hz. exists (conv int64 z). destruct (conv64 z) as [R C]. split; [reflexivity|]. split; [exact R|].
  assert (B : - 2 ^ 63 <= z < 2 ^ 64).
  { assert (Q : it_bits i <= 64) by (unfold it_bits; lia). assert (P : 1 <= it_bits i) by (unfold it_bits; lia).
    pose proof (Z.pow_le_mono_r 2 (it_bits i) 64 ltac:(lia) Q). pose proof (Z.pow_le_mono_r 2 (it_bits i - 1) 63 ltac:(lia) ltac:(lia)).
    unfold in_range in Hz. destruct (it_signed i); lia. }
  apply Z.mod_divide in C; [|lia]. destruct C as (q & C).
  split; [intros; nia|]. split; [intros; nia|].
  cbn [from_dart cmp]. rewrite conv_back, Z.eqb_refl by assumption. auto.
Qed.
Print Assumptions c36_exact.

(** Reading an integer as any type gives the value of that type it is congruent to. *)
Theorem c36_narrow i z : (1 <= it_bytes i <= 8)%nat ->
  exists z', from_dart (TInt i) (VInt z) = Ok (CInt z') /\ in_range i z' /\ (z' - z) mod 2 ^ it_bits i = 0.
Proof. intros Hi. exists (conv i z). cbn [from_dart]. split; auto. split; [apply conv_range | apply conv_cong]; lia. Qed.
Print Assumptions c36_narrow.
(** A type that has the value gives the value. *)
Theorem c36_wide_enough i z : (1 <= it_bytes i <= 8)%nat -> in_range i z -> from_dart (TInt i) (VInt z) = Ok (CInt z).
Proof.
  intros Hi Hz. cbn [from_dart]. rewrite (conv_mult i z z); auto; [lia|]. rewrite Z.sub_diag. apply Z.mod_0_l.
  apply Z.pow_nonzero; unfold it_bits; lia.
Qed.
Print Assumptions c36_wide_enough.

Definition i8 := mk_ity 1 true.
Definition u8 := mk_ity 1 false.
Definition u16 := mk_ity 2 false.
Definition u64 := mk_ity 8 false.
Example c36_case : in_range u64 (2 ^ 64 - 3) /\ to_dart (TInt u64) (CInt (2 ^ 64 - 3)) = Ok (VInt (-3)) /\
  from_dart (TInt u64) (VInt (-3)) = Ok (CInt (2 ^ 64 - 3)) /\ from_dart (TInt i8) (VInt 300) = Ok (CInt 44).
Proof. split; [unfold in_range; cbn; lia|]. split; [|split]; vm_compute; reflexivity. Qed.
(** The packet made of the largest unsigned value is the integer -1: it compares equal
    to both. *)
Theorem c36_sign_refuted : exists v, to_dart (TInt u64) (CInt (2 ^ 64 - 1)) = Ok v /\
  cmp (TInt u64) v (CInt (2 ^ 64 - 1)) = Ok true /\ cmp (TInt int64) v (CInt (-1)) = Ok true.
Proof. exists (VInt (-1)). split; [|split]; vm_compute; reflexivity. Qed.
Print Assumptions c36_sign_refuted.

(** ** C37 *)

(** Converting and converting back. *)
Theorem c37_round_trip t c v : sound t -> has t c -> everywhere keyed t c -> everywhere told_apart t c ->
  to_dart t c = Ok v -> exists c', from_dart t v = Ok c' /\ alike t c c'.
Proof. intros S. apply round_trip. exact S. Qed.
Print Assumptions c37_round_trip.
(** The packet equals what it was made from. *)
Theorem c37_self_compare t c v : has t c -> everywhere keyed t c -> everywhere self_equal t c ->
  to_dart t c = Ok v -> cmp t v c = Ok true.
Proof. apply self_compare. Qed.
Print Assumptions c37_self_compare.
(** What the packet is. *)
Theorem c37_stored t c v : to_dart t c = Ok v -> has t c -> everywhere keyed t c -> stored t c v.
Proof. apply to_dart_stored. Qed.
Print Assumptions c37_stored.
(** There is one whenever keys are short strings. *)
Theorem c37_converts t c : has t c -> everywhere texted t c -> exists v, to_dart t c = Ok v.
Proof. apply to_dart_ok. Qed.
Print Assumptions c37_converts.
(** Which packets can be read as a type; the others are refused with type_error. *)
Theorem c37_reads t v :
  (reads t v -> exists c, from_dart t v = Ok c) /\ (~ reads t v -> from_dart t v = Throw type_error).
Proof.
  split; [apply reads_ok|]. intros H. destruct (tame_from t v) as [X|X]; [|exact X]. apply reads_ok in X. tauto.
Qed.
Print Assumptions c37_reads.

(** A case with most kinds of type in it: a map of tuples, an unordered multimap, a
    set, a forward list of arrays. *)
Fixpoint before (a b : str) : bool :=
  match a, b with
  | [], _ :: _ => true
  | x :: a', y :: b' => (b2z x <? b2z y) || ((b2z x =? b2z y) && before a' b')
  | _, _ => false
  end.
Definition less (x y : cval) : bool :=
  match x, y with CStr a, CStr b => before a b | CInt a, CInt b => a <? b | _, _ => false end.
Definition same_text (x y : cval) : bool := match x, y with CStr a, CStr b => sv_eqb a b | _, _ => false end.
Definition entry : cty := TTup [TInt i8; TOpt TDouble; TVar [TInt int64; TStr]].
Definition big : cty :=
  TPair (TMap (Ordered less) TStr entry)
        (TTup [TMulti (Hashed same_text same_text) TStr TFloat; TSet (Ordered less) false (TInt u16); TSeq Fwd (TSeq (Arr 2) TBool)]).
Definition half : Z := 1022 * 2 ^ 52.
Definition third32 : Z := 127 * 2 ^ 23 + 5.
Definition entries : list (cval * cval) :=
  [(CStr (lit "ab"), CList [CInt (-7); COpt (Some (CDouble half)); CVar 1 (CStr (lit "x"))]);
   (CStr (lit "b"), CList [CInt 100; COpt None; CVar 0 (CInt (2 ^ 40))])].
Definition marks : list (cval * cval) :=
  [(CStr (lit "q"), CFloat third32); (CStr (lit "q"), CFloat 0); (CStr (lit "a"), CFloat (2 ^ 31))].
Definition big_value : cval :=
  CList [CMap entries;
         CList [CMap marks; CList [CInt 3; CInt 65535]; CList [CList [CBool true; CBool false]; CList [CBool true; CBool true]]]].
Definition big_packet : value :=
  VArr [VObj [(lit "b", VArr [VInt 100; VNull; VInt (2 ^ 40)]); (lit "ab", VArr [VInt (-7); VDec half; VStr (lit "x")])];
        VArr [VObj [(lit "a", VArr [VDec (2 ^ 63)]); (lit "q", VArr [VDec (1023 * 2 ^ 52 + 5 * 2 ^ 29); VDec 0])];
              VArr [VInt 3; VInt 65535];
              VArr [VArr [VBool true; VBool false]; VArr [VBool true; VBool true]]]].

Lemma text_stored s v : stored TStr (CStr s) v -> v = VStr s.
Proof. intros (s' & [= <-] & ->). auto. Qed.
Ltac bits := first [lia | (unfold in_range; cbn; lia) | (vm_compute; reflexivity)].
Lemma big_has : has big big_value.
Proof.
  eexists _, _. split; [reflexivity|]. split.
  - exists entries. split; [reflexivity|]. split; [bits|]. split.
    + constructor; [|constructor; [|constructor]].
      all: split; [eexists; reflexivity|]; eexists; split; [reflexivity|]; split; [bits|].
      * split; [eexists; split; [reflexivity|]; split; bits|].
        split; [right; eexists; split; [reflexivity|]; eexists; split; [reflexivity|]; vm_compute; split; [discriminate|reflexivity]|].
        split; [|exact I]. exists 1%nat. eexists. split; [reflexivity|]. eexists. reflexivity.
      * split; [eexists; split; [reflexivity|]; split; bits|]. split; [left; reflexivity|].
        split; [|exact I]. exists O. eexists. split; [reflexivity|]. eexists. split; [reflexivity|]. split; bits.
    + split; [|discriminate]. split.
      * constructor; [constructor; constructor|]. constructor; [|constructor]. split; reflexivity.
      * constructor; [reflexivity|constructor; [reflexivity|constructor]].
  - eexists. split; [reflexivity|]. split; [bits|]. split; [|split; [|split; [|exact I]]].
    + exists marks. split; [reflexivity|]. split; [bits|]. split.
      * constructor; [|constructor; [|constructor; [|constructor]]]; (split; [eexists; reflexivity|]); eexists; (split; [reflexivity|]);
          vm_compute; (split; [discriminate|reflexivity]).
      * split; [discriminate|]. intros _ i j k x y z L X Y Z.
        destruct i as [|[|[|i]]]; try (cbn in X; destruct i; discriminate);
        destruct j as [|[|[|j]]]; try (cbn in Y; destruct j; discriminate);
        destruct k as [|[|[|k]]]; try (cbn in Z; destruct k; discriminate); try lia.
        injection X as <-. injection Y as <-. injection Z as <-. reflexivity.
    + eexists. split; [reflexivity|]. split; [bits|]. split.
      * constructor; [|constructor; [|constructor]]; eexists; (split; [reflexivity|]); split; bits.
      * split; [|discriminate]. split.
        -- constructor; [constructor; constructor|]. constructor; [|constructor]. split; reflexivity.
        -- constructor; [reflexivity|constructor; [reflexivity|constructor]].
    + eexists. split; [reflexivity|]. split; [bits|]. split; [|exact I].
      constructor; [|constructor; [|constructor]]; eexists; (split; [reflexivity|]); (split; [bits|]); (split; [|split; [reflexivity|discriminate]]);
        (constructor; [|constructor; [|constructor]]); eexists; reflexivity.
Qed.

(** What holds everywhere in it. *)
Lemma big_everywhere (P : cty -> cval -> Prop) :
  (forall t c, match t with TMap _ _ _ | TMulti _ _ _ | TOpt _ | TVar _ | TDouble | TFloat => True | _ => P t c end) ->
  P (TMap (Ordered less) TStr entry) (CMap entries) ->
  P (TMulti (Hashed same_text same_text) TStr TFloat) (CMap marks) ->
  P (TOpt TDouble) (COpt None) -> P (TOpt TDouble) (COpt (Some (CDouble half))) -> P TDouble (CDouble half) ->
  (forall f, In f [third32; 0; 2 ^ 31] -> P TFloat (CFloat f)) ->
  P (TVar [TInt int64; TStr]) (CVar 1 (CStr (lit "x"))) -> P (TVar [TInt int64; TStr]) (CVar 0 (CInt (2 ^ 40))) ->
  everywhere P big big_value.
Proof.
  intros A M U N S D F V1 V0.
  assert (A' : forall t c, match t with TInt _ | TStr | TBool => everywhere P t c | _ => True end).
  { intros t c. pose proof (A t c). destruct t; auto; split; auto. }
  split; [apply (A (TPair _ _))|]. intros x y E. injection E as <- <-. split.
  - split; [exact M|]. intros l E. injection E as <-. constructor; [|constructor; [|constructor]].
    all: split; [apply (A' TStr)|]; split; [apply (A (TTup _))|]; intros l E; injection E as <-.
    + split; [apply (A' (TInt _))|]. split; [|split; [|exact I]].
      * split; [exact S|]. intros x E. injection E as <-. split; auto.
      * split; [exact V1|]. intros i x E. injection E as <- <-. apply (A' TStr).
    + split; [apply (A' (TInt _))|]. split; [|split; [|exact I]].
      * split; [exact N|]. discriminate.
      * split; [exact V0|]. intros i x E. injection E as <- <-. apply (A' (TInt _)).
  - split; [apply (A (TTup _))|]. intros l E. injection E as <-. split; [|split; [|split; [|exact I]]].
    + split; [exact U|]. intros l E. injection E as <-.
      constructor; [|constructor; [|constructor; [|constructor]]]; (split; [apply (A' TStr)|]); (split; [|exact I]); apply F; cbn; auto.
    + split; [apply (A (TSet _ _ _))|]. intros l E. injection E as <-. constructor; [|constructor; [|constructor]]; apply (A' (TInt _)).
    + split; [apply (A (TSeq _ _))|]. intros l E. injection E as <-.
      constructor; [|constructor; [|constructor]]; (split; [apply (A (TSeq _ _))|]); intros l E; injection E as <-;
        (constructor; [|constructor; [|constructor]]); apply (A' TBool).
Qed.

Lemma big_keyed : everywhere keyed big big_value.
Proof.
  apply big_everywhere; try exact I.
  - intros t c. destruct t; exact I.
  - intros l E. injection E as <-. constructor; [|constructor; [constructor|constructor]].
    constructor; [|constructor]. intros s [A B]. apply text_stored in A, B. cbn in A, B. congruence.
  - intros l E. injection E as <-. intros p q Hp Hq. cbn in Hp, Hq.
    destruct Hp as [<-|[<-|[<-|[]]]], Hq as [<-|[<-|[<-|[]]]]; cbn [fst equiv same_text].
    all: split; [intros E; try (vm_compute in E; discriminate); eexists; split; eexists; split; reflexivity|].
    all: intros (s & A & B); apply text_stored in A, B; try (vm_compute; reflexivity); exfalso; congruence.
  - intros f _. exact I.
Qed.
Lemma big_told_apart : everywhere told_apart big big_value.
Proof.
  apply big_everywhere; try exact I.
  - intros t c. destruct t; exact I.
  - intros x E. discriminate.
  - intros x E. injection E as <-. intros (d & _ & E). discriminate.
  - intros f _. exact I.
  - intros i x a v E Ea S j b L Eb R. injection E as <- <-. injection Ea as <-. destruct j as [|]; [|lia]. injection Eb as <-.
    apply text_stored in S. subst. destruct R as (z & R). discriminate.
  - intros i x a v E Ea S j b L. injection E as <- <-. lia.
Qed.
Lemma big_self_equal : everywhere self_equal big big_value.
Proof.
  apply big_everywhere; try exact I.
  - intros t c. destruct t; exact I.
  - intros l E. auto.
  - intros d E. injection E as <-. vm_compute. discriminate.
  - intros f Hf g E. injection E as <-. cbn in Hf. destruct Hf as [<-|[<-|[<-|[]]]]; vm_compute; discriminate.
Qed.
Lemma big_texted : everywhere texted big big_value.
Proof.
  apply big_everywhere; try exact I.
  - intros t c. destruct t; exact I.
  - intros l E. injection E as <-. constructor; [|constructor; [|constructor]]; eexists; (split; [eexists; split; reflexivity|]); vm_compute; discriminate.
  - intros l E. injection E as <-.
    constructor; [|constructor; [|constructor; [|constructor]]]; eexists; (split; [eexists; split; reflexivity|]); vm_compute; discriminate.
  - intros f _. exact I.
Qed.
Lemma big_sound : sound big.
Proof.
  split; [|split; [|split; [|split; [|exact I]]]].
  - split; [exact I|]. split; [exact I|]. split; [exact I|]. split; [|exact I]. split; [exact I|]. split; exact I.
  - split; exact I.
  - split; [exact I|]. intros x x' y y' A B. cbn in A, B. subst. reflexivity.
  - exact I.
Qed.
(** The hashed multimap comes back in another order of iteration. *)
Example c37_case : to_dart big big_value = Ok big_packet /\ cmp big big_packet big_value = Ok true /\
  from_dart big big_packet =
    Ok (CList [CMap entries;
               CList [CMap [(CStr (lit "a"), CFloat (2 ^ 31)); (CStr (lit "q"), CFloat third32); (CStr (lit "q"), CFloat 0)];
                      CList [CInt 3; CInt 65535]; CList [CList [CBool true; CBool false]; CList [CBool true; CBool true]]]]).
Proof. split; [|split]; vm_compute; reflexivity. Qed.
Example c37_hypotheses : has big big_value /\ sound big /\ everywhere keyed big big_value /\ everywhere told_apart big big_value /\
  everywhere self_equal big big_value /\ everywhere texted big big_value.
Proof. auto 10 using big_has, big_sound, big_keyed, big_told_apart, big_self_equal, big_texted. Qed.

(** Without the restrictions. *)
(** An optional that holds an empty optional, or a null, comes back empty. *)
Theorem c37_optional_refuted :
  has (TOpt (TOpt TBool)) (COpt (Some (COpt None))) /\ has (TOpt TNull) (COpt (Some CNull)) /\
  (v <- to_dart (TOpt (TOpt TBool)) (COpt (Some (COpt None))) ;; from_dart (TOpt (TOpt TBool)) v) = Ok (COpt None) /\
  (v <- to_dart (TOpt TNull) (COpt (Some CNull)) ;; from_dart (TOpt TNull) v) = Ok (COpt None).
Proof.
  split; [right; eexists; split; [reflexivity|]; left; reflexivity|].
  split; [right; eexists; split; [reflexivity|]; reflexivity|]. split; reflexivity.
Qed.
Print Assumptions c37_optional_refuted.
(** A variant comes back as its first alternative that can be read at all: with bool
    first always a bool, with a narrow integer first that, reduced. *)
Theorem c37_variant_refuted :
  has (TVar [TBool; TStr]) (CVar 1 (CStr (lit "no"))) /\ has (TVar [TInt i8; TInt int64]) (CVar 1 (CInt 300)) /\
  (v <- to_dart (TVar [TBool; TStr]) (CVar 1 (CStr (lit "no"))) ;; from_dart (TVar [TBool; TStr]) v) = Ok (CVar 0 (CBool true)) /\
  (v <- to_dart (TVar [TInt i8; TInt int64]) (CVar 1 (CInt 300)) ;; from_dart (TVar [TInt i8; TInt int64]) v) = Ok (CVar 0 (CInt 44)).
Proof.
  split; [exists 1%nat; eexists; split; [reflexivity|]; eexists; reflexivity|].
  split; [exists 1%nat; eexists; split; [reflexivity|]; eexists; split; [reflexivity|]; split; bits|].
  split; vm_compute; reflexivity.
Qed.
Print Assumptions c37_variant_refuted.
(** A map whose keys are not strings can not be converted, nor, unless it is empty or
    of another size, compared. *)
Theorem c37_integer_keys_refuted o :
  let t := TMap o (TInt int64) TBool in
  arranged o false [CInt 5] -> has t (CMap [(CInt 5, CBool true)]) /\
  to_dart t (CMap [(CInt 5, CBool true)]) = Throw type_error /\
  cmp t (VObj [(lit "5", VBool true)]) (CMap [(CInt 5, CBool true)]) = Throw type_error.
Proof.
  intros t A. split; [|split; reflexivity]. eexists. split; [reflexivity|]. split; [bits|]. split; [|exact A].
  constructor; [|constructor]. split; [eexists; split; [reflexivity|]; split; bits | eexists; reflexivity].
Qed.
Print Assumptions c37_integer_keys_refuted.
(** A hashed multimap whose own equality is coarser than the == of its keys: it is
    kept in one array, and does not equal it. *)
Definition fold_case (x y : cval) : bool :=
  match x, y with CStr (a :: _), CStr (b :: _) => b2z a mod 32 =? b2z b mod 32 | _, _ => false end.
Theorem c37_coarse_equality_refuted :
  let t := TMulti (Hashed fold_case same_text) TStr TBool in
  let c := CMap [(CStr (lit "k"), CBool true); (CStr (lit "K"), CBool true)] in
  has t c /\ to_dart t c = Ok (VObj [(lit "k", VArr [VBool true; VBool true])]) /\
  cmp t (VObj [(lit "k", VArr [VBool true; VBool true])]) c = Ok false.
Proof.
  split; [|split; vm_compute; reflexivity].
  eexists. split; [reflexivity|]. split; [bits|]. split.
  - constructor; [|constructor; [|constructor]]; split; eexists; reflexivity.
  - split; [discriminate|]. intros _ i j k x y z L X Y Z. destruct k as [|[|k]]; [lia|lia|]. destruct k; discriminate.
Qed.
Print Assumptions c37_coarse_equality_refuted.

(** ** C38 *)

(** A comparison holds exactly when the container converts to an equal value. *)
Theorem c38_exact t v c w : exact t -> has t c -> everywhere keyed t c -> to_dart t c = Ok w ->
  heap_value v -> unmixed v w -> no_null_members w ->
  exists b, cmp t v c = Ok b /\ (b = true <-> content_eq v w).
Proof. intros X. apply compare_exact. exact X. Qed.
Print Assumptions c38_exact.
(** With a forward_list so long as the packet is not longer; a longer packet is read
    against elements past the end of the list as soon as the rest agrees. *)
Theorem c38_forward_list a ws l us : exact a ->
  has (TSeq Fwd a) (CList l) -> everywhere keyed (TSeq Fwd a) (CList l) -> to_dart (TSeq Fwd a) (CList l) = Ok (VArr us) ->
  heap_value (VArr ws) -> unmixed (VArr ws) (VArr us) -> no_null_members (VArr us) ->
  ((List.length ws <= List.length l)%nat ->
     exists b, cmp (TSeq Fwd a) (VArr ws) (CList l) = Ok b /\ (b = true <-> content_eq (VArr ws) (VArr us))) /\
  ((List.length l < List.length ws)%nat ->
     (Forall2 content_eq (firstn (List.length l) ws) us -> cmp (TSeq Fwd a) (VArr ws) (CList l) = Oob) /\
     (~ Forall2 content_eq (firstn (List.length l) ws) us -> cmp (TSeq Fwd a) (VArr ws) (CList l) = Ok false)).
Proof. apply fwd_exact. Qed.
Print Assumptions c38_forward_list.
(** With a multimap, keys that it does not have are not looked at. *)
Theorem c38_multimap_blind o k x fs gs l :
  StronglySorted key_lt (map fst fs) -> StronglySorted key_lt (map fst gs) ->
  (forall p s, In p l -> to_dart k (fst p) = Ok (VStr s) -> lookup s fs = lookup s gs) ->
  cmp (TMulti o k x) (VObj fs) (CMap l) = cmp (TMulti o k x) (VObj gs) (CMap l).
Proof. apply multi_blind. Qed.
Print Assumptions c38_multimap_blind.

Definition book : cty := TMap (Ordered less) TStr (TSeq Vec (TOpt TDouble)).
Definition book_value : cval := CMap [(CStr (lit "k"), CList [COpt (Some (CDouble half)); COpt None]); (CStr (lit "m"), CList [])].
Definition book_packet : value := VObj [(lit "k", VArr [VDec half; VNull]); (lit "m", VArr [])].
Definition other_packet : value := VObj [(lit "k", VArr [VDec half; VNull]); (lit "n", VArr [])].
Lemma book_has : has book book_value /\ everywhere keyed book book_value.
Proof.
  split.
  - eexists. split; [reflexivity|]. split; [bits|]. split.
    + constructor; [|constructor; [|constructor]]; (split; [eexists; reflexivity|]); eexists; (split; [reflexivity|]); (split; [bits|]); (split; [|exact I]).
      * constructor; [|constructor; [left; reflexivity|constructor]]. right. eexists. split; [reflexivity|]. eexists. split; [reflexivity|].
        vm_compute. split; [discriminate|reflexivity].
      * constructor.
    + split; [|discriminate]. split.
      * constructor; [constructor; constructor|]. constructor; [|constructor]. split; reflexivity.
      * constructor; [reflexivity|constructor; [reflexivity|constructor]].
  - split.
    + intros l E. injection E as <-. constructor; [|constructor; [constructor|constructor]].
      constructor; [|constructor]. intros s [A B]. apply text_stored in A, B. cbn in A, B. congruence.
    + intros l E. injection E as <-. constructor; [|constructor; [|constructor]]; (split; [split; exact I|]); (split; [exact I|]); intros l E; injection E as <-.
      * constructor; [|constructor; [|constructor]]; (split; [exact I|]); intros x E; [injection E as <-; split; exact I|discriminate].
      * constructor.
Qed.
Example c38_case :
  exact book /\ to_dart book book_value = Ok book_packet /\ cmp book book_packet book_value = Ok true /\
  cmp book other_packet book_value = Ok false /\ unmixed other_packet book_packet /\ heap_value other_packet /\ no_null_members book_packet.
Proof.
  split; [split; [reflexivity|exact I]|]. split; [vm_compute; reflexivity|]. split; [vm_compute; reflexivity|].
  split; [vm_compute; reflexivity|]. split; [|split].
  - apply um_obj. intros k x y X Y. unfold other_packet, book_packet, lookup in X, Y.
    destruct (list_eq_dec Byte.byte_eq_dec k (lit "k")).
    + injection X as <-. injection Y as <-. apply um_arr. intros i x y X Y. destruct i as [|[|i]]; cbn in X, Y.
      * injection X as <-. injection Y as <-. apply um_other; try (intros a b [A B]; discriminate). intros z d; split; intros [A B]; discriminate.
      * injection X as <-. injection Y as <-. apply um_other; try (intros a b [A B]; discriminate). intros z d; split; intros [A B]; discriminate.
      * destruct i; discriminate.
    + destruct (list_eq_dec Byte.byte_eq_dec k (lit "n")); [|discriminate].
      destruct (list_eq_dec Byte.byte_eq_dec k (lit "m")); [|discriminate]. exfalso. subst. discriminate.
  - constructor.
    + constructor; [constructor; constructor|]. constructor; [|constructor]. apply dart_ltb_key_lt. vm_compute. reflexivity.
    + constructor; [|constructor; [|constructor]]; (split; [vm_compute; discriminate|]).
      * constructor; [exact I|]. constructor; [constructor; vm_compute; split; [discriminate|reflexivity]|]. constructor; [constructor; exact I|constructor].
      * constructor; [exact I|constructor].
  - constructor.
    + intros [E|[E|[]]]; discriminate.
    + constructor; [|constructor; [|constructor]]; (split; [exact I|]); constructor; try exact I.
      * constructor; [constructor; exact I|]. constructor; [constructor; exact I|constructor].
      * constructor.
Qed.

(** Without the restrictions. *)
(** An empty optional under a key equals a packet that has another key instead. *)
Theorem c38_null_member_refuted :
  let t := TMap (Ordered less) TStr (TOpt TBool) in
  let c := CMap [(CStr (lit "a"), COpt None)] in
  to_dart t c = Ok (VObj [(lit "a", VNull)]) /\ cmp t (VObj [(lit "b", VBool true)]) c = Ok true /\
  ~ content_eq (VObj [(lit "b", VBool true)]) (VObj [(lit "a", VNull)]).
Proof.
  split; [vm_compute; reflexivity|]. split; [vm_compute; reflexivity|]. intros H. inversion H as [? ? A B| | | | | |]; subst.
  destruct (A (lit "b") (VBool true)) as (y & Y & _); [vm_compute; reflexivity|]. vm_compute in Y. discriminate.
Qed.
Print Assumptions c38_null_member_refuted.
(** Integers equal decimals, and neighbouring integers one double. *)
Theorem c38_mixed_refuted :
  cmp (TInt int64) (VDec (1023 * 2 ^ 52)) (CInt 1) = Ok true /\ ~ content_eq (VDec (1023 * 2 ^ 52)) (VInt 1) /\
  exists d, cmp TDouble (VInt (2 ^ 53)) (CDouble d) = Ok true /\ cmp TDouble (VInt (2 ^ 53 + 1)) (CDouble d) = Ok true.
Proof.
  split; [vm_compute; reflexivity|]. split; [intros H; inversion H|]. exists (1076 * 2 ^ 52). split; vm_compute; reflexivity.
Qed.
Print Assumptions c38_mixed_refuted.
(** Past the end of a forward_list. *)
Theorem c38_forward_list_refuted :
  has (TSeq Fwd TBool) (CList [CBool true]) /\ cmp (TSeq Fwd TBool) (VArr [VBool true; VBool false]) (CList [CBool true]) = Oob.
Proof.
  split; [|reflexivity]. eexists. split; [reflexivity|]. split; [bits|]. split; [|exact I]. constructor; [eexists; reflexivity|constructor].
Qed.
Print Assumptions c38_forward_list_refuted.
(** Every object equals the empty multimap. *)
Theorem c38_multimap_refuted o k x fs : has (TMulti o k x) (CMap []) -> cmp (TMulti o k x) (VObj fs) (CMap []) = Ok true.
Proof. reflexivity. Qed.
Print Assumptions c38_multimap_refuted.
