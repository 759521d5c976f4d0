(** Properties of comparison: C22 (heap == heap), C23 (heap == buffer and mixed
    packets), C44 (buffer == buffer; equality independent of the form). *)

From Coq Require Import ZArith List Bool Lia String Sorted.
From Verif Require Import Base BaseFacts Keys Dec SpecDec Wire Read Buf Enc Spec ReadFacts BufFacts Canon HeapOps HeapStr HeapStrFacts
  Packet SpecCmp Compare CompareFacts CompareBuf CompareGen Demo.
Import ListNotations.
Open Scope string_scope.
Open Scope list_scope.
Open Scope Z_scope.

(** ** C22 *)

(** [tagged M]: storage [st] has the content [M st], wherever it is referenced.
    [q] says whether the two operands are one variable. *)
Theorem c22_content M q x y : tagged M x -> tagged M y -> (q = true -> x = y) ->
  heap_value (erase x) -> heap_value (erase y) -> nul_free (erase x) -> nan_free (erase x) ->
  (hcmp q x y = true <-> content_eq (erase x) (erase y)).
Proof. intros. apply (hcmp_spec M); assumption. Qed.
Print Assumptions c22_content.

(** Only a lone NaN differs from itself: whatever an aggregate contains, it shares
    its storage with itself. *)
Theorem c22_reflexive x : match x with HDec d => 0 <= d < 2 ^ 64 /\ denote64 d <> FNaN | _ => True end ->
  hcmp false x x = true.
Proof.
  destruct x as [s fs|s vs|s|z|d|b|]; intros N.
  - rewrite hcmp_obj, (Z.eqb_refl s). apply sized_all2. apply forall2_diag. intros a _. unfold hfield. rewrite hcmp_true. reflexivity.
  - rewrite hcmp_arr, (Z.eqb_refl s). apply sized_all2. apply forall2_diag. intros a _. apply hcmp_true.
  - apply str_same_refl.
  - apply Z.eqb_refl.
  - apply ieee_denote; tauto.
  - apply eqb_reflx.
  - reflexivity.
Qed.
Print Assumptions c22_reflexive.
Theorem c22_symmetric q x y : hcmp q x y = hcmp q y x.
Proof. apply hcmp_sym. Qed.
Print Assumptions c22_symmetric.
Theorem c22_transitive M x y z : tagged M x -> tagged M y -> tagged M z ->
  hcmp false x y = true -> hcmp false y z = true -> hcmp false x z = true.
Proof. apply hcmp_trans. Qed.
Print Assumptions c22_transitive.

(** The string comparison above is the one the two layouts compute. *)
Theorem c22_strings s t h g : string_held s h -> string_held t g -> hstring_eqb h g = Ok (str_same s t).
Proof. apply str_same_layouts. Qed.
Print Assumptions c22_strings.

(** Two objects sharing an array, one key apart in storage. *)
Definition c22_shared : hv := HArr 7 [HInt 1; HDec 0; HStr (b "x")].
Definition c22_x : hv := HObj 1 [(b "a", c22_shared); (b "b", HDec 0)].
Definition c22_y : hv := HObj 2 [(b "a", c22_shared); (b "b", HDec (2 ^ 63))].
Definition c22_store (st : Z) : hv := if st =? 1 then c22_x else if st =? 2 then c22_y else c22_shared.
Example c22_case :
  tagged c22_store c22_x /\ tagged c22_store c22_y /\ hcmp false c22_x c22_y = true /\
  hcmp false c22_x (HObj 3 [(b "a", c22_shared)]) = false.
Proof.
  assert (S : tagged c22_store c22_shared) by (apply tg_arr; [reflexivity|repeat apply Forall_cons; try apply Forall_nil; constructor]).
  split; [apply tg_obj; [reflexivity|apply Forall_cons; [exact S|apply Forall_cons; [constructor|apply Forall_nil]]]|].
  split; [apply tg_obj; [reflexivity|apply Forall_cons; [exact S|apply Forall_cons; [constructor|apply Forall_nil]]]|].
  split; vm_compute; reflexivity.
Qed.

(** Without the guards. *)
Definition nan : Z := 2047 * 2 ^ 52 + 1.
Theorem c22_nul_refuted : let s := [x61; x00; x62] in let t := [x61; x00; x63] in
  hcmp false (HStr s) (HStr t) = true /\ ~ content_eq (VStr s) (VStr t).
Proof. split; [vm_compute; reflexivity|]. intros C. inversion C. Qed.
Print Assumptions c22_nul_refuted.
Theorem c22_nan_refuted : hcmp false (HDec nan) (HDec nan) = false.
Proof. vm_compute. reflexivity. Qed.
Print Assumptions c22_nan_refuted.
(** With NaN inside, the answer depends on whether the storage is shared. *)
Theorem c22_sharing_refuted :
  let x := HArr 1 [HDec nan] in let copy := HArr 1 [HDec nan] in let again := HArr 2 [HDec nan] in
  erase copy = erase again /\ hcmp false x copy = true /\ hcmp false x again = false.
Proof. vm_compute. auto. Qed.
Print Assumptions c22_sharing_refuted.

(** ** C23 *)

(** Either operand may be mutable, finalized, or an element deep inside; [null_safe]
    asks for no null members of the mutable operand (of both, if the forms agree). *)
Theorem c23_generic n p q v w : denotes p v -> denotes q w -> (depth v < n)%nat -> (depth w < n)%nat ->
  exists r, gcmp n p q = Ok r /\ (null_safe p q v w -> (r = true <-> content_eq v w)).
Proof. apply gcmp_spec. Qed.
Print Assumptions c23_generic.

Corollary c23_heap_buffer v bs m e w n : heap_value v -> good_all v -> no_null_members v ->
  represents bs m e w -> good_all w -> (depth v < n)%nat -> (depth w < n)%nat ->
  exists r, gcmp n (PHeap v) (PBuf bs m e) = Ok r /\ gcmp n (PBuf bs m e) (PHeap v) = Ok r /\
    (r = true <-> content_eq v w).
Proof.
  intros H G N R GW L L'. pose proof (proj1 R) as HW.
  assert (D : denotes (PHeap v) v) by (split; [assumption|]; split; [assumption|reflexivity]).
  assert (D' : denotes (PBuf bs m e) w) by (split; [assumption|]; split; assumption).
  destruct (gcmp_spec n _ _ _ _ D D' L L') as (r & E & Q). exists r. split; [exact E|]. split.
  - destruct n as [|n]; [lia|]. rewrite gcmp_step in *. cbn [is_finalized] in *. exact E.
  - apply Q. right. right. auto.
Qed.
Print Assumptions c23_heap_buffer.

Example c23_case :
  let v := VObj [(b "a", VArr [VInt 70000; VNull]); (b "z", VObj [(b "s", VStr (b "text"))])] in
  heap_value v /\ good_all v /\ no_null_members v /\
  match finalize v with
  | Ok m => gcmp 4 (PHeap v) (PBuf 8 m root) = Ok true /\
            gcmp 4 (PBuf 8 m root) (PHeap (VObj [(b "a", VArr [VInt 70000; VNull]); (b "z", VObj [(b "s", VStr (b "Text"))])])) = Ok false
  | _ => False
  end.
Proof.
  cbv zeta. split; [|split; [|split]].
  - constructor.
    + cbn [heap_node map fst]. apply SSorted_cons; [apply SSorted_cons; [apply SSorted_nil|apply Forall_nil]|].
      apply Forall_cons; [|apply Forall_nil]. right. split; [reflexivity|]. constructor. vm_compute. reflexivity.
    + apply Forall_cons; [split; [vm_compute; discriminate|]|apply Forall_cons; [split; [vm_compute; discriminate|]|apply Forall_nil]].
      * constructor; [exact I|]. apply Forall_cons; [constructor; cbn [heap_node]; lia|]. apply Forall_cons; [constructor; exact I|apply Forall_nil].
      * constructor; [apply SSorted_cons; [apply SSorted_nil|apply Forall_nil]|]. apply Forall_cons; [split; [vm_compute; discriminate|]|apply Forall_nil].
        constructor. vm_compute. reflexivity.
  - assert (GK : forall c, In c [x61; x7a; x73] -> good_key [c]).
    { intros c I. split; [|split].
      - intros [E|[]]. subst c. destruct I as [I|[I|[I|[]]]]; discriminate I.
      - apply Forall_cons; [|apply Forall_nil]. destruct I as [<-|[<-|[<-|[]]]]; vm_compute; reflexivity.
      - vm_compute. discriminate. }
    constructor; [exact I|]. apply Forall_cons; [split; [apply GK; cbn; tauto|]|apply Forall_cons; [split; [apply GK; cbn; tauto|]|apply Forall_nil]].
    + constructor; [exact I|]. apply Forall_cons; [constructor; exact I|]. apply Forall_cons; [constructor; exact I|apply Forall_nil].
    + constructor; [exact I|]. apply Forall_cons; [split; [apply GK; cbn; tauto|constructor; exact I]|apply Forall_nil].
  - constructor; [intros [X|[X|[]]]; discriminate X|]. apply Forall_cons; [split; [exact I|]|apply Forall_cons; [split; [exact I|]|apply Forall_nil]].
    + constructor; [exact I|]. apply Forall_cons; [constructor; exact I|]. apply Forall_cons; [constructor; exact I|apply Forall_nil].
    + constructor; [intros [X|[]]; discriminate X|]. apply Forall_cons; [split; [exact I|constructor; exact I]|apply Forall_nil].
  - vm_compute. split; reflexivity.
Qed.

(** A missing key reads as null, so a null member can stand for any absent one. *)
Theorem c23_null_refuted :
  let v := VObj [(b "a", VInt 1); (b "c", VNull)] in let w := VObj [(b "a", VInt 1); (b "b", VNull)] in
  let u := VObj [(b "a", VInt 1); (b "b", VInt 2)] in
  ~ content_eq v w /\ ~ content_eq v u /\
  match finalize w, finalize u with
  | Ok m, Ok k => gcmp 4 (PHeap v) (PBuf 0 m root) = Ok true /\ gcmp 4 (PHeap v) (PBuf 0 k root) = Ok true
  | _, _ => False
  end.
Proof.
  cbv zeta. split; [|split; [|vm_compute; split; reflexivity]].
  - intros C. inversion C as [? ? A _| | | | | |]; subst. destruct (A (b "c") VNull) as (y & E & _); [vm_compute; reflexivity|].
    vm_compute in E. discriminate E.
  - intros C. inversion C as [? ? A _| | | | | |]; subst. destruct (A (b "c") VNull) as (y & E & _); [vm_compute; reflexivity|].
    vm_compute in E. discriminate E.
Qed.
Print Assumptions c23_null_refuted.

(** ** C44 *)

(** Finalized elements, at any depth of any two objects finalized by the library,
    in one block or in two, compare equal exactly when they are the same value. *)
Theorem c44_buffers bs fs m p v bs' gs m' q w :
  heap_value (VObj fs) -> heap_value (VObj gs) -> finalize (VObj fs) = Ok m -> finalize (VObj gs) = Ok m' ->
  bs mod 8 = 0 -> bs' mod 8 = 0 -> one_or_apart bs m bs' m' ->
  sub_value (VObj fs) p = Some v -> sub_value (VObj gs) q = Some w ->
  exists e e' r, nav bs m root p = Ok e /\ nav bs' m' root q = Ok e' /\
    represents bs m e v /\ represents bs' m' e' w /\
    bcmp bs m e bs' m' e' = Ok r /\ (r = true <-> v = w).
Proof. apply bcmp_finalized. Qed.
Print Assumptions c44_buffers.

(** Without NaN and the negative zero, equal contents are the same value. *)
Lemma content_same v : forall w, heap_value v -> heap_value w -> one_zero v -> one_zero w -> content_eq v w -> v = w.
Proof.
  induction v as [fs IH|vs IH|s|z|d|b|] using value_ind'; intros w H1 H2 Z1 Z2 C.
  - pose proof C as C'. inversion C' as [? gs| | | | | |]; subst. apply content_obj in C; [|apply heap_sorted; assumption..].
    inversion H1 as [? _ A1| | | | | |]; subst. inversion H2 as [? _ A2| | | | | |]; subst.
    inversion Z1 as [? _ B1| | | | | |]; subst. inversion Z2 as [? _ B2| | | | | |]; subst.
    f_equal. clear - IH C A1 A2 B1 B2. induction C as [|[k x] [j y] fs gs [K X] C IHC]; [reflexivity|].
    apply Forall_cons_iff in IH, A1, A2, B1, B2. destruct IH as [IH0 IH], A1 as [[_ ?] ?], A2 as [[_ ?] ?], B1 as [[_ ?] ?], B2 as [[_ ?] ?].
    cbn [fst snd] in *. subst j. rewrite (IH0 y) by assumption. f_equal. auto.
  - inversion C as [|? ws F| | | | |]; subst.
    inversion H1 as [|? _ A1| | | | |]; subst. inversion H2 as [|? _ A2| | | | |]; subst.
    inversion Z1 as [|? _ B1| | | | |]; subst. inversion Z2 as [|? _ B2| | | | |]; subst.
    f_equal. clear - IH F A1 A2 B1 B2. induction F as [|x y vs ws X F IHF]; [reflexivity|].
    apply Forall_cons_iff in IH, A1, A2, B1, B2. destruct IH, A1, A2, B1, B2. f_equal; auto.
  - inversion C. reflexivity.
  - inversion C. reflexivity.
  - inversion C as [| | | |? d' E N| |]; subst. inversion H1 as [| | | |? R| |]; subst. inversion H2 as [| | | |? R'| |]; subst.
    inversion Z1 as [| | | |? X| |]; subst. inversion Z2 as [| | | |? X'| |]; subst. f_equal. apply denote_same; assumption.
  - inversion C. reflexivity.
  - inversion C. reflexivity.
Qed.

(** A packet with the value [v]: mutable, or an element of a finalized object. *)
Definition holds_value (M : Z -> hv) (p : lpacket) (v : value) : Prop :=
  heap_value v /\ good_all v /\
  match p with
  | LHeap x => tagged M x /\ erase x = v
  | LBuf bs m e => exists fs path, heap_value (VObj fs) /\ finalize (VObj fs) = Ok m /\ bs mod 8 = 0 /\
                     sub_value (VObj fs) path = Some v /\ nav bs m root path = Ok e
  end.
Definition blocks_ok (p q : lpacket) : Prop :=
  match p, q with LBuf bs m _, LBuf bs' m' _ => one_or_apart bs m bs' m' | _, _ => True end.
Definition comparable (v : value) : Prop :=
  nul_free v /\ nan_free v /\ one_zero v /\ no_null_members v.

Lemma holds_denotes M p v : holds_value M p v -> denotes (forget p) v.
Proof.
  intros (H & G & D). split; [assumption|]. split; [assumption|]. destruct p as [x|bs m e]; cbn [forget].
  - apply D.
  - destruct D as (fs & path & HF & F & A & S & N). destruct (finalize_root fs m bs HF F A) as (R & _).
    destruct (nav_spec bs m path _ _ v R S) as (e' & E & R'). unfold root in N. rewrite E in N. apply Ok_inj in N. subst e'. exact R'.
Qed.

(** Equality of packets does not depend on the form either is in. *)
Theorem c44_form_independent M p q v w n : holds_value M p v -> holds_value M q w -> blocks_ok p q ->
  comparable v -> comparable w -> (depth v < n)%nat -> (depth w < n)%nat ->
  exists r, pcmp n p q = Ok r /\ (r = true <-> v = w).
Proof.
  intros P Q B (U & N & Z1 & NN) (U' & N' & Z2 & NN') L L'.
  pose proof (holds_denotes _ _ _ P) as DP. pose proof (holds_denotes _ _ _ Q) as DQ.
  assert (CE : content_eq v w <-> v = w).
  { split; [apply content_same; (assumption || apply P || apply Q)|]. intros <-. apply content_refl; [apply P|assumption]. }
  assert (G : exists r, gcmp n (forget p) (forget q) = Ok r /\ (r = true <-> v = w)).
  { destruct (gcmp_spec n _ _ _ _ DP DQ L L') as (r & E & R). exists r. split; [exact E|]. rewrite <- CE. apply R. left. auto. }
  destruct P as (HV & GV & P), Q as (HW & GW & Q). destruct p as [x|bs m e], q as [y|bs' m' e']; try exact G; cbn [pcmp].
  - destruct P as [T1 <-], Q as [T2 <-]. eexists. split; [reflexivity|]. rewrite <- CE. apply (hcmp_spec M); try assumption. discriminate.
  - destruct P as (fs & pa & HF & F & A & S & NV), Q as (gs & pb & HF' & F' & A' & S' & NW).
    destruct (bcmp_finalized bs fs m pa v bs' gs m' pb w) as (e1 & e2 & r & E1 & E2 & _ & _ & E & R); try assumption.
    rewrite E1 in NV. rewrite E2 in NW. apply Ok_inj in NV, NW. subst. eauto.
Qed.
Print Assumptions c44_form_independent.

(** The guards matter: finalizing both operands can change the answer, either way. *)
Theorem c44_zero_refuted :
  let v := VObj [(b "x", VDec 0)] in let w := VObj [(b "x", VDec (2 ^ 63))] in
  hcmp false (HObj 1 [(b "x", HDec 0)]) (HObj 2 [(b "x", HDec (2 ^ 63))]) = true /\
  match finalize v, finalize w with
  | Ok m, Ok m' => bcmp 0 m root 4096 m' root = Ok false
  | _, _ => False
  end.
Proof. vm_compute. auto. Qed.
Print Assumptions c44_zero_refuted.
Theorem c44_nan_refuted :
  let v := VObj [(b "x", VDec nan)] in
  hcmp false (HObj 1 [(b "x", HDec nan)]) (HObj 2 [(b "x", HDec nan)]) = false /\
  match finalize v with
  | Ok m => bcmp 0 m root 4096 m root = Ok true /\ gcmp 3 (PHeap v) (PBuf 0 m root) = Ok false
  | _ => False
  end.
Proof. vm_compute. auto. Qed.
Print Assumptions c44_nan_refuted.
(** Blocks not made by the library may differ in bytes nothing reads: two accepted
    blocks with the same value compare different. *)
Definition poke (m : mem) (i : nat) (c : byte) : mem := firstn i m ++ c :: skipn (S i) m.
Theorem c44_padding_refuted :
  let v := VObj [(b "x", VArr [VInt 1])] in
  match finalize v with
  | Ok m => let m' := poke m 22 x01 in
      is_valid 0 m' = Ok true /\ definalize 0 m' = Ok v /\ definalize 0 m = Ok v /\
      bcmp 0 m root 4096 m' root = Ok false
  | _ => False
  end.
Proof. vm_compute. auto. Qed.
Print Assumptions c44_padding_refuted.

(** Elements of one block, of two blocks, and a mutable packet. *)
Definition c44_v := VObj [(b "k", VArr [VInt 5; VInt 5; VStr (b "s")]); (b "l", VArr [VInt 5; VInt 5; VStr (b "s")])].
Example c44_case :
  match finalize c44_v with
  | Ok m =>
      (e <- nav 0 m root [0%nat] ;; f <- nav 0 m root [1%nat] ;;
       a <- bcmp 0 m e 0 m f ;;                           (* two arrays of one block *)
       c <- bcmp 0 m e 4096 m f ;;                        (* of two blocks *)
       d <- bcmp 0 m e 0 m e ;;
       g <- bcmp 0 m e 0 m root ;;
       h <- pcmp 3 (LHeap (HArr 3 [HInt 5; HInt 5; HStr (b "s")])) (LBuf 0 m f) ;;
       Ok [a; c; d; g; h]) = Ok [true; true; true; false; true]
  | _ => False
  end.
Proof. vm_compute. reflexivity. Qed.
Ltac every_tac := repeat match goal with
  | |- every _ _ _ => constructor
  | |- Forall _ _ => constructor
  | |- _ /\ _ => split
  | |- True => exact I
  | |- ~ _ => vm_compute; intuition congruence
  end.
Example c44_guards : heap_value c44_v /\ good_all c44_v /\ comparable c44_v.
Proof.
  split; [unfold c44_v; heap_tac|]. split; [unfold good_all, c44_v, good_key; every_tac; repeat constructor; vm_compute; intuition congruence|].
  unfold comparable, nul_free, nan_free, one_zero, no_null_members, c44_v. every_tac.
Qed.
