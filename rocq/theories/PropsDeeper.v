(** C69: how many nested calls finalizing and comparing take. *)

From Coq Require Import ZArith List Bool Lia String Sorted ZifyBool ZifyNat.
From Verif Require Import Base BaseFacts Keys KeysFacts Dec Wire Read Buf HeapOps HeapFacts Enc EncSize Spec ReadFacts Lookup BufFacts
  Canon Demo NestedFacts Packet SpecCmp Compare CompareFacts CompareBuf CompareGen SpecCost Depth ValidFacts ValidEnc PacketFacts SpecPacket
  PropsWire PropsValid PropsDepth PropsCompare PropsDeep Deeper SpecDeeper DeeperFacts.
Import ListNotations.
Open Scope string_scope.
Open Scope list_scope.
Open Scope Z_scope.

(** ** Finalizing: as many as the object has levels, both for the size computed first
    and for the bytes written; with one fewer the stack is exhausted *)
Theorem c69_finalize v f :
  ((levels v <= f)%nat -> finalize_within f v = finalize v) /\
  ((f < levels v)%nat -> forall m, finalize v = Ok m -> finalize_within f v = Fuel).
Proof.
  split; intros L.
  - unfold finalize_within, finalize. destruct v; try reflexivity. rewrite bound_enough by assumption.
    destruct (upper_bound (VObj fs)); cbn [bind]; try reflexivity. rewrite lay_enough by assumption. reflexivity.
  - intros m E. unfold finalize in E. unfold finalize_within. destruct v; try discriminate E.
    destruct (upper_bound (VObj fs)) eqn:U; cbn [bind] in E; try discriminate E. rewrite (bound_short _ _ _ U L). reflexivity.
Qed.
Print Assumptions c69_finalize.

Theorem c69_layout v f m o :
  ((levels v <= f)%nat -> layout_within f m o v = layout m o v) /\
  ((f < levels v)%nat -> forall r, layout m o v = Ok r -> layout_within f m o v = Fuel).
Proof. split; intros L; [apply lay_enough, L|]. intros r E. apply (lay_short _ _ _ _ _ E L). Qed.
Print Assumptions c69_layout.

(** ** Comparing two mutable values: the levels of either are enough, and nothing else
    is ever answered *)
Theorem c69_heap f same x y :
  ((levels (erase x) <= f)%nat \/ (levels (erase y) <= f)%nat -> hcmp_within f same x y = Ok (hcmp same x y)) /\
  (hcmp_within f same x y = Fuel \/ hcmp_within f same x y = Ok (hcmp same x y)).
Proof.
  split; [apply hcmp_enough|]. destruct (hcmp_tame f same x y) as [->|[q E]]; [auto|].
  right. rewrite E. f_equal. apply (hcmp_sound _ _ _ _ _ E).
Qed.
Print Assumptions c69_heap.

(** Equal values that share no storage take all their levels. *)
Theorem c69_heap_equal f x y : apart x y -> hcmp false x y = true ->
  (f < levels (erase x))%nat -> hcmp_within f false x y = Fuel.
Proof.
  intros A E L. destruct (proj2 (c69_heap f false x y)) as [H|H]; [exact H|].
  rewrite E in H. pose proof (hcmp_needs _ _ _ A H). lia.
Qed.
Print Assumptions c69_heap_equal.

(** A variable against itself takes one, an object or array against a copy of it two,
    whatever is inside. *)
Theorem c69_heap_shared f x :
  hcmp_within (S f) true x x = Ok true /\
  hcmp_within (S (S f)) false x x = Ok (hcmp false x x).
Proof.
  split; [reflexivity|]. destruct x as [s fs|s vs| | | | |]; try reflexivity.
  - rewrite hcmp_obj. cbn [hcmp_within]. rewrite !Z.eqb_refl. cbn [orb andb].
    apply in_step_all2; [reflexivity|]. intros a c _ _. cbn [key_within orb bind andb]. destruct (snd a); reflexivity.
  - rewrite hcmp_arr. cbn [hcmp_within]. rewrite !Z.eqb_refl. cbn [orb andb].
    apply in_step_all2; [reflexivity|]. intros a c _ _. destruct a; reflexivity.
Qed.
Print Assumptions c69_heap_shared.

(** ** Comparing across forms: the levels of either operand are enough, and with more
    nothing changes *)
Theorem c69_across p q v w f g : denotes p v -> denotes q w -> (levels v <= f)%nat \/ (levels w <= f)%nat -> (f <= g)%nat ->
  exists r, gcmp f p q = Ok r /\ gcmp g p q = Ok r.
Proof.
  intros DP DQ L G. destruct (gcmp_enough f p q v w DP DQ L) as [r E]. exists r. split; [exact E|].
  rewrite (gcmp_more f g p q G); [exact E|]. rewrite E. discriminate.
Qed.
Print Assumptions c69_across.

(** Two forms of one value that compare equal take exactly as many as it has levels. *)
Theorem c69_across_equal p q v f g : denotes p v -> denotes q v -> gcmp g p q = Ok true ->
  ((levels v <= f)%nat -> gcmp f p q = Ok true) /\ ((f < levels v)%nat -> gcmp f p q = Fuel).
Proof.
  intros DP DQ E.
  assert (M : forall h r, gcmp h p q = r -> r <> Fuel -> r = Ok true).
  { intros h r H N. destruct (Nat.le_ge_cases g h) as [L|L].
    - rewrite (gcmp_more g h p q L) in H; [congruence|]. rewrite E. discriminate.
    - rewrite (gcmp_more h g p q L) in E; [congruence|]. rewrite H. exact N. }
  split; intros L.
  - destruct (gcmp_enough f p q v v DP DQ (or_introl L)) as [r H]. rewrite H. apply (M f); [exact H|discriminate].
  - destruct (gcmp f p q) as [r|e| | |] eqn:H; try reflexivity; exfalso; pose proof (M f _ H ltac:(discriminate)) as X; try discriminate X.
    rewrite X in H. pose proof (gcmp_needs f p q v DP DQ H). lia.
Qed.
Print Assumptions c69_across_equal.

(** ** That a fixed stack is enough is false for all of these. *)
Fixpoint shaft (s : Z) (n : nat) : hv :=
  match n with O => HArr s [] | S n' => HArr (s + 2 * Z.of_nat n) [shaft s n'] end.
Lemma shaft_well s n : erase (shaft s n) = well n.
Proof. induction n as [|n IH]; [reflexivity|]. cbn [shaft erase map well]. rewrite IH. reflexivity. Qed.
Lemma shaft_storages s n z : In z (storages (shaft s n)) -> (z - s) mod 2 = 0.
Proof.
  induction n as [|n IH]; cbn [shaft storages flat_map].
  - intros [<-|[]]. rewrite Z.sub_diag. reflexivity.
  - rewrite app_nil_r. intros [<-|I]; [|auto]. replace (s + 2 * Z.of_nat (S n) - s) with (Z.of_nat (S n) * 2) by lia. apply Z.mod_mul. lia.
Qed.
Lemma shaft_apart n : apart (shaft 0 n) (shaft 1 n).
Proof.
  intros z I J. apply shaft_storages in I, J. rewrite Z.sub_0_r in I.
  apply Z.mod_divide in I; [|lia]. apply Z.mod_divide in J; [|lia]. destruct I as [a ->], J as [c J]. lia.
Qed.
Lemma shaft_equal n : hcmp false (shaft 0 n) (shaft 1 n) = true.
Proof.
  induction n as [|n IH]; [reflexivity|]. cbn [shaft]. rewrite hcmp_arr. cbn [orb all2].
  replace (0 + 2 * Z.of_nat (S n) =? 1 + 2 * Z.of_nat (S n)) with false by lia. rewrite IH. reflexivity.
Qed.

Theorem c69_fixed_refuted n f : (f <= n)%nat ->
  hcmp_within f false (shaft 0 n) (shaft 1 n) = Fuel /\
  (Z.of_nat n < 2 ^ 26 -> exists m, finalize (VObj [([], well n)]) = Ok m /\
     finalize_within f (VObj [([], well n)]) = Fuel /\
     gcmp f (PHeap (VObj [([], well n)])) (PBuf 0 m root) = Fuel).
Proof.
  intros L. pose proof (well_levels n) as WL. split.
  - apply c69_heap_equal; [apply shaft_apart|apply shaft_equal|]. rewrite shaft_well. lia.
  - intros S. set (fs := [([], well n)] : list (str * value)).
    assert (HV : heap_value (well n)) by (apply well_every; intros vs; exact Logic.I).
    assert (H : heap_value (VObj fs)).
    { constructor; [cbn; repeat constructor|]. constructor; [|constructor]. split; [cbn; lia|exact HV]. }
    assert (R : room (VObj fs) = 88 + 48 * Z.of_nat n).
    { cbn [fs room fold_right fst snd]. rewrite well_room. change (zlen (@nil Byte.byte)) with 0. lia. }
    destruct (small_objects_finalize fs H ltac:(rewrite R; lia)) as [m F].
    destruct (finalize_root fs m 0 H F eq_refl) as (RP & _ & _).
    assert (LV : levels (VObj fs) = (n + 2)%nat).
    { subst fs. rewrite levels_obj. cbn [pair_levels]. rewrite well_levels. lia. }
    assert (GA : good_all (VObj fs)).
    { constructor; [exact Logic.I|]. constructor; [|constructor]. split; [|apply well_every; intros vs; exact Logic.I].
      cbn [fst]. split; [intros []|]. split; [constructor|discriminate]. }
    assert (DP : denotes (PHeap (VObj fs)) (VObj fs)) by (split; [exact H|split; [exact GA|reflexivity]]).
    assert (DQ : denotes (PBuf 0 m root) (VObj fs)) by (split; [exact H|split; [exact GA|exact RP]]).
    assert (NF : nan_free (VObj fs)).
    { constructor; [exact Logic.I|]. constructor; [|constructor]. split; [exact Logic.I|]. apply well_every. intros vs. exact Logic.I. }
    assert (NN : no_null_members (VObj fs)).
    { constructor; [|constructor; [|constructor]].
      - cbn [fs map snd]. intros [E|[]]. destruct n; discriminate E.
      - split; [exact Logic.I|]. apply well_every. intros vs. exact Logic.I. }
    exists m. split; [exact F|]. split; [apply (proj2 (c69_finalize (VObj fs) f)) with (m := m); [lia|exact F]|].
    destruct (gcmp_spec (Datatypes.S (depth (VObj fs))) _ _ _ _ DP DQ ltac:(lia) ltac:(lia)) as (r & E & Q).
    assert (r = true) by (apply Q; [left; auto|apply content_refl; assumption]). subst r.
    apply (c69_across_equal _ _ _ f _ DP DQ E). lia.
Qed.
Print Assumptions c69_fixed_refuted.

(** The demo object of C07, of four levels: finalizing, against itself finalized; two
    nested arrays against each other and a copy. *)
Example c69_case :
  match finalize demo_nonnull with
  | Ok m => levels demo_nonnull = 4%nat /\
            finalize_within 4 demo_nonnull = Ok m /\ finalize_within 3 demo_nonnull = Fuel /\
            gcmp 4 (PHeap demo_nonnull) (PBuf 0 m root) = Ok true /\ gcmp 3 (PHeap demo_nonnull) (PBuf 0 m root) = Fuel /\
            gcmp 1 (PHeap (VArr [])) (PBuf 0 m root) = Ok false
  | _ => False
  end /\
  hcmp_within 8 false (shaft 0 7) (shaft 1 7) = Ok true /\ hcmp_within 7 false (shaft 0 7) (shaft 1 7) = Fuel /\
  hcmp_within 2 false (shaft 0 7) (shaft 0 7) = Ok true /\ hcmp_within 2 false (shaft 0 7) (shaft 1 0) = Ok false.
Proof. vm_compute. refine (conj (conj _ (conj _ (conj _ (conj _ (conj _ _))))) (conj _ (conj _ (conj _ _)))); reflexivity. Qed.
