(** C56: how many nested calls validating and reading a buffer take. *)

From Coq Require Import ZArith List Bool Lia String Sorted.
From Coq Require Import ZifyBool ZifyNat.
From Verif Require Import Base BaseFacts Keys Dec Wire Read Buf HeapOps Enc EncSize Spec ReadFacts BufFacts Canon Demo ValidFacts ValidEnc
  SpecCost Depth Packet SpecPacket PacketFacts PropsWire PropsValid.
Import ListNotations.
Open Scope string_scope.
Open Scope list_scope.
Open Scope Z_scope.

(** ** Whatever the bytes, an eighth of their number is enough for validation, and changes nothing *)
Theorem c56_bound bs m f : 3 + zlen m / 8 <= Z.of_nat f ->
  valid_buffer f true bs m R_object 0 (zlen m) = is_valid bs m /\
  (_ <- valid_buffer f false bs m R_object 0 (zlen m) ;; Ok tt) = validate bs m.
Proof.
  intros L. pose proof (zlen_nonneg m) as Z0.
  assert (X : forall s, valid_buffer f s bs m R_object 0 (zlen m) = valid_buffer (S (List.length m)) s bs m R_object 0 (zlen m)).
  { intros s. pose proof (valid_ends s bs m R_object 0 (zlen m) f Z0 L) as E1.
    destruct (Nat.le_ge_cases f (S (List.length m))) as [C|C]; [destruct (valid_upto s bs m f _ R_object 0 (zlen m) C); [contradiction|assumption]|].
    destruct (valid_upto s bs m _ f R_object 0 (zlen m) C) as [E|E]; [|now symmetry].
    exfalso. destruct (c05_validation_total bs m) as [[V1 V2]|[V1 V2]]; unfold is_valid, validate in V1, V2; destruct s; rewrite E in *; discriminate. }
  unfold is_valid, validate. rewrite !X. split; reflexivity.
Qed.
Print Assumptions c56_bound.

(** ** An accepted buffer takes exactly as many as its value has levels: with one fewer, the
    stack is exhausted, in either form of validation and in reading *)
Theorem c56_exact bs m v f : is_valid bs m = Ok true -> walk bs m = Ok v ->
  ((levels v <= f)%nat -> (forall s, valid_buffer f s bs m R_object 0 (zlen m) = Ok true) /\ read_value f bs m R_object 0 = Ok v) /\
  ((f < levels v)%nat -> (forall s, valid_buffer f s bs m R_object 0 (zlen m) = Fuel) /\ read_value f bs m R_object 0 = Fuel).
Proof.
  intros V W.
  assert (X : forall s, valid_buffer (S (List.length m)) s bs m R_object 0 (zlen m) = Ok true).
  { intros s. destruct s; [exact V|]. unfold is_valid in V.
    assert (R : vrel (valid_buffer (S (List.length m)) true bs m R_object 0 (zlen m)) (valid_buffer (S (List.length m)) false bs m R_object 0 (zlen m))).
    { apply valid_buffer_rel; [reflexivity|unfold zlen; lia..]. }
    rewrite V in R. remember (valid_buffer _ false _ _ _ _ _) as y. inversion R. reflexivity. }
  destruct (read_levels bs m _ _ _ _ W) as [_ R]. split; intros L.
  - split; [|exact (R f L)]. intros s. exact (valid_enough s bs m f _ _ _ _ _ _ (X s) W L).
  - split.
    + intros s. assert (C : (f <= S (List.length m))%nat) by (pose proof (valid_levels true bs m _ _ _ _ _ _ (X true) W); lia).
      destruct (valid_upto s bs m f _ R_object 0 (zlen m) C) as [E|E]; [exact E|]. rewrite X in E.
      pose proof (valid_levels s bs m _ _ _ _ _ _ E W). lia.
    + destruct (read_upto bs m f (levels v) R_object 0 ltac:(lia)) as [E|E]; [exact E|]. rewrite (R (levels v) (le_n _)) in E.
      pose proof (proj1 (read_levels bs m _ _ _ _ E)). lia.
Qed.
Print Assumptions c56_exact.

(** The demo object of C07: four levels. *)
Example c56_example :
  match finalize demo_nonnull with
  | Ok m => is_valid 0 m = Ok true /\ walk 0 m = Ok demo_nonnull /\ levels demo_nonnull = 4%nat /\
            valid_buffer 4 true 0 m R_object 0 (zlen m) = Ok true /\ valid_buffer 3 true 0 m R_object 0 (zlen m) = Fuel
  | _ => False
  end.
Proof. vm_compute. refine (conj _ (conj _ (conj _ (conj _ _)))); reflexivity. Qed.

(** ** No fixed stack is enough.
    Objects the library itself finalizes, of at most 48 bytes a level, without sharing, nulls
    or any other trick, are accepted only by a receiver with stack for [n + 2] nested calls. *)
Fixpoint well (n : nat) : value := match n with O => VArr [] | S n' => VArr [well n'] end.

Lemma well_levels n : levels (well n) = S n.
Proof. induction n as [|n IH]; [reflexivity|]. cbn [well]. rewrite levels_arr. cbn [elem_levels]. rewrite IH. lia. Qed.
Lemma well_room n : room (well n) = 32 + 48 * Z.of_nat n.
Proof. induction n as [|n IH]; [reflexivity|]. cbn [well room fold_right]. rewrite IH. lia. Qed.
Lemma well_every (K : str -> Prop) (L : value -> Prop) n : (forall vs, L (VArr vs)) -> every K L (well n).
Proof. intros H. induction n as [|n IH]; cbn [well]; constructor; auto. Qed.

Theorem c56_fixed_refuted n : Z.of_nat n < 2 ^ 26 ->
  exists fs m, heap_value (VObj fs) /\ null_free (VObj fs) /\ finalize (VObj fs) = Ok m /\ zlen m <= 48 * Z.of_nat n + 88 /\
    is_valid 0 m = Ok true /\
    (forall f s, (f < n + 2)%nat -> valid_buffer f s 0 m R_object 0 (zlen m) = Fuel) /\
    (forall f, (f < n + 2)%nat -> read_value f 0 m R_object 0 = Fuel).
Proof.
  intros L. set (fs := [([], well n)] : list (str * value)).
  assert (H : heap_value (VObj fs)).
  { constructor; [cbn; repeat constructor|]. constructor; [|constructor]. split; [cbn; lia|]. apply well_every. intros vs. exact Logic.I. }
  assert (NF : null_free (VObj fs)).
  { constructor; [discriminate|]. constructor; [|constructor]. split; [exact Logic.I|]. apply well_every. discriminate. }
  assert (R : room (VObj fs) = 88 + 48 * Z.of_nat n).
  { cbn [fs room fold_right fst snd]. rewrite well_room. change (zlen (@nil Byte.byte)) with 0. lia. }
  destruct (upper_bound_room (VObj fs) ltac:(rewrite R; lia)) as (u & U & B).
  destruct (small_objects_finalize fs H ltac:(rewrite R; lia)) as [m F].
  destruct (c07_accepts_finalized fs m 0 H NF F eq_refl) as [V _]. destruct (c01_finalize_then_read_back fs m 0 H F eq_refl) as [W _].
  destruct (finalize_root fs m 0 H F eq_refl) as (_ & _ & U'). rewrite U in U'. injection U' as ->.
  assert (LV : levels (VObj fs) = (n + 2)%nat).
  { subst fs. rewrite levels_obj. cbn [pair_levels]. rewrite well_levels. lia. }
  exists fs, m. refine (conj H (conj NF (conj F (conj _ (conj V (conj _ _)))))); [lia| |].
  - intros f s Lf. exact (proj1 (proj2 (c56_exact 0 m (VObj fs) f V W) ltac:(lia)) s).
  - intros f Lf. exact (proj2 (proj2 (c56_exact 0 m (VObj fs) f V W) ltac:(lia))).
Qed.
Print Assumptions c56_fixed_refuted.

Example c56_fixed_example :
  match finalize (VObj [([], well 100)]) with
  | Ok m => is_valid 0 m = Ok true /\ valid_buffer 102 true 0 m R_object 0 (zlen m) = Ok true /\
            valid_buffer 101 true 0 m R_object 0 (zlen m) = Fuel
  | _ => False
  end.
Proof. vm_compute. refine (conj _ (conj _ _)); reflexivity. Qed.
