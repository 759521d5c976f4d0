(** Properties of validation: C04, C05, C06, C07. *)

From Coq Require Import ZArith List Lia Bool String.
From Coq Require Import ZifyBool ZifyNat ZifyN.
From Verif Require Import Base BaseFacts Keys Dec Wire Read Buf HeapOps Enc EncSize Spec ReadFacts BufFacts Canon Demo
  ValidFacts ValidUse ValidEnc.
Import ListNotations.
Open Scope string_scope.
Open Scope list_scope.
Open Scope Z_scope.

(** ** C05: validation is safe on garbage *)

(** For every byte string at every address - aligned or not - validation answers
    yes or no: is_valid by its result, validate by returning or throwing
    validation_error, and the two agree. *)
Theorem c05_validation_total bs m :
  (is_valid bs m = Ok true /\ validate bs m = Ok tt) \/
  (is_valid bs m = Ok false /\ validate bs m = Throw validation_error).
Proof. exact (is_valid_rel bs m). Qed.
Print Assumptions c05_validation_total.

(** The claimed length is what is checked against, not the contents: a header
    that promises more than is there is refused. *)
Theorem c05_lying_length bs m total : rd_le m 0 4 = Ok total -> zlen m < total -> is_valid bs m = Ok false.
Proof.
  intros R L. destruct (c05_validation_total bs m) as [[V _] | [V _]]; [|exact V]. exfalso.
  pose proof (is_valid_sound bs m V) as S. destruct (sound_object bs m 0 S) as (t & n & T & _ & _ & _ & B & _).
  rewrite T in R. apply Ok_inj in R. lia.
Qed.
Print Assumptions c05_lying_length.

Example c05_example :
  is_valid 0 [] = Ok false /\ is_valid 3 (repeat xff 1000) = Ok false /\
  is_valid 0 (le_enc 4 8 ++ le_enc 4 0) = Ok true /\
  is_valid 0 (le_enc 4 16 ++ le_enc 4 1 ++ le_enc 4 0 ++ le_enc 4 0) = Ok false.
Proof. repeat split; vm_compute; reflexivity. Qed.

(** ** C04: lookup by key *)

(** [reach]: anything obtained from the root of the buffer by any sequence of
    calls.  Lookup with any key in any such element returns or throws; it never
    leaves the block and never runs out of probes. *)
Theorem c04_lookup_safe bs m e key :
  is_valid bs m = Ok true -> reach bs m e ->
  calm (b_get bs m e key) /\ calm (b_at bs m e key) /\ calm (b_has_key m e key).
Proof.
  intros V R. pose proof (reach_sound bs m e V R) as S.
  split; [exact (gives_calm _ _ _ (sound_b_get bs m e key S))|].
  split; [exact (gives_calm _ _ _ (sound_b_at bs m e key S))|exact (sound_b_has_key bs m e key S)].
Qed.
Print Assumptions c04_lookup_safe.

(** Keys out of order and duplicated, prefix hints that lie: accepted, and
    searched without incident. *)
Definition liar : mem :=
  le_enc 4 48 ++ le_enc 4 2 ++
  (le_enc 4 24 ++ [x02; xff; x7a; x7a]) ++ (le_enc 4 34 ++ [x02; x00; x00; x00]) ++
  (le_enc 2 1 ++ [x62; x00]) ++ (le_enc 2 2 ++ [x68; x69; x00; x00]) ++
  (le_enc 2 1 ++ [x61; x00]) ++ (le_enc 2 2 ++ [x68; x6f; x00; x00]) ++ [x00; x00; x00; x00; x00].
Example c04_example : is_valid 0 liar = Ok true /\ b_get 0 liar root (b "a") = Ok (R_null, None).
Proof. split; vm_compute; reflexivity. Qed.

(** ** C06: accepted bytes are safe to use *)

(** A complete walk from any element, and definalize(), read only inside the
    block and come to an end.  They succeed, or they meet a boolean whose byte is
    neither 0 nor 1. *)
Theorem c06_walk_safe bs m e :
  is_valid bs m = Ok true -> reach bs m e ->
  (exists v, b_value bs m e = Ok v) \/
  (b_value bs m e = Undef /\ exists path e', nav bs m e path = Ok e' /\ odd_bool m e').
Proof. intros V R. exact (sound_value bs m e (reach_sound bs m e V R)). Qed.
Print Assumptions c06_walk_safe.

Theorem c06_definalize_safe bs m : is_valid bs m = Ok true ->
  (exists v, definalize bs m = Ok v) \/
  (definalize bs m = Undef /\ exists path e', nav bs m root path = Ok e' /\ odd_bool m e').
Proof. exact (sound_definalize bs m). Qed.
Print Assumptions c06_definalize_safe.

(** Every single read operation on every element a user can get hold of. *)
Theorem c06_calls_safe bs m e : is_valid bs m = Ok true -> reach bs m e ->
  calm (b_size m e) /\ calm (b_get_bytes m e) /\ calm (b_share_bytes m e) /\
  calm (b_front m e) /\ calm (b_back m e) /\ calm (b_at_front m e) /\ calm (b_at_back m e) /\
  (forall i, 0 <= i -> calm (b_get_idx m e i) /\ calm (b_at_idx m e i)) /\
  (forall n i, b_size m e = Ok n -> 0 <= i < n -> calm (b_deref bs m e i) /\ calm (b_deref_key m e i)) /\
  (forall want, want <> T_object -> want <> T_array -> want <> T_null -> want <> T_boolean ->
     calm (b_scalar want m e)).
Proof.
  intros V R. pose proof (reach_sound bs m e V R) as S. pose proof (is_valid_sound bs m V) as S0.
  split; [apply (sound_b_size bs m e S)|]. split; [apply (sound_bytes bs m e S0 S)|]. split; [apply (sound_bytes bs m e S0 S)|].
  destruct (sound_b_front bs m e S) as [F1 F2]. destruct (sound_b_back bs m e S) as [K1 K2].
  split; [exact (gives_calm _ _ _ F1)|]. split; [exact (gives_calm _ _ _ K1)|].
  split; [exact (gives_calm _ _ _ F2)|]. split; [exact (gives_calm _ _ _ K2)|].
  split; [intros i I; split; [exact (gives_calm _ _ _ (sound_b_get_idx bs m e i S I))|exact (gives_calm _ _ _ (sound_b_at_idx bs m e i S I))]|].
  split; [intros n i N I; split; [exact (gives_calm _ _ _ (sound_b_deref bs m e i n S N I))|exact (gives_calm _ _ _ (sound_b_deref_key bs m e i n S N I))]|].
  intros want W1 W2 W3 W4. destruct (sound_b_scalar bs m e want S W1 W2 W3) as [C | [C (o & c & -> & _)]]; [exact C|].
  exfalso. unfold b_scalar in C. destruct want; try congruence; discriminate C.
Qed.
Print Assumptions c06_calls_safe.

(** Every element is aligned for its type, so that the typed reads behind those
    calls are well defined. *)
Theorem c06_aligned bs m e o : is_valid bs m = Ok true -> bs mod 8 = 0 -> reach bs m e -> snd e = Some o ->
  (bs + o) mod alignment_of (fst e) = 0.
Proof.
  intros V B R E. pose proof (reach_sound bs m e V R) as S. unfold sound in S. rewrite E in S.
  destruct S as (_ & _ & A & _). specialize (A B). unfold align_ptr in A.
  replace (bs + o) with (align_up (bs + o) (alignment_of (fst e))) by lia. apply align_up_mod, alignment_pos.
Qed.
Print Assumptions c06_aligned.

(** Every string is followed by a NUL byte inside the block. *)
Theorem c06_terminated bs m t o : is_valid bs m = Ok true -> reach bs m (t, Some o) -> simplify_type t = T_string ->
  exists len w, b_size m (t, Some o) = Ok len /\ (w = 2 \/ w = 4) /\ rd m (o + w + len) 1 = Ok [x00].
Proof.
  intros V R T. destruct (sound_string bs m t o (reach_sound _ _ _ V R) T) as (len & L & N).
  unfold b_size, b_type. cbn [fst snd]. rewrite T.
  destruct (t =? R_big_string); exists len; [exists 4|exists 2]; (split; [exact L|split; [tauto|exact N]]).
Qed.
Print Assumptions c06_terminated.

(** Moving accepted bytes to another address is fine if it keeps the residue
    modulo 8. *)
Theorem c06_same_alignment bs bs' m : bs mod 8 = bs' mod 8 -> is_valid bs m = is_valid bs' m.
Proof. exact (is_valid_mod8 bs bs' m). Qed.
Print Assumptions c06_same_alignment.

(** Without that: bytes accepted at an address that is 4 modulo 8, then copied to
    an aligned block as dart::buffer does, are read outside the block. *)
Definition shifted : mem :=
  le_enc 4 28 ++ le_enc 4 1 ++ (le_enc 4 16 ++ [x07; x00; x00; x00]) ++ le_enc 2 0 ++ [x00; x00] ++ le_enc 8 5.
Theorem c06_misaligned_refuted :
  zlen shifted = 28 /\ is_valid 4 shifted = Ok true /\ validate 4 shifted = Ok tt /\ walk 0 shifted = Oob.
Proof. repeat split; vm_compute; reflexivity. Qed.
Print Assumptions c06_misaligned_refuted.

(** Validation does not look at the byte of a boolean. *)
Definition maybe_bool : mem :=
  le_enc 4 24 ++ le_enc 4 1 ++ (le_enc 4 16 ++ [x0a; x01; x61; x00]) ++ le_enc 2 1 ++ [x61; x00; x02; x00; x00; x00].
Theorem c06_boolean_refuted : is_valid 0 maybe_bool = Ok true /\ walk 0 maybe_bool = Undef.
Proof. split; vm_compute; reflexivity. Qed.
Print Assumptions c06_boolean_refuted.

(** Children may overlap: two elements of an accepted array share bytes. *)
Definition overlapping : mem :=
  le_enc 4 64 ++ le_enc 4 1 ++ (le_enc 4 16 ++ [x01; x00; x00; x00]) ++ le_enc 2 0 ++ [x00; x00; x00; x00; x00; x00] ++
  (le_enc 4 40 ++ le_enc 4 2 ++ le_enc 4 24 ++ [x05; x00; x00; x00] ++ le_enc 4 26 ++ [x05; x00; x00; x00] ++ le_enc 8 1 ++ le_enc 8 2).
Example c06_example :
  is_valid 0 overlapping = Ok true /\
  walk 0 overlapping = Ok (VObj [([], VArr [VInt 1; VInt 0])]) /\
  reach 0 overlapping (R_array, Some 24).
Proof.
  split; [vm_compute; reflexivity|]. split; [vm_compute; reflexivity|].
  apply reach_iter with (e := root) (n := 1) (i := 0); [apply reach_root|vm_compute; reflexivity|lia|vm_compute; reflexivity].
Qed.

(** ** C07: validation accepts what the library produces *)

(** The block finalize() returns, and the bytes of the object at any position of
    any finalized value, as long as that object has no null in it. *)
Theorem c07_accepts_finalized fs m bs :
  heap_value (VObj fs) -> null_free (VObj fs) -> finalize (VObj fs) = Ok m -> bs mod 8 = 0 ->
  is_valid bs m = Ok true /\ validate bs m = Ok tt.
Proof.
  intros H N E B. destruct (finalize_root fs m bs H E B) as ([_ R] & L & _). cbn [fst snd] in R.
  destruct R as (HH & F & A & T).
  assert (V : is_valid bs m = Ok true).
  { unfold is_valid. apply valid_enc with (v := VObj fs); try assumption.
    pose proof (depth_esize (VObj fs)). unfold zlen in L. lia. }
  split; [exact V|]. destruct (c05_validation_total bs m) as [[_ V'] | [V' _]]; [exact V'|congruence].
Qed.
Print Assumptions c07_accepts_finalized.

Theorem c07_accepts_bytes root_fs m bs path fs :
  heap_value (VObj root_fs) -> finalize (VObj root_fs) = Ok m -> bs mod 8 = 0 ->
  sub_value (VObj root_fs) path = Some (VObj fs) -> null_free (VObj fs) ->
  exists e bytes, nav bs m root path = Ok e /\ b_get_bytes m e = Ok bytes /\
    forall bs', bs' mod 8 = 0 -> is_valid bs' bytes = Ok true.
Proof.
  intros H E B S N. destruct (finalize_root root_fs m bs H E B) as (R & _).
  destruct (nav_relocate bs m root _ path _ R S eq_refl) as (o & bytes & NV & SZ & RD & RL).
  exists (R_object, Some o), bytes. split; [exact NV|]. split.
  - change (b_get_bytes m (R_object, Some o)) with (n <- rd_le m o 4 ;; rd m o n).
    change (find_sizeof m (raw_type_of (VObj fs)) o) with (rd_le m o 4) in SZ. rewrite SZ. exact RD.
  - intros bs' B'. specialize (RL bs' [] []). rewrite app_nil_r in RL. cbn [app] in RL.
    destruct RL as [HV R']; [change (zlen (@nil byte)) with 0; rewrite Z.add_0_r; exact B'|]. cbn [fst snd] in R'.
    change (zlen (@nil byte)) with 0 in R'. destruct R' as (HH & F & A & T).
    pose proof (holds_bounds _ _ _ HH) as HB. fold (esize (VObj fs)) in HB.
    unfold is_valid. apply valid_enc with (v := VObj fs); try assumption; [lia|].
    pose proof (depth_esize (VObj fs)). unfold zlen in HB. lia.
Qed.
Print Assumptions c07_accepts_bytes.

Definition demo_nonnull : value :=
  VObj [ (b "a", VInt 7); (b "f", VBool true);
         (b "z", VArr [VInt 70000; VStr []; VBool true; VBool false; VArr []; VObj []; VArr [VInt (-5000000000)]]);
         (b "pi", VDec 4614256656552045848);
         (b "arg", VObj [([], VStr (b "a string longer than twenty-three bytes"))]) ].
Example c07_example : heap_value demo_nonnull /\ null_free demo_nonnull /\
  (m <- finalize demo_nonnull ;; is_valid 0 m) = Ok true.
Proof.
  split; [heap_tac|]. split; [|vm_compute; reflexivity].
  repeat match goal with
  | |- null_free _ => unfold null_free
  | |- every _ _ _ => constructor
  | |- Forall _ _ => constructor
  | |- _ /\ _ => split
  | |- True => exact I
  | |- _ <> _ => discriminate
  end.
Qed.

(** Sharpness: with a null that is not last, the library refuses its own bytes. *)
Theorem c07_null_in_array_refuted :
  (m <- finalize (VObj [(b "a", VArr [VNull; VNull])]) ;; is_valid 0 m) = Ok false /\
  (m <- finalize (VObj [(b "a", VArr [VNull; VInt 1])]) ;; validate 0 m) = Throw validation_error.
Proof. split; vm_compute; reflexivity. Qed.
Print Assumptions c07_null_in_array_refuted.
Theorem c07_null_in_object_refuted :
  (m <- finalize (VObj [(b "a", VNull); (b "b", VInt 1)]) ;; is_valid 0 m) = Ok false.
Proof. vm_compute. reflexivity. Qed.
Print Assumptions c07_null_in_object_refuted.
